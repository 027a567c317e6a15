(** Proofs of C77. *)
From Coq Require Import Reals Lra Lia Field.
From Coquelicot Require Import Coquelicot.
From Verif Require Import Prelude ConsumerModel ProducerModel ProducerSpec ProducerProofs XReal MHSpec MHProofs StatsModel StatsInst MHRunSpec DEStat MarkovFinite MHRun MarkovTop DomSpec.
Import ListNotations.
Local Open Scope R_scope.
Local Open Scope list_scope.
Local Notation length := List.length.

(** ** No sample of probability zero is ever issued *)
Section Inside.
Context {X : Type}.
Variables (E : env X xr) (lx : X -> xr).
Hypothesis Hll : forall t x l, e_ll E t x = Some l -> l = lx x.
Lemma zero_dec : forall l, {zero_probability l} + {~ zero_probability l}.
Proof.
  intros l. destruct (has_zero_probability xops l) eqn:H; [left; now apply zero_cases|right]. intros Z. apply zero_cases in Z. congruence.
Qed.
Lemma accept_issued tl cl q t : issued (fst (mh_accept xops E tl cl q t)) = issued t.
Proof.
  unfold mh_accept, mbind, uniform, call, ret.
  repeat match goal with |- context [if ?b then _ else _] => destruct b end; cbn [fst]; rewrite ?issued_app; cbn; rewrite ?app_nil_r; reflexivity.
Qed.
Lemma loop_inside : forall n x t, ~ zero_probability (lx x) -> Forall (fun z => ~ zero_probability (lx (fst z))) (issued t) ->
  Forall (fun z => ~ zero_probability (lx (fst z))) (issued (fst (mh_loop xops E n x (lx x) t))).
Proof.
  induction n as [|n IH]; intros x t Hx Ht; cbn [mh_loop]; [exact Ht|].
  unfold mbind at 1. unfold propose_sample, call. destruct (e_prop E t x []) as [[y q]|]; [|cbn [fst]; rewrite issued_app; cbn; now rewrite app_nil_r].
  unfold mbind at 1. unfold log_likelihood, call. destruct (e_ll E _ y) as [l|] eqn:El; [|cbn [fst]; rewrite !issued_app; cbn; now rewrite !app_nil_r].
  apply Hll in El. subst l. set (t2 := (t ++ [EPropose x []]) ++ [EEval y]).
  assert (It2 : issued t2 = issued t) by (unfold t2; rewrite !issued_app; cbn; now rewrite !app_nil_r).
  unfold mbind at 1. destruct (mh_accept xops E (lx y) (lx x) q t2) as [t3 r] eqn:A.
  assert (It3 : issued t3 = issued t) by (rewrite <- It2; rewrite <- (accept_issued (lx y) (lx x) q t2); now rewrite A).
  destruct r as [acc| | | | |]; try (cbn [fst]; now rewrite It3).
  assert (Hz : ~ zero_probability (lx (if acc then y else x)) /\ (if acc then lx y else lx x) = lx (if acc then y else x)).
  { destruct acc; [|auto]. split; [|reflexivity]. intros Z. rewrite (zero_trial_rejected E) in A; [discriminate|exact Z| |]; intros H; apply Hx; [now left|now right]. }
  destruct Hz as [Hz ->]. unfold mbind, issue_sample, call. destruct (e_issue E t3 _ _); cbn iota beta.
  - cbn [fst]. rewrite issued_app, It3. apply Forall_app. split; [exact Ht|]. repeat constructor. exact Hz.
  - apply IH; [exact Hz|]. rewrite issued_app, It3. apply Forall_app. split; [exact Ht|]. repeat constructor. exact Hz.
Qed.
Theorem never_outside : forall x0 n, ~ zero_probability (lx x0) -> Forall (fun z => ~ zero_probability (lx (fst z))) (issued (fst (mh_sample xops E x0 n []))).
Proof.
  intros x0 n Hx. unfold mh_sample, with_scope_exit. unfold mbind at 1. unfold log_likelihood, call.
  destruct (e_ll E [] x0) as [l|] eqn:El; [|cbn; constructor]. apply Hll in El. subst l. cbn [app].
  pose proof (loop_inside n x0 [EEval x0] Hx ltac:(constructor)) as H. unfold mbind, flush_consumers, call.
  destruct (mh_loop xops E n x0 (lx x0) [EEval x0]) as [t r]. cbn [fst] in H.
  destruct r as [v| | | | |]; repeat (match goal with |- context [if ?b then _ else _] => destruct b end); cbn [fst]; rewrite ?issued_app; cbn; rewrite ?app_nil_r; exact H.
Qed.
End Inside.

Section Run.
Context {X : Type}.
Variable eqX : forall x y : X, {x = y} + {x <> y}.
Variables (lx : X -> xr) (q : X -> X -> R) (states : list X).
Hypothesis states_nodup : NoDup states.
Hypothesis Hlx : forall x, lx x <> XNaN /\ lx x <> XPInf.
Hypothesis Hq : proposal_distribution states q.
Local Notation pi := (density lx).
Local Notation ratio x y := (pi y * q y x / (pi x * q x y)).

Lemma cases : forall x, (zero_probability (lx x) /\ pi x = 0) \/ (exists l, lx x = XFin l /\ nonzero l /\ pi x = exp l).
Proof.
  intros x. unfold density, zero_probability. destruct (Hlx x) as [H1 H2]. destruct (lx x) as [| |l|]; try congruence; [left; auto|].
  destruct (Req_EM_T l (- dbl_max)) as [->|N]; [left; auto|right]. exists l. auto.
Qed.
Lemma supported_ll : forall x, supported lx x -> exists l, lx x = XFin l /\ nonzero l /\ pi x = exp l.
Proof. intros x H. unfold supported in H. destruct (cases x) as [[_ Z]|C]; [lra|exact C]. Qed.
Lemma unsupported_ll : forall x, ~ supported lx x -> zero_probability (lx x) /\ pi x = 0.
Proof. intros x H. destruct (cases x) as [C|(l & _ & _ & E)]; [exact C|]. exfalso. apply H. unfold supported. rewrite E. apply exp_pos. Qed.
Lemma pi_nonneg : forall x, 0 <= pi x.
Proof. intros x. destruct (cases x) as [[_ ->]|(l & _ & _ & ->)]; [lra|apply Rlt_le, exp_pos]. Qed.

Definition dnext (x y : X) (u : R) : X := if Rlt_dec 0 (pi y) then (if Rle_dec u (ratio x y) then y else x) else x.
Fixpoint dchain (x : X) (script : list (X * R)) : list X :=
  match script with [] => [] | (y, u) :: s => dnext x y u :: dchain (dnext x y u) s end.
Fixpoint dok (x : X) (script : list (X * R)) : Prop :=
  match script with [] => True | (y, u) :: s => In y states /\ 0 < q x y /\ 0 <= u < 1 /\ dok (dnext x y u) s end.
Lemma dnext_supported : forall x y u, supported lx x -> supported lx (dnext x y u).
Proof. intros x y u H. unfold dnext. destruct (Rlt_dec 0 (pi y)); [destruct (Rle_dec _ _)|]; assumption. Qed.
Lemma ratio_nonneg : forall x y, supported lx x -> 0 < q x y -> 0 <= ratio x y.
Proof.
  intros x y Hx Hxy. apply Rmult_le_pos; [apply Rmult_le_pos; [apply pi_nonneg|apply (pd_nonneg _ _ Hq)]|].
  apply Rlt_le, Rinv_0_lt_compat, Rmult_lt_0_compat; [exact Hx|exact Hxy].
Qed.
Lemma ratio_is : forall x y lx' ly', 0 < q x y -> pi x = exp lx' -> pi y = exp ly' -> exp ly' / (exp lx' * (q x y / q y x)) = ratio x y.
Proof.
  intros x y a b Hxy -> ->. pose proof (q_back q states Hq x y Hxy). pose proof (exp_pos a). field. lra.
Qed.

Lemma loop_dchain : forall rest pre x t, supported lx x -> n_proposed t = length pre -> dok x rest ->
  exists t', mh_loop xops (dscripted lx q (pre ++ rest)) (length rest) x (lx x) t = (t', RVal tt) /\
    map fst (issued t') = map fst (issued t) ++ dchain x rest.
Proof.
  induction rest as [|[y u] rest IH]; intros pre x t Hx Ht Hok; cbn [length mh_loop dchain].
  - exists t. split; [reflexivity|]. now rewrite app_nil_r.
  - destruct Hok as (Hy & Hxy & Hu & Hok). set (E := dscripted lx q (pre ++ (y, u) :: rest)).
    assert (Hn : nth_error (pre ++ (y, u) :: rest) (n_proposed t) = Some (y, u)) by (rewrite Ht, nth_error_app2, Nat.sub_diag by lia; reflexivity).
    unfold mbind at 1. unfold propose_sample, call. cbn [e_prop E dscripted]. rewrite Hn.
    unfold mbind at 1. unfold log_likelihood, call. cbn [e_ll E dscripted].
    unfold mbind at 1. fold E.
    set (t2 := (t ++ [EPropose x []]) ++ [EEval y]).
    assert (Hn2 : n_proposed t2 = S (length pre)) by (unfold t2; rewrite !n_proposed_app, Ht; cbn; lia).
    assert (Hi2 : issued t2 = issued t) by (unfold t2; rewrite !issued_app; cbn; now rewrite !app_nil_r).
    assert (Hun : e_unif E t2 = XFin u) by (cbn [e_unif E dscripted]; rewrite Hn2; cbn [Nat.sub]; rewrite Nat.sub_0_r, <- Ht, Hn; reflexivity).
    set (z := dnext x y u).
    destruct (supported_ll x Hx) as (a & Ea & Na & Pa).
    assert (Hstep : exists t3 acc, n_proposed t3 = S (length pre) /\ issued t3 = issued t /\ mh_accept xops E (lx y) (lx x) (XFin (q x y / q y x)) t2 = (t3, RVal acc) /\ (if acc then y else x) = z).
    { destruct (Rlt_dec 0 (pi y)) as [Py|Py].
      - destruct (supported_ll y Py) as (b & Eb & Nb & Pb). rewrite Ea, Eb, mh_accept_finite by (auto using (q_ratio q states Hq)).
        rewrite (ratio_is x y a b Hxy Pa Pb). unfold z, dnext. destruct (Rlt_dec 0 (pi y)); [|contradiction].
        destruct (Rlt_dec 1 (ratio x y)) as [H1|H1].
        + exists t2, true. repeat split; try assumption. destruct (Rle_dec u (ratio x y)); [reflexivity|lra].
        + exists (t2 ++ [EUnif]), (if Rle_dec u (ratio x y) then true else false). split; [rewrite n_proposed_app, Hn2; cbn; lia|].
          split; [rewrite issued_app, Hi2; cbn; now rewrite app_nil_r|]. split; [rewrite Hun, xge_fin; reflexivity|]. destruct (Rle_dec u (ratio x y)); reflexivity.
      - destruct (unsupported_ll y Py) as [Zy _]. exists t2, false. split; [exact Hn2|]. split; [exact Hi2|].
        split; [apply zero_trial_rejected; [exact Zy|rewrite Ea; discriminate|rewrite Ea; intros Q; injection Q; exact Na]|].
        unfold z, dnext. destruct (Rlt_dec 0 (pi y)); [contradiction|reflexivity]. }
    destruct Hstep as (t3 & acc & Hn3 & Hi3 & Hst & Hz).
    rewrite Hst. rewrite Hz.
    assert (Hz2 : (if acc then lx y else lx x) = lx z) by (rewrite <- Hz; destruct acc; reflexivity).
    rewrite Hz2. unfold mbind, issue_sample, call. cbn [e_issue E dscripted]. set (aux := [_; _]).
    destruct (IH (pre ++ [(y, u)]) z (t3 ++ [EIssue z aux])) as (t' & Hl & Hm).
    + now apply dnext_supported.
    + rewrite n_proposed_app, Hn3, app_length. cbn. lia.
    + exact Hok.
    + exists t'. rewrite <- app_assoc in Hl. cbn [app] in Hl. split; [exact Hl|].
      rewrite Hm, issued_app, Hi3, map_app. cbn. now rewrite <- app_assoc.
Qed.
Lemma run_dchain : forall x0 script, supported lx x0 -> dok x0 script -> snd (drun lx q x0 script) = RVal tt /\ dsamples lx q x0 script = dchain x0 script.
Proof.
  intros x0 script Hs Hok. destruct (loop_dchain script [] x0 [EEval x0] Hs eq_refl Hok) as (t' & Hl & Hi). cbn [app] in Hl.
  assert (Hr : drun lx q x0 script = ((t' ++ [EFlush]) ++ [EFlush], RVal tt)).
  { unfold drun, mh_sample, with_scope_exit. unfold mbind at 1. unfold log_likelihood, call. cbn [e_ll dscripted].
    unfold mbind. cbn [app]. rewrite Hl. reflexivity. }
  split; [now rewrite Hr|]. unfold dsamples. rewrite Hr. cbn [fst]. rewrite !issued_app. cbn. rewrite !app_nil_r. exact Hi.
Qed.
Lemma dchain_snoc : forall s x y u, dchain x (s ++ [(y, u)]) = dchain x s ++ [dnext (last (dchain x s) x) y u].
Proof.
  induction s as [|[y' u'] s IH]; intros x y u; [reflexivity|]. cbn [app dchain]. rewrite IH. cbn [app]. do 4 f_equal. symmetry. apply last_cons.
Qed.
Lemma dok_snoc : forall s x y u, dok x s -> In y states -> 0 < q (last (dchain x s) x) y -> 0 <= u < 1 -> dok x (s ++ [(y, u)]).
Proof.
  induction s as [|[y' u'] s IH]; intros x y u Hok Hy Hp Hu; cbn [app dok dchain] in *.
  - repeat split; auto; lra.
  - destruct Hok as (H1 & H2 & H3 & H4). rewrite last_cons in Hp. repeat split; auto; lra.
Qed.
Lemma dchain_states : forall s x, In x states -> supported lx x -> dok x s -> In (last (dchain x s) x) states /\ supported lx (last (dchain x s) x).
Proof.
  induction s as [|[y u] s IH]; intros x Hx Hs Hok; cbn [dok dchain] in *; [auto|]. destruct Hok as (Hy & _ & _ & Hok). rewrite last_cons.
  apply IH; [|now apply dnext_supported|exact Hok]. unfold dnext. destruct (Rlt_dec 0 (pi y)); [destruct (Rle_dec u (ratio x y))|]; assumption.
Qed.

Local Notation K := (density_kernel lx eqX states q).
Theorem dlaw : forall x0, In x0 states -> supported lx x0 -> forall (g : list X -> R) n script, dok x0 script ->
  dexpects lx q x0 states n script (fun s => g (dsamples lx q x0 s))
    (markov states K n (dcurrent lx q x0 script) (fun l => g (dsamples lx q x0 script ++ l))).
Proof.
  intros x0 Hx0 Hs0 g n. induction n as [|n IH]; intros script Hok.
  - cbn. now rewrite app_nil_r.
  - set (c := dcurrent lx q x0 script). set (S0 := dsamples lx q x0 script).
    assert (Hcc : c = last (dchain x0 script) x0) by (unfold c, dcurrent; now rewrite (proj2 (run_dchain x0 script Hs0 Hok))).
    assert (Hc : In c states /\ supported lx c) by (rewrite Hcc; now apply dchain_states).
    destruct Hc as [Hc Hcs].
    set (va := fun y => markov states K n y (fun l => g (S0 ++ y :: l))).
    exists (fun y u => va (dnext c y u)).
    exists (fun y => Rmin 1 (ratio c y) * va y + (1 - Rmin 1 (ratio c y)) * va c).
    fold c. split; [|split].
    + intros y u Hy Hp Hu.
      assert (Hok' : dok x0 (script ++ [(y, u)])) by (apply dok_snoc; auto; now rewrite <- Hcc).
      assert (Hs : dsamples lx q x0 (script ++ [(y, u)]) = S0 ++ [dnext c y u]).
      { rewrite (proj2 (run_dchain _ _ Hs0 Hok')), dchain_snoc, <- Hcc. unfold S0. now rewrite (proj2 (run_dchain _ _ Hs0 Hok)). }
      specialize (IH _ Hok'). unfold dcurrent in IH. rewrite Hs, last_last in IH.
      assert (He : forall z, markov states K n z (fun l => g ((S0 ++ [z]) ++ l)) = va z).
      { intros z. unfold va. apply markov_ext. intros l _. now rewrite <- app_assoc. }
      rewrite He in IH. exact IH.
    + intros y Hy Hp. destruct (Rlt_dec 0 (pi y)) as [Py|Py].
      * apply (is_RInt_ext (V := R_NormedModule) (fun u => if Rle_dec u (ratio c y) then va y else va c)).
        -- intros u _. unfold dnext. destruct (Rlt_dec 0 (pi y)); [|contradiction]. destruct (Rle_dec u (ratio c y)); reflexivity.
        -- apply RInt_choice. now apply ratio_nonneg.
      * destruct (unsupported_ll y Py) as [_ Z].
        assert (Hr : Rmin 1 (ratio c y) = 0) by (rewrite Z; unfold Rdiv; rewrite !Rmult_0_l; apply Rmin_right; lra).
        rewrite Hr. replace (0 * va y + (1 - 0) * va c) with (scal (1 - 0) (va c)) by (cbv [scal]; cbn; cbv [mult]; cbn; ring).
        apply (is_RInt_ext (V := R_NormedModule) (fun u => va c)).
        -- intros u _. unfold dnext. destruct (Rlt_dec 0 (pi y)); [contradiction|reflexivity].
        -- apply (is_RInt_const (V := R_NormedModule)).
    + cbn [markov]. fold va.
      change (fun y : X => K c y * markov states K n y (fun l : list X => g (S0 ++ y :: l))) with (fun y => K c y * va y).
      unfold density_kernel, kernel. cbv beta. set (A := fun y => Rmin 1 (ratio c y)). set (s := sumR (fun z => q c z * A z) states).
      rewrite (sumR_ext_in _ (fun y => q c y * A y * va y + (if eqX y c then (1 - s) * va y else 0))).
      2:{ intros y _. change (Rmin 1 (ratio c y)) with (A y). change (sumR (fun z => q c z * Rmin 1 (ratio c z)) states) with s. destruct (eqX c y), (eqX y c); try congruence; ring. }
      rewrite sumR_plus, (sumR_delta eqX (fun y => (1 - s) * va y) c states states_nodup Hc).
      rewrite (sumR_ext_in (fun y => q c y * (_ + _)) (fun y => q c y * A y * va y + (q c y - q c y * A y) * va c)) by (intros; unfold A; ring).
      rewrite sumR_plus, sumR_mult_r, sumR_minus, (pd_sum _ _ Hq c Hc). reflexivity.
Qed.
Lemma dexpects_unique : forall x0 n script g v v', dexpects lx q x0 states n script g v -> dexpects lx q x0 states n script g v' -> v = v'.
Proof.
  intros x0 n. induction n as [|n IH]; intros script g v v' H H'; [cbn in *; congruence|].
  destruct H as (h & I & Hh & HI & ->). destruct H' as (h' & I' & Hh' & HI' & ->).
  apply sumR_ext_in. intros y Hy. destruct (pd_nonneg _ _ Hq (dcurrent lx q x0 script) y) as [Hp|Hp]; [|rewrite <- Hp; ring].
  f_equal. rewrite <- (is_RInt_unique (V := R_CompleteNormedModule) _ _ _ _ (HI y Hy Hp)).
  apply (is_RInt_unique (V := R_CompleteNormedModule)). apply (is_RInt_ext (V := R_NormedModule) (h' y)); [|exact (HI' y Hy Hp)].
  intros u Hu. rewrite Rmin_left, Rmax_right in Hu by lra. apply (IH (script ++ [(y, u)]) g); [apply Hh'|apply Hh]; auto; lra.
Qed.
Theorem drun_law : forall x0, In x0 states -> supported lx x0 -> forall n g, dexpectation lx q states x0 n g (markov states K n x0 g).
Proof.
  intros x0 Hx0 Hs n g. pose proof (dlaw x0 Hx0 Hs g n [] Logic.I) as H.
  assert (Hs' : dsamples lx q x0 [] = []) by (exact (proj2 (run_dchain x0 [] Hs Logic.I))).
  unfold dcurrent in H. rewrite Hs' in H. cbn [last app] in H. split; [exact H|].
  intros v' Hv'. exact (dexpects_unique _ _ _ _ _ _ Hv' H).
Qed.

(** ** The chain on the support *)
Local Notation inside := (supp lx states).
Lemma in_supp : forall x, In x inside <-> In x states /\ supported lx x.
Proof. intros x. unfold supp. rewrite filter_In. unfold supported. destruct (Rlt_dec 0 (pi x)); split; intros [A B]; (split; [exact A|]); try reflexivity; try assumption; try discriminate; contradiction. Qed.
Lemma supp_nodup : NoDup inside. Proof. now apply NoDup_filter. Qed.
Lemma sum_inside : forall f l, (forall y, In y l -> ~ supported lx y -> f y = 0) -> sumR f (supp lx l) = sumR f l.
Proof.
  intros f l. induction l as [|y l IH]; intros H; [reflexivity|]. unfold supp in *. cbn [filter sumR]. destruct (Rlt_dec 0 (pi y)) as [P|P].
  - cbn [sumR]. rewrite IH by (intros z Hz; apply H; now right). reflexivity.
  - rewrite IH by (intros z Hz; apply H; now right). rewrite (H y (or_introl eq_refl) P). ring.
Qed.
Lemma A_zero : forall x y, ~ supported lx y -> Rmin 1 (ratio x y) = 0.
Proof. intros x y Hy. destruct (unsupported_ll y Hy) as [_ ->]. unfold Rdiv. rewrite !Rmult_0_l. apply Rmin_right; lra. Qed.
Lemma K_outside : forall x y, supported lx x -> ~ supported lx y -> K x y = 0.
Proof. intros x y Hx Hy. unfold density_kernel, kernel. rewrite A_zero by exact Hy. destruct (eqX x y) as [->|]; [contradiction|ring]. Qed.
Lemma qA_range : forall x y, supported lx x -> 0 <= q x y * Rmin 1 (ratio x y) <= q x y.
Proof.
  intros x y Hx. destruct (pd_nonneg _ _ Hq x y) as [Hp|Hp]; [|rewrite <- Hp; lra].
  pose proof (ratio_nonneg x y Hx Hp). assert (0 <= Rmin 1 (ratio x y) <= 1) by (split; [apply Rmin_glb; lra|apply Rmin_l]).
  split; [apply Rmult_le_pos; lra|]. apply Rle_trans with (q x y * 1); [apply Rmult_le_compat_l; lra|lra].
Qed.
Lemma s_le_1 : forall x, In x states -> supported lx x -> sumR (fun z => q x z * Rmin 1 (ratio x z)) states <= 1.
Proof. intros x Hx Hs. apply Rle_trans with (sumR (q x) states); [|rewrite (pd_sum _ _ Hq x Hx); lra]. apply sumR_le_in. intros y _. exact (proj2 (qA_range x y Hs)). Qed.
Lemma dK_nonneg : forall x y, In x inside -> In y inside -> 0 <= K x y.
Proof.
  intros x y Hx _. apply in_supp in Hx as [Hx Hs]. unfold density_kernel, kernel. pose proof (qA_range x y Hs). pose proof (s_le_1 x Hx Hs). destruct (eqX x y); lra.
Qed.
Lemma dK_sum : forall x, In x inside -> sumR (K x) inside = 1.
Proof.
  intros x Hx. apply in_supp in Hx as [Hx Hs]. rewrite sum_inside by (intros; now apply K_outside).
  unfold density_kernel, kernel. set (s := sumR (fun z => q x z * Rmin 1 (ratio x z)) states).
  rewrite (sumR_ext_in _ (fun y => q x y * Rmin 1 (ratio x y) + (if eqX y x then 1 - s else 0))) by (intros y _; destruct (eqX x y), (eqX y x); try congruence; reflexivity).
  rewrite sumR_plus. rewrite (sumR_delta eqX (fun _ => 1 - s) x states states_nodup Hx). fold s. ring.
Qed.
Lemma balance : forall x y, supported lx x -> supported lx y -> x <> y -> pi x * K x y = pi y * K y x.
Proof.
  intros x y Hx Hy Ne. unfold density_kernel, kernel. destruct (eqX x y); [contradiction|]. destruct (eqX y x); [congruence|].
  rewrite !Rplus_0_r. unfold supported in *. destruct (pd_nonneg _ _ Hq x y) as [Hp|Hp].
  - pose proof (q_back q states Hq x y Hp) as Hp'.
    assert (G : forall a b, 0 < a -> 0 < b -> a * Rmin 1 (b / a) = Rmin a b).
    { intros a b Ha Hb. unfold Rmin. destruct (Rle_dec 1 (b / a)) as [L|L], (Rle_dec a b) as [L'|L']; try (field; lra); try lra.
      - exfalso. apply L'. apply Rmult_le_reg_r with (/ a); [now apply Rinv_0_lt_compat|]. rewrite Rinv_r by lra. exact L.
      - assert (1 <= b / a); [|contradiction]. apply Rmult_le_reg_r with a; [exact Ha|]. unfold Rdiv. rewrite Rmult_assoc, Rinv_l by lra. lra. }
    rewrite <- !Rmult_assoc. rewrite !G by (apply Rmult_lt_0_compat; assumption). apply Rmin_comm.
  - rewrite <- Hp. symmetry in Hp. rewrite (pd_back _ _ Hq _ _ Hp). ring.
Qed.
Definition ll' (x : X) : R := fin_val (lx x).
Lemma exp_ll' : forall x, supported lx x -> exp (ll' x) = pi x.
Proof. intros x H. destruct (supported_ll x H) as (l & E & _ & P). unfold ll'. rewrite E, P. reflexivity. Qed.
Lemma total_pi : sumR (fun y => exp (ll' y)) inside = sumR pi states.
Proof.
  rewrite (sumR_ext_in _ pi) by (intros x Hx; apply in_supp in Hx as [_ Hs]; now apply exp_ll'). apply sum_inside.
  intros y _ Hy. now destruct (unsupported_ll y Hy).
Qed.
Lemma target_inside : forall x, supported lx x -> target inside ll' x = density_target lx states x.
Proof. intros x Hx. unfold target, density_target. rewrite total_pi, exp_ll' by exact Hx. reflexivity. Qed.
Lemma mean_inside : forall f, mean_in inside (target inside ll') f = mean_in states (density_target lx states) f.
Proof.
  intros f. unfold mean_in. rewrite (sumR_ext_in _ (fun x => density_target lx states x * f x)) by (intros x Hx; apply in_supp in Hx as [_ Hs]; now rewrite target_inside).
  apply sum_inside. intros y _ Hy. destruct (unsupported_ll y Hy) as [_ Z]. unfold density_target. rewrite Z. unfold Rdiv. ring.
Qed.
Lemma dstationary : forall y, In y inside -> sumR (fun x => target inside ll' x * K x y) inside = target inside ll' y.
Proof.
  intros y Hy. pose proof Hy as Hy'. apply in_supp in Hy' as [_ Hys]. unfold target.
  rewrite (sumR_ext_in _ (fun x => K y x * (exp (ll' y) / sumR (fun y => exp (ll' y)) inside))).
  - rewrite sumR_mult_r, dK_sum by exact Hy. ring.
  - intros x Hx. apply in_supp in Hx as [_ Hxs]. rewrite !exp_ll' by assumption. destruct (eqX x y) as [->|Ne]; [unfold Rdiv; ring|].
    replace (pi x / sumR (fun y0 => exp (ll' y0)) inside * K x y) with (pi x * K x y / sumR (fun y0 => exp (ll' y0)) inside) by (unfold Rdiv; ring).
    rewrite (balance x y Hxs Hys Ne). unfold Rdiv. ring.
Qed.
Lemma markov_inside : forall n x g, In x inside -> markov states K n x g = markov inside K n x g.
Proof.
  induction n as [|n IH]; intros x g Hx; [reflexivity|]. cbn [markov]. pose proof Hx as Hx'. apply in_supp in Hx' as [_ Hs].
  rewrite <- (sum_inside (fun y => K x y * markov states K n y (fun l => g (y :: l))) states).
  - apply sumR_ext_in. intros y Hy. now rewrite IH.
  - intros y _ Hy. rewrite (K_outside x y Hs Hy). ring.
Qed.
Lemma dK_pos : forall x y, In x inside -> In y inside -> 0 < q x y -> 0 < K x y.
Proof.
  intros x y Hx Hy Hp. apply in_supp in Hx as [Hx Hxs]. apply in_supp in Hy as [_ Hys]. unfold supported in *. pose proof (q_back q states Hq x y Hp).
  assert (0 < q x y * Rmin 1 (ratio x y)).
  { apply Rmult_lt_0_compat; [exact Hp|]. apply Rmin_glb_lt; [lra|]. apply Rdiv_lt_0_compat; apply Rmult_lt_0_compat; assumption. }
  unfold density_kernel, kernel. pose proof (s_le_1 x Hx Hxs). destruct (eqX x y); lra.
Qed.

Theorem dconverges : forall m, (0 < m)%nat -> (forall x y, In x inside -> In y inside -> reaches inside q m x y) ->
  exists d, 0 < d <= 1 /\ forall x0 y n, In x0 inside -> In y states ->
  exists v, dexpectation lx q states x0 n (ends_at eqX x0 y) v /\ Rabs (v - density_target lx states y) <= (1 - d) ^ (n / m).
Proof.
  intros m Hm Hr.
  destruct (c_converges eqX ll' inside K supp_nodup dK_nonneg dK_sum dstationary q dK_pos m Hm Hr) as (d & Hd & Hc).
  exists d. split; [exact Hd|]. intros x0 y n Hx0 Hy. pose proof Hx0 as Hx0'. apply in_supp in Hx0' as [Hxi Hxs].
  eexists. split; [now apply drun_law|]. rewrite markov_inside by exact Hx0.
  destruct (Rlt_dec 0 (pi y)) as [P|P].
  - rewrite <- target_inside by exact P. apply Hc; [exact Hx0|]. now apply in_supp.
  - destruct (unsupported_ll y P) as [_ Z].
    assert (E : markov inside K n x0 (ends_at eqX x0 y) = 0).
    { rewrite ends_step. unfold MarkovFinite.step.
      assert (G : forall k x, In x inside -> it inside K k (delta eqX y) x = 0).
      { induction k as [|k IHk]; intros x Hx.
        - cbn. unfold delta. destruct (eqX x y) as [->|]; [|reflexivity]. apply in_supp in Hx as [_ Hx]. contradiction.
        - cbn [it]. unfold MarkovFinite.P. rewrite (sumR_ext_in _ (fun _ => 0)) by (intros z Hz; rewrite IHk by exact Hz; ring). apply sumR_zero. }
      now apply G. }
    rewrite E. unfold density_target. rewrite Z. unfold Rdiv. rewrite Rmult_0_l, Rminus_0_r, Rabs_R0. apply pow_le. lra.
Qed.
Lemma dcode_average : forall (F : R -> R) f x0 n, In x0 inside -> (0 < n)%nat -> (N.of_nat n < two64)%N ->
  dexpectation lx q states x0 n (fun l => F (estimate f l)) (markov states K n x0 (fun l => F (sample_average f l))).
Proof.
  intros F f x0 n Hx0 Hn Hn64. apply in_supp in Hx0 as [Hxi Hxs].
  rewrite (markov_ext states K n x0 (fun l => F (sample_average f l)) (fun l => F (estimate f l))); [now apply drun_law|].
  intros l Hl. rewrite estimate_mean; [reflexivity| |now rewrite Hl]. intros ->. clear - Hl Hn. cbn in Hl. lia.
Qed.
Theorem dmean_square : (forall x y, In x inside -> In y inside -> exists k, reaches inside q k x y) ->
  forall f, exists C, forall x0 n, In x0 inside -> (0 < n)%nat ->
  exists v, v <= C / INR n /\ dexpectation lx q states x0 n (fun l => (sample_average f l - mean_in states (density_target lx states) f) ^ 2) v /\
    ((N.of_nat n < two64)%N -> dexpectation lx q states x0 n (fun l => (estimate f l - mean_in states (density_target lx states) f) ^ 2) v).
Proof.
  intros Hr f. destruct (c_averages eqX ll' inside K supp_nodup dK_nonneg dK_sum dstationary q dK_pos Hr f) as (C & HC).
  rewrite mean_inside in HC. exists C. intros x0 n Hx0 Hn. pose proof Hx0 as Hx0'. apply in_supp in Hx0' as [Hxi Hxs].
  eexists. split; [|split; [now apply drun_law|intros Hn64; now apply (dcode_average (fun a => (a - mean_in states (density_target lx states) f) ^ 2))]].
  rewrite markov_inside by exact Hx0. now apply HC.
Qed.
Theorem dfar : (forall x y, In x inside -> In y inside -> exists k, reaches inside q k x y) ->
  forall f, exists C, forall eps x0 n, 0 < eps -> In x0 inside -> (0 < n)%nat ->
  exists v, 0 <= v <= C / (INR n * eps ^ 2) /\ dexpectation lx q states x0 n (fun l => indicator (far eps (sample_average f l) (mean_in states (density_target lx states) f))) v /\
    ((N.of_nat n < two64)%N -> dexpectation lx q states x0 n (fun l => indicator (far eps (estimate f l) (mean_in states (density_target lx states) f))) v).
Proof.
  intros Hr f. destruct (c_far eqX ll' inside K supp_nodup dK_nonneg dK_sum dstationary q dK_pos Hr f) as (C & HC).
  rewrite mean_inside in HC. exists C. intros eps x0 n He Hx0 Hn. pose proof Hx0 as Hx0'. apply in_supp in Hx0' as [Hxi Hxs].
  eexists. split; [|split; [now apply drun_law|intros Hn64; now apply (dcode_average (fun a => indicator (far eps a (mean_in states (density_target lx states) f))))]].
  rewrite markov_inside by exact Hx0. now apply HC.
Qed.
End Run.
