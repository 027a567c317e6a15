(** Proofs: runs of MetropolisHastings with any arithmetic and finitely many random numbers. *)
From Coq Require Import Reals Lra Lia.
From Coquelicot Require Import Coquelicot.
From Verif Require Import Prelude ConsumerModel ProducerModel ProducerSpec ProducerProofs XReal MHSpec MHProofs StatsModel StatsInst MHRunSpec DEStat MarkovFinite MHRun MarkovTop MarkovStats MarkovPerturb MHPrecSpec.
Import ListNotations.
Local Open Scope R_scope.
Local Open Scope list_scope.
Local Notation length := List.length.

Lemma sumR_filter : forall {X} (b : X -> bool) (f : X -> R) l, (forall x, In x l -> b x = false -> f x = 0) -> sumR f (filter b l) = sumR f l.
Proof.
  intros X b f l H. induction l as [|x l IH]; [reflexivity|]. cbn [filter sumR]. rewrite <- IH by (intros; apply H; auto; now right).
  destruct (b x) eqn:E; [reflexivity|]. rewrite (H x (or_introl eq_refl) E). ring.
Qed.
Lemma sumR_filter_le : forall {X} (b : X -> bool) (f : X -> R) l, (forall x, In x l -> 0 <= f x) -> sumR f (filter b l) <= sumR f l.
Proof.
  intros X b f l H. induction l as [|x l IH]; [cbn; lra|]. cbn [filter sumR].
  assert (sumR f (filter b l) <= sumR f l) by (apply IH; intros; apply H; now right). pose proof (H x (or_introl eq_refl)).
  destruct (b x); cbn [sumR]; lra.
Qed.

Section Run.
Context {X D : Type}.
Variable eqX : forall x y : X, {x = y} + {x <> y}.
Variables (O : dops D) (ll : X -> D) (rho : X -> X -> D).
Local Notation possible := (possible O ll).

(** the decision of the code *)
Definition decision (x y : X) (u : D) : bool :=
  if possible y then
    if d_gt O (d_sub O (ll y) (d_log O (rho x y))) (ll x) then true
    else d_ge O (d_div O (d_exp O (d_sub O (ll y) (ll x))) (rho x y)) u
  else false.
Definition dnext (x y : X) (u : D) : X := if decision x y u then y else x.
Fixpoint dchain (x : X) (script : list (X * D)) : list X :=
  match script with [] => [] | (y, u) :: s => dnext x y u :: dchain (dnext x y u) s end.
Lemma dnext_possible : forall x y u, possible x = true -> possible (dnext x y u) = true.
Proof. intros x y u H. unfold dnext, decision. destruct (possible y) eqn:E; [|exact H]. destruct (d_gt _ _ _); [exact E|]. destruct (d_ge _ _ _); assumption. Qed.

Lemma n_props_app : forall s t : trace X D, n_props (s ++ t) = (n_props s + n_props t)%nat.
Proof. intros. unfold n_props. now rewrite filter_app, app_length. Qed.
Lemma loop_chain : forall rest pre x t, n_props t = length pre -> possible x = true ->
  exists t', mh_loop O (dscripted O ll rho (pre ++ rest)) (length rest) x (ll x) t = (t', RVal tt) /\
    map fst (issued t') = map fst (issued t) ++ dchain x rest.
Proof.
  induction rest as [|[y u] rest IH]; intros pre x t Ht Hx; cbn [length mh_loop dchain].
  - exists t. split; [reflexivity|]. now rewrite app_nil_r.
  - set (E := dscripted O ll rho (pre ++ (y, u) :: rest)).
    assert (Hn : nth_error (pre ++ (y, u) :: rest) (n_props t) = Some (y, u)) by (rewrite Ht, nth_error_app2, Nat.sub_diag by lia; reflexivity).
    unfold mbind at 1. unfold propose_sample, call. cbn [e_prop E dscripted]. rewrite Hn.
    unfold mbind at 1. unfold log_likelihood, call. cbn [e_ll E dscripted].
    unfold mbind at 1. fold E.
    set (t2 := (t ++ [EPropose x []]) ++ [EEval y]).
    assert (Hn2 : n_props t2 = S (length pre)).
    { unfold t2. rewrite !n_props_app, Ht. cbn. lia. }
    assert (Hun : e_unif E t2 = u).
    { cbn [e_unif E dscripted]. rewrite Hn2. cbn [Nat.sub]. rewrite Nat.sub_0_r, <- Ht, Hn. reflexivity. }
    set (z := dnext x y u).
    assert (Hi2 : issued t2 = issued t) by (unfold t2; rewrite !issued_app; cbn; now rewrite !app_nil_r).
    assert (Hstep : exists t3, n_props t3 = S (length pre) /\ issued t3 = issued t /\
      mh_accept O E (ll y) (ll x) (rho x y) t2 = (t3, RVal (decision x y u))).
    { unfold mh_accept, decision. unfold MHPrecSpec.possible in Hx. apply Bool.negb_true_iff in Hx. unfold has_zero_probability. rewrite Hx. unfold MHPrecSpec.possible.
      destruct (d_eq O (ll y) (d_nmax O) || d_eq O (ll y) (d_ninf O))%bool; cbn [andb negb].
      - exists t2. auto.
      - unfold mbind at 1. unfold ret at 1. destruct (d_gt _ _ _); [exists t2; auto|].
        exists (t2 ++ [EUnif]). split; [rewrite n_props_app, Hn2; cbn; lia|]. split; [rewrite issued_app, Hi2; cbn; now rewrite app_nil_r|].
        unfold mbind, uniform, call, ret. rewrite Hun. reflexivity. }
    destruct Hstep as (t3 & Hn3 & Hi3 & Hst). rewrite Hst.
    unfold mbind, issue_sample, call. cbn [e_issue E dscripted].
    assert (Hz1 : (if decision x y u then y else x) = z) by reflexivity.
    assert (Hz2 : (if decision x y u then ll y else ll x) = ll z) by (unfold z, dnext; destruct (decision x y u); reflexivity).
    rewrite Hz1, Hz2. set (a := [_; _]).
    destruct (IH (pre ++ [(y, u)]) z (t3 ++ [EIssue z a])) as (t' & Hl & Hm).
    + rewrite n_props_app, Hn3, app_length. cbn. lia.
    + now apply dnext_possible.
    + exists t'. rewrite <- app_assoc in Hl. cbn [app] in Hl. split; [exact Hl|].
      rewrite Hm, issued_app, Hi3, map_app. cbn. now rewrite <- app_assoc.
Qed.
Lemma run_chain : forall x0 script, possible x0 = true -> snd (drun O ll rho x0 script) = RVal tt /\ dsamples O ll rho x0 script = dchain x0 script.
Proof.
  intros x0 script Hx. destruct (loop_chain script [] x0 [EEval x0] eq_refl Hx) as (t' & Hl & Hi). cbn [app] in Hl.
  assert (Hr : drun O ll rho x0 script = ((t' ++ [EFlush]) ++ [EFlush], RVal tt)).
  { unfold drun, mh_sample, with_scope_exit. unfold mbind at 1. unfold log_likelihood, call. cbn [e_ll dscripted].
    unfold mbind. cbn [app]. rewrite Hl. reflexivity. }
  split; [now rewrite Hr|]. unfold dsamples. rewrite Hr. cbn [fst]. rewrite !issued_app. cbn. rewrite !app_nil_r. exact Hi.
Qed.
Lemma dchain_snoc : forall s x y u, dchain x (s ++ [(y, u)]) = dchain x s ++ [dnext (last (dchain x s) x) y u].
Proof.
  induction s as [|[y' u'] s IH]; intros x y u; [reflexivity|]. cbn [app dchain]. rewrite IH. cbn [app]. f_equal. f_equal. f_equal. f_equal.
  symmetry. apply last_cons.
Qed.
Lemma dchain_possible : forall s x, possible x = true -> possible (last (dchain x s) x) = true.
Proof. induction s as [|[y u] s IH]; intros x Hx; cbn [dchain]; [exact Hx|]. rewrite last_cons. now apply IH, dnext_possible. Qed.
Lemma current_one : forall x y u, possible x = true -> dcurrent O ll rho x [(y, u)] = dnext x y u.
Proof. intros x y u Hx. unfold dcurrent. rewrite (proj2 (run_chain x _ Hx)). reflexivity. Qed.

Variables (q : X -> X -> R) (us : list D) (states : list X).
Hypothesis us_ne : us <> [].
Hypothesis states_nodup : NoDup states.
Hypothesis q_sum : forall x, In x states -> sumR (q x) states = 1.
Local Notation A := (acceptance O ll rho us eqX).
Local Notation support := (filter possible states).
Local Notation K := (kernel eqX support q A).

Lemma us_pos : 0 < INR (length us).
Proof. apply lt_0_INR. destruct us; [contradiction|cbn; lia]. Qed.
Lemma A_split : forall x y (va : X -> R), possible x = true -> sumR (fun u => va (dnext x y u)) us / INR (length us) = A x y * va y + (1 - A x y) * va x.
Proof.
  intros x y va Hx. pose proof us_pos as Hp. unfold acceptance.
  rewrite (sumR_ext_in (fun u => if eqX (dcurrent O ll rho x [(y, u)]) y then 1 else 0) (fun u => if eqX (dnext x y u) y then 1 else 0)) by (intros; now rewrite current_one).
  rewrite (sumR_ext_in (fun u => va (dnext x y u)) (fun u => (va y - va x) * (if eqX (dnext x y u) y then 1 else 0) + va x)).
  2:{ intros u _. destruct (eqX (dnext x y u) y) as [->|Hne]; [ring|]. unfold dnext in *. destruct (decision x y u); [contradiction|ring]. }
  rewrite sumR_plus, sumR_scal.
  assert (Hc : sumR (fun _ : D => va x) us = INR (length us) * va x).
  { generalize us. intros l. induction l as [|u l IH]; [cbn; ring|]. cbn [sumR length]. rewrite IH, S_INR. ring. }
  rewrite Hc. field. lra.
Qed.
Lemma A_impossible : forall x y, possible x = true -> possible y = false -> A x y = 0.
Proof.
  intros x y Hx Hy. unfold acceptance. rewrite (sumR_ext_in _ (fun _ => 0)); [rewrite sumR_zero; unfold Rdiv; ring|].
  intros u _. rewrite current_one by exact Hx. unfold dnext, decision. rewrite Hy. destruct (eqX x y); [congruence|reflexivity].
Qed.
Lemma A_range : forall x y, 0 <= A x y <= 1.
Proof.
  intros x y. unfold acceptance. pose proof us_pos as Hp. split.
  - apply Rmult_le_pos; [|apply Rlt_le, Rinv_0_lt_compat, Hp]. apply sumR_nonneg. intros u _. destruct (eqX _ _); lra.
  - apply Rmult_le_reg_r with (INR (length us)); [exact Hp|]. unfold Rdiv. rewrite Rmult_assoc, Rinv_l, Rmult_1_r, Rmult_1_l by lra.
    clear Hp. generalize us. intros l. induction l as [|u l IH]; [cbn; lra|]. cbn [sumR length]. rewrite S_INR. destruct (eqX _ _); lra.
Qed.

Theorem dlaw : forall x0, In x0 support -> forall (g : list X -> R) n script, (forall yu, In yu script -> In (fst yu) states) ->
  dmean O ll rho q us states x0 n script (fun s => g (dsamples O ll rho x0 s)) =
  markov support K n (dcurrent O ll rho x0 script) (fun l => g (dsamples O ll rho x0 script ++ l)).
Proof.
  intros x0 Hx0 g n. apply filter_In in Hx0. destruct Hx0 as [Hx0 Hp0]. induction n as [|n IH]; intros script Hscr.
  - cbn. now rewrite app_nil_r.
  - set (c := dcurrent O ll rho x0 script). set (S0 := dsamples O ll rho x0 script).
    assert (Hcc : c = last (dchain x0 script) x0) by (unfold c, dcurrent; now rewrite (proj2 (run_chain x0 script Hp0))).
    assert (Hpc : possible c = true) by (rewrite Hcc; now apply dchain_possible).
    assert (Hc : In c states).
    { rewrite Hcc. clear - Hx0 Hscr. revert x0 Hx0. induction script as [|[y u] s IHs]; intros x0 Hx0; [exact Hx0|]. cbn [dchain]. rewrite last_cons.
      apply IHs; [intros; apply Hscr; now right|]. unfold dnext. destruct (decision x0 y u); [exact (Hscr (y, u) (or_introl eq_refl))|exact Hx0]. }
    assert (Hcs : In c support) by (apply filter_In; now split).
    set (va := fun z => markov support K n z (fun l => g (S0 ++ z :: l))).
    cbn [dmean]. fold c.
    rewrite (sumR_ext_in _ (fun y => q c y * (A c y * va y + (1 - A c y) * va c))).
    2:{ intros y Hy. f_equal. rewrite <- (A_split c y va Hpc). f_equal. apply sumR_ext_in. intros u _.
        rewrite IH. 2:{ intros yu Hin. apply in_app_or in Hin. destruct Hin as [Hin|[<-|[]]]; [now apply Hscr|exact Hy]. }
        assert (Hs : dsamples O ll rho x0 (script ++ [(y, u)]) = S0 ++ [dnext c y u]).
        { rewrite (proj2 (run_chain _ _ Hp0)), dchain_snoc, <- Hcc. unfold S0. now rewrite (proj2 (run_chain _ _ Hp0)). }
        unfold dcurrent. rewrite Hs, last_last. unfold va. apply markov_ext. intros l _. now rewrite <- app_assoc. }
    cbn [markov].
    change (sumR (fun y => K c y * markov support K n y (fun l => g (S0 ++ y :: l))) support) with (sumR (fun y => K c y * va y) support).
    unfold kernel. cbv beta.
    set (s := sumR (fun z => q c z * A c z) support).
    rewrite (sumR_ext_in (fun y => (q c y * A c y + (if eqX c y then 1 - s else 0)) * va y) (fun y => q c y * A c y * va y + (if eqX y c then (1 - s) * va y else 0))).
    2:{ intros y _. destruct (eqX c y), (eqX y c); try congruence; ring. }
    rewrite sumR_plus, (sumR_delta eqX (fun y => (1 - s) * va y) c support (NoDup_filter _ states_nodup) Hcs).
    rewrite (sumR_ext_in (fun y => q c y * (_ + _)) (fun y => q c y * A c y * va y + (q c y - q c y * A c y) * va c)) by (intros; ring).
    rewrite sumR_plus, sumR_mult_r, sumR_minus, q_sum by exact Hc.
    assert (Hz : forall y, In y states -> possible y = false -> A c y = 0) by (intros; now apply A_impossible).
    unfold s. rewrite !sumR_filter by (intros y Hy Hpy; rewrite (Hz y Hy Hpy); ring). reflexivity.
Qed.
Theorem run_dlaw : forall x0, In x0 support -> forall n g, dexpectation O ll rho q us states x0 n g = markov support K n x0 g.
Proof.
  intros x0 Hx0 n g. unfold dexpectation. rewrite (dlaw x0 Hx0 g n [] (fun _ H => False_ind _ H)).
  pose proof Hx0 as Hf. apply filter_In in Hf. unfold dcurrent. rewrite (proj2 (run_chain x0 [] (proj2 Hf))). reflexivity.
Qed.
Theorem prec_law : forall x0, In x0 support -> (forall script, snd (drun O ll rho x0 script) = RVal tt) /\
  forall n g, dexpectation O ll rho q us states x0 n g = markov support K n x0 g.
Proof.
  intros x0 Hx0. split; [|now apply run_dlaw]. intros script. apply filter_In in Hx0. exact (proj1 (run_chain x0 script (proj2 Hx0))).
Qed.
End Run.

(** ** Kernels *)
Section Kernels.
Context {X : Type}.
Variable eqX : forall x y : X, {x = y} + {x <> y}.
Variables (q : X -> X -> R) (S0 : list X).
Hypothesis S0_nodup : NoDup S0.
Hypothesis q_nonneg : forall x y, 0 <= q x y.
Hypothesis q_le : forall x, In x S0 -> sumR (q x) S0 <= 1.
Lemma any_kernel_sum : forall A x, In x S0 -> sumR (kernel eqX S0 q A x) S0 = 1.
Proof.
  intros A x Hx. unfold kernel. rewrite sumR_plus. set (s := sumR (fun z => q x z * A x z) S0).
  rewrite (sumR_ext_in (fun y => if eqX x y then 1 - s else 0) (fun y => if eqX y x then (fun _ => 1 - s) y else 0)) by (intros y _; destruct (eqX x y), (eqX y x); congruence).
  rewrite (sumR_delta eqX (fun _ => 1 - s) x S0 S0_nodup Hx). unfold s. ring.
Qed.
Lemma any_kernel_nonneg : forall A x y, In x S0 -> (forall z, In z S0 -> 0 <= A x z <= 1) -> In y S0 -> 0 <= kernel eqX S0 q A x y.
Proof.
  intros A x y Hx HA Hy. unfold kernel. pose proof (q_nonneg x y). pose proof (HA y Hy).
  assert (0 <= q x y * A x y) by (apply Rmult_le_pos; lra).
  assert (sumR (fun z => q x z * A x z) S0 <= 1).
  { eapply Rle_trans; [|exact (q_le x Hx)]. apply sumR_le_in. intros z Hz. pose proof (q_nonneg x z). pose proof (HA z Hz).
    apply Rle_trans with (q x z * 1); [apply Rmult_le_compat_l; lra|lra]. }
  destruct (eqX x y); lra.
Qed.
Lemma kernels_close : forall A A' eps x, 0 <= eps -> In x S0 -> (forall y, In y S0 -> 0 < q x y -> Rabs (A' x y - A x y) <= eps) ->
  sumR (fun y => Rabs (kernel eqX S0 q A' x y - kernel eqX S0 q A x y)) S0 <= 2 * eps.
Proof.
  intros A A' eps x He Hx H.
  assert (Hq : forall y, In y S0 -> Rabs (q x y * A' x y - q x y * A x y) <= q x y * eps).
  { intros y Hy. destruct (q_nonneg x y) as [Hp|Hp].
    - replace (q x y * A' x y - q x y * A x y) with (q x y * (A' x y - A x y)) by ring. rewrite Rabs_mult, Rabs_pos_eq by lra. apply Rmult_le_compat_l; [lra|now apply H].
    - rewrite <- Hp. replace (0 * A' x y - 0 * A x y) with 0 by ring. rewrite Rabs_R0. lra. }
  assert (Hqs : sumR (fun y => q x y * eps) S0 <= eps).
  { rewrite sumR_mult_r. rewrite <- (Rmult_1_l eps) at 2. apply Rmult_le_compat_r; [exact He|now apply q_le]. }
  set (s' := sumR (fun z => q x z * A' x z) S0). set (s := sumR (fun z => q x z * A x z) S0).
  assert (Hs : Rabs (s' - s) <= eps).
  { unfold s', s. rewrite <- sumR_minus. eapply Rle_trans; [apply sumR_abs|]. eapply Rle_trans; [|exact Hqs]. now apply sumR_le_in. }
  apply Rle_trans with (sumR (fun y => q x y * eps + (if eqX y x then (fun _ => Rabs (s' - s)) y else 0)) S0).
  - apply sumR_le_in. intros y Hy. unfold kernel. fold s s'.
    replace (q x y * A' x y + (if eqX x y then 1 - s' else 0) - (q x y * A x y + (if eqX x y then 1 - s else 0))) with
      ((q x y * A' x y - q x y * A x y) + (if eqX x y then - (s' - s) else 0)) by (destruct (eqX x y); ring).
    eapply Rle_trans; [apply Rabs_triang|]. apply Rplus_le_compat; [now apply Hq|].
    destruct (eqX x y), (eqX y x); try congruence; [rewrite Rabs_Ropp; lra|rewrite Rabs_R0; lra].
  - rewrite sumR_plus, (sumR_delta eqX (fun _ => Rabs (s' - s)) x S0 S0_nodup Hx). lra.
Qed.
End Kernels.

(** ** Long runs *)
Section Long.
Context {X : Type}.
Variable eqX : forall x y : X, {x = y} + {x <> y}.
Variables (states S0 : list X) (b : X -> bool).
Hypothesis S0_def : S0 = filter b states.
Variables (L : X -> R) (q : X -> X -> R).
Hypothesis states_nodup : NoDup states.
Hypothesis Hq : proposal_distribution states q.
Local Notation K := (mh_kernel S0 eqX L q).
Local Notation p := (target S0 L).
Lemma S0_nodup : NoDup S0. Proof. rewrite S0_def. now apply NoDup_filter. Qed.
Lemma S0_states : forall x, In x S0 -> In x states. Proof. intros x Hx. rewrite S0_def in Hx. now apply filter_In in Hx. Qed.
Lemma q_le : forall x, In x S0 -> sumR (q x) S0 <= 1.
Proof.
  intros x Hx. eapply Rle_trans; [|right; exact (pd_sum _ _ Hq x (S0_states x Hx))]. rewrite S0_def. apply sumR_filter_le. intros; apply (pd_nonneg _ _ Hq).
Qed.
Lemma exact_nonneg : forall x y, In x S0 -> In y S0 -> 0 <= K x y.
Proof.
  intros x y Hx Hy. unfold mh_kernel, kernel.
  assert (HA : forall z, 0 <= q x z * Rmin 1 (mh_ratio L x z (q x z / q z x)) <= q x z).
  { intros z. destruct (pd_nonneg _ _ Hq x z) as [H|H]; [|rewrite <- H; lra]. pose proof (ratio_pos L q states Hq x z H) as Hr.
    pose proof (Rmin_l 1 (mh_ratio L x z (q x z / q z x))). assert (0 <= Rmin 1 (mh_ratio L x z (q x z / q z x))) by (apply Rmin_glb; lra).
    split; [apply Rmult_le_pos; lra|]. apply Rle_trans with (q x z * 1); [apply Rmult_le_compat_l; lra|lra]. }
  assert (sumR (fun z => q x z * Rmin 1 (mh_ratio L x z (q x z / q z x))) S0 <= 1).
  { eapply Rle_trans; [|exact (q_le x Hx)]. apply sumR_le_in. intros; apply HA. }
  pose proof (HA y). destruct (eqX x y); lra.
Qed.
Lemma exact_sum : forall x, In x S0 -> sumR (K x) S0 = 1.
Proof. intros x Hx. apply any_kernel_sum; [exact S0_nodup|exact Hx]. Qed.
Lemma exact_stationary : forall y, In y S0 -> sumR (fun x => p x * K x y) S0 = p y.
Proof.
  intros y Hy. unfold target.
  rewrite (sumR_ext_in _ (fun x => exp (L x) * K x y * / sumR (fun y => exp (L y)) S0)) by (intros; unfold Rdiv; ring).
  rewrite sumR_mult_r. unfold mh_kernel. rewrite (stationary eqX L q (pd_nonneg _ _ Hq) (pd_back _ _ Hq)) by (auto using S0_nodup). reflexivity.
Qed.
Lemma exact_pos : forall x y, In x S0 -> In y S0 -> 0 < q x y -> 0 < K x y.
Proof.
  intros x y Hx Hy H. unfold mh_kernel, kernel.
  assert (HA : forall z, q x z * Rmin 1 (mh_ratio L x z (q x z / q z x)) <= q x z).
  { intros z. pose proof (Rmin_l 1 (mh_ratio L x z (q x z / q z x))). pose proof (pd_nonneg _ _ Hq x z). apply Rle_trans with (q x z * 1); [apply Rmult_le_compat_l; lra|lra]. }
  assert (sumR (fun z => q x z * Rmin 1 (mh_ratio L x z (q x z / q z x))) S0 <= 1).
  { eapply Rle_trans; [|exact (q_le x Hx)]. apply sumR_le_in. intros; apply HA. }
  assert (0 < q x y * Rmin 1 (mh_ratio L x y (q x y / q y x))) by (apply Rmult_lt_0_compat; [exact H|]; apply Rmin_glb_lt; [lra|now apply ratio_pos with (states := states)]).
  destruct (eqX x y); lra.
Qed.

(** any acceptance probabilities close to those of the textbook *)
Section Approx.
Variables (A : X -> X -> R) (eps : R).
Hypothesis A_range : forall x y, In x S0 -> In y S0 -> 0 <= A x y <= 1.
Hypothesis A_close : forall x y, In x S0 -> In y S0 -> 0 < q x y -> Rabs (A x y - Rmin 1 (mh_ratio L x y (q x y / q y x))) <= eps.
Hypothesis eps_nonneg : 0 <= eps.
Local Notation K' := (kernel eqX S0 q A).
Lemma approx_nonneg : forall x y, In x S0 -> In y S0 -> 0 <= K' x y.
Proof. intros x y Hx Hy. apply any_kernel_nonneg; auto using q_le. apply (pd_nonneg _ _ Hq). Qed.
Lemma approx_sum : forall x, In x S0 -> sumR (K' x) S0 = 1.
Proof. intros x Hx. apply any_kernel_sum; auto using S0_nodup. Qed.
Lemma approx_close : forall x, In x S0 -> sumR (fun y => Rabs (K' x y - K x y)) S0 <= 2 * eps.
Proof.
  intros x Hx. unfold mh_kernel. apply (kernels_close eqX q S0 S0_nodup (pd_nonneg _ _ Hq) q_le); auto.
Qed.
Lemma approx_distribution : forall m d x0 y n, (0 < m)%nat -> 0 < d <= 1 -> (forall x y, In x S0 -> In y S0 -> d * p y <= step eqX S0 K m x y) ->
  In x0 S0 -> In y S0 -> Rabs (markov S0 K' n x0 (ends_at eqX x0 y) - p y) <= (1 - d) ^ (n / m) + 2 * (INR m / d) * eps.
Proof.
  intros m d x0 y n Hm Hd Hmin Hx0 Hy.
  assert (Hne : S0 <> []) by (intros H; rewrite H in Hx0; contradiction).
  replace (markov S0 K' n x0 (ends_at eqX x0 y)) with (it S0 K' n (delta eqX y) x0) by (symmetry; exact (markov_last S0 K' n x0 (delta eqX y))).
  rewrite <- (mean_delta eqX L S0 S0_nodup y Hy).
  eapply Rle_trans; [apply (perturbed_distribution eqX S0 S0_nodup K K' p (2 * eps) exact_nonneg exact_sum approx_nonneg approx_sum (t_sum L S0 Hne) exact_stationary approx_close m d Hm Hd Hmin n (delta eqX y) 1 x0 Hx0)|].
  - intros x Hx. rewrite (mean_delta eqX L S0 S0_nodup y Hy). pose proof (p_pos L S0 y Hy). pose proof (t_le_1 L S0 y Hy). unfold delta. apply Rabs_le. destruct (eqX x y); lra.
  - right. ring.
Qed.
Lemma approx_averages : forall m d f B x0 n, 0 < d -> (forall x y, In x S0 -> In y S0 -> d * p y <= Qstep eqX S0 K m x y) ->
  within S0 B (fun y => f y - mean_in S0 p f) -> In x0 S0 -> (0 < n)%nat ->
  markov S0 K' n x0 (fun l => (sample_average f l - mean_in S0 p f) ^ 2) <= (INR m * B / d) ^ 2 * (44 / INR n + 16 * eps ^ 2).
Proof.
  intros m d f B x0 n Hd Hmin HB Hx0 Hn.
  assert (Hne : S0 <> []) by (intros H; rewrite H in Hx0; contradiction).
  assert (HI : 0 < INR n) by (apply lt_0_INR; exact Hn).
  set (mu := mean_in S0 p f) in *. set (fc := fun y => f y - mu).
  rewrite (markov_ext S0 K' n x0 _ (fun l => / INR n ^ 2 * (sumR fc l) ^ 2 + (fun _ => 0) l)).
  2:{ intros l Hl. unfold sample_average, fc. rewrite sumR_center, Hl. field. lra. }
  rewrite markov_lin, (markov_const S0 K' approx_sum) by assumption. rewrite Rplus_0_r.
  assert (Hmean : mean_in S0 p fc = 0).
  { unfold fc, mu. unfold mean_in at 1. rewrite (sumR_ext_in _ (fun x => p x * f x - p x * mean_in S0 p f)) by (intros; ring).
    rewrite sumR_minus, sumR_mult_r, t_sum by exact Hne. unfold mean_in. ring. }
  pose proof (perturbed_square eqX S0 S0_nodup K K' p (2 * eps) exact_nonneg exact_sum approx_nonneg approx_sum (t_sum L S0 Hne) exact_stationary approx_close m d Hd Hmin fc B Hmean HB n x0 Hn Hx0) as HS.
  apply Rmult_le_reg_l with (INR n ^ 2); [apply pow_lt; exact HI|]. rewrite <- Rmult_assoc, Rinv_r, Rmult_1_l by (apply pow_nonzero; lra).
  eapply Rle_trans; [exact HS|]. right. field. lra.
Qed.
End Approx.
End Long.

(** ** Runs of the code *)
Section Top.
Context {X : Type}.
Variable eqX : forall x y : X, {x = y} + {x <> y}.
Variables (L : X -> R) (q : X -> X -> R) (states : list X) (can : X -> bool).
Hypothesis states_nodup : NoDup states.
Hypothesis Hq : proposal_distribution states q.
Local Notation S0 := (filter can states).
Local Notation p := (target S0 L).

Lemma run_law_can : forall (D : Type) (O : dops D) ll rho us, us <> [] -> (forall x, In x states -> possible O ll x = can x) ->
  forall x0 n g, In x0 S0 -> dexpectation O ll rho q us states x0 n g = markov S0 (kernel eqX S0 q (acceptance O ll rho us eqX)) n x0 g.
Proof.
  intros D O ll rho us Hus Hcan x0 n g Hx0.
  assert (HS : filter (possible O ll) states = S0) by (apply filter_ext_in; exact Hcan).
  rewrite (run_dlaw eqX O ll rho q us states Hus states_nodup (pd_sum _ _ Hq) x0); [now rewrite HS|now rewrite HS].
Qed.
Theorem prec_distribution : forall m, (0 < m)%nat -> (forall x y, In x S0 -> In y S0 -> reaches S0 q m x y) ->
  exists d C, 0 < d <= 1 /\ forall (D : Type) (O : dops D) ll rho us eps, us <> [] -> 0 <= eps ->
  (forall x, In x states -> possible O ll x = can x) -> accepts_up_to eqX O ll rho us L q S0 eps ->
  forall x0 y n, In x0 S0 -> In y S0 ->
  Rabs (dexpectation O ll rho q us states x0 n (ends_at eqX x0 y) - p y) <= (1 - d) ^ (n / m) + C * eps.
Proof.
  intros m Hm Hr. destruct S0 as [|s0 l0] eqn:Es.
  { exists 1, 0. split; [lra|]. intros. contradiction. }
  rewrite <- Es in *. assert (Hs0 : In s0 S0) by (rewrite Es; now left).
  assert (Hne : S0 <> []) by (rewrite Es; discriminate).
  set (K := mh_kernel S0 eqX L q).
  assert (HKn := exact_nonneg eqX states S0 can eq_refl L q Hq). assert (HKs := exact_sum eqX states S0 can eq_refl L q states_nodup).
  assert (HKp := exact_pos eqX states S0 can eq_refl L q Hq).
  destruct (lower_bound (fun xy => step eqX S0 K m (fst xy) (snd xy)) (list_prod S0 S0)) as (d & Hd & Hl).
  { intros [x y] Hxy. apply in_prod_iff in Hxy. destruct Hxy. cbn [fst snd]. apply (c_reaches_pos eqX S0 K HKn q HKp); auto. }
  assert (Hmin : forall x y, In x S0 -> In y S0 -> d * p y <= step eqX S0 K m x y).
  { intros x y Hx Hy. eapply Rle_trans; [|apply (Hl (x, y)); apply in_prod; assumption].
    rewrite <- (Rmult_1_r d) at 2. apply Rmult_le_compat_l; [lra|now apply t_le_1]. }
  assert (Hd1 : d <= 1).
  { assert (HT : sumR (step eqX S0 K m s0) S0 = 1) by (apply step_sum; auto; now apply NoDup_filter).
    rewrite <- HT. rewrite <- (Rmult_1_r d), <- (t_sum L S0 Hne), <- sumR_scal. apply sumR_le_in. intros y Hy. now apply Hmin. }
  exists d, (2 * (INR m / d)). split; [lra|]. intros D O ll rho us eps Hus He Hcan Hacc x0 y n Hx0 Hy.
  rewrite (run_law_can D O ll rho us Hus Hcan) by exact Hx0.
  apply (approx_distribution eqX states S0 can eq_refl L q states_nodup Hq); auto.
  intros x z _ _. now apply A_range.
Qed.
Theorem prec_averages : (forall x y, In x S0 -> In y S0 -> exists k, reaches S0 q k x y) ->
  forall f, exists C, forall (D : Type) (O : dops D) ll rho us eps, us <> [] -> 0 <= eps ->
  (forall x, In x states -> possible O ll x = can x) -> accepts_up_to eqX O ll rho us L q S0 eps ->
  forall x0 n, In x0 S0 -> (0 < n)%nat ->
  dexpectation O ll rho q us states x0 n (fun l => (sample_average f l - mean_in S0 p f) ^ 2) <= C * (/ INR n + eps ^ 2).
Proof.
  intros Hr f.
  assert (HKn := exact_nonneg eqX states S0 can eq_refl L q Hq).
  assert (HKp := exact_pos eqX states S0 can eq_refl L q Hq).
  destruct (c_minorization eqX L S0 _ HKn q HKp Hr) as (m & d & Hd & Hmin).
  set (B := norm S0 (fun x => f x - mean_in S0 p f)). exists ((INR m * B / d) ^ 2 * 44).
  intros D O ll rho us eps Hus He Hcan Hacc x0 n Hx0 Hn.
  rewrite (run_law_can D O ll rho us Hus Hcan) by exact Hx0.
  eapply Rle_trans; [apply (approx_averages eqX states S0 can eq_refl L q states_nodup Hq _ eps) with (m := m) (d := d) (B := B); auto|].
  - intros x z _ _. now apply A_range.
  - apply norm_within.
  - rewrite Rmult_assoc. apply Rmult_le_compat_l; [apply pow2_ge_0|]. pose proof (pow2_ge_0 eps). unfold Rdiv. lra.
Qed.
(** the same for what MeanValue computes *)
Lemma prec_estimate : forall (D : Type) (O : dops D) ll rho us, us <> [] -> (forall x, In x states -> possible O ll x = can x) ->
  forall (F : R -> R) f x0 n, In x0 S0 -> (0 < n)%nat -> (N.of_nat n < two64)%N ->
  dexpectation O ll rho q us states x0 n (fun l => F (estimate f l)) = dexpectation O ll rho q us states x0 n (fun l => F (sample_average f l)).
Proof.
  intros D O ll rho us Hus Hcan F f x0 n Hx0 Hn Hn64. rewrite !(run_law_can D O ll rho us Hus Hcan) by exact Hx0.
  apply markov_ext. intros l Hl. rewrite estimate_mean; [reflexivity| |now rewrite Hl]. intros ->. clear - Hl Hn. cbn in Hl. lia.
Qed.
End Top.

(** ** The acceptance test in floating point arithmetic *)
Lemma min_close : forall r v eta tau, 0 < r -> 0 <= eta -> 0 <= tau -> v <= r * exp eta + tau -> r * exp (- eta) - tau <= v ->
  Rabs (Rmin 1 v - Rmin 1 r) <= eta + tau.
Proof.
  intros r v eta tau Hr He Ht H1 H2.
  assert (Hn : 1 - eta <= exp (- eta)) by (pose proof (exp_ineq1_le (- eta)); lra).
  assert (Hp : 0 < exp (- eta)) by apply exp_pos.
  assert (Hi : exp eta * exp (- eta) = 1) by (rewrite <- exp_plus, Rplus_opp_r; apply exp_0).
  assert (He1 : 1 <= exp eta) by (pose proof (exp_ineq1_le eta); lra).
  assert (Hn1 : exp (- eta) <= 1) by nra.
  apply Rabs_le. split.
  - (* min 1 r <= min 1 v + eta + tau *)
    unfold Rmin. destruct (Rle_dec 1 v), (Rle_dec 1 r); try lra; nra.
  - unfold Rmin. destruct (Rle_dec 1 v), (Rle_dec 1 r); try lra.
    + (* 1 <= v, r < 1 *) assert (1 <= r * exp eta + tau) by lra.
      assert ((1 - tau) * exp (- eta) <= r). { replace r with (r * exp eta * exp (- eta)) by (rewrite Rmult_assoc, Hi; ring). apply Rmult_le_compat_r; lra. }
      nra.
    + assert (v - tau <= r * exp eta) by lra.
      assert ((v - tau) * exp (- eta) <= r). { replace r with (r * exp eta * exp (- eta)) by (rewrite Rmult_assoc, Hi; ring). apply Rmult_le_compat_r; lra. }
      destruct (Rle_dec 0 (v - tau)); nra.
Qed.

Lemma Rabs_le_inv : forall a b, Rabs a <= b -> - b <= a <= b.
Proof. intros a b H. now apply Rabs_le_between. Qed.
Lemma exp_up : forall d, 0 <= d <= 1/8 -> (1 + d) * (1 + d) <= exp (4 * d).
Proof. intros d Hd. pose proof (exp_ineq1_le (4 * d)). nra. Qed.
Lemma exp_down : forall d, 0 <= d <= 1/8 -> exp (- (2 * d)) <= 1 - d.
Proof.
  intros d Hd. pose proof (exp_ineq1_le (2 * d)). rewrite exp_Ropp. pose proof (exp_pos (2 * d)).
  apply Rmult_le_reg_l with (exp (2 * d)); [assumption|]. rewrite Rinv_r by lra.
  assert ((1 + 2 * d) * (1 - d) <= exp (2 * d) * (1 - d)) by (apply Rmult_le_compat_r; lra). nra.
Qed.
Section Accurate.
Context {X D : Type}.
Variable eqX : forall x y : X, {x = y} + {x <> y}.
Variables (val : D -> R) (finite : D -> Prop) (O : dops D) (delta tau big : R).
Hypothesis HO : accurate val finite O delta tau big.
Variables (ll : X -> D) (rho : X -> X -> D) (L : X -> R) (q : X -> X -> R) (S0 : list X) (bound ratio lambda kappa gamma : R).
Hypothesis Hcc : close_callbacks val finite ll rho L q S0 bound ratio lambda kappa.
Hypothesis q_pos_back : forall x y, 0 < q x y -> 0 < q y x.
Hypothesis S0_possible : forall x, In x S0 -> possible O ll x = true.
Variable us : list D.
Hypothesis us_finite : forall u, In u us -> finite u.
Hypothesis us_uniform : uniform_up_to gamma (map val us).
Hypothesis delta_range : 0 <= delta <= 1/8.
Hypothesis tau_range : 0 <= tau <= 1/8.
Hypothesis ratio_nonneg : 0 <= ratio.
Hypothesis tau_ratio : tau * exp ratio <= 1.
Hypothesis delta_small : delta * (3 * bound + 3 * ratio + 5) <= 1/2.
Hypothesis big1 : 2 * bound <= big.
Hypothesis big2 : bound + 2 * ratio + 1 <= big.
Hypothesis big3 : exp (ratio + 1) <= big.
Hypothesis big4 : 8 <= big.
Definition the_eps : R := gamma + 2 * lambda + kappa + delta * (2 * bound + 3 * ratio + 5) + tau * (2 * exp ratio + 4).

Lemma sumR_map : forall {A B} (f : B -> R) (h : A -> B) l, sumR f (map h l) = sumR (fun a => f (h a)) l.
Proof. intros A B f h l. induction l as [|a l IH]; [reflexivity|]. cbn. now rewrite IH. Qed.
Lemma gamma_nonneg : 0 <= gamma.
Proof. destruct us_uniform as (_ & _ & H). eapply Rle_trans; [apply Rabs_pos|exact (H 0 ltac:(lra))]. Qed.
Lemma fraction_one : forall (f : D -> R), us <> [] -> (forall u, In u us -> f u = 1) -> sumR f us / INR (length us) = 1.
Proof.
  intros f Hne H. rewrite (sumR_ext_in f (fun _ => 1)) by exact H.
  assert (Hc : sumR (fun _ : D => 1) us = INR (length us)).
  { clear. induction us as [|u l IH]; [reflexivity|]. cbn [sumR length]. rewrite IH, S_INR. ring. }
  rewrite Hc. apply Rinv_r. apply not_0_INR. destruct us; [contradiction|cbn; lia].
Qed.

Theorem accurate_acceptance : accepts_up_to eqX O ll rho us L q S0 the_eps.
Proof.
  intros x y Hx Hy Hxy. set (r := mh_ratio L x y (q x y / q y x)).
  destruct (cc_ll _ _ _ _ _ _ _ _ _ _ _ Hcc x Hx) as (Fx & Bx & Ex). destruct (cc_ll _ _ _ _ _ _ _ _ _ _ _ Hcc y Hy) as (Fy & By & Ey).
  destruct (cc_rho _ _ _ _ _ _ _ _ _ _ _ Hcc x y Hx Hy Hxy) as (Fr & Pr & Br & Er).
  set (lx := val (ll x)) in *. set (ly := val (ll y)) in *. set (ro := val (rho x y)) in *.
  assert (Hb0 : 0 <= bound) by (eapply Rle_trans; [apply Rabs_pos|exact Bx]).
  assert (Hl0 : 0 <= lambda) by (eapply Rle_trans; [apply Rabs_pos|exact Ex]).
  assert (Hk0 : 0 <= kappa) by (eapply Rle_trans; [apply Rabs_pos|exact Er]).
  pose proof gamma_nonneg as Hg0.
  assert (Hqr : 0 < q x y / q y x) by (apply Rdiv_lt_0_compat; auto).
  assert (Hr : r = exp (L y - L x - ln (q x y / q y x))).
  { unfold r, mh_ratio, Rminus. rewrite !exp_plus, !exp_Ropp, exp_ln by exact Hqr. pose proof (exp_pos (L x)). pose proof (q_pos_back x y Hxy). field. lra. }
  assert (Hrp : 0 < r) by (rewrite Hr; apply exp_pos).
  assert (HE : 0 < exp ratio) by apply exp_pos.
  assert (Hti : / ro <= exp ratio).
  { rewrite <- (exp_ln ro Pr), <- exp_Ropp. apply Rabs_le_inv in Br. destruct (Req_dec (- ln ro) ratio) as [->|Hne]; [lra|]. apply Rlt_le, exp_increasing. lra. }
  assert (Hd1 : 0 <= delta * bound) by (apply Rmult_le_pos; lra). assert (Hd2 : 0 <= delta * ratio) by (apply Rmult_le_pos; lra).
  assert (Ht1 : 0 <= tau * exp ratio) by (apply Rmult_le_pos; lra).
  assert (Hus : us <> []) by (destruct us_uniform as (H & _); intros ->; now apply H).
  assert (Heps : the_eps = gamma + 2 * lambda + kappa + (2 * (delta * bound) + 3 * (delta * ratio) + 5 * delta) + (2 * (tau * exp ratio) + 4 * tau)) by (unfold the_eps; ring).
  assert (Hds : 3 * (delta * bound) + 3 * (delta * ratio) + 5 * delta <= 1/2) by lra.
  destruct (eqX x y) as [<-|Hne].
  { (* the proposal is where the chain is *)
    unfold acceptance. rewrite fraction_one; [|exact Hus|].
    2:{ intros u _. rewrite (current_one O ll rho x x u (S0_possible x Hx)). unfold dnext. destruct (decision _ _ _ _ _ _); destruct (eqX x x); congruence. }
    assert (r = 1). { rewrite Hr. unfold Rdiv. rewrite Rinv_r by lra. rewrite ln_1. replace (L x - L x - 0) with 0 by ring. apply exp_0. }
    rewrite H, Rmin_left by lra. unfold Rminus. rewrite Rplus_opp_r, Rabs_R0. lra. }
  assert (HA : acceptance O ll rho us eqX x y = sumR (fun u => if decision O ll rho x y u then 1 else 0) us / INR (length us)).
  { unfold acceptance. f_equal. apply sumR_ext_in. intros u _. rewrite (current_one O ll rho x y u (S0_possible x Hx)). unfold dnext.
    destruct (decision O ll rho x y u); destruct (eqX _ _); congruence. }
  rewrite HA. unfold decision. rewrite (S0_possible y Hy). clear HA.
  destruct (a_log _ _ _ _ _ _ HO (rho x y) Fr Pr) as (Fc & Ec). set (c := val (d_log O (rho x y))) in *. fold ro in Ec.
  assert (Hlnb : delta * Rabs (ln ro) <= delta * ratio) by (apply Rmult_le_compat_l; lra).
  assert (Hcr : delta * ratio <= 1/8 * ratio) by (apply Rmult_le_compat_r; lra).
  apply Rabs_le_inv in Ec. apply Rabs_le_inv in Br. apply Rabs_le_inv in Bx. apply Rabs_le_inv in By. apply Rabs_le_inv in Ex. apply Rabs_le_inv in Ey. apply Rabs_le_inv in Er.
  assert (Hlc : Rabs (ly - c) <= bound + 2 * ratio + 1) by (apply Rabs_le; lra).
  destruct (a_sub _ _ _ _ _ _ HO (ll y) (d_log O (rho x y)) Fy Fc) as (Ft & Et); [fold ly; fold c; lra|].
  set (t := val (d_sub O (ll y) (d_log O (rho x y)))) in *. fold ly in Et. fold c in Et.
  assert (Hdlc : delta * Rabs (ly - c) <= delta * bound + 2 * (delta * ratio) + delta).
  { apply Rle_trans with (delta * (bound + 2 * ratio + 1)); [apply Rmult_le_compat_l; lra|lra]. }
  apply Rabs_le_inv in Et.
  rewrite (a_gt _ _ _ _ _ _ HO _ _ Ft Fx). fold t. fold lx.
  set (lr := L y - L x - ln (q x y / q y x)) in *.
  destruct (Rlt_dec lx t) as [Hacc|Hrej].
  { (* accepted by the first test *)
    rewrite fraction_one by (auto). assert (Hlr : - (2 * lambda + kappa + (delta * bound + 3 * (delta * ratio) + delta + 2 * tau)) <= lr) by (unfold lr; lra).
    assert (Hr1 : 1 - (2 * lambda + kappa + (delta * bound + 3 * (delta * ratio) + delta + 2 * tau)) <= r).
    { rewrite Hr. pose proof (exp_ineq1_le lr). lra. }
    apply Rabs_le. unfold Rmin. destruct (Rle_dec 1 r); lra. }
  destruct (a_sub _ _ _ _ _ _ HO (ll y) (ll x) Fy Fx) as (Fs & Es); [fold ly; fold lx; apply Rle_trans with (2 * bound); [apply Rabs_le; lra|lra]|].
  set (s := val (d_sub O (ll y) (ll x))) in *. fold ly in Es. fold lx in Es.
  assert (Hds2 : delta * Rabs (ly - lx) <= 2 * (delta * bound)).
  { replace (2 * (delta * bound)) with (delta * (2 * bound)) by ring. apply Rmult_le_compat_l; [lra|]. apply Rabs_le; lra. }
  apply Rabs_le_inv in Es.
  assert (Hsro : s - ln ro <= 1) by lra.
  assert (Hexps : exp s <= ro * exp 1).
  { rewrite <- (exp_ln ro Pr) at 1. rewrite <- exp_plus. destruct (Req_dec s (ln ro + 1)) as [->|Hn]; [lra|]. apply Rlt_le, exp_increasing. lra. }
  assert (Hexpb : exp s <= big).
  { eapply Rle_trans; [|exact big3]. destruct (Req_dec s (ratio + 1)) as [->|Hn]; [lra|]. apply Rlt_le, exp_increasing. lra. }
  destruct (a_exp _ _ _ _ _ _ HO (d_sub O (ll y) (ll x)) Fs Hexpb) as (Fe & Pe & Ee). fold s in Ee. set (ex := val (d_exp O (d_sub O (ll y) (ll x)))) in *.
  set (w := exp s / ro). assert (Hw : 0 < w) by (apply Rdiv_lt_0_compat; [apply exp_pos|exact Pr]).
  assert (Hw3 : w <= 3).
  { unfold w. apply Rmult_le_reg_r with ro; [exact Pr|]. unfold Rdiv. rewrite Rmult_assoc, Rinv_l, Rmult_1_r by lra. pose proof exp_le_3.
    apply Rle_trans with (ro * exp 1); [exact Hexps|]. rewrite (Rmult_comm 3). apply Rmult_le_compat_l; lra. }
  assert (Htr : 0 <= tau / ro <= tau * exp ratio).
  { split; [apply Rmult_le_pos; [lra|apply Rlt_le, Rinv_0_lt_compat, Pr]|apply Rmult_le_compat_l; lra]. }
  apply Rabs_le_inv in Ee.
  assert (Hex : w * (1 - delta) - tau / ro <= ex / ro <= w * (1 + delta) + tau / ro).
  { unfold w. split.
    - replace (exp s / ro * (1 - delta) - tau / ro) with ((exp s * (1 - delta) - tau) * / ro) by (unfold Rdiv; ring). apply Rmult_le_compat_r; [apply Rlt_le, Rinv_0_lt_compat, Pr|lra].
    - replace (exp s / ro * (1 + delta) + tau / ro) with ((exp s * (1 + delta) + tau) * / ro) by (unfold Rdiv; ring). apply Rmult_le_compat_r; [apply Rlt_le, Rinv_0_lt_compat, Pr|lra]. }
  assert (Hexr : 0 <= ex / ro) by (apply Rmult_le_pos; [exact Pe|apply Rlt_le, Rinv_0_lt_compat, Pr]).
  assert (Hwd : 0 <= w * delta <= 3 * (1/8)) by (split; [apply Rmult_le_pos; lra|apply Rmult_le_compat; lra]).
  destruct (a_div _ _ _ _ _ _ HO (d_exp O (d_sub O (ll y) (ll x))) (rho x y) Fe Fr Pr) as (Fv & Ev); [fold ex; fold ro; rewrite Rabs_pos_eq by exact Hexr; lra|].
  fold ex in Ev. fold ro in Ev. set (v := val (d_div O (d_exp O (d_sub O (ll y) (ll x))) (rho x y))) in *.
  rewrite (Rabs_pos_eq (ex / ro)) in Ev by exact Hexr. apply Rabs_le_inv in Ev.
  (* v is close to w *)
  assert (Hv1 : v <= w * exp (4 * delta) + (2 * (tau * exp ratio) + tau)).
  { assert (H1 : ex / ro * (1 + delta) <= (w * (1 + delta) + tau / ro) * (1 + delta)) by (apply Rmult_le_compat_r; lra).
    assert (H2 : tau / ro * (1 + delta) <= 2 * (tau * exp ratio)) by (apply Rle_trans with (tau / ro * 2); [apply Rmult_le_compat_l; lra|lra]).
    assert (H3 : (1 + delta) * (1 + delta) <= exp (4 * delta)) by (apply exp_up; lra).
    assert (H4 : w * ((1 + delta) * (1 + delta)) <= w * exp (4 * delta)) by (apply Rmult_le_compat_l; lra). lra. }
  assert (Hv2 : w * exp (- (4 * delta)) - (2 * (tau * exp ratio) + tau) <= v).
  { assert (H1 : (w * (1 - delta) - tau / ro) * (1 - delta) <= ex / ro * (1 - delta)) by (apply Rmult_le_compat_r; lra).
    assert (H2 : tau / ro * (1 - delta) <= tau / ro) by (rewrite <- (Rmult_1_r (tau / ro)) at 2; apply Rmult_le_compat_l; lra).
    assert (H3 : exp (- (4 * delta)) <= (1 - delta) * (1 - delta)).
    { replace (- (4 * delta)) with (- (2 * delta) + - (2 * delta)) by ring. rewrite exp_plus.
      pose proof (exp_down delta delta_range).
      pose proof (exp_pos (- (2 * delta))). apply Rmult_le_compat; lra. }
    assert (H4 : w * exp (- (4 * delta)) <= w * ((1 - delta) * (1 - delta))) by (apply Rmult_le_compat_l; lra). lra. }
  (* w is close to r *)
  set (th := 2 * lambda + kappa + 2 * (delta * bound) + tau).
  assert (Hwr : w = r * exp (s - (ly - lx) + (ly - L y) - (lx - L x) - (ln ro - ln (q x y / q y x)))).
  { rewrite Hr, <- exp_plus. unfold w, Rdiv. rewrite <- (exp_ln ro Pr) at 1. rewrite <- exp_Ropp, <- exp_plus. apply (f_equal exp). unfold lr. unfold Rdiv. ring. }
  set (z := s - (ly - lx) + (ly - L y) - (lx - L x) - (ln ro - ln (q x y / q y x))) in *.
  assert (Hz : - th <= z <= th) by (unfold z, th; lra).
  assert (Hmono : forall a b : R, a <= b -> exp a <= exp b) by (intros a b [H|H]; [apply Rlt_le; now apply exp_increasing|rewrite H; lra]).
  assert (Hm := min_close r v (th + 4 * delta) (2 * (tau * exp ratio) + tau) Hrp ltac:(unfold th; lra) ltac:(lra)).
  assert (Hmm : Rabs (Rmin 1 v - Rmin 1 r) <= th + 4 * delta + (2 * (tau * exp ratio) + tau)).
  { apply Hm.
    - eapply Rle_trans; [exact Hv1|]. rewrite Hwr, Rmult_assoc, <- exp_plus. apply Rplus_le_compat_r, Rmult_le_compat_l; [lra|]. apply Hmono. lra.
    - eapply Rle_trans; [|exact Hv2]. rewrite Hwr, Rmult_assoc, <- exp_plus. apply Rplus_le_compat_r, Rmult_le_compat_l; [lra|]. apply Hmono. lra. }
  clear Hm. apply Rabs_le_inv in Hmm.
  (* the fraction of the random numbers *)
  destruct us_uniform as (_ & Hu01 & Hun).
  assert (Hsum : forall a, sumR (fun u => if Rle_dec u a then 1 else 0) (map val us) / INR (length (map val us)) = sumR (fun u => if Rle_dec (val u) a then 1 else 0) us / INR (length us)).
  { intros a. now rewrite sumR_map, map_length. }
  rewrite (sumR_ext_in _ (fun u => if Rle_dec (val u) v then 1 else 0)).
  2:{ intros u Hu. rewrite (a_ge _ _ _ _ _ _ HO _ _ Fv (us_finite u Hu)). fold v. destruct (Rle_dec (val u) v); reflexivity. }
  rewrite <- Hsum.
  assert (Hrange : 0 < Rmin 1 r <= 1) by (split; [apply Rmin_glb_lt; lra|apply Rmin_l]).
  destruct (Rlt_dec v 0) as [Hv|Hv]; [|destruct (Rle_dec v 1) as [Hv'|Hv']].
  - (* no random number is accepted *)
    rewrite (sumR_ext_in _ (fun _ => 0)). 2:{ intros u Hu. destruct (Hu01 u Hu). destruct (Rle_dec u v); lra. }
    rewrite sumR_zero. unfold Rdiv. rewrite Rmult_0_l. rewrite (Rmin_right 1 v) in Hmm by lra. apply Rabs_le. unfold th in *. lra.
  - specialize (Hun v ltac:(lra)). apply Rabs_le_inv in Hun. rewrite (Rmin_right 1 v) in Hmm by lra. apply Rabs_le. unfold th in *. lra.
  - rewrite Hsum, fraction_one; [|exact Hus|].
    2:{ intros u Hu. destruct (Hu01 (val u) (in_map val us u Hu)). destruct (Rle_dec (val u) v); lra. }
    rewrite (Rmin_left 1 v) in Hmm by lra. apply Rabs_le. unfold th in *. lra.
Qed.
End Accurate.
