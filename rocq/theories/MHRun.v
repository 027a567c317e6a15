(** Proofs: runs of MetropolisHastings are the textbook Markov chain. *)
From Coq Require Import Reals Lra Lia Field.
From Coquelicot Require Import Coquelicot.
From Verif Require StatsTop.
From Verif Require Import Prelude ConsumerModel ProducerModel ProducerSpec ProducerProofs XReal MHSpec MHProofs StatsModel StatsSpec StatsInst MHRunSpec DEStat MarkovFinite.
Import ListNotations.
Local Open Scope R_scope.
Local Open Scope list_scope.
Local Notation length := List.length.

Section Run.
Context {X : Type}.
Variable eqX : forall x y : X, {x = y} + {x <> y}.
Variables (ll : X -> R) (q : X -> X -> R) (states : list X).
Hypothesis states_nodup : NoDup states.
Hypothesis ll_nonzero : forall x, nonzero (ll x).
Hypothesis Hq : proposal_distribution states q.

Local Notation ratio x y := (mh_ratio ll x y (q x y / q y x)).
Definition next (x y : X) (u : R) : X := if Rle_dec u (ratio x y) then y else x.
Fixpoint chain (x : X) (script : list (X * R)) : list X :=
  match script with [] => [] | (y, u) :: s => next x y u :: chain (next x y u) s end.
Fixpoint ok (x : X) (script : list (X * R)) : Prop :=
  match script with [] => True | (y, u) :: s => In y states /\ 0 < q x y /\ 0 <= u < 1 /\ ok (next x y u) s end.

Lemma q_back : forall x y, 0 < q x y -> 0 < q y x.
Proof.
  intros x y H. destruct (pd_nonneg _ _ Hq y x) as [|H0]; [assumption|]. symmetry in H0. apply (pd_back _ _ Hq) in H0. lra.
Qed.
Lemma q_ratio : forall x y, 0 < q x y -> 0 < q x y / q y x.
Proof. intros x y H. apply Rdiv_lt_0_compat; [exact H|now apply q_back]. Qed.
Lemma ratio_pos : forall x y, 0 < q x y -> 0 < ratio x y.
Proof.
  intros x y H. unfold mh_ratio. apply Rdiv_lt_0_compat; [apply exp_pos|]. apply Rmult_lt_0_compat; [apply exp_pos|now apply q_ratio].
Qed.
Lemma n_proposed_app : forall s t : trace X xr, n_proposed (s ++ t) = (n_proposed s + n_proposed t)%nat.
Proof. intros. unfold n_proposed. now rewrite filter_app, app_length. Qed.

Lemma loop_chain : forall rest pre x t, n_proposed t = length pre -> ok x rest ->
  exists t', mh_loop xops (scripted ll q (pre ++ rest)) (length rest) x (XFin (ll x)) t = (t', RVal tt) /\
    map fst (issued t') = map fst (issued t) ++ chain x rest.
Proof.
  induction rest as [|[y u] rest IH]; intros pre x t Ht Hok; cbn [length mh_loop chain].
  - exists t. split; [reflexivity|]. now rewrite app_nil_r.
  - destruct Hok as (Hy & Hxy & Hu & Hok). set (E := scripted ll q (pre ++ (y, u) :: rest)).
    assert (Hn : nth_error (pre ++ (y, u) :: rest) (n_proposed t) = Some (y, u)) by (rewrite Ht, nth_error_app2, Nat.sub_diag by lia; reflexivity).
    unfold mbind at 1. unfold propose_sample, call. cbn [e_prop E scripted]. rewrite Hn.
    unfold mbind at 1. unfold log_likelihood, call. cbn [e_ll E scripted].
    unfold mbind at 1. rewrite mh_accept_finite by (auto using q_ratio).
    fold (mh_ratio ll x y (q x y / q y x)). fold E.
    set (t2 := (t ++ [EPropose x []]) ++ [EEval y]).
    assert (Hn2 : n_proposed t2 = S (length pre)).
    { unfold t2. rewrite !n_proposed_app, Ht. cbn. lia. }
    assert (Hun : e_unif E t2 = XFin u).
    { cbn [e_unif E scripted]. rewrite Hn2. cbn [Nat.sub]. rewrite Nat.sub_0_r, <- Ht, Hn. reflexivity. }
    set (z := next x y u).
    assert (Hstep : exists t3, n_proposed t3 = S (length pre) /\ issued t3 = issued t /\
      (if Rlt_dec 1 (ratio x y) then (t2, RVal true) else (t2 ++ [EUnif], RVal (xge (XFin (ratio x y)) (e_unif E t2)))) =
      (t3, RVal (if Rle_dec u (ratio x y) then true else false))).
    { destruct (Rlt_dec 1 (ratio x y)) as [H1|H1].
      - exists t2. split; [exact Hn2|]. split; [unfold t2; rewrite !issued_app; cbn; now rewrite !app_nil_r|].
        destruct (Rle_dec u (ratio x y)); [reflexivity|lra].
      - exists (t2 ++ [EUnif]). split; [rewrite n_proposed_app, Hn2; cbn; lia|]. split; [unfold t2; rewrite !issued_app; cbn; now rewrite !app_nil_r|].
        rewrite Hun, xge_fin. reflexivity. }
    destruct Hstep as (t3 & Hn3 & Hi3 & Hst).
    match goal with |- context [let (t1, r) := ?e in _] => replace e with (t3, RVal (if Rle_dec u (ratio x y) then true else false)) by (symmetry; exact Hst) end.
    unfold mbind, issue_sample, call. cbn [e_issue E scripted].
    assert (Hz1 : (if if Rle_dec u (ratio x y) then true else false then y else x) = z) by (unfold z, next; destruct (Rle_dec u (ratio x y)); reflexivity).
    assert (Hz2 : (if if Rle_dec u (ratio x y) then true else false then XFin (ll y) else XFin (ll x)) = XFin (ll z)) by (unfold z, next; destruct (Rle_dec u (ratio x y)); reflexivity).
    rewrite Hz1, Hz2. set (a := [_; _]).
    destruct (IH (pre ++ [(y, u)]) z (t3 ++ [EIssue z a])) as (t' & Hl & Hm).
    + rewrite n_proposed_app, Hn3, app_length. cbn. lia.
    + exact Hok.
    + exists t'. rewrite <- app_assoc in Hl. cbn [app] in Hl. split; [exact Hl|].
      rewrite Hm, issued_app, Hi3, map_app. cbn. now rewrite <- app_assoc.
Qed.

Lemma run_chain : forall x0 script, ok x0 script -> snd (run ll q x0 script) = RVal tt /\ samples ll q x0 script = chain x0 script.
Proof.
  intros x0 script Hok. destruct (loop_chain script [] x0 [EEval x0] eq_refl Hok) as (t' & Hl & Hi). cbn [app] in Hl.
  assert (Hr : run ll q x0 script = ((t' ++ [EFlush]) ++ [EFlush], RVal tt)).
  { unfold run, mh_sample, with_scope_exit. unfold mbind at 1. unfold log_likelihood, call. cbn [e_ll scripted].
    unfold mbind. cbn [app]. rewrite Hl. reflexivity. }
  split; [now rewrite Hr|]. unfold samples. rewrite Hr. cbn [fst]. rewrite !issued_app. cbn. rewrite !app_nil_r. exact Hi.
Qed.

Lemma chain_snoc : forall s x y u, chain x (s ++ [(y, u)]) = chain x s ++ [next (last (chain x s) x) y u].
Proof.
  induction s as [|[y' u'] s IH]; intros x y u; [reflexivity|]. cbn [app chain]. rewrite IH. cbn [app]. f_equal. f_equal. f_equal. f_equal.
  symmetry. apply last_cons.
Qed.
Lemma ok_snoc : forall s x y u, ok x s -> In y states -> 0 < q (last (chain x s) x) y -> 0 <= u < 1 -> ok x (s ++ [(y, u)]).
Proof.
  induction s as [|[y' u'] s IH]; intros x y u Hok Hy Hp Hu; cbn [app ok chain] in *.
  - repeat split; auto; lra.
  - destruct Hok as (H1 & H2 & H3 & H4). rewrite last_cons in Hp. repeat split; auto; lra.
Qed.
Lemma chain_states : forall s x, In x states -> ok x s -> In (last (chain x s) x) states.
Proof.
  induction s as [|[y u] s IH]; intros x Hx Hok; cbn [ok chain] in *; [exact Hx|]. destruct Hok as (Hy & _ & _ & Hok). rewrite last_cons.
  apply IH; [|exact Hok]. unfold next. destruct (Rle_dec u (ratio x y)); assumption.
Qed.

Local Notation K := (mh_kernel states eqX ll q).

Lemma RInt_choice : forall r a b, 0 <= r -> is_RInt (fun u => if Rle_dec u r then a else b) 0 1 (Rmin 1 r * a + (1 - Rmin 1 r) * b).
Proof.
  intros r a b Hr. pose proof (RInt_indicator r Hr) as HI.
  apply (is_RInt_ext (V := R_NormedModule) (fun u => plus (scal (a - b) (if Rle_dec u r then 1 else 0)) b)).
  - intros u _. destruct (Rle_dec u r); cbv [plus scal]; cbn; cbv [mult]; cbn; ring.
  - replace (Rmin 1 r * a + (1 - Rmin 1 r) * b) with (plus (scal (a - b) (Rmin 1 r)) (scal (1 - 0) b)) by (cbv [plus scal]; cbn; cbv [mult]; cbn; ring).
    apply (is_RInt_plus (V := R_NormedModule)); [apply (is_RInt_scal (V := R_NormedModule)); exact HI|apply (is_RInt_const (V := R_NormedModule))].
Qed.

Theorem law : forall x0, In x0 states -> forall (g : list X -> R) n script, ok x0 script ->
  expects ll q x0 states n script (fun s => g (samples ll q x0 s))
    (markov states K n (current ll q x0 script) (fun l => g (samples ll q x0 script ++ l))).
Proof.
  intros x0 Hx0 g n. induction n as [|n IH]; intros script Hok.
  - cbn. now rewrite app_nil_r.
  - set (c := current ll q x0 script). set (S0 := samples ll q x0 script).
    assert (Hc : In c states). { unfold c, current. rewrite (proj2 (run_chain x0 script Hok)). now apply chain_states. }
    assert (Hcc : c = last (chain x0 script) x0). { unfold c, current. now rewrite (proj2 (run_chain x0 script Hok)). }
    set (va := fun y => markov states K n y (fun l => g (S0 ++ y :: l))).
    exists (fun y u => if Rle_dec u (ratio c y) then va y else va c).
    exists (fun y => Rmin 1 (ratio c y) * va y + (1 - Rmin 1 (ratio c y)) * va c).
    fold c. split; [|split].
    + intros y u Hy Hp Hu.
      assert (Hok' : ok x0 (script ++ [(y, u)])) by (apply ok_snoc; auto; now rewrite <- Hcc).
      assert (Hs : samples ll q x0 (script ++ [(y, u)]) = S0 ++ [next c y u]).
      { rewrite (proj2 (run_chain _ _ Hok')), chain_snoc, <- Hcc. unfold S0. now rewrite (proj2 (run_chain _ _ Hok)). }
      specialize (IH _ Hok'). unfold current in IH. rewrite Hs, last_last in IH.
      assert (He : forall z, markov states K n z (fun l => g ((S0 ++ [z]) ++ l)) = va z).
      { intros z. unfold va. apply markov_ext. intros l _. now rewrite <- app_assoc. }
      rewrite He in IH. revert IH. unfold next. destruct (Rle_dec u (ratio c y)); exact (fun H => H).
    + intros y Hy Hp. apply RInt_choice. now apply Rlt_le, ratio_pos.
    + cbn [markov]. fold va.
      change (fun y : X => K c y * markov states K n y (fun l : list X => g (S0 ++ y :: l))) with (fun y => K c y * va y).
      unfold mh_kernel, kernel. cbv beta. set (A := fun y => Rmin 1 (ratio c y)). set (s := sumR (fun z => q c z * A z) states).
      rewrite (sumR_ext_in _ (fun y => q c y * A y * va y + (if eqX y c then (1 - s) * va y else 0))).
      2:{ intros y _. change (Rmin 1 (ratio c y)) with (A y). change (sumR (fun z => q c z * Rmin 1 (ratio c z)) states) with s. destruct (eqX c y), (eqX y c); try congruence; ring. }
      rewrite sumR_plus, (sumR_delta eqX (fun y => (1 - s) * va y) c states states_nodup Hc).
      rewrite (sumR_ext_in (fun y => q c y * (_ + _)) (fun y => q c y * A y * va y + (q c y - q c y * A y) * va c)) by (intros; unfold A; ring).
      rewrite sumR_plus, sumR_mult_r, sumR_minus, (pd_sum _ _ Hq c Hc). reflexivity.
Qed.

Lemma expects_unique : forall x0 n script g v v', expects ll q x0 states n script g v -> expects ll q x0 states n script g v' -> v = v'.
Proof.
  intros x0 n. induction n as [|n IH]; intros script g v v' H H'; [cbn in *; congruence|].
  destruct H as (h & I & Hh & HI & ->). destruct H' as (h' & I' & Hh' & HI' & ->).
  apply sumR_ext_in. intros y Hy. destruct (pd_nonneg _ _ Hq (current ll q x0 script) y) as [Hp|Hp]; [|rewrite <- Hp; ring].
  f_equal. rewrite <- (is_RInt_unique (V := R_CompleteNormedModule) _ _ _ _ (HI y Hy Hp)).
  apply (is_RInt_unique (V := R_CompleteNormedModule)). apply (is_RInt_ext (V := R_NormedModule) (h' y)); [|exact (HI' y Hy Hp)].
  intros u Hu. rewrite Rmin_left, Rmax_right in Hu by lra. apply (IH (script ++ [(y, u)]) g); [apply Hh'|apply Hh]; auto; lra.
Qed.

Theorem run_law : forall x0, In x0 states -> forall n g, expectation ll q states x0 n g (markov states K n x0 g).
Proof.
  intros x0 Hx0 n g. pose proof (law x0 Hx0 g n [] Logic.I) as H.
  assert (Hs : samples ll q x0 [] = []) by (exact (proj2 (run_chain x0 [] Logic.I))).
  unfold current in H. rewrite Hs in H. cbn [last app] in H. split; [exact H|].
  intros v' Hv'. exact (expects_unique _ _ _ _ _ _ Hv' H).
Qed.
(** every run with possible proposals ends normally *)
Lemma run_ends : forall x0 script, ok x0 script -> snd (run ll q x0 script) = RVal tt.
Proof. intros x0 script H. exact (proj1 (run_chain x0 script H)). Qed.

(** ** the kernel *)
Lemma q_sym0 : forall x y, q x y = 0 -> q y x = 0. Proof. exact (pd_back _ _ Hq). Qed.
Lemma K_nonneg : forall x y, In x states -> In y states -> 0 <= K x y.
Proof. intros x y Hx Hy. unfold mh_kernel. apply kernel_nonneg; [apply (pd_nonneg _ _ Hq)|apply q_sym0|now apply (pd_sum _ _ Hq)]. Qed.
Lemma K_sum : forall x, In x states -> sumR (K x) states = 1.
Proof. intros x Hx. exact (kernel_row_sum eqX ll q states x states_nodup Hx). Qed.
Local Notation p := (target states ll).
Lemma sum_exp_pos : forall x, In x states -> 0 < sumR (fun y => exp (ll y)) states.
Proof.
  intros x Hx. eapply Rlt_le_trans; [apply (exp_pos (ll x))|]. apply (sumR_member (fun y => exp (ll y)) states x); [intros; apply Rlt_le, exp_pos|exact Hx].
Qed.
Lemma p_pos : forall x, In x states -> 0 < p x.
Proof. intros x Hx. apply Rdiv_lt_0_compat; [apply exp_pos|now apply sum_exp_pos with x]. Qed.
Lemma p_sum : states <> [] -> sumR p states = 1.
Proof.
  intros Hne. destruct states as [|x l] eqn:Es; [contradiction|]. rewrite <- Es. unfold target.
  rewrite sumR_ext with (g := fun y => exp (ll y) * / sumR (fun y => exp (ll y)) states) by reflexivity. rewrite sumR_mult_r.
  apply Rinv_r. assert (0 < sumR (fun y => exp (ll y)) states) by (apply sum_exp_pos with x; rewrite Es; now left). lra.
Qed.
Lemma p_le_1 : forall x, In x states -> p x <= 1.
Proof.
  intros x Hx. rewrite <- p_sum by (intros H; rewrite H in Hx; contradiction). apply sumR_member; [|exact Hx]. intros; now apply Rlt_le, p_pos.
Qed.
Lemma p_stationary : forall y, In y states -> sumR (fun x => p x * K x y) states = p y.
Proof.
  intros y Hy. unfold target.
  rewrite (sumR_ext_in _ (fun x => exp (ll x) * K x y * / sumR (fun y => exp (ll y)) states)) by (intros; unfold Rdiv; ring).
  rewrite sumR_mult_r. unfold mh_kernel. rewrite (stationary eqX ll q (pd_nonneg _ _ Hq) q_sym0) by assumption. reflexivity.
Qed.
Lemma K_qA : forall x y, In x states -> In y states -> q x y * Rmin 1 (ratio x y) <= K x y.
Proof.
  intros x y Hx Hy. unfold mh_kernel, kernel. destruct (eqX x y); [|lra].
  assert (sumR (fun z => q x z * Rmin 1 (ratio x z)) states <= 1); [|lra].
  eapply Rle_trans; [|right; exact (pd_sum _ _ Hq x Hx)]. apply sumR_le_in. intros z Hz. pose proof (Rmin_l 1 (ratio x z)). pose proof (pd_nonneg _ _ Hq x z).
  apply Rle_trans with (q x z * 1); [apply Rmult_le_compat_l; assumption|lra].
Qed.
Lemma K_pos : forall x y, In x states -> In y states -> 0 < q x y -> 0 < K x y.
Proof.
  intros x y Hx Hy H. eapply Rlt_le_trans; [|now apply K_qA]. apply Rmult_lt_0_compat; [exact H|]. apply Rmin_glb_lt; [lra|now apply ratio_pos].
Qed.
Lemma K_beta : forall b x y, In x states -> In y states -> 0 < b -> b <= q x y -> b <= q y x -> b * p y <= K x y.
Proof.
  intros b x y Hx Hy Hb H1 H2. eapply Rle_trans; [|now apply K_qA].
  assert (Hr : q x y * ratio x y = q y x * (p y / p x)).
  { unfold mh_ratio, target. pose proof (sum_exp_pos x Hx). pose proof (exp_pos (ll x)). field. lra. }
  assert (Hpp : p y <= p y / p x).
  { pose proof (p_pos x Hx). pose proof (p_pos y Hy). pose proof (p_le_1 x Hx).
    apply Rmult_le_reg_r with (p x); [assumption|]. unfold Rdiv. rewrite Rmult_assoc, Rinv_l, Rmult_1_r by lra.
    rewrite <- (Rmult_1_r (p y)) at 2. apply Rmult_le_compat_l; lra. }
  pose proof (p_pos y Hy). pose proof (p_le_1 y Hy).
  destruct (Rle_dec 1 (ratio x y)) as [H7|H7].
  - rewrite Rmin_left by exact H7. apply Rmult_le_compat; lra.
  - rewrite Rmin_right, Hr by lra. apply Rmult_le_compat; lra.
Qed.

Local Notation step := (step eqX states K).
Lemma reaches_pos : forall k x y, In x states -> In y states -> reaches states q k x y -> 0 < step k x y.
Proof.
  induction k as [|k IH]; intros x y Hx Hy H; cbn [reaches] in H.
  - subst y. cbn. unfold delta. destruct (eqX x x); [lra|congruence].
  - destruct H as (z & Hz & Hp & H). unfold MarkovFinite.step. cbn [it]. unfold P.
    eapply Rlt_le_trans; [|apply (sumR_member (fun w => K x w * it states K k (delta eqX y) w) states z)].
    + apply Rmult_lt_0_compat; [now apply K_pos|now apply IH].
    + intros w Hw. apply Rmult_le_pos; [now apply K_nonneg|]. apply step_nonneg; auto using K_nonneg.
    + exact Hz.
Qed.

(** a positive lower bound for finitely many positive numbers *)
Lemma lower_bound : forall {Y} (f : Y -> R) l, (forall y, In y l -> 0 < f y) -> exists e, 0 < e /\ forall y, In y l -> e <= f y.
Proof.
  intros Y f l. induction l as [|y l IH]; intros H; [exists 1; split; [lra|contradiction]|].
  destruct IH as (e & He & Hl); [intros; apply H; now right|]. exists (Rmin e (f y)). split.
  - apply Rmin_glb_lt; [exact He|]. apply H. now left.
  - intros z [->|Hz]; [apply Rmin_r|]. eapply Rle_trans; [apply Rmin_l|auto].
Qed.
Lemma upper_bound : forall {Y} (R : Y -> nat -> Prop) l, (forall y, In y l -> exists k, R y k) -> exists m, forall y, In y l -> exists k, (k <= m)%nat /\ R y k.
Proof.
  intros Y R0 l. induction l as [|y l IH]; intros H; [exists O; contradiction|].
  destruct IH as (m & Hm); [intros; apply H; now right|]. destruct (H y) as (k & Hk); [now left|]. exists (Nat.max m k).
  intros z [->|Hz]; [exists k; split; [lia|exact Hk]|]. destruct (Hm z Hz) as (k' & Hk' & HR). exists k'. split; [lia|exact HR].
Qed.
Lemma sumn_member : forall f n k, (forall j, 0 <= f j) -> (k < n)%nat -> f k <= sumn f n.
Proof.
  intros f n k Hp. induction n as [|n IH]; intros Hk; [lia|]. cbn.
  assert (0 <= sumn f n) by (clear - Hp; induction n; cbn; [lra|pose proof (Hp n); lra]). pose proof (Hp n).
  destruct (Nat.eq_dec k n) as [->|Hn]; [lra|]. assert (f k <= sumn f n) by (apply IH; lia). lra.
Qed.

Lemma minorization : (forall x y, In x states -> In y states -> exists k, reaches states q k x y) ->
  exists m d, 0 < d /\ forall x y, In x states -> In y states -> d * p y <= Qstep eqX states K m x y.
Proof.
  intros Hr.
  destruct (upper_bound (fun xy k => reaches states q k (fst xy) (snd xy)) (list_prod states states)) as (m & Hm).
  { intros [x y] Hxy. apply in_prod_iff in Hxy. now apply Hr. }
  assert (HQ : forall xy, In xy (list_prod states states) -> 0 < Qstep eqX states K m (fst xy) (snd xy)).
  { intros [x y] Hxy. destruct (Hm _ Hxy) as (k & Hk & Hkr). apply in_prod_iff in Hxy. destruct Hxy as [Hx Hy]. cbn [fst snd] in *.
    unfold Qstep. apply Rmult_lt_0_compat; [apply Rinv_0_lt_compat, lt_0_INR; lia|].
    eapply Rlt_le_trans; [apply (reaches_pos k x y Hx Hy Hkr)|]. apply (sumn_member (fun j => step j x y)); [|lia].
    intros j. apply step_nonneg; auto using K_nonneg. }
  destruct (lower_bound _ _ HQ) as (e & He & Hl). exists m, e. split; [exact He|].
  intros x y Hx Hy. eapply Rle_trans; [|apply (Hl (x, y)); apply in_prod; assumption].
  rewrite <- (Rmult_1_r e) at 2. apply Rmult_le_compat_l; [lra|now apply p_le_1].
Qed.
Lemma minorization_exact : forall m, (forall x y, In x states -> In y states -> reaches states q m x y) ->
  exists d, 0 < d /\ forall x y, In x states -> In y states -> d * p y <= step m x y.
Proof.
  intros m Hr.
  destruct (lower_bound (fun xy => step m (fst xy) (snd xy)) (list_prod states states)) as (e & He & Hl).
  { intros [x y] Hxy. apply in_prod_iff in Hxy. destruct Hxy. cbn. now apply reaches_pos; auto. }
  exists e. split; [exact He|]. intros x y Hx Hy. eapply Rle_trans; [|apply (Hl (x, y)); apply in_prod; assumption].
  rewrite <- (Rmult_1_r e) at 2. apply Rmult_le_compat_l; [lra|now apply p_le_1].
Qed.
Lemma step_1 : forall x y, In x states -> In y states -> step 1 x y = K x y.
Proof.
  intros x y Hx Hy. unfold MarkovFinite.step. cbn [it]. unfold P, delta.
  rewrite (sumR_ext_in _ (fun z => if eqX z y then K x z else 0)) by (intros z _; destruct (eqX z y); ring).
  now apply (sumR_delta eqX (K x)).
Qed.
Lemma d_le_1 : forall (T : X -> X -> R) d x, In x states -> sumR (T x) states = 1 -> (forall y, In y states -> d * p y <= T x y) -> d <= 1.
Proof.
  intros T d x Hx HT H. rewrite <- HT. rewrite <- (Rmult_1_r d), <- p_sum by (intros H0; rewrite H0 in Hx; contradiction).
  rewrite <- sumR_scal. now apply sumR_le_in.
Qed.

(** ** Convergence of the distribution *)
Lemma indicator_within : forall y, In y states -> within states 1 (fun x => delta eqX y x - mean_in states p (delta eqX y)).
Proof.
  intros y Hy x Hx. assert (Hm : mean_in states p (delta eqX y) = p y).
  { unfold mean_in. rewrite (sumR_ext_in _ (fun x => if eqX x y then p x else 0)) by (intros z _; unfold delta; destruct (eqX z y); ring).
    now apply (sumR_delta eqX p). }
  rewrite Hm. pose proof (p_pos y Hy). pose proof (p_le_1 y Hy). unfold delta. apply Rabs_le. destruct (eqX x y); lra.
Qed.
Lemma converges_at : forall m d, (0 < m)%nat -> (forall x y, In x states -> In y states -> d * p y <= step m x y) ->
  forall x0 y n, In x0 states -> In y states ->
  exists v, expectation ll q states x0 n (ends_at eqX x0 y) v /\ Rabs (v - p y) <= (1 - d) ^ (n / m).
Proof.
  intros m d Hm Hd x0 y n Hx0 Hy. exists (markov states K n x0 (ends_at eqX x0 y)). split; [now apply run_law|].
  replace (markov states K n x0 (ends_at eqX x0 y)) with (it states K n (delta eqX y) x0) by (symmetry; exact (markov_last states K n x0 (delta eqX y))).
  assert (Hne : states <> []) by (intros H; rewrite H in Hx0; contradiction).
  pose proof (it_converges eqX states states_nodup K p K_nonneg K_sum (p_sum Hne) p_stationary m d Hm) as HC.
  assert (Hmn : mean_in states p (delta eqX y) = p y).
  { unfold mean_in. rewrite (sumR_ext_in _ (fun x => if eqX x y then p x else 0)) by (intros z _; unfold delta; destruct (eqX z y); ring).
    now apply (sumR_delta eqX p). }
  rewrite <- Hmn, <- (Rmult_1_r ((1 - d) ^ (n / m))). apply HC; auto using indicator_within.
Qed.
Theorem converges_beta : forall b, 0 < b -> (forall x y, In x states -> In y states -> b <= q x y) ->
  forall x0 y n, In x0 states -> In y states ->
  exists v, expectation ll q states x0 n (ends_at eqX x0 y) v /\ Rabs (v - p y) <= (1 - b) ^ n.
Proof.
  intros b Hb Hqb x0 y n Hx0 Hy. destruct (converges_at 1 b (Nat.lt_0_1)) with (x0 := x0) (y := y) (n := n) as (v & Hv & Hle); auto.
  - intros x z Hx Hz. rewrite step_1 by assumption. apply K_beta; auto.
  - exists v. split; [exact Hv|]. now rewrite Nat.div_1_r in Hle.
Qed.
Theorem converges : forall m, (0 < m)%nat -> (forall x y, In x states -> In y states -> reaches states q m x y) ->
  exists d, 0 < d <= 1 /\ forall x0 y n, In x0 states -> In y states ->
  exists v, expectation ll q states x0 n (ends_at eqX x0 y) v /\ Rabs (v - p y) <= (1 - d) ^ (n / m).
Proof.
  intros m Hm Hr. destruct (minorization_exact m Hr) as (d & Hd & Hmin).
  destruct states as [|s0 l0] eqn:Es.
  { exists 1. split; [lra|]. intros x0 y n []. }
  rewrite <- Es in *. exists d. split.
  - split; [exact Hd|]. assert (Hs : In s0 states) by (rewrite Es; now left).
    apply (d_le_1 (step m) d s0 Hs); [|intros; now apply Hmin]. apply step_sum; auto using K_sum.
  - now apply converges_at.
Qed.

(** ** Averages *)
Lemma estimate_mean : forall (f : X -> R) l, l <> [] -> (N.of_nat (length l) < two64)%N -> estimate f l = sumR f l / INR (length l).
Proof.
  intros f l Hne Hl. unfold estimate.
  destruct (StatsTop.top_mean R_ops R_exact None (map (fun x => [f x]) l) 1) as (s & m & -> & -> & Hlen & Hm).
  - clear - Hne. intros H. apply map_eq_nil in H. contradiction.
  - clear. induction l; constructor; auto.
  - rewrite map_length. exact Hl.
  - destruct m as [|a [|]]; try discriminate Hlen. specialize (Hm O Nat.lt_0_1). unfold the_mean, comp in Hm. cbn [nth R_ops k0 kdiv kofN] in Hm.
    rewrite Hm, map_length, Nat2N.id. f_equal. clear. induction l as [|x l IH]; [reflexivity|]. cbn. now rewrite <- IH.
Qed.
Lemma sumR_center : forall (f : X -> R) c l, sumR (fun x => f x - c) l = sumR f l - INR (length l) * c.
Proof. intros f c l. induction l as [|x l IH]; [cbn; ring|]. cbn [sumR length]. rewrite IH, S_INR. ring. Qed.

Lemma centered_mean : forall f, states <> [] -> mean_in states p (fun y => f y - mean_in states p f) = 0.
Proof.
  intros f Hne. unfold mean_in at 1. rewrite (sumR_ext_in _ (fun x => p x * f x - p x * mean_in states p f)) by (intros; ring).
  rewrite sumR_minus, sumR_mult_r, p_sum by exact Hne. unfold mean_in. ring.
Qed.
Lemma code_average : forall F f x0 n v, In x0 states -> (0 < n)%nat -> (N.of_nat n < two64)%N ->
  expectation ll q states x0 n (fun l => F (sample_average f l)) v -> expectation ll q states x0 n (fun l => F (estimate f l)) v.
Proof.
  intros F f x0 n v Hx0 Hn Hn64 Hv. assert (v = markov states K n x0 (fun l => F (sample_average f l))) as -> by (exact (proj2 (run_law x0 Hx0 n _) v (proj1 Hv))).
  rewrite (markov_ext states K n x0 (fun l => F (sample_average f l)) (fun l => F (estimate f l))); [now apply run_law|].
  intros l Hl. rewrite estimate_mean; [reflexivity| |now rewrite Hl]. intros ->. clear - Hl Hn. cbn in Hl. lia.
Qed.
Lemma mean_square_at : forall m d, 0 < d -> (forall x y, In x states -> In y states -> d * p y <= Qstep eqX states K m x y) ->
  forall f B x0 n, (forall x, In x states -> Rabs (f x - mean_in states p f) <= B) -> In x0 states -> (0 < n)%nat ->
  exists v, expectation ll q states x0 n (fun l => (sample_average f l - mean_in states p f) ^ 2) v /\ v <= B ^ 2 * (1 + 2 * INR m / d) / INR n.
Proof.
  intros m d Hd Hmin f B x0 n HB Hx0 Hn.
  assert (Hne : states <> []) by (intros H; rewrite H in Hx0; contradiction).
  eexists. split; [now apply run_law|].
  set (mu := mean_in states p f) in *. set (fc := fun y => f y - mu).
  assert (HI : 0 < INR n) by (apply lt_0_INR; exact Hn).
  rewrite (markov_ext states K n x0 _ (fun l => / INR n ^ 2 * (total fc l) ^ 2 + (fun _ => 0) l)).
  2:{ intros l Hl. unfold sample_average, total, fc. rewrite sumR_center, Hl. field. lra. }
  rewrite markov_lin, (markov_const states K K_sum) by assumption. rewrite Rplus_0_r.
  assert (Hwf : within states B fc) by exact HB.
  assert (Hmean : mean_in states p (P states K fc) = 0).
  { rewrite (P_mean states K p p_stationary). now apply centered_mean. }
  assert (HM : forall k x, In x states -> Rabs (M states K k (P states K fc) x) <= INR m * B / d).
  { intros k x Hx. apply (M_bounded eqX states states_nodup K p K_nonneg K_sum (p_sum Hne) p_stationary m d Hd Hmin k (P states K fc) B); auto.
    apply P_within; auto using K_nonneg, K_sum. }
  pose proof (second_moment states K K_nonneg K_sum fc B (INR m * B / d) Hwf HM n x0 Hx0) as HS.
  apply Rle_trans with (/ INR n ^ 2 * (INR n * (B ^ 2 + 2 * B * (INR m * B / d)))).
  - apply Rmult_le_compat_l; [|exact HS]. apply Rlt_le, Rinv_0_lt_compat, pow_lt, HI.
  - right. field. lra.
Qed.
Theorem mean_square_beta : forall b, 0 < b -> (forall x y, In x states -> In y states -> b <= q x y) ->
  forall f B x0 n, (forall x, In x states -> Rabs (f x - mean_in states p f) <= B) -> In x0 states -> (0 < n)%nat -> (N.of_nat n < two64)%N ->
  exists v, expectation ll q states x0 n (fun l => (estimate f l - mean_in states p f) ^ 2) v /\ v <= B ^ 2 * (1 + 4 / b) / INR n.
Proof.
  intros b Hb Hqb f B x0 n HB Hx0 Hn Hn64.
  destruct (mean_square_at 1 (b / 2) ltac:(lra)) with (f := f) (B := B) (x0 := x0) (n := n) as (v & Hv & Hle); auto.
  - intros x y Hx Hy. unfold Qstep. cbn [sumn]. rewrite step_1 by assumption.
    pose proof (K_beta b x y Hx Hy Hb (Hqb x y Hx Hy) (Hqb y x Hy Hx)).
    assert (0 <= step 0 x y) by (apply step_nonneg; auto using K_nonneg). cbn [INR]. lra.
  - exists v. split; [now apply (code_average (fun a => (a - mean_in states p f) ^ 2))|]. eapply Rle_trans; [exact Hle|]. right. cbn [INR]. assert (INR n <> 0) by (apply not_0_INR; clear - Hn; lia). field. repeat split; try assumption; lra.
Qed.
Theorem mean_square : (forall x y, In x states -> In y states -> exists k, reaches states q k x y) ->
  forall f, exists C, forall x0 n, In x0 states -> (0 < n)%nat ->
  exists v, v <= C / INR n /\ expectation ll q states x0 n (fun l => (sample_average f l - mean_in states p f) ^ 2) v /\
    ((N.of_nat n < two64)%N -> expectation ll q states x0 n (fun l => (estimate f l - mean_in states p f) ^ 2) v).
Proof.
  intros Hr f. destruct (minorization Hr) as (m & d & Hd & Hmin).
  set (B := norm states (fun x => f x - mean_in states p f)).
  exists (B ^ 2 * (1 + 2 * INR m / d)). intros x0 n Hx0 Hn. destruct (mean_square_at m d Hd Hmin f B x0 n) as (v & Hv & Hle); auto.
  - apply (norm_within states (fun x => f x - mean_in states p f)).
  - exists v. split; [exact Hle|]. split; [exact Hv|]. intros Hn64. now apply (code_average (fun a => (a - mean_in states p f) ^ 2)).
Qed.
Theorem far_probability : (forall x y, In x states -> In y states -> exists k, reaches states q k x y) ->
  forall f, exists C, forall eps x0 n, 0 < eps -> In x0 states -> (0 < n)%nat ->
  exists v, 0 <= v <= C / (INR n * eps ^ 2) /\ expectation ll q states x0 n (fun l => indicator (far eps (sample_average f l) (mean_in states p f))) v /\
    ((N.of_nat n < two64)%N -> expectation ll q states x0 n (fun l => indicator (far eps (estimate f l) (mean_in states p f))) v).
Proof.
  intros Hr f. destruct (mean_square Hr f) as (C & HC). exists C. intros eps x0 n He Hx0 Hn.
  pose proof (run_law x0 Hx0 n (fun l => indicator (far eps (sample_average f l) (mean_in states p f)))) as HF.
  eexists. split; [|split; [exact HF|intros Hn64; now apply (code_average (fun a => indicator (far eps a (mean_in states p f))))]].
  destruct (HC x0 n Hx0 Hn) as (v & Hle & Hv & _).
  assert (v = markov states K n x0 (fun l => (sample_average f l - mean_in states p f) ^ 2)) as -> by (exact (proj2 (run_law x0 Hx0 n _) v (proj1 Hv))).
  assert (HI : 0 < INR n) by (apply lt_0_INR; exact Hn).
  assert (He2 : 0 < eps ^ 2) by (apply pow_lt; exact He).
  split.
  - rewrite <- (markov_const states K K_sum n x0 0 Hx0). apply markov_le; auto using K_nonneg.
    intros l. unfold indicator. destruct (far _ _ _); lra.
  - apply Rmult_le_reg_l with (eps ^ 2); [exact He2|].
    apply Rle_trans with (C / INR n).
    2:{ right. field. lra. }
    eapply Rle_trans; [|exact Hle]. clear Hle Hv HC.
    rewrite <- (Rplus_0_r (eps ^ 2 * _)).
    rewrite <- (markov_const states K K_sum n x0 0 Hx0) at 1.
    rewrite <- (markov_lin states K n x0 (eps ^ 2) (fun l => indicator (far eps (sample_average f l) (mean_in states p f))) (fun _ => 0)).
    apply markov_le; auto using K_nonneg. intros l. unfold indicator, far.
    destruct (Rle_dec eps (Rabs (sample_average f l - mean_in states p f))) as [H|H].
    + rewrite <- (pow2_abs (sample_average f l - _)). rewrite Rmult_1_r, Rplus_0_r. apply pow_incr. lra.
    + pose proof (pow2_ge_0 (sample_average f l - mean_in states p f)). lra.
Qed.
End Run.

(** ** A chain which does not converge *)
Definition both : list bool := [true; false].
Definition flip (x y : bool) : R := if Bool.eqb x y then 0 else 1.
Lemma both_nodup : NoDup both.
Proof. constructor; [cbn; intros [H|[]]; discriminate|]. constructor; [intros []|constructor]. Qed.
Lemma zero_nonzero : nonzero 0.
Proof. unfold nonzero. pose proof dbl_max_pos. lra. Qed.
Lemma flip_distribution : proposal_distribution both flip.
Proof.
  constructor; [intros [] []; cbn; lra|intros [] _; cbn; lra|intros [] []; cbn; lra].
Qed.
Lemma flip_connected : forall x y, In x both -> In y both -> exists k, reaches both flip k x y.
Proof.
  intros x y _ _. exists (if Bool.eqb x y then 0%nat else 1%nat). destruct x, y; cbn [Bool.eqb reaches]; try reflexivity.
  - exists false. cbn. repeat split; auto; lra.
  - exists true. cbn. repeat split; auto; lra.
Qed.
Lemma flip_kernel : forall x y, mh_kernel both Bool.bool_dec (fun _ => 0) flip x y = flip x y.
Proof.
  assert (H : mh_ratio (fun _ : bool => 0) true false (1 / 1) = 1) by (unfold mh_ratio; rewrite exp_0; field).
  assert (H' : mh_ratio (fun _ : bool => 0) false true (1 / 1) = 1) by (unfold mh_ratio; rewrite exp_0; field).
  intros [] []; unfold mh_kernel, kernel; cbn [both sumR flip Bool.eqb]; rewrite ?H, ?H', ?(Rmin_left 1 1) by lra;
  match goal with |- context [Bool.bool_dec ?a ?b] => destruct (Bool.bool_dec a b) as [Hd|Hd]; try discriminate Hd; try (exfalso; now apply Hd) end; lra.
Qed.
Theorem alternating : forall n, expectation (fun _ => 0) flip both true n (ends_at Bool.bool_dec true true) (if Nat.even n then 1 else 0).
Proof.
  intros n. pose proof (run_law Bool.bool_dec (fun _ => 0) flip both both_nodup (fun _ => zero_nonzero) flip_distribution true (or_introl eq_refl) n (ends_at Bool.bool_dec true true)) as H.
  replace (if Nat.even n then 1 else 0) with (markov both (mh_kernel both Bool.bool_dec (fun _ => 0) flip) n true (ends_at Bool.bool_dec true true)); [exact H|].
  transitivity (it both (mh_kernel both Bool.bool_dec (fun _ => 0) flip) n (delta Bool.bool_dec true) true); [exact (markov_last both _ n true (delta Bool.bool_dec true))|].
  enough (G : forall x, it both (mh_kernel both Bool.bool_dec (fun _ => 0) flip) n (delta Bool.bool_dec true) x = if Bool.eqb x (Nat.even n) then 1 else 0).
  { rewrite G. destruct (Nat.even n); reflexivity. }
  clear H. induction n as [|n IH]; intros x.
  - destruct x; reflexivity.
  - cbn [it]. unfold P. cbn [both sumR]. rewrite !flip_kernel, !IH. rewrite Nat.even_succ, <- Nat.negb_even. destruct x, (Nat.even n); cbn; lra.
Qed.
