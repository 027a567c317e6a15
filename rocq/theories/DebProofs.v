(** Proofs for C81. *)
From Coq Require Import Reals Lra.
From Coquelicot Require Import Coquelicot.
From Verif Require Import Prelude ProducerModel ProducerSpec ProducerProofs XReal MHSpec MHProofs MHTop DEProofs DETop DEStatSpec DEStat NoThrow DrdSpec DebSpec.
Local Open Scope R_scope.
Local Open Scope list_scope.
Local Notation length := List.length.

Section Decide.
Context {X : Type}.
Variable lx : X -> xr.
Hypothesis Hlx : forall x, lx x <> XNaN /\ lx x <> XPInf.
Lemma lx_cases : forall x, (lx x = XNInf /\ ldensity lx x = 0) \/ exists l, lx x = XFin l /\ ldensity lx x = exp l.
Proof.
  intros x. destruct (Hlx x) as [H1 H2]. unfold ldensity. destruct (lx x) as [| |l|]; try congruence; [left; auto|right; eauto].
Qed.
Lemma decide_density : forall x y q u, 0 < q ->
  de_decide xops y (XFin q) (XFin u) (lx y) x (lx x) =
  if (if Rlt_dec 0 (ldensity lx x) then (if Rle_dec u (ldensity lx y / (ldensity lx x * q)) then true else false) else (if Rlt_dec 0 (ldensity lx y) then true else false))
  then (true, y, lx y) else (false, x, lx x).
Proof.
  intros x y q u Hq. destruct (lx_cases x) as [[Ex ->]|(l & Ex & ->)]; destruct (lx_cases y) as [[Ey ->]|(m & Ey & ->)]; rewrite Ex, Ey.
  - destruct (Rlt_dec 0 0) as [C|_]; [lra|]. reflexivity.
  - destruct (Rlt_dec 0 0) as [C|_]; [lra|]. destruct (Rlt_dec 0 (exp m)) as [_|C]; [|pose proof (exp_pos m); lra].
    unfold de_decide. cbn. unfold isneg. destruct (Rlt_dec q 0) as [C|_]; [lra|]. reflexivity.
  - destruct (Rlt_dec 0 (exp l)) as [_|C]; [|pose proof (exp_pos l); lra]. unfold de_decide. cbn. destruct (Req_EM_T q 0); [lra|].
    replace (0 / (exp l * q)) with (0 / q) by (unfold Rdiv; ring). unfold xge. cbn.
    destruct (Rlt_dec u (0 / q)); destruct (Req_EM_T (0 / q) u); destruct (Rle_dec u (0 / q)); cbn; try reflexivity; lra.
  - destruct (Rlt_dec 0 (exp l)) as [_|C]; [|pose proof (exp_pos l); lra]. rewrite de_accept_finite by exact Hq.
    destruct (Rle_dec u (exp m / (exp l * q))); reflexivity.
Qed.
Lemma decide_move : forall x y q u, 0 < q -> snd (fst (de_decide xops y (XFin q) (XFin u) (lx y) x (lx x))) = density_move lx x y q u.
Proof.
  intros x y q u Hq. rewrite decide_density by exact Hq. unfold density_move. destruct (Rlt_dec 0 (ldensity lx x)); [destruct (Rle_dec _ _)|destruct (Rlt_dec _ _)]; reflexivity.
Qed.
End Decide.

Lemma evaluations_lx : forall X (E : env X xr) (lx : X -> xr), (forall t x l, e_ll E t x = Some l -> l = lx x) ->
  forall b t x l, In (x, l) (evals_from E b t) -> l = lx x.
Proof.
  intros X E lx HL b t. revert b. induction t as [|e t IH]; intros b x l H; cbn in H; [tauto|].
  apply in_app_or in H. destruct H as [H|H]; [|eapply IH; exact H].
  destruct e as [x0| | | | | |]; cbn in H; try tauto. destruct (e_ll E b x0) as [l0|] eqn:El; cbn in H; [|tauto].
  destruct H as [H|[]]. inversion H; subst. eapply HL. exact El.
Qed.
Theorem deb_run : forall X (E : env X xr) (lx : X -> xr), (forall x, lx x <> XNaN /\ lx x <> XPInf) -> (forall t x l, e_ll E t x = Some l -> l = lx x) ->
  (forall t x rj y q, e_prop E t x rj = Some (y, q) -> exists r, q = XFin r /\ 0 < r) ->
  (forall t, exists u, e_unif E t = XFin u) ->
  forall (bd : build) fuel (xs : list X) gap N0 t r,
  (forall b hi, (e_uint E b hi <= hi)%N) ->
  (3 <= length xs)%nat -> (N.of_nat (N0 + length xs) < two64)%N -> (N0 < fuel)%nat ->
  de_sample xops E bd fuel xs (N.of_nat gap) (N.of_nat N0) [] = (t, r) ->
  forall k z, nth_error (map fst (issued t)) k = Some z ->
  exists prev y q u,
    nth_error (xs ++ map fst (issued t)) k = Some prev /\
    nth_error (map snd (proposals E t)) k = Some (y, XFin q) /\ 0 < q /\
    nth_error (draws E t) k = Some (XFin u) /\
    z = density_move lx prev y q u.
Proof.
  intros X E lx Hlx HL HP HU bd fuel xs gap N0 t r Hu Hn H64 Hf H k z Hk.
  apply de_chains in H; auto. destruct H as (_ & _ & [H|(inits & ev & Hi & Hev & states & Hlen & Hrun)]).
  { rewrite H in Hk. destruct k; discriminate. }
  assert (Hli : length inits = length xs) by (rewrite <- Hi; now rewrite map_length).
  assert (Hfst : map fst (issued t) = map fst states).
  { apply nth_error_ext. intros i. rewrite !nth_error_map.
    destruct (nth_error (issued t) i) as [[z' a']|] eqn:Ei.
    - destruct (Hrun i z' a' Ei) as (from & y & q & ly & u & prev & new & _ & _ & _ & _ & H5 & _ & H7 & _).
      rewrite nth_error_app2 in H5 by lia. replace (length inits + i - length inits)%nat with i in H5 by lia.
      rewrite H5. cbn. congruence.
    - assert (Es : nth_error states i = None) by (apply nth_error_None; apply nth_error_None in Ei; lia). rewrite Es. reflexivity. }
  assert (Hval : forall i p, nth_error (inits ++ states) i = Some p -> snd p = lx (fst p)).
  { intros i. induction i as [i IH] using lt_wf_ind. intros p Hp.
    destruct (Nat.lt_ge_cases i (length inits)) as [Hlt|Hge].
    - rewrite nth_error_app1 in Hp by exact Hlt. apply nth_error_In in Hp. destruct p as [x l]. cbn.
      apply (evaluations_lx _ E lx HL [] t). unfold evaluations in Hev. unfold evals_from. rewrite Hev. apply in_or_app. now left.
    - rewrite nth_error_app2 in Hp by exact Hge. set (j := (i - length inits)%nat) in *.
      assert (Hj : (j < length (issued t))%nat) by (rewrite <- Hlen; apply nth_error_Some; congruence).
      destruct (nth_some _ _ _ Hj) as ([z' a'] & Ej).
      destruct (Hrun j z' a' Ej) as (from & y & q & ly & u & prev & new & _ & H2 & _ & H4 & H5 & H6 & _).
      assert (Hpn : p = new).
      { rewrite nth_error_app2 in H5 by lia. replace (length inits + j - length inits)%nat with j in H5 by lia. congruence. }
      subst p. rewrite H6. destruct (d_ge xops _ u).
      + cbn. apply nth_error_In in H2. apply (evaluations_lx _ E lx HL [] t). unfold evaluations in Hev. unfold evals_from.
        rewrite Hev. apply in_or_app. now right.
      + apply (IH j); [lia|exact H4]. }
  rewrite nth_error_map in Hk. destruct (nth_error (issued t) k) as [[z' a']|] eqn:Ek; [|discriminate]. cbn in Hk. inversion Hk; subst z'.
  destruct (Hrun k z a' Ek) as (from & y & q & ly & u & prev & new & H1 & H2 & H3 & H4 & H5 & H6 & H7 & _).
  assert (Hq : exists r0, q = XFin r0 /\ 0 < r0).
  { rewrite nth_error_map in H1. destruct (nth_error (proposals E t) k) as [[[f0 rj0] [y0 q0]]|] eqn:Ep; [|discriminate].
    cbn in H1. inversion H1; subst f0 y0 q0. apply nth_error_In in Ep. clear -Ep HP. unfold proposals in Ep.
    revert Ep. generalize (@nil (event X xr)). induction t as [|e t IH]; intros b H; cbn in H; [tauto|].
    apply in_app_or in H. destruct H as [H|H]; [|eapply IH; exact H]. destruct e; cbn in H; try tauto.
    destruct (e_prop E b x rejected) as [[y1 q1]|] eqn:Hp; cbn in H; [|tauto]. destruct H as [H|[]]. inversion H; subst. eapply HP. exact Hp. }
  assert (Hud : exists u0, u = XFin u0).
  { apply nth_error_In in H3. clear -H3 HU. unfold draws in H3.
    revert H3. generalize (@nil (event X xr)). induction t as [|e t IH]; intros b H; cbn in H; [tauto|].
    apply in_app_or in H. destruct H as [H|H]; [|eapply IH; exact H]. destruct e; cbn in H; try tauto.
    destruct H as [H|[]]. destruct (HU b) as (u0 & Hu0). exists u0. congruence. }
  destruct Hq as (q0 & -> & Hq0). destruct Hud as (u0 & ->).
  exists (fst prev), y, q0, u0.
  split.
  { assert (Hx : map fst (inits ++ states) = xs ++ map fst (issued t)) by (rewrite map_app, Hi, Hfst; reflexivity).
    rewrite <- Hx, nth_error_map, H4. reflexivity. }
  split.
  { rewrite nth_error_map in H1 |- *. destruct (nth_error (proposals E t) k) as [[[f1 rj1] [y1 q1]]|]; [|discriminate]. cbn in *. congruence. }
  split; [exact Hq0|]. split; [exact H3|].
  rewrite H7, H6.
  assert (Hly : ly = lx y).
  { apply nth_error_In in H2. apply (evaluations_lx _ E lx HL [] t). unfold evaluations in Hev. unfold evals_from.
    rewrite Hev. apply in_or_app. now right. }
  assert (Hpv : snd prev = lx (fst prev)) by (apply (Hval k); exact H4).
  rewrite <- (decide_move lx Hlx (fst prev) y q0 u0 Hq0). unfold de_decide. rewrite Hly, Hpv. cbv beta.
  match goal with |- context [d_ge ?a ?b ?c] => set (bb := d_ge a b c) end. clearbody bb. destruct bb; reflexivity.
Qed.
Theorem deb_never_outside : forall X (E : env X xr) (lx : X -> xr), (forall x, lx x <> XNaN /\ lx x <> XPInf) -> (forall t x l, e_ll E t x = Some l -> l = lx x) ->
  (forall t x rj y q, e_prop E t x rj = Some (y, q) -> exists r, q = XFin r /\ 0 < r) ->
  (forall t, exists u, e_unif E t = XFin u /\ 0 < u) ->
  forall (bd : build) fuel (xs : list X) gap N0,
  (forall b hi, (e_uint E b hi <= hi)%N) ->
  (3 <= length xs)%nat -> (N.of_nat (N0 + length xs) < two64)%N -> (N0 < fuel)%nat ->
  Forall (fun x => 0 < ldensity lx x) xs ->
  Forall (fun z => 0 < ldensity lx (fst z)) (issued (fst (de_sample xops E bd fuel xs (N.of_nat gap) (N.of_nat N0) []))).
Proof.
  intros X E lx Hlx HL HP HU bd fuel xs gap N0 Hu Hn H64 Hf Hxs. destruct (de_sample xops E bd fuel xs (N.of_nat gap) (N.of_nat N0) []) as [t r] eqn:H. cbn [fst].
  assert (HU0 : forall t, exists u, e_unif E t = XFin u) by (intros t0; destruct (HU t0) as (u & Hu' & _); eauto).
  pose proof (deb_run X E lx Hlx HL HP HU0 bd fuel xs gap N0 t r Hu Hn H64 Hf H) as HR.
  assert (G : forall i x, nth_error (xs ++ map fst (issued t)) i = Some x -> 0 < ldensity lx x).
  { intros i. induction i as [i IH] using lt_wf_ind. intros x Hx.
    destruct (Nat.lt_ge_cases i (length xs)) as [Hlt|Hge].
    - rewrite nth_error_app1 in Hx by exact Hlt. rewrite Forall_forall in Hxs. apply Hxs. eapply nth_error_In. exact Hx.
    - rewrite nth_error_app2 in Hx by exact Hge. destruct (HR _ _ Hx) as (prev & y & q & u & H1 & _ & Hq & H3 & ->).
      assert (Hp : 0 < ldensity lx prev) by (apply (IH (i - length xs)%nat); [lia|exact H1]).
      assert (Hu0 : 0 < u).
      { apply nth_error_In in H3. clear -H3 HU. unfold draws in H3.
        revert H3. generalize (@nil (event X xr)). induction t as [|e t IH]; intros b H; cbn in H; [tauto|].
        apply in_app_or in H. destruct H as [H|H]; [|eapply IH; exact H]. destruct e; cbn in H; try tauto.
        destruct H as [H|[]]. destruct (HU b) as (u0 & Hu0 & P). rewrite Hu0 in H. inversion H; subst. exact P. }
      unfold density_move. destruct (Rlt_dec 0 (ldensity lx prev)) as [_|C]; [|contradiction].
      destruct (Rle_dec u (ldensity lx y / (ldensity lx prev * q))) as [L|_]; [|exact Hp].
      destruct (lx_cases lx Hlx y) as [[_ E0]|(l & _ & ->)]; [|apply exp_pos]. rewrite E0 in L. unfold Rdiv in L. rewrite Rmult_0_l in L. lra. }
  apply Forall_forall. intros [z a] Hz. cbn [fst]. apply (in_map fst) in Hz. cbn [fst] in Hz. apply In_nth_error in Hz as (k & Hk).
  apply (G (length xs + k)%nat). rewrite nth_error_app2 by lia. replace (length xs + k - length xs)%nat with k by lia. exact Hk.
Qed.

(** ** Balance *)
Section Balance.
Context {X : Type}.
Variable eqX : forall x y : X, {x = y} + {x <> y}.
Variables (lx : X -> xr) (q : X -> X -> R).
Hypothesis Hlx : forall x, lx x <> XNaN /\ lx x <> XPInf.
Hypothesis q_nonneg : forall x y, 0 <= q x y.
Hypothesis q_sym_support : forall x y, q x y = 0 -> q y x = 0.
Variable A : X -> X -> R.
Hypothesis HA : accepts_with_density lx q A.
Local Notation dn := (ldensity lx).
Lemma dn_nonneg : forall x, 0 <= dn x.
Proof. intros x. destruct (lx_cases lx Hlx x) as [[_ ->]|(l & _ & ->)]; [lra|apply Rlt_le, exp_pos]. Qed.
Lemma A_in : forall x y, 0 < q x y -> 0 < dn x -> A x y = Rmin 1 (dn y / (dn x * (q x y / q y x))).
Proof.
  intros x y Hp Hx. assert (Hp1 : 0 < q y x).
  { pose proof (q_nonneg y x). destruct (Req_EM_T (q y x) 0) as [H1|]; [apply q_sym_support in H1; lra|lra]. }
  assert (Hr : 0 < q x y / q y x) by now apply Rdiv_lt_0_compat.
  pose proof (HA x y Hp) as H. apply (is_RInt_unique (V := R_CompleteNormedModule)) in H. rewrite <- H. apply (is_RInt_unique (V := R_CompleteNormedModule)).
  apply is_RInt_ext with (f := fun u => if Rle_dec u (dn y / (dn x * (q x y / q y x))) then 1 else 0).
  - intros u _. rewrite (decide_density lx Hlx) by exact Hr. destruct (Rlt_dec 0 (dn x)) as [_|C]; [|contradiction]. destruct (Rle_dec u _); reflexivity.
  - apply RInt_indicator. apply Rmult_le_pos; [apply dn_nonneg|]. apply Rlt_le, Rinv_0_lt_compat, Rmult_lt_0_compat; assumption.
Qed.
Lemma deb_balance : forall x y, dn x * (q x y * A x y) = dn y * (q y x * A y x).
Proof.
  intros x y. destruct (Req_EM_T (q x y) 0) as [E0|N0]; [rewrite E0, (q_sym_support x y E0); lra|].
  assert (Hp : 0 < q x y) by (pose proof (q_nonneg x y); lra).
  assert (Hp1 : 0 < q y x). { pose proof (q_nonneg y x). destruct (Req_EM_T (q y x) 0) as [H1|]; [apply q_sym_support in H1; lra|lra]. }
  pose proof (dn_nonneg x) as Nx. pose proof (dn_nonneg y) as Ny.
  destruct (Req_EM_T (dn x) 0) as [Zx|Zx]; destruct (Req_EM_T (dn y) 0) as [Zy|Zy].
  - rewrite Zx, Zy. lra.
  - rewrite (A_in y x Hp1) by lra. rewrite Zx. unfold Rdiv. rewrite !Rmult_0_l, (Rmin_right 1 0) by lra. lra.
  - rewrite (A_in x y Hp) by lra. rewrite Zy. unfold Rdiv. rewrite !Rmult_0_l, (Rmin_right 1 0) by lra. lra.
  - rewrite (A_in x y Hp), (A_in y x Hp1) by lra.
    destruct (lx_cases lx Hlx x) as [[_ C]|(l & Ex & Dx)]; [contradiction|]. destruct (lx_cases lx Hlx y) as [[_ C]|(m & Ey & Dy)]; [contradiction|].
    rewrite Dx, Dy in *. pose proof (@detailed_balance X (fun z => match lx z with XFin l => l | _ => 0 end) q q_nonneg q_sym_support x y) as DB.
    cbv beta in DB. unfold mh_ratio in DB. rewrite Ex, Ey in DB. exact DB.
Qed.
Lemma deb_keeps : forall states y, NoDup states -> In y states -> sumR (fun x => dn x * kernel eqX states q A x y) states = dn y.
Proof.
  intros states y Hn Hy. unfold kernel.
  transitivity (sumR (fun x => dn y * (q y x * A y x) + (if eqX x y then dn x * (1 - sumR (fun z => q x z * A x z) states) else 0)) states).
  { apply MHProofs.sumR_ext. intros x _. rewrite Rmult_plus_distr_l, deb_balance. destruct (eqX x y); lra. }
  rewrite sumR_plus, (sumR_scal (dn y)), (sumR_delta eqX (fun x => dn x * (1 - sumR (fun z => q x z * A x z) states))) by assumption.
  lra.
Qed.
End Balance.
Theorem deb_product : forall (X : Type) (eqX : forall x y : X, {x = y} + {x <> y}) (lx : X -> xr) (q : X -> X -> R), (forall x, lx x <> XNaN /\ lx x <> XPInf) ->
  (forall x y, 0 <= q x y) -> (forall x y, q x y = 0 -> q y x = 0) ->
  forall A, accepts_with_density lx q A -> forall states ys, NoDup states -> Forall (fun y => In y states) ys ->
  sumR (fun xs => prod1 (ldensity lx) xs * prod2 (kernel eqX states q A) xs ys) (tuples states (length ys)) = prod1 (ldensity lx) ys.
Proof. intros X eqX lx q Hlx H1 H2 A HA states ys Hn Hy. apply product; [|exact Hy]. intros y Hy'. now apply deb_keeps. Qed.
Theorem deb_last_chain : forall (X : Type) (eqX : forall x y : X, {x = y} + {x <> y}) (cross : X -> X -> X -> X), (forall x y a b, cross x a b = y <-> cross y b a = x) ->
  forall current, (3 <= N.of_nat (length current) < two64)%N -> forall (lx : X -> xr) A, (forall x, lx x <> XNaN /\ lx x <> XPInf) ->
  (forall x y, is_RInt (fun u => if fst (fst (de_decide xops y (XFin 1) (XFin u) (lx y) x (lx x))) then 1 else 0) 0 1 (A x y)) ->
  forall states y, NoDup states -> In y states ->
  sumR (fun x => ldensity lx x * kernel eqX states (crossed eqX cross current (N.of_nat (length current) - 1)) A x y) states = ldensity lx y.
Proof.
  intros X eqX cross HC current Hn lx A Hlx HA states y Hs Hy. apply deb_keeps; try assumption.
  - intros a b. apply crossed_nonneg.
  - intros a b H. rewrite crossed_sym; assumption.
  - intros a b H. rewrite (crossed_sym eqX cross HC current Hn b a).
    replace (crossed eqX cross current (N.of_nat (length current) - 1) a b / crossed eqX cross current (N.of_nat (length current) - 1) a b) with 1 by (field; lra). apply HA.
Qed.

(** ** The random number zero *)
Definition gap_ll (x : bool) : xr := if x then XNInf else XFin 0.
Definition zero_env : env bool xr := {| e_ll := fun _ x => Some (gap_ll x); e_prop := fun _ _ _ => Some (true, XFin 1); e_cross := fun _ x _ _ => Some x;
  e_unif := fun _ => XFin 0; e_uint := fun _ _ => 0%N; e_issue := fun _ _ _ => false; e_flush := fun _ => false |}.
Lemma zero_number : forall bd, nth_error (map fst (issued (fst (de_sample xops zero_env bd 10 [false; false; false] 0 3 [])))) 0 = Some true.
Proof.
  intros bd. destruct (de_sample xops zero_env bd 10 [false; false; false] 0 3 []) as [t r] eqn:H. cbn [fst].
  assert (Hr : r = RVal tt).
  { refine (@de_no_throw bool xr xops zero_env _ _ _ _ _ bd 10%nat [false; false; false] 0%nat 3%nat t r _ _ _ _ H); cbn; intros; try congruence; try lia. }
  assert (C := @de_chains bool xr xops zero_env bd 10%nat [false; false; false] 0%nat 3%nat t r).
  destruct C as (_ & HL & _); [cbn; intros; lia|cbn; lia|cbn; lia|lia|exact H|]. destruct (HL Hr) as [L _].
  destruct (nth_error (map fst (issued t)) 0) as [z|] eqn:Ez; [|apply nth_error_None in Ez; rewrite map_length in Ez; lia].
  destruct (deb_run bool zero_env gap_ll) with (bd := bd) (fuel := 10%nat) (xs := [false; false; false]) (gap := 0%nat) (N0 := 3%nat) (t := t) (r := r) (k := 0%nat) (z := z) as (prev & y & q & u & H1 & H2 & Hq & H3 & Hz).
  - intros []; split; discriminate.
  - intros ? ? ? E; cbn in E; congruence.
  - intros ? ? ? ? ? E. cbn in E. inversion E. exists 1. split; [reflexivity|lra].
  - intros. now exists 0.
  - cbn; intros; lia.
  - cbn; lia.
  - cbn; lia.
  - lia.
  - exact H.
  - exact Ez.
  - cbn in H1. injection H1 as <-.
    assert (Hy : y = true).
    { rewrite nth_error_map in H2. destruct (nth_error (proposals zero_env t) 0) as [[[f rj] [y0 q0]]|] eqn:Ep; [|discriminate]. cbn in H2. inversion H2; subst.
      apply nth_error_In in Ep. clear -Ep. unfold proposals in Ep. revert Ep. generalize (@nil (event bool xr)). induction t as [|e t IH]; intros b H; cbn in H; [tauto|].
      apply in_app_or in H. destruct H as [H|H]; [|eapply IH; exact H]. destruct e; cbn in H; try tauto. destruct H as [H|[]]. now inversion H. }
    assert (Hu : u = 0).
    { apply nth_error_In in H3. clear -H3. unfold draws in H3. revert H3. generalize (@nil (event bool xr)). induction t as [|e t IH]; intros b H; cbn in H; [tauto|].
      apply in_app_or in H. destruct H as [H|H]; [|eapply IH; exact H]. destruct e; cbn in H; try tauto. destruct H as [H|[]]. now inversion H. }
    subst y u. rewrite Hz. unfold density_move, ldensity. cbn [gap_ll]. rewrite exp_0. destruct (Rlt_dec 0 1) as [_|C]; [|lra].
    destruct (Rle_dec 0 (0 / (1 * q))) as [_|C]; [reflexivity|]. exfalso. apply C. unfold Rdiv. rewrite Rmult_0_l. lra.
Qed.
