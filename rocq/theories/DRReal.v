(** DelayedRejectionMetropolisHastings over extended reals: comparison with MetropolisHastings and with the published
    delayed rejection rule. *)
From Coq Require Import Reals Lra String.
From Verif Require Import Prelude ProducerModel ProducerSpec ProducerProofs DRProofs XReal MHSpec MHProofs.
Import ListNotations.
Local Open Scope R_scope.
Local Open Scope list_scope.
Local Notation length := List.length.

Section S.
Context {X : Type}.
Variable E : env X xr.
Hypothesis prop_one : forall t x rj y q, e_prop E t x rj = Some (y, q) -> q = XFin 1.

Lemma mh_step : forall n x (l : xr) t,
  mh_loop xops E (S n) x l t =
  match e_prop E t x [] with
  | None => (t ++ [EPropose x []], RExc)
  | Some (y, q) =>
    match e_ll E (t ++ [EPropose x []]) y with
    | None => ((t ++ [EPropose x []]) ++ [EEval y], RExc)
    | Some ly =>
      mbind (mh_accept xops E ly l q) (fun accepted : bool =>
        mbind (issue_sample E (if accepted then y else x)
                 [(ll_key, PDouble (if accepted then ly else l)); (rep_key, PBool (negb accepted))])
          (fun _ => mh_loop xops E n (if accepted then y else x) (if accepted then ly else l)))
        ((t ++ [EPropose x []]) ++ [EEval y])
    end
  end.
Proof.
  intros. cbn [mh_loop]. unfold mbind at 1. unfold propose_sample, call. destruct (e_prop E t x []) as [[y q]|]; [|reflexivity].
  unfold mbind at 1. unfold log_likelihood, call. destruct (e_ll E _ y); reflexivity.
Qed.
Lemma dr_step : forall strict n x (l : xr) t,
  dr_loop xops E strict 0 (S n) (x, l) t =
  match e_prop E t x [] with
  | None => (t ++ [EPropose x []], RExc)
  | Some (y, q) =>
    match e_ll E (t ++ [EPropose x []]) y with
    | None => ((t ++ [EPropose x []]) ++ [EEval y], RExc)
    | Some ly =>
      mbind (dr_accept xops E (xexp (xsub ly l))) (fun accepted : bool =>
        mbind (issue_sample E (if accepted then y else x)
                 [(ll_key, PDouble (if accepted then ly else l)); (rep_key, PBool (negb accepted))])
          (fun _ => dr_loop xops E strict 0 n (if accepted then y else x, if accepted then ly else l)))
        ((t ++ [EPropose x []]) ++ [EEval y])
    end
  end.
Proof.
  intros. cbn [dr_loop Nat.add dr_stages fst map app length]. unfold mbind at 1 2. unfold propose_sample, call.
  destruct (e_prop E t x []) as [[y q]|]; [|reflexivity].
  unfold mbind at 1. unfold log_likelihood, call. destruct (e_ll E _ y) as [ly|]; [|reflexivity].
  cbn [alpha_fn length nth_error Nat.sub Nat.eqb snd]. unfold mbind.
  change (d_exp xops (d_sub xops ly l)) with (xexp (xsub ly l)).
  destruct (dr_accept xops E (xexp (xsub ly l)) _) as [t1 ra] eqn:Ha.
  apply dr_accept_spec in Ha. destruct Ha as (da & acc & -> & -> & Hda). destruct acc; reflexivity.
Qed.

Lemma dr_mh_loop : forall ll, nice E ll -> forall strict n x t,
  dr_loop xops E strict 0 n (x, XFin (ll x)) t = mh_loop xops E n x (XFin (ll x)) t.
Proof.
  intros ll HN strict n. induction n as [|n IH]; intros x t; [reflexivity|].
  rewrite dr_step, mh_step.
  destruct (e_prop E t x []) as [[y q]|] eqn:Hp; [|reflexivity].
  pose proof (prop_one _ _ _ _ _ Hp) as ->.
  destruct (n_ll _ _ HN (t ++ [EPropose x []]) y) as [Hl Hnz]. rewrite Hl.
  set (t2 := (t ++ [EPropose x []]) ++ [EEval y]).
  assert (Hacc : dr_accept xops E (xexp (xsub (XFin (ll y)) (XFin (ll x)))) t2 =
                 mh_accept xops E (XFin (ll y)) (XFin (ll x)) (XFin 1) t2).
  { rewrite mh_accept_finite; [|exact Hnz|exact (proj2 (n_ll _ _ HN [] x))|lra].
    unfold dr_accept. change (xexp (xsub (XFin (ll y)) (XFin (ll x)))) with (XFin (exp (ll y - ll x))).
    rewrite <- ratio_eq by lra. unfold Rdiv. rewrite Rinv_1, Rmult_1_r.
    change (d_gt xops (XFin (exp (ll y - ll x))) (d_one xops)) with (if Rlt_dec 1 (exp (ll y - ll x)) then true else false).
    destruct (Rlt_dec 1 (exp (ll y - ll x))); reflexivity. }
  unfold mbind at 1 3. rewrite Hacc.
  destruct (mh_accept xops E (XFin (ll y)) (XFin (ll x)) (XFin 1) t2) as [t3 ra].
  destruct ra as [acc| | | | |]; try reflexivity.
  unfold mbind. destruct (issue_sample E _ _ t3) as [t4 r4]. destruct r4; try reflexivity.
  destruct acc; apply IH.
Qed.

Theorem dr0_is_mh : forall ll, nice E ll -> forall strict x0 n,
  dr_sample xops E strict x0 0 n [] = mh_sample xops E x0 n [].
Proof.
  intros ll HN strict x0 n. unfold dr_sample, mh_sample, with_scope_exit.
  unfold mbind at 1 3. unfold log_likelihood, call. rewrite (proj1 (n_ll _ _ HN [] x0)).
  unfold mbind. rewrite (dr_mh_loop ll HN). reflexivity.
Qed.
End S.

(** ** Where max_delays = 0 differs from MetropolisHastings *)

(** every log likelihood is l, the proposal from x is x+1 with ratio q, every random number is u, nothing throws *)
Definition const_env (l q u : xr) : env nat xr := {|
  e_ll := fun _ _ => Some l; e_prop := fun _ x _ => Some (S x, q); e_cross := fun _ x _ _ => Some x;
  e_unif := fun _ => u; e_uint := fun _ _ => 0%N; e_issue := fun _ _ _ => false; e_flush := fun _ => false |}.

Lemma issued_unifs : forall k, @issued nat xr (repeat EUnif k) = [].
Proof. intros k. unfold issued. generalize (@nil (event nat xr)) at 1. induction k; intros; cbn; auto. Qed.

Lemma const_mh : forall l q u (acc : bool),
  (forall t, exists k, mh_accept xops (const_env l q u) l l q t = (t ++ repeat EUnif k, RVal acc)) ->
  forall n x t, exists d, mh_loop xops (const_env l q u) n x l t = (t ++ d, RVal tt) /\
  map fst (issued d) = if acc then seq (S x) n else repeat x n.
Proof.
  intros l q u acc Ha n. induction n as [|n IH]; intros x t.
  - exists []. rewrite app_nil_r. split; [reflexivity|]. now destruct acc.
  - rewrite mh_step. cbn [const_env e_prop e_ll]. set (t2 := _ ++ [EEval (S x)]).
    unfold mbind at 1. destruct (Ha t2) as (k & Hk). rewrite Hk.
    unfold mbind, issue_sample, call. cbn [const_env e_issue].
    replace (if acc then l else l) with l by (now destruct acc).
    set (a := [_; _]). set (z := if acc then S x else x).
    destruct (IH z ((t2 ++ repeat EUnif k) ++ [EIssue z a])) as (d & Hd & Hi). fold (const_env l q u). rewrite Hd.
    exists (([EPropose x []; EEval (S x)] ++ repeat EUnif k ++ [EIssue z a]) ++ d).
    split; [unfold t2; f_equal; now rewrite <- !app_assoc|].
    rewrite !issued_app, issued_unifs, map_app, Hi. cbn. unfold z. destruct acc; reflexivity.
Qed.
Lemma const_dr : forall l q u (acc : bool),
  (forall t, exists k, dr_accept xops (const_env l q u) (xexp (xsub l l)) t = (t ++ repeat EUnif k, RVal acc)) ->
  forall strict n x t, exists d, dr_loop xops (const_env l q u) strict 0 n (x, l) t = (t ++ d, RVal tt) /\
  map fst (issued d) = if acc then seq (S x) n else repeat x n.
Proof.
  intros l q u acc Ha strict n. induction n as [|n IH]; intros x t.
  - exists []. rewrite app_nil_r. split; [reflexivity|]. now destruct acc.
  - rewrite dr_step. cbn [const_env e_prop e_ll]. set (t2 := _ ++ [EEval (S x)]).
    unfold mbind at 1. destruct (Ha t2) as (k & Hk). rewrite Hk.
    unfold mbind, issue_sample, call. cbn [const_env e_issue].
    replace (if acc then l else l) with l by (now destruct acc).
    set (a := [_; _]). set (z := if acc then S x else x).
    destruct (IH z ((t2 ++ repeat EUnif k) ++ [EIssue z a])) as (d & Hd & Hi). fold (const_env l q u). rewrite Hd.
    exists (([EPropose x []; EEval (S x)] ++ repeat EUnif k ++ [EIssue z a]) ++ d).
    split; [unfold t2; f_equal; now rewrite <- !app_assoc|].
    rewrite !issued_app, issued_unifs, map_app, Hi. cbn. unfold z. destruct acc; reflexivity.
Qed.
Lemma const_mh_sample : forall l q u (acc : bool),
  (forall t, exists k, mh_accept xops (const_env l q u) l l q t = (t ++ repeat EUnif k, RVal acc)) ->
  forall n, snd (mh_sample xops (const_env l q u) 0%nat n []) = RVal tt /\
  map fst (issued (fst (mh_sample xops (const_env l q u) 0%nat n []))) = if acc then seq 1 n else repeat 0%nat n.
Proof.
  intros l q u acc Ha n.
  destruct (const_mh l q u acc Ha n 0%nat [EEval 0%nat]) as (d & Hd & Hi).
  assert (H : mh_sample xops (const_env l q u) 0%nat n [] = ((([EEval 0%nat] ++ d) ++ [EFlush]) ++ [EFlush], RVal tt)).
  { unfold mh_sample, with_scope_exit. unfold mbind at 1. unfold log_likelihood, call. cbn [const_env e_ll].
    change (@nil (event nat xr) ++ [EEval 0%nat]) with [@EEval nat xr 0%nat]. fold (const_env l q u).
    unfold mbind. rewrite Hd. reflexivity. }
  rewrite H. cbn [fst snd]. split; [reflexivity|].
  rewrite !issued_app, !map_app. cbn. rewrite Hi, !app_nil_r. reflexivity.
Qed.
Lemma const_dr_sample : forall l q u (acc : bool),
  (forall t, exists k, dr_accept xops (const_env l q u) (xexp (xsub l l)) t = (t ++ repeat EUnif k, RVal acc)) ->
  forall strict n, snd (dr_sample xops (const_env l q u) strict 0%nat 0 n []) = RVal tt /\
  map fst (issued (fst (dr_sample xops (const_env l q u) strict 0%nat 0 n []))) = if acc then seq 1 n else repeat 0%nat n.
Proof.
  intros l q u acc Ha strict n.
  destruct (const_dr l q u acc Ha strict n 0%nat [EEval 0%nat]) as (d & Hd & Hi).
  assert (H : dr_sample xops (const_env l q u) strict 0%nat 0 n [] = ((([EEval 0%nat] ++ d) ++ [EFlush]) ++ [EFlush], RVal tt)).
  { unfold dr_sample, with_scope_exit. unfold mbind at 1. unfold log_likelihood, call. cbn [const_env e_ll].
    change (@nil (event nat xr) ++ [EEval 0%nat]) with [@EEval nat xr 0%nat]. fold (const_env l q u).
    unfold mbind. rewrite Hd. reflexivity. }
  rewrite H. cbn [fst snd]. split; [reflexivity|].
  rewrite !issued_app, !map_app. cbn. rewrite Hi, !app_nil_r. reflexivity.
Qed.

(** all states have probability zero (log likelihood -infinity), symmetric proposals *)
Theorem dr0_zero_differs : forall strict u n, 0 <= u < 1 ->
  let E := const_env XNInf (XFin 1) (XFin u) in
  map fst (issued (fst (mh_sample xops E 0%nat n []))) = seq 1 n /\
  map fst (issued (fst (dr_sample xops E strict 0%nat 0 n []))) = repeat 0%nat n.
Proof.
  intros strict u n Hu E. split.
  - apply (const_mh_sample _ _ _ true). intros t.
    destruct (zero_zero_ninf (const_env XNInf (XFin 1) (XFin u)) 1 u t) as (k & Hk); [lra|reflexivity|].
    exists k. rewrite Hk. destruct (Rle_dec u (1 / 1)); [reflexivity|lra].
  - apply (const_dr_sample _ _ _ false). intros t. exists 1%nat. reflexivity.
Qed.
(** the proposal ratio is ignored *)
Theorem dr0_ratio_ignored : forall strict q u n, 1 < q -> 1 / q < u < 1 ->
  let E := const_env (XFin 0) (XFin q) (XFin u) in
  map fst (issued (fst (mh_sample xops E 0%nat n []))) = repeat 0%nat n /\
  map fst (issued (fst (dr_sample xops E strict 0%nat 0 n []))) = seq 1 n.
Proof.
  intros strict q u n Hq Hu E.
  assert (H0 : nonzero 0). { unfold nonzero. pose proof dbl_max_pos. lra. }
  split.
  - apply (const_mh_sample _ _ _ false). intros t. exists 1%nat. rewrite mh_accept_finite by (auto; lra).
    cbn [const_env e_unif]. rewrite <- ratio_eq by lra. rewrite Rminus_0_r, exp_0.
    destruct (Rlt_dec 1 (1 / q)) as [H|H]; [lra|]. rewrite xge_fin. destruct (Rle_dec u (1 / q)); [lra|reflexivity].
  - apply (const_dr_sample _ _ _ true). intros t. exists 1%nat.
    change (xexp (xsub (XFin 0) (XFin 0))) with (XFin (exp (0 + - 0))). replace (0 + - 0) with 0 by lra. rewrite exp_0.
    unfold dr_accept. change (d_gt xops (XFin 1) (d_one xops)) with (if Rlt_dec 1 1 then true else false).
    destruct (Rlt_dec 1 1); [lra|]. unfold mbind, uniform, call, ret. cbn [const_env e_unif].
    change (d_ge xops (XFin 1) (XFin u)) with (xge (XFin 1) (XFin u)). rewrite xge_fin.
    destruct (Rle_dec u 1); [reflexivity|lra].
Qed.

(** ** The second and third stage *)

(** whether a uniform number u leads to acceptance, as in the test of the main loop *)
Definition dr_decides (a : xr) (u : R) : bool := (xgt a (XFin 1) || xge a (XFin u))%bool.

Lemma dr_accept_decides : forall X (E : env X xr) a u t, e_unif E t = XFin u ->
  exists d, dr_accept xops E a t = (t ++ d, RVal (dr_decides a u)).
Proof.
  intros X E a u t Hu. unfold dr_accept, dr_decides. change (d_gt xops a (d_one xops)) with (xgt a (XFin 1)).
  destruct (xgt a (XFin 1)).
  - exists []. now rewrite app_nil_r.
  - exists [EUnif]. unfold mbind, uniform, call, ret. now rewrite Hu.
Qed.

Lemma dr_decides_fin : forall a u, 0 <= u < 1 -> dr_decides (XFin a) u = if Rle_dec u a then true else false.
Proof.
  intros a u Hu. unfold dr_decides. rewrite xge_fin, xgt_fin. destruct (Rlt_dec 1 a), (Rle_dec u a); auto; lra.
Qed.

Lemma xdiv_fin : forall a b, b <> 0 -> xdiv (XFin a) (XFin b) = XFin (a / b).
Proof. intros a b Hb. unfold xdiv. destruct (Req_EM_T b 0); [contradiction|reflexivity]. Qed.

Lemma exp_minus_ln : forall a b, 0 < a -> 0 < b -> exp (ln a + - ln b) = a / b.
Proof. intros a b Ha Hb. rewrite exp_plus, exp_Ropp, !exp_ln by assumption. reflexivity. Qed.

Lemma alpha_1 : forall X fuel (x y : X) px p, 0 < px -> 0 < p ->
  alpha_fn xops false (S fuel) (x, XFin (ln px)) [(y, XFin (ln p))] = Some (XFin (p / px)).
Proof.
  intros. cbn [alpha_fn length nth_error Nat.sub Nat.eqb snd].
  change (d_exp xops (d_sub xops (XFin (ln p)) (XFin (ln px)))) with (XFin (exp (ln p + - ln px))).
  now rewrite exp_minus_ln.
Qed.

Definition code_alpha2 (px p1 p2 : R) := p2 / px * ((1 - p1 / p2) / (1 - p1 / px)).
Lemma alpha_2 : forall X fuel (x y1 y2 : X) px p1 p2, 0 < px -> 0 < p1 -> 0 < p2 -> p1 <> px ->
  alpha_fn xops false (S (S fuel)) (x, XFin (ln px)) [(y1, XFin (ln p1)); (y2, XFin (ln p2))] = Some (XFin (code_alpha2 px p1 p2)).
Proof.
  intros X fuel x y1 y2 px p1 p2 Hx H1 H2 Hne.
  remember (S fuel) as f1 eqn:Hf1.
  cbn [alpha_fn length nth_error Nat.sub Nat.eqb snd seq fold_left num_yvec andb firstn skipn].
  subst f1. rewrite !alpha_1 by assumption.
  change (d_exp xops (d_sub xops (XFin (ln p2)) (XFin (ln px)))) with (XFin (exp (ln p2 + - ln px))).
  rewrite exp_minus_ln by assumption.
  change (d_div xops (d_sub xops (d_one xops) (XFin (p1 / p2))) (d_sub xops (d_one xops) (XFin (p1 / px))))
    with (xdiv (XFin (1 + - (p1 / p2))) (XFin (1 + - (p1 / px)))).
  rewrite xdiv_fin.
  - reflexivity.
  - intros H. apply Hne. assert (Hd : p1 / px = 1) by lra. apply (f_equal (fun z => z * px)) in Hd. unfold Rdiv in Hd.
    rewrite Rmult_assoc, Rinv_l in Hd by lra. lra.
Qed.
Definition code_alpha3 (px p1 p2 p3 : R) :=
  p3 / px * ((1 - p2 / p3) / (1 - p1 / px)) * ((1 - code_alpha2 p3 p1 p2) / (1 - code_alpha2 px p1 p2)).
Lemma alpha_3 : forall X fuel (x y1 y2 y3 : X) px p1 p2 p3, 0 < px -> 0 < p1 -> 0 < p2 -> 0 < p3 ->
  p1 <> px -> p1 <> p3 -> code_alpha2 px p1 p2 <> 1 ->
  alpha_fn xops false (S (S (S fuel))) (x, XFin (ln px)) [(y1, XFin (ln p1)); (y2, XFin (ln p2)); (y3, XFin (ln p3))] =
  Some (XFin (code_alpha3 px p1 p2 p3)).
Proof.
  intros X fuel x y1 y2 y3 px p1 p2 p3 Hx H1 H2 H3 Hne Hne3 Hc.
  remember (S (S fuel)) as f1 eqn:Hf1.
  cbn [alpha_fn length nth_error Nat.sub Nat.eqb snd seq fold_left num_yvec andb firstn skipn].
  subst f1. rewrite !alpha_1, !alpha_2 by assumption.
  change (d_exp xops (d_sub xops (XFin (ln p3)) (XFin (ln px)))) with (XFin (exp (ln p3 + - ln px))).
  rewrite exp_minus_ln by assumption.
  change (d_div xops (d_sub xops (d_one xops) (XFin (p2 / p3))) (d_sub xops (d_one xops) (XFin (p1 / px))))
    with (xdiv (XFin (1 + - (p2 / p3))) (XFin (1 + - (p1 / px)))).
  change (d_div xops (d_sub xops (d_one xops) (XFin (code_alpha2 p3 p1 p2))) (d_sub xops (d_one xops) (XFin (code_alpha2 px p1 p2))))
    with (xdiv (XFin (1 + - (code_alpha2 p3 p1 p2))) (XFin (1 + - (code_alpha2 px p1 p2)))).
  rewrite !xdiv_fin.
  - reflexivity.
  - intros H. apply Hc. lra.
  - intros H. apply Hne. assert (Hd : p1 / px = 1) by lra. apply (f_equal (fun z => z * px)) in Hd. unfold Rdiv in Hd.
    rewrite Rmult_assoc, Rinv_l in Hd by lra. lra.
Qed.

(** after y1 was rejected (so its density is smaller), the second stage decides as it should *)
Lemma stage2_correct : forall px p1 p2 u, 0 < p1 -> p1 < px -> 0 < p2 -> 0 < u < 1 ->
  dr_decides (XFin (code_alpha2 px p1 p2)) u = if Rle_dec u (alpha2 px p1 p2) then true else false.
Proof.
  intros px p1 p2 u H1 Hx H2 Hu. rewrite dr_decides_fin by lra.
  assert (Hr : p1 / px < 1). { apply Rmult_lt_reg_r with px; [lra|]. unfold Rdiv. rewrite Rmult_assoc, Rinv_l by lra. lra. }
  assert (Ha1 : alpha1 px p1 = p1 / px) by (unfold alpha1; rewrite Rmin_right; lra).
  unfold alpha2. rewrite Ha1. unfold code_alpha2.
  destruct (Rle_dec p1 p2) as [Hle|Hle].
  - assert (Hr2 : p1 / p2 <= 1). { apply Rmult_le_reg_r with p2; [lra|]. unfold Rdiv. rewrite Rmult_assoc, Rinv_l by lra. lra. }
    assert (alpha1 p2 p1 = p1 / p2) as -> by (unfold alpha1; rewrite Rmin_right; lra).
    replace (p2 / px * ((1 - p1 / p2) / (1 - p1 / px))) with (p2 * (1 - p1 / p2) / (px * (1 - p1 / px))) by (field; lra).
    set (v := p2 * (1 - p1 / p2) / (px * (1 - p1 / px))).
    destruct (Rle_dec u v), (Rle_dec u (Rmin 1 v)) as [H'|H']; auto.
    + exfalso. apply H'. apply Rmin_glb; lra.
    + pose proof (Rmin_r 1 v). lra.
  - assert (Hr2 : 1 < p1 / p2). { apply Rmult_lt_reg_r with p2; [lra|]. unfold Rdiv. rewrite Rmult_assoc, Rinv_l by lra. lra. }
    assert (alpha1 p2 p1 = 1) as -> by (unfold alpha1; rewrite Rmin_left; lra).
    replace (p2 * (1 - 1) / (px * (1 - p1 / px))) with 0 by (field; lra). rewrite Rmin_right by lra.
    assert (p2 / px * ((1 - p1 / p2) / (1 - p1 / px)) < 0).
    { assert (0 < p2 / px) by (apply Rdiv_lt_0_compat; lra).
      assert ((1 - p1 / p2) / (1 - p1 / px) < 0).
      { unfold Rdiv at 1. assert (0 < / (1 - p1 / px)) by (apply Rinv_0_lt_compat; lra).
        rewrite <- (Rmult_0_l (/ (1 - p1 / px))). apply Rmult_lt_compat_r; lra. }
      rewrite <- (Rmult_0_r (p2 / px)). apply Rmult_lt_compat_l; lra. }
    destruct (Rle_dec u _); [lra|]. destruct (Rle_dec u 0); [lra|reflexivity].
Qed.

(** two-stage detailed balance *)
Lemma alpha2_balance : forall px p1 p2, 0 < px -> 0 < p1 -> 0 < p2 ->
  px * (1 - alpha1 px p1) * alpha2 px p1 p2 = p2 * (1 - alpha1 p2 p1) * alpha2 p2 p1 px.
Proof.
  intros px p1 p2 Hx H1 H2. unfold alpha2.
  assert (Hn : forall p, 0 < p -> 0 <= 1 - alpha1 p p1) by (intros p Hp; unfold alpha1; pose proof (Rmin_l 1 (p1 / p)); lra).
  set (a := px * (1 - alpha1 px p1)). set (b := p2 * (1 - alpha1 p2 p1)).
  assert (Ha : 0 <= a) by (apply Rmult_le_pos; [lra|auto]). assert (Hb : 0 <= b) by (apply Rmult_le_pos; [lra|auto]).
  destruct (Req_EM_T a 0) as [Ha0|Ha0].
  - rewrite Ha0. unfold Rdiv. rewrite Rmult_0_l, (Rmult_0_l (/ b)). rewrite (Rmin_right 1 0) by lra. lra.
  - destruct (Req_EM_T b 0) as [Hb0|Hb0].
    + rewrite Hb0. unfold Rdiv. rewrite !Rmult_0_l. rewrite (Rmin_right 1 0) by lra. lra.
    + destruct (Rle_dec a b) as [Hle|Hle].
      * rewrite Rmin_left, Rmin_right; [field; lra| |].
        -- apply Rmult_le_reg_r with b; [lra|]. unfold Rdiv. rewrite Rmult_assoc, Rinv_l by lra. lra.
        -- apply Rmult_le_reg_r with a; [lra|]. unfold Rdiv. rewrite Rmult_assoc, Rinv_l by lra. lra.
      * rewrite Rmin_right, Rmin_left; [field; lra| |].
        -- apply Rmult_le_reg_r with b; [lra|]. unfold Rdiv. rewrite Rmult_assoc, Rinv_l by lra. lra.
        -- apply Rmult_le_reg_r with a; [lra|]. unfold Rdiv. rewrite Rmult_assoc, Rinv_l by lra. lra.
Qed.

(** the third stage uses the rejected samples in the wrong order *)
Lemma stage3_wrong :
  code_alpha3 1 (1/5) (2/5) (4/5) = 4 / 9 /\ alpha3 1 (1/5) (2/5) (4/5) = 2 / 3.
Proof.
  split; [unfold code_alpha3, code_alpha2; field; lra|].
  assert (A1 : forall a b, 0 < a -> b <= a -> alpha1 a b = b / a).
  { intros a b Ha Hb. unfold alpha1. apply Rmin_right. apply Rmult_le_reg_r with a; [lra|]. unfold Rdiv. rewrite Rmult_assoc, Rinv_l by lra. lra. }
  unfold alpha3, alpha2. rewrite (A1 (4/5) (2/5)), (A1 1 (1/5)), (A1 (2/5) (1/5)) by lra.
  assert (alpha1 (1/5) (2/5) = 1) as -> by (unfold alpha1; apply Rmin_left; lra).
  replace (1 / 5 * (1 - 1) / (4 / 5 * (1 - 2 / 5 / (4 / 5)))) with 0 by (field; lra).
  replace (2 / 5 * (1 - 1 / 5 / (2 / 5)) / (1 * (1 - 1 / 5 / 1))) with (1/4) by (field; lra).
  rewrite (Rmin_right 1 0), (Rmin_right 1 (1/4)) by lra.
  replace (4 / 5 * (1 - 2 / 5 / (4 / 5)) * (1 - 0) / (1 * (1 - 1 / 5 / 1) * (1 - 1 / 4))) with (2/3) by (field; lra).
  apply Rmin_right. lra.
Qed.
