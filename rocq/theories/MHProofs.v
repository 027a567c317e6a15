(** Proofs about the acceptance rule of MetropolisHastings over extended reals. *)
From Coq Require Import Reals Lra String.
From Coquelicot Require Import Coquelicot.
From Verif Require Import Prelude ProducerModel ProducerSpec ProducerProofs XReal MHSpec.
Import ListNotations.
Local Open Scope R_scope.
Local Open Scope list_scope.
Local Notation length := List.length.

(** ** arithmetic *)
Lemma ratio_gt_1 : forall tl cl q, 0 < q -> (1 < exp tl / (exp cl * q) <-> cl < tl - ln q).
Proof.
  intros tl cl q Hq.
  assert (He : 0 < exp cl * q) by (apply Rmult_lt_0_compat; [apply exp_pos|exact Hq]).
  assert (Hm : exp cl * q = exp (cl + ln q)) by (rewrite exp_plus, exp_ln; auto).
  split; intros H.
  - assert (exp cl * q < exp tl).
    { apply Rmult_lt_reg_r with (/ (exp cl * q)); [now apply Rinv_0_lt_compat|]. rewrite Rinv_r by lra. exact H. }
    rewrite Hm in H0. apply exp_lt_inv in H0. lra.
  - assert (exp cl * q < exp tl) by (rewrite Hm; apply exp_increasing; lra).
    apply Rmult_lt_reg_r with (exp cl * q); [exact He|]. unfold Rdiv. rewrite Rmult_assoc, Rinv_l by lra. lra.
Qed.
Lemma ratio_eq : forall tl cl q, 0 < q -> exp (tl - cl) / q = exp tl / (exp cl * q).
Proof.
  intros. unfold Rminus, Rdiv. rewrite exp_plus, exp_Ropp. field. split; [lra|]. pose proof (exp_pos cl). lra.
Qed.

Lemma xge_fin : forall a b, xge (XFin a) (XFin b) = if Rle_dec b a then true else false.
Proof.
  intros a b. unfold xge. cbn. destruct (Rlt_dec b a), (Req_EM_T a b), (Rle_dec b a); auto; lra.
Qed.
Lemma xgt_fin : forall a b, xgt (XFin a) (XFin b) = if Rlt_dec b a then true else false.
Proof. reflexivity. Qed.

(** not one of the two values which mean probability zero *)
Lemma nonzero_false : forall l, nonzero l -> has_zero_probability xops (XFin l) = false.
Proof. intros l H. unfold has_zero_probability. cbn. destruct (Req_EM_T l (- dbl_max)); [contradiction|reflexivity]. Qed.

Section S.
Context {X : Type}.
Variable E : env X xr.

Lemma mh_accept_finite : forall tl cl q t,
  nonzero tl -> nonzero cl -> 0 < q ->
  mh_accept xops E (XFin tl) (XFin cl) (XFin q) t =
  if Rlt_dec 1 (exp tl / (exp cl * q)) then (t, RVal true)
  else (t ++ [EUnif], RVal (xge (XFin (exp tl / (exp cl * q))) (e_unif E t))).
Proof.
  intros tl cl q t Ht Hc Hq. unfold mh_accept. rewrite !nonzero_false by assumption. cbn [andb negb].
  cbn [mbind ret].
  change (mbind (ret false) ?k t) with (k false t). cbn iota beta.
  change (d_log xops (XFin q)) with (xlog (XFin q)). unfold xlog.
  destruct (Rlt_dec q 0); [lra|]. destruct (Req_EM_T q 0); [lra|].
  change (d_gt xops (d_sub xops (XFin tl) (XFin (ln q))) (XFin cl)) with (if Rlt_dec cl (tl + - ln q) then true else false).
  pose proof (ratio_gt_1 tl cl q Hq) as Hr.
  destruct (Rlt_dec cl (tl + - ln q)) as [H1|H1]; destruct (Rlt_dec 1 (exp tl / (exp cl * q))) as [H2|H2]; try reflexivity; try (exfalso; tauto).
  unfold mbind, uniform, call, ret. 
  change (d_div xops (d_exp xops (d_sub xops (XFin tl) (XFin cl))) (XFin q)) with (xdiv (XFin (exp (tl + - cl))) (XFin q)).
  unfold xdiv. destruct (Req_EM_T q 0); [lra|]. change (tl + - cl) with (tl - cl). rewrite ratio_eq by exact Hq. reflexivity.
Qed.

Local Notation nice := (nice E).
Lemma mh_loop_textbook : forall ll, nice ll -> forall n x t t',
  mh_loop xops E n x (XFin (ll x)) t = (t', RVal tt) ->
  exists d, t' = t ++ d /\
   map fst (issued d) =
   textbook_mh ll x (map (fun p => (fst (snd p), fin_val (snd (snd p)))) (props_from E t d)) (map fin_val (draws_from E t d)).
Proof.
  intros ll HN n. induction n as [|n IH]; intros x t t' H.
  - inversion H; subst. exists []. now rewrite app_nil_r.
  - cbn [mh_loop] in H. unfold mbind at 1 in H. unfold propose_sample, call in H.
    destruct (e_prop E t x []) as [[y q]|] eqn:Hp; [|discriminate].
    unfold mbind at 1 in H. unfold log_likelihood, call in H.
    destruct (n_ll _ _ HN (t ++ [EPropose x []]) y) as [Hl Hnz]. rewrite Hl in H.
    destruct (n_prop _ _ HN _ _ _ _ _ Hp) as (r & -> & Hr).
    unfold mbind at 1 in H.
    rewrite mh_accept_finite in H; [|exact Hnz|exact (proj2 (n_ll _ _ HN [] x))|exact Hr].
    set (t2 := (t ++ [EPropose x []]) ++ [EEval y]) in *.
    fold (mh_ratio ll x y r) in H.
    destruct (n_unif _ _ HN t2) as (u & Hu & Hu01).
    destruct (Rlt_dec 1 (mh_ratio ll x y r)) as [H1|H1].
    + unfold mbind, issue_sample, call in H. destruct (e_issue E _ _ _); [discriminate|]. apply IH in H.
      destruct H as (d & -> & Hd). set (a := [_; _]) in *.
      exists ([EPropose x []; EEval y; EIssue y a] ++ d). split; [unfold t2; now rewrite <- !app_assoc|].
      rewrite issued_app, map_app.
      unfold props_from, draws_from. rewrite !collect_app. cbn [collect app]. rewrite Hp. cbn [option_map app map fst snd fin_val].
      cbn [textbook_mh]. destruct (Rlt_dec 1 (mh_ratio ll x y r)); [|contradiction].
      cbn. f_equal. replace (t2 ++ [EIssue y a]) with (t ++ [EPropose x []; EEval y; EIssue y a]) in Hd by (unfold t2; now rewrite <- !app_assoc).
      exact Hd.
    + rewrite Hu, xge_fin in H.
      unfold mbind, issue_sample, call in H. destruct (e_issue E _ _ _); [discriminate|]. 
      set (z := if (if Rle_dec u (mh_ratio ll x y r) then true else false) then y else x) in *.
      replace (if (if Rle_dec u (mh_ratio ll x y r) then true else false) then XFin (ll y) else XFin (ll x)) with (XFin (ll z)) in H by (unfold z; destruct (Rle_dec _ _); reflexivity).
      apply IH in H. destruct H as (d & -> & Hd). set (a := [_; _]) in *.
      exists ([EPropose x []; EEval y; EUnif; EIssue z a] ++ d). split; [unfold t2; now rewrite <- !app_assoc|].
      rewrite issued_app, map_app.
      unfold props_from, draws_from. rewrite !collect_app. cbn [collect app]. rewrite Hp. cbn [option_map app map fst snd fin_val].
      replace (((t ++ [EPropose x []]) ++ [EEval y])) with t2 by reflexivity. rewrite Hu.
      cbn [textbook_mh map fin_val app]. destruct (Rlt_dec 1 (mh_ratio ll x y r)); [contradiction|].
      replace (if Rle_dec u (mh_ratio ll x y r) then y else x) with z by (unfold z; destruct (Rle_dec _ _); reflexivity).
      cbn. f_equal. replace ((t2 ++ [EUnif]) ++ [EIssue z a]) with (t ++ [EPropose x []; EEval y; EUnif; EIssue z a]) in Hd by (unfold t2; now rewrite <- !app_assoc).
      exact Hd.
Qed.

Theorem mh_is_textbook : forall ll, nice ll -> forall x0 n t,
  mh_sample xops E x0 n [] = (t, RVal tt) ->
  map fst (issued t) =
  textbook_mh ll x0 (map (fun p => (fst (snd p), fin_val (snd (snd p)))) (proposals E t)) (map fin_val (draws E t)).
Proof.
  intros ll HN x0 n t H. apply scope_exit_inv in H. destruct H as (t1 & r1 & Hb & Hr & Hr').
  unfold mbind at 1 in Hb. unfold log_likelihood, call in Hb. cbn [app] in Hb.
  destruct (n_ll _ _ HN [] x0) as [Hl _]. rewrite Hl in Hb.
  unfold mbind in Hb. destruct (mh_loop xops E n x0 (XFin (ll x0)) [EEval x0]) as [t2 r2] eqn:Hloop.
  assert (Hok : okres r2). { destruct (mh_loop_spec _ _ _ _ _ _ _ _ Hloop) as (? & _ & _ & Hok & _). exact Hok. }
  destruct Hok as [[[] ->]| ->].
  2:{ inversion Hb; subst t1 r1. destruct (Hr (or_intror eq_refl)) as [_ Hx]. destruct (e_flush E _); discriminate. }
  unfold flush_consumers, call in Hb. destruct (e_flush E t2) eqn:Hf; inversion Hb; subst t1 r1.
  { destruct (Hr (or_intror eq_refl)) as [_ Hx]. match type of Hx with _ = (if ?c then _ else _) => destruct c end; discriminate Hx. }
  destruct (Hr (or_introl (ex_intro _ tt eq_refl))) as [-> _].
  apply (mh_loop_textbook ll HN) in Hloop. destruct Hloop as (d & -> & Hd).
  replace ((([EEval x0] ++ d) ++ [EFlush]) ++ [EFlush]) with (([EEval x0] ++ d) ++ repeat EFlush 2) by (cbn; now rewrite <- !app_assoc).
  unfold proposals, draws. rewrite issued_tail_flush, !collect_tail_flush by reflexivity.
  rewrite issued_app, !collect_app. cbn [collect app]. cbn [issued collect app map]. exact Hd.
Qed.
End S.

(** ** The probability of acceptance *)


Lemma RInt_indicator : forall a, 0 <= a -> is_RInt (fun u => if Rle_dec u a then 1 else 0) 0 1 (Rmin 1 a).
Proof.
  intros a Ha. destruct (Rle_dec 1 a) as [H|H].
  - rewrite Rmin_left by exact H. apply is_RInt_ext with (f := fun _ => 1).
    + intros u Hu. rewrite Rmin_left, Rmax_right in Hu by lra. destruct (Rle_dec u a); lra.
    + replace 1 with (scal (1 - 0) 1) at 2 by (cbv [scal]; cbn; cbv [mult]; cbn; lra). apply (is_RInt_const (V := R_NormedModule)).
  - rewrite Rmin_right by lra.
    assert (HS : a = plus (scal (a - 0) 1) (scal (1 - a) 0)) by (cbv [plus scal]; cbn; cbv [mult]; cbn; lra).
    enough (HI : is_RInt (fun u => if Rle_dec u a then 1 else 0) 0 1 (plus (scal (a - 0) 1) (scal (1 - a) 0))) by (rewrite <- HS in HI; exact HI). apply (is_RInt_Chasles (V := R_NormedModule)) with (b := a).
    + apply is_RInt_ext with (f := fun _ => 1); [|apply (is_RInt_const (V := R_NormedModule))].
      intros u Hu. rewrite Rmin_left, Rmax_right in Hu by lra. destruct (Rle_dec u a); lra.
    + apply is_RInt_ext with (f := fun _ => 0); [|apply (is_RInt_const (V := R_NormedModule))].
      intros u Hu. rewrite Rmin_left, Rmax_right in Hu by lra. destruct (Rle_dec u a); lra.
Qed.

Theorem mh_acceptance_probability : forall X (E : env X xr) t tl cl q,
  nonzero tl -> nonzero cl -> 0 < q ->
  is_RInt (fun u => match snd (mh_accept xops (with_draw E u) (XFin tl) (XFin cl) (XFin q) t) with RVal true => 1 | _ => 0 end)
    0 1 (Rmin 1 (exp tl / (exp cl * q))).
Proof.
  intros X E t tl cl q Ht Hc Hq.
  assert (Hpos : 0 < exp tl / (exp cl * q)).
  { apply Rdiv_lt_0_compat; [apply exp_pos|]. apply Rmult_lt_0_compat; [apply exp_pos|exact Hq]. }
  apply is_RInt_ext with (f := fun u => if Rle_dec u (exp tl / (exp cl * q)) then 1 else 0).
  - intros u Hu. rewrite Rmin_left, Rmax_right in Hu by lra. rewrite mh_accept_finite by assumption.
    destruct (Rlt_dec 1 (exp tl / (exp cl * q))) as [H|H].
    + cbn [snd]. destruct (Rle_dec u _); lra.
    + cbn [snd with_draw e_unif]. rewrite xge_fin. destruct (Rle_dec u _); reflexivity.
  - apply RInt_indicator. lra.
Qed.

(** ** Detailed balance and stationarity *)

Section Balance.
Context {X : Type}.
Variable eqX : forall x y : X, {x = y} + {x <> y}.
Variables (ll : X -> R) (q : X -> X -> R).
Hypothesis q_nonneg : forall x y, 0 <= q x y.
Hypothesis q_sym_support : forall x y, q x y = 0 -> q y x = 0.
Let A x y := Rmin 1 (mh_ratio ll x y (q x y / q y x)).

Lemma detailed_balance : forall x y, exp (ll x) * (q x y * A x y) = exp (ll y) * (q y x * A y x).
Proof.
  intros x y. unfold A, mh_ratio. pose proof (exp_pos (ll x)) as Hx. pose proof (exp_pos (ll y)) as Hy.
  destruct (Req_EM_T (q x y) 0) as [H0|H0].
  - rewrite H0, (q_sym_support _ _ H0). lra.
  - assert (H1 : q y x <> 0) by (intros H; apply H0; now apply q_sym_support).
    assert (Hp : 0 < q x y) by (pose proof (q_nonneg x y); lra).
    assert (Hp1 : 0 < q y x) by (pose proof (q_nonneg y x); lra).
    set (px := exp (ll x)) in *. set (py := exp (ll y)) in *. set (a := q x y) in *. set (b := q y x) in *.
    replace (py / (px * (a / b))) with ((py * b) / (px * a)) by (field; lra).
    replace (px / (py * (b / a))) with ((px * a) / (py * b)) by (field; lra).
    assert (Hpa : 0 < px * a) by (apply Rmult_lt_0_compat; lra).
    assert (Hpb : 0 < py * b) by (apply Rmult_lt_0_compat; lra).
    destruct (Rle_dec (px * a) (py * b)) as [Hle|Hle].
    + rewrite Rmin_left, Rmin_right; [field; lra| |].
      * apply Rmult_le_reg_r with (py * b); [lra|]. unfold Rdiv. rewrite Rmult_assoc, Rinv_l by lra. lra.
      * apply Rmult_le_reg_r with (px * a); [lra|]. unfold Rdiv. rewrite Rmult_assoc, Rinv_l by lra. lra.
    + rewrite Rmin_right, Rmin_left; [field; lra| |].
      * apply Rmult_le_reg_r with (py * b); [lra|]. unfold Rdiv. rewrite Rmult_assoc, Rinv_l by lra. lra.
      * apply Rmult_le_reg_r with (px * a); [lra|]. unfold Rdiv. rewrite Rmult_assoc, Rinv_l by lra. lra.
Qed.

Lemma sumR_ext : forall (f g : X -> R) l, (forall x, In x l -> f x = g x) -> sumR f l = sumR g l.
Proof. intros f g l. induction l as [|x l IH]; intros H; cbn; [reflexivity|]. rewrite H, IH by (cbn; auto with datatypes). reflexivity. Qed.
Lemma sumR_plus : forall (f g : X -> R) l, sumR (fun x => f x + g x) l = sumR f l + sumR g l.
Proof. intros f g l. induction l as [|x l IH]; cbn; [lra|]. rewrite IH. lra. Qed.
Lemma sumR_scal : forall c (f : X -> R) l, sumR (fun x => c * f x) l = c * sumR f l.
Proof. intros c f l. induction l as [|x l IH]; cbn; [lra|]. rewrite IH. lra. Qed.
Lemma sumR_delta : forall (f : X -> R) y l, NoDup l -> In y l -> sumR (fun x => if eqX x y then f x else 0) l = f y.
Proof.
  intros f y l Hn. induction Hn as [|x l Hx Hn IH]; intros Hy; [contradiction|]. cbn.
  destruct (eqX x y) as [->|Hxy].
  - assert (forall l, ~ In y l -> sumR (fun x => if eqX x y then f x else 0) l = 0) as H0.
    { clear. induction l as [|z l IH]; intros H; cbn; [reflexivity|]. destruct (eqX z y) as [->|]; [exfalso; apply H; now left|].
      rewrite IH; [lra|]. intros H'. apply H. now right. }
    rewrite H0 by exact Hx. lra.
  - destruct Hy as [->|Hy]; [contradiction|]. rewrite IH by exact Hy. lra.
Qed.
Lemma sumR_le : forall (f g : X -> R) l, (forall x, f x <= g x) -> sumR f l <= sumR g l.
Proof. intros f g l H. induction l as [|x l IH]; cbn; [lra|]. pose proof (H x). lra. Qed.

Lemma stationary : forall states y, NoDup states -> In y states ->
  sumR (fun x => exp (ll x) * kernel eqX states q A x y) states = exp (ll y).
Proof.
  intros states y Hn Hy. unfold kernel.
  rewrite (sumR_ext _ (fun x => exp (ll y) * (q y x * A y x) +
     (if eqX x y then exp (ll x) * (1 - sumR (fun z => q x z * A x z) states) else 0))).
  2:{ intros x _. rewrite Rmult_plus_distr_l, detailed_balance. destruct (eqX x y); lra. }
  rewrite sumR_plus, (sumR_scal (exp (ll y))), (sumR_delta (fun x => exp (ll x) * (1 - sumR (fun z => q x z * A x z) states))) by assumption.
  lra.
Qed.
Lemma kernel_row_sum : forall states x, NoDup states -> In x states ->
  sumR (fun y => kernel eqX states q A x y) states = 1.
Proof.
  intros states x Hn Hx. unfold kernel. rewrite sumR_plus.
  set (s := sumR (fun z => q x z * A x z) states).
  rewrite (sumR_ext (fun y => if eqX x y then 1 - s else 0) (fun y => if eqX y x then 1 - s else 0)).
  2:{ intros z _. destruct (eqX x z), (eqX z x); congruence. }
  rewrite (sumR_delta (fun _ => 1 - s)) by assumption. unfold s. lra.
Qed.
Lemma kernel_nonneg : forall states x y, sumR (q x) states = 1 -> 0 <= kernel eqX states q A x y.
Proof.
  intros states x y Hs. unfold kernel.
  assert (HA : forall a b, 0 <= q a b * A a b <= q a b).
  { intros a b. pose proof (q_nonneg a b) as H0. unfold A.
    destruct (Req_EM_T (q a b) 0) as [->|H1]; [lra|].
    assert (0 <= mh_ratio ll a b (q a b / q b a)).
    { unfold mh_ratio. apply Rlt_le, Rdiv_lt_0_compat; [apply exp_pos|]. apply Rmult_lt_0_compat; [apply exp_pos|].
      apply Rdiv_lt_0_compat; [lra|]. pose proof (q_nonneg b a). assert (q b a <> 0) by (intros H'; apply H1; now apply q_sym_support). lra. }
    pose proof (Rmin_l 1 (mh_ratio ll a b (q a b / q b a))).
    assert (0 <= Rmin 1 (mh_ratio ll a b (q a b / q b a))) by (apply Rmin_glb; lra). split.
    - now apply Rmult_le_pos.
    - apply Rle_trans with (q a b * 1); [apply Rmult_le_compat_l; lra|lra]. }
  assert (sumR (fun z => q x z * A x z) states <= 1). { rewrite <- Hs. apply sumR_le. intros z. apply HA. }
  pose proof (HA x y). destruct (eqX x y); lra.
Qed.
End Balance.

(** ** Zero probabilities and NaN *)
Section Z.
Context {X : Type}.
Variable E : env X xr.
Lemma dbl_max_pos : 0 < dbl_max.
Proof. unfold dbl_max. apply Rmult_lt_0_compat; [|apply pow_lt; lra]. assert (1 < 2 ^ 53) by (apply Rlt_pow_R1; [lra|lia]). lra. Qed.

Lemma zero_cases : forall l, has_zero_probability xops l = true <-> l = XNInf \/ l = XFin (- dbl_max).
Proof.
  intros [| |r|]; unfold has_zero_probability; cbn; try (split; [discriminate|intros [H|H]; discriminate]).
  - split; auto.
  - destruct (Req_EM_T r (- dbl_max)) as [->|H]; cbn; [split; auto|]. split; [discriminate|]. intros [H'|H']; [discriminate|]. inversion H'. contradiction.
Qed.

Lemma zero_trial_rejected : forall tl cl q t,
  (tl = XNInf \/ tl = XFin (- dbl_max)) -> cl <> XNInf -> cl <> XFin (- dbl_max) ->
  mh_accept xops E tl cl q t = (t, RVal false).
Proof.
  intros tl cl q t Ht Hc1 Hc2. unfold mh_accept. rewrite (proj2 (zero_cases tl) Ht).
  destruct (has_zero_probability xops cl) eqn:Hc; [|reflexivity].
  apply zero_cases in Hc. tauto.
Qed.
Lemma leave_ninf : forall tl q t, nonzero tl -> 0 < q ->
  mh_accept xops E (XFin tl) XNInf (XFin q) t = (t, RVal true).
Proof.
  intros tl q t Ht Hq. unfold mh_accept. rewrite nonzero_false by exact Ht. cbn [andb].
  change (mbind (ret false) ?k t) with (k false t). cbn iota beta.
  change (d_log xops (XFin q)) with (xlog (XFin q)). unfold xlog.
  destruct (Rlt_dec q 0); [lra|]. destruct (Req_EM_T q 0); [lra|]. reflexivity.
Qed.
Lemma leave_nmax : forall tl q t, nonzero tl -> 0 < q -> tl - ln q > - dbl_max ->
  mh_accept xops E (XFin tl) (XFin (- dbl_max)) (XFin q) t = (t, RVal true).
Proof.
  intros tl q t Ht Hq Hd. unfold mh_accept. rewrite (nonzero_false tl) by exact Ht. cbn [andb].
  change (mbind (ret false) ?k t) with (k false t). cbn iota beta.
  change (d_log xops (XFin q)) with (xlog (XFin q)). unfold xlog.
  destruct (Rlt_dec q 0); [lra|]. destruct (Req_EM_T q 0); [lra|].
  change (d_gt xops (d_sub xops (XFin tl) (XFin (ln q))) (XFin (- dbl_max))) with (if Rlt_dec (- dbl_max) (tl + - ln q) then true else false).
  destruct (Rlt_dec (- dbl_max) (tl + - ln q)); [reflexivity|lra].
Qed.

(** both zero, marked by -max: two chances *)
Lemma zero_zero_nmax : forall q u1 u2 t, 1 < q ->
  e_unif E t = XFin u1 -> e_unif E (t ++ [EUnif]) = XFin u2 ->
  mh_accept xops E (XFin (- dbl_max)) (XFin (- dbl_max)) (XFin q) t =
  if Rle_dec u1 (1 / q) then (t ++ [EUnif], RVal true)
  else (t ++ [EUnif; EUnif], RVal (if Rle_dec u2 (1 / q) then true else false)).
Proof.
  intros q u1 u2 t Hq Hu1 Hu2. unfold mh_accept. rewrite (proj2 (zero_cases (XFin (- dbl_max))) (or_intror eq_refl)).
  cbn [andb negb]. unfold mbind, uniform, call, ret. rewrite Hu1.
  change (d_div xops (d_one xops) (XFin q)) with (xdiv (XFin 1) (XFin q)). unfold xdiv.
  destruct (Req_EM_T q 0); [lra|].
  change (d_ge xops (XFin (1 / q)) (XFin u1)) with (xge (XFin (1 / q)) (XFin u1)). rewrite xge_fin.
  destruct (Rle_dec u1 (1 / q)); [reflexivity|].
  change (d_log xops (XFin q)) with (xlog (XFin q)). unfold xlog.
  destruct (Rlt_dec q 0); [lra|]. destruct (Req_EM_T q 0); [lra|].
  change (d_gt xops (d_sub xops (XFin (- dbl_max)) (XFin (ln q))) (XFin (- dbl_max))) with (if Rlt_dec (- dbl_max) (- dbl_max + - ln q) then true else false).
  assert (0 < ln q) by (rewrite <- ln_1; apply ln_increasing; lra).
  destruct (Rlt_dec (- dbl_max) (- dbl_max + - ln q)); [lra|]. rewrite Hu2.
  change (d_exp xops (d_sub xops (XFin (- dbl_max)) (XFin (- dbl_max)))) with (XFin (exp (- dbl_max + - - dbl_max))).
  replace (- dbl_max + - - dbl_max) with 0 by lra. rewrite exp_0.
  change (d_div xops (XFin 1) (XFin q)) with (xdiv (XFin 1) (XFin q)). unfold xdiv.
  destruct (Req_EM_T q 0); [lra|].
  change (d_ge xops (XFin (1 / q)) (XFin u2)) with (xge (XFin (1 / q)) (XFin u2)). rewrite xge_fin, <- app_assoc. reflexivity.
Qed.
(** both zero, marked by -infinity: as documented *)
Lemma zero_zero_ninf : forall q u1 t, 0 < q -> e_unif E t = XFin u1 ->
  exists k, mh_accept xops E XNInf XNInf (XFin q) t = (t ++ repeat EUnif k, RVal (if Rle_dec u1 (1 / q) then true else false)).
Proof.
  intros q u1 t Hq Hu1. unfold mh_accept. cbn [andb negb has_zero_probability d_eq d_ninf d_nmax xops xeq orb].
  unfold mbind, uniform, call, ret. rewrite Hu1.
  change (d_div xops (d_one xops) (XFin q)) with (xdiv (XFin 1) (XFin q)). unfold xdiv.
  destruct (Req_EM_T q 0); [lra|].
  change (d_ge xops (XFin (1 / q)) (XFin u1)) with (xge (XFin (1 / q)) (XFin u1)). rewrite xge_fin.
  destruct (Rle_dec u1 (1 / q)); [exists 1%nat; reflexivity|].
  change (d_log xops (XFin q)) with (xlog (XFin q)). unfold xlog.
  destruct (Rlt_dec q 0); [lra|]. destruct (Req_EM_T q 0); [lra|].
  exists 2%nat. cbn. rewrite <- app_assoc. reflexivity.
Qed.
(** from -inf to -max: always accepted *)
Lemma ninf_to_nmax : forall q t, 0 < q ->
  exists k, mh_accept xops E (XFin (- dbl_max)) XNInf (XFin q) t = (t ++ repeat EUnif k, RVal true).
Proof.
  intros q t Hq. unfold mh_accept. rewrite (proj2 (zero_cases (XFin (- dbl_max))) (or_intror eq_refl)).
  cbn [andb negb has_zero_probability d_eq d_ninf d_nmax xops xeq orb].
  unfold mbind, uniform, call, ret.
  destruct (d_ge xops (d_div xops (d_one xops) (XFin q)) (e_unif E t)); [exists 1%nat; reflexivity|].
  change (d_log xops (XFin q)) with (xlog (XFin q)). unfold xlog.
  destruct (Rlt_dec q 0); [lra|]. destruct (Req_EM_T q 0); [lra|]. exists 1%nat. reflexivity.
Qed.
(** NaN *)
Lemma xdiv_nan : forall q, xdiv XNaN q = XNaN.
Proof. intros []; reflexivity. Qed.
Lemma nan_trial : forall cl q t, exists t', mh_accept xops E XNaN cl q t = (t', RVal false).
Proof.
  intros cl q t. unfold mh_accept. change (has_zero_probability xops XNaN) with false. cbn [andb].
  change (mbind (ret false) ?k t) with (k false t). cbn iota beta.
  change (d_gt xops (d_sub xops XNaN (d_log xops q)) cl) with false. cbn iota.
  unfold mbind, uniform, call, ret. eexists. apply f_equal. apply f_equal.
  change (d_div xops (d_exp xops (d_sub xops XNaN cl)) q) with (xdiv XNaN q). now rewrite xdiv_nan.
Qed.
Lemma nan_current : forall tl q t, exists t', mh_accept xops E tl XNaN q t = (t', RVal false).
Proof.
  intros tl q t. unfold mh_accept. change (has_zero_probability xops XNaN) with false.
  destruct (has_zero_probability xops tl); cbn [andb negb]; [eexists; reflexivity|].
  change (mbind (ret false) ?k t) with (k false t). cbn iota beta.
  assert (d_gt xops (d_sub xops tl (d_log xops q)) XNaN = false) as ->.
  { change (xgt (xsub tl (xlog q)) XNaN = false). destruct (xsub tl (xlog q)); reflexivity. }
  unfold mbind, uniform, call, ret. eexists. f_equal. f_equal.
  change (xge (xdiv (xexp (xsub tl XNaN)) q) (e_unif E t) = false).
  assert (xsub tl XNaN = XNaN) as -> by (destruct tl; reflexivity). cbn [xexp]. now rewrite xdiv_nan.
Qed.
(** a chain which starts with NaN never moves *)
Lemma nan_stuck_loop : forall n x t t' r, mh_loop xops E n x XNaN t = (t', r) ->
  exists d, t' = t ++ d /\ forall z a, In (z, a) (issued d) -> z = x.
Proof.
  induction n as [|n IH]; intros x t t' r H; cbn [mh_loop] in H.
  - inversion H; subst. exists []. rewrite app_nil_r. split; [reflexivity|]. cbn. tauto.
  - unfold mbind at 1 in H. unfold propose_sample, call in H.
    destruct (e_prop E t x []) as [[y q]|]; [|inversion H; subst; eexists; split; [reflexivity|cbn; tauto]].
    unfold mbind at 1 in H. unfold log_likelihood, call in H.
    destruct (e_ll E _ y) as [ly|]; [|inversion H; subst; exists [EPropose x []; EEval y]; split; [now rewrite <- app_assoc|cbn; tauto]].
    unfold mbind at 1 in H.
    destruct (mh_accept xops E ly XNaN q ((t ++ [EPropose x []]) ++ [EEval y])) as [t1 ra] eqn:Ha.
    destruct (nan_current ly q ((t ++ [EPropose x []]) ++ [EEval y])) as (t1' & Ha'). rewrite Ha in Ha'. inversion Ha'; subst t1' ra.
    apply mh_accept_spec in Ha. destruct Ha as (da & acc & -> & _ & Hda).
    unfold mbind, issue_sample, call in H. cbn iota in H. set (a := [_; _]) in *.
    assert (His : issued ([EPropose x []; EEval y] ++ da ++ [EIssue x a]) = [(x, a)]).
    { destruct Hda as [->|[->| ->]]; reflexivity. }
    destruct (e_issue E _ x a).
    + inversion H; subst. exists ([EPropose x []; EEval y] ++ da ++ [EIssue x a]). split; [now rewrite <- !app_assoc|].
      rewrite His. intros z b [Hz|[]]. now inversion Hz.
    + apply IH in H. destruct H as (d & -> & Hd). exists (([EPropose x []; EEval y] ++ da ++ [EIssue x a]) ++ d).
      split; [now rewrite <- !app_assoc|]. rewrite issued_app, His. intros z b [Hz|Hz]; [now inversion Hz|eauto].
Qed.
End Z.
