(** Theorems which connect the acceptance test of the code with the textbook's statements about Markov chains, and
    the same for the second stage of delayed rejection. *)
From Coq Require Import Reals Lra String.
From Coquelicot Require Import Coquelicot.
From Verif Require Import Prelude ProducerModel ProducerSpec ProducerProofs XReal MHSpec MHProofs DRReal.
Import ListNotations.
Local Open Scope R_scope.
Local Open Scope list_scope.

Section B.
Context {X : Type}.
Variable eqX : forall x y : X, {x = y} + {x <> y}.
Variable E : env X xr.
Variables (ll : X -> R) (q : X -> X -> R).
Hypothesis q_nonneg : forall x y, 0 <= q x y.
Hypothesis q_sym_support : forall x y, q x y = 0 -> q y x = 0.
Hypothesis ll_nonzero : forall x, nonzero (ll x).
Variable A : X -> X -> R.
Hypothesis A_code : forall t x y, 0 < q x y ->
  is_RInt (fun u => match snd (mh_accept xops (with_draw E u) (XFin (ll y)) (XFin (ll x)) (XFin (q x y / q y x)) t) with
                    | RVal true => 1 | _ => 0 end) 0 1 (A x y).

Let A' x y := Rmin 1 (mh_ratio ll x y (q x y / q y x)).
Lemma q_pos_sym : forall x y, 0 < q x y -> 0 < q y x.
Proof.
  intros x y H. destruct (Rle_lt_or_eq_dec _ _ (q_nonneg y x)) as [H'|H']; [exact H'|].
  symmetry in H'. apply q_sym_support in H'. lra.
Qed.
Lemma A_eq : forall x y, q x y * A x y = q x y * A' x y.
Proof.
  intros x y. destruct (Rle_lt_or_eq_dec _ _ (q_nonneg x y)) as [H|H]; [|rewrite <- H; ring].
  f_equal. pose proof (A_code [] x y H) as H1.
  pose proof (mh_acceptance_probability X E [] (ll y) (ll x) (q x y / q y x) (ll_nonzero y) (ll_nonzero x)) as H2.
  specialize (H2 ltac:(apply Rdiv_lt_0_compat; [exact H|now apply q_pos_sym])).
  unfold A', mh_ratio. rewrite <- (@is_RInt_unique R_CompleteNormedModule _ _ _ _ H1). exact (@is_RInt_unique R_CompleteNormedModule _ _ _ _ H2).
Qed.
Theorem code_detailed_balance : forall x y, exp (ll x) * (q x y * A x y) = exp (ll y) * (q y x * A y x).
Proof. intros x y. rewrite !A_eq. apply detailed_balance; assumption. Qed.
Lemma sumR_ext : forall (f g : X -> R) l, (forall x, f x = g x) -> sumR f l = sumR g l.
Proof. intros f g l H. induction l; cbn; [reflexivity|]. now rewrite H, IHl. Qed.
Lemma kernel_eq : forall states x y, kernel eqX states q A x y = kernel eqX states q A' x y.
Proof.
  intros. unfold kernel. rewrite A_eq. rewrite (sumR_ext (fun z => q x z * A x z) (fun z => q x z * A' x z)) by (intros; apply A_eq). reflexivity.
Qed.
Theorem code_stationary : forall states y, NoDup states -> In y states ->
  sumR (fun x => exp (ll x) * kernel eqX states q A x y) states = exp (ll y).
Proof.
  intros states y Hn Hy. rewrite (sumR_ext _ (fun x => exp (ll x) * kernel eqX states q A' x y)) by (intros; now rewrite kernel_eq).
  apply stationary; assumption.
Qed.
Theorem code_kernel : forall states x, NoDup states -> In x states -> sumR (q x) states = 1 ->
  sumR (fun y => kernel eqX states q A x y) states = 1 /\ forall y, 0 <= kernel eqX states q A x y.
Proof.
  intros states x Hn Hx Hs. split.
  - rewrite (sumR_ext _ (fun y => kernel eqX states q A' x y)) by (intros; apply kernel_eq). now apply kernel_row_sum.
  - intros y. rewrite kernel_eq. now apply kernel_nonneg.
Qed.
End B.

(** such an [A] exists: the hypothesis above is satisfiable *)
Lemma A_exists : forall X (E : env X xr) (ll : X -> R) (q : X -> X -> R),
  (forall x y, 0 <= q x y) -> (forall x y, q x y = 0 -> q y x = 0) -> (forall x, nonzero (ll x)) ->
  exists A, forall t x y, 0 < q x y ->
  is_RInt (fun u => match snd (mh_accept xops (with_draw E u) (XFin (ll y)) (XFin (ll x)) (XFin (q x y / q y x)) t) with
                    | RVal true => 1 | _ => 0 end) 0 1 (A x y).
Proof.
  intros X E ll q H1 H2 H3. exists (fun x y => Rmin 1 (mh_ratio ll x y (q x y / q y x))). intros t x y H.
  apply mh_acceptance_probability; [apply H3|apply H3|]. apply Rdiv_lt_0_compat; [exact H|].
  destruct (Rle_lt_or_eq_dec _ _ (H1 y x)) as [H'|H']; [exact H'|]. symmetry in H'. apply H2 in H'. lra.
Qed.

Theorem stage2 : forall X (E : env X xr) (x y1 y2 : X) px p1 p2 u t,
  0 < p1 -> p1 < px -> 0 < p2 -> 0 < u < 1 -> e_unif E t = XFin u ->
  exists a d, alpha_fn xops false 2 (x, XFin (ln px)) [(y1, XFin (ln p1)); (y2, XFin (ln p2))] = Some a /\
    dr_accept xops E a t = (t ++ d, RVal (if Rle_dec u (alpha2 px p1 p2) then true else false)).
Proof.
  intros X E x y1 y2 px p1 p2 u t H1 Hx H2 Hu He. exists (XFin (code_alpha2 px p1 p2)).
  destruct (dr_accept_decides X E (XFin (code_alpha2 px p1 p2)) u t He) as (d & Hd). exists d.
  split; [apply alpha_2; lra|]. rewrite Hd. rewrite stage2_correct by assumption. reflexivity.
Qed.
(** with density values 1, 1/5, 2/5, 4/5 at x, y1, y2, y3, the third stage rejects what the published rule accepts *)
Theorem stage3 : forall X (E : env X xr) (x y1 y2 y3 : X) u t,
  4 / 9 < u < 2 / 3 -> e_unif E t = XFin u ->
  exists a d, alpha_fn xops false 3 (x, XFin (ln 1)) [(y1, XFin (ln (1/5))); (y2, XFin (ln (2/5))); (y3, XFin (ln (4/5)))] = Some a /\
    dr_accept xops E a t = (t ++ d, RVal false) /\ u < alpha3 1 (1/5) (2/5) (4/5).
Proof.
  intros X E x y1 y2 y3 u t Hu He. destruct stage3_wrong as [Hc Ha].
  exists (XFin (code_alpha3 1 (1/5) (2/5) (4/5))).
  destruct (dr_accept_decides X E (XFin (code_alpha3 1 (1/5) (2/5) (4/5))) u t He) as (d & Hd). exists d.
  split; [apply alpha_3; try lra; unfold code_alpha2; lra|]. rewrite Hd, Ha. split; [|lra].
  repeat f_equal. rewrite Hc. unfold dr_decides, xge. cbn.
  destruct (Rlt_dec 1 (4/9)); [lra|]. destruct (Rlt_dec u (4/9)); [lra|]. destruct (Req_EM_T (4/9) u); [lra|reflexivity].
Qed.
