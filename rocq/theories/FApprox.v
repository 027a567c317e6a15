(** Doubles that approximate real numbers, and running averages of them. *)
From Coq Require Import Reals ZArith Lra Lia Psatz.
From Flocq Require Import Core BinarySingleNaN Relative.
From Verif Require Import Prelude ConsumerModel StatsModel HistFloat FloatSpec FloatBase FloatMean FCosModel FCosSpec FCosRun FCosProofs.
Local Open Scope R_scope.
Local Notation u := unit_roundoff.
Local Notation eta := half_denorm_min.

Definition ap (a : f64) (r E : R) : Prop := finite a /\ Rabs (val a - r) <= E.
Lemma ap_weaken a r E E' : ap a r E -> E <= E' -> ap a r E'.
Proof. intros [F H] L. split; [exact F|lra]. Qed.
Lemma ap_E a r E : ap a r E -> 0 <= E.
Proof. intros [_ H]. pose proof (Rabs_pos (val a - r)). lra. Qed.
Lemma ap_abs a r E P : ap a r E -> Rabs r <= P -> Rabs (val a) <= P + E.
Proof. intros [_ H] HP. replace (val a) with (r + (val a - r)) by ring. eapply Rle_trans; [apply Rabs_triang|]. lra. Qed.
Lemma ap_val a : finite a -> ap a (val a) 0.
Proof. intros F. split; [exact F|]. replace (val a - val a) with 0 by ring. rewrite Rabs_R0. lra. Qed.
Lemma rnd_rel x e : Rabs e <= u -> Rabs x * 1 <= Rabs x -> Rabs (x * (1 + e) - x) <= u * Rabs x.
Proof. intros He _. replace (x * (1 + e) - x) with (e * x) by ring. rewrite Rabs_mult. apply Rmult_le_compat_r; [apply Rabs_pos|exact He]. Qed.
Lemma ap_add a b r s E1 E2 P : ap a r E1 -> ap b s E2 -> Rabs (r + s) + E1 + E2 <= P -> P <= big -> ap (kadd b64_ops a b) (r + s) (E1 + E2 + u * P).
Proof.
  intros [Fa Ha] [Fb Hb] HP HB. pose proof big_max as HM. pose proof big_1 as H1.
  assert (HV : Rabs (val a + val b) <= P).
  { replace (val a + val b) with (r + s + ((val a - r) + (val b - s))) by ring. eapply Rle_trans; [apply Rabs_triang|]. eapply Rle_trans; [apply Rplus_le_compat_l, Rabs_triang|]. lra. }
  destruct (add_ok a b Fa Fb ltac:(lra)) as [F E]. split; [exact F|]. rewrite E.
  destruct (rnd_plus (val a) (val b) (val_double a) (val_double b)) as (e & He & ->).
  replace ((val a + val b) * (1 + e) - (r + s)) with ((val a - r) + (val b - s) + ((val a + val b) * (1 + e) - (val a + val b))) by ring.
  eapply Rle_trans; [apply Rabs_triang|]. apply Rplus_le_compat; [eapply Rle_trans; [apply Rabs_triang|]; lra|].
  eapply Rle_trans; [apply rnd_rel; [exact He|lra]|]. apply Rmult_le_compat_l; [pose proof u_pos; lra|exact HV].
Qed.
Lemma ap_opp b s E : ap b s E -> ap (kopp b64_ops b) (- s) E.
Proof.
  intros [F H]. split.
  - unfold finite. cbn [kopp b64_ops]. now rewrite is_finite_Bopp.
  - unfold val. cbn [kopp b64_ops]. rewrite B2R_Bopp. fold (val b). replace (- val b - - s) with (- (val b - s)) by ring. now rewrite Rabs_Ropp.
Qed.
Lemma ap_sub a b r s E1 E2 P : ap a r E1 -> ap b s E2 -> Rabs (r - s) + E1 + E2 <= P -> P <= big -> ap (ksub b64_ops a b) (r - s) (E1 + E2 + u * P).
Proof.
  intros [Fa Ha] [Fb Hb] HP HB. pose proof big_max as HM. pose proof big_1 as H1.
  assert (HV : Rabs (val a - val b) <= P).
  { replace (val a - val b) with (r - s + ((val a - r) + (- (val b - s)))) by ring. eapply Rle_trans; [apply Rabs_triang|]. eapply Rle_trans; [apply Rplus_le_compat_l, Rabs_triang|]. rewrite Rabs_Ropp. lra. }
  destruct (sub_ok a b Fa Fb ltac:(lra)) as [F E]. split; [exact F|]. rewrite E.
  destruct (rnd_minus (val a) (val b) (val_double a) (val_double b)) as (e & He & ->).
  replace ((val a - val b) * (1 + e) - (r - s)) with ((val a - r) + (- (val b - s)) + ((val a - val b) * (1 + e) - (val a - val b))) by ring.
  eapply Rle_trans; [apply Rabs_triang|]. apply Rplus_le_compat; [eapply Rle_trans; [apply Rabs_triang|]; rewrite Rabs_Ropp; lra|].
  eapply Rle_trans; [apply rnd_rel; [exact He|lra]|]. apply Rmult_le_compat_l; [pose proof u_pos; lra|exact HV].
Qed.
Lemma ap_mul a b r s E1 E2 A B P : ap a r E1 -> ap b s E2 -> Rabs (val a) <= A -> Rabs s <= B -> Rabs (val a * val b) <= P -> P <= big ->
  ap (kmul b64_ops a b) (r * s) (A * E2 + E1 * B + u * P + eta).
Proof.
  intros [Fa Ha] [Fb Hb] HA HB HP Hbig. pose proof big_max as HM. pose proof big_1 as H1.
  destruct (mul_ok a b Fa Fb ltac:(lra)) as [F E]. split; [exact F|]. rewrite E.
  destruct (rnd_any (val a * val b)) as (e & h & He & Hh & ->).
  replace (val a * val b * (1 + e) + h - r * s) with (val a * (val b - s) + (val a - r) * s + (val a * val b * (1 + e) - val a * val b) + h) by ring.
  eapply Rle_trans; [apply Rabs_triang|]. apply Rplus_le_compat; [|exact Hh].
  eapply Rle_trans; [apply Rabs_triang|]. apply Rplus_le_compat.
  - eapply Rle_trans; [apply Rabs_triang|]. rewrite !Rabs_mult. apply Rplus_le_compat; apply Rmult_le_compat; try apply Rabs_pos; assumption.
  - eapply Rle_trans; [apply rnd_rel; [exact He|lra]|]. apply Rmult_le_compat_l; [pose proof u_pos; lra|exact HP].
Qed.

(** Sums of a list of doubles, started at some value. *)
Definition rsum' (l : list R) : R := fold_right Rplus 0 l.
Lemma ap_sum (op : f64 -> f64 -> f64) (sg : R) (Hop : forall a b r s E1 E2 P, ap a r E1 -> ap b s E2 -> Rabs (r + sg * s) + E1 + E2 <= P -> P <= big -> ap (op a b) (r + sg * s) (E1 + E2 + u * P)) (Hsg : Rabs sg <= 1) :
  forall (ts : list (f64 * R)) acc r E0 P0 T Et, ap acc r E0 -> Rabs r + E0 <= P0 -> Forall (fun t => ap (fst t) (snd t) Et /\ Rabs (snd t) + Et <= T) ts ->
  INR (length ts) * u <= / 4 -> 0 <= T -> 2 * (P0 + INR (length ts) * T) <= big ->
  ap (fold_left (fun g t => op g (fst t)) ts acc) (fold_left (fun g t => g + sg * snd t) ts r) (E0 + INR (length ts) * Et + 2 * INR (length ts) * u * (P0 + INR (length ts) * T)) /\
  Rabs (fold_left (fun g t => g + sg * snd t) ts r) + E0 + INR (length ts) * Et <= P0 + INR (length ts) * T.
Proof.
  intros ts. pose proof u_pos as Hu. induction ts as [|t ts IH] using rev_ind; intros acc r E0 P0 T Et Ha HP HF Hk HT HB.
  - cbn. split; [eapply ap_weaken; [exact Ha|lra]|lra].
  - apply Forall_snoc in HF. destruct HF as [HF [Ht HtT]]. rewrite app_length in *. cbn [length] in *. rewrite plus_INR in *. cbn [INR] in *.
    rewrite !fold_left_app. cbn [fold_left]. set (k := INR (length ts)) in *. assert (Hk0 : 0 <= k) by apply pos_INR.
    destruct (IH acc r E0 P0 T Et Ha HP HF ltac:(nra) HT ltac:(nra)) as [H1 H2]. clear IH.
    set (S0 := fold_left (fun g t0 => op g (fst t0)) ts acc) in *. set (R0 := fold_left (fun g t0 => g + sg * snd t0) ts r) in *.
    assert (HS : Rabs (sg * snd t) <= Rabs (snd t)) by (rewrite Rabs_mult; pose proof (Rabs_pos (snd t)); nra).
    assert (HR : Rabs (R0 + sg * snd t) <= Rabs R0 + Rabs (snd t)) by (eapply Rle_trans; [apply Rabs_triang|]; lra).
    set (Q := P0 + (k + 1) * T). assert (HQ : P0 + k * T <= Q) by (unfold Q; lra). assert (HQ0 : 0 <= P0 + k * T).
    { pose proof (Rabs_pos r). pose proof (ap_E _ _ _ Ha). assert (0 <= k * T) by now apply Rmult_le_pos. lra. }
    assert (Hsm : 2 * k * u * (P0 + k * T) <= / 2 * Q).
    { apply Rmult_le_compat; try lra; apply Rmult_le_pos; lra. }
    split; [|clearbody S0 R0; unfold Q in *; clear - HR H2 HtT HS; lra].
    eapply ap_weaken; [apply (Hop _ _ _ _ _ _ (3 / 2 * Q) H1 Ht); [unfold Q in *; lra|unfold Q in *; lra]|].
    assert (2 * k * u * (P0 + k * T) <= 2 * k * u * Q) by (apply Rmult_le_compat_l; [apply Rmult_le_pos; lra|exact HQ]).
    assert (0 <= u * Q) by (apply Rmult_le_pos; lra). unfold Q in *. lra.
Qed.
Lemma ap_plus_sum : forall a b r s E1 E2 P, ap a r E1 -> ap b s E2 -> Rabs (r + 1 * s) + E1 + E2 <= P -> P <= big -> ap (kadd b64_ops a b) (r + 1 * s) (E1 + E2 + u * P).
Proof. intros a b r s E1 E2 P. rewrite Rmult_1_l. apply ap_add. Qed.
Lemma ap_minus_sum : forall a b r s E1 E2 P, ap a r E1 -> ap b s E2 -> Rabs (r + -1 * s) + E1 + E2 <= P -> P <= big -> ap (ksub b64_ops a b) (r + -1 * s) (E1 + E2 + u * P).
Proof. intros a b r s E1 E2 P. replace (r + -1 * s) with (r - s) by ring. apply ap_sub. Qed.

(** 1/m for an integer m. *)
Lemma inv_ap m : (1 <= m <= 2 ^ 53)%N -> let f := kdiv b64_ops (k1 b64_ops) (kofN b64_ops m) in
  finite f /\ exists e, Rabs e <= u /\ val f = / IZR (Z.of_N m) * (1 + e).
Proof.
  intros Hm f. assert (HI : 1 <= IZR (Z.of_N m) <= bpow radix2 53).
  { split; [apply (IZR_le 1); lia|]. change (bpow radix2 53) with (IZR (2 ^ 53)). apply IZR_le. lia. }
  set (x := IZR (Z.of_N m)) in *. assert (Hi : bpow radix2 (-53) <= / x <= 1).
  { split; [change (bpow radix2 (-53)) with (/ bpow radix2 53); apply Rinv_le_contravar; lra|]. rewrite <- Rinv_1. apply Rinv_le_contravar; lra. }
  pose proof (bpow_gt_0 radix2 (-53)) as HP. pose proof max_ge as HM. assert (H0 : 1 <= bpow radix2 1023) by (change 1 with (bpow radix2 0); apply bpow_le; lia).
  pose proof (ofN_exact m ltac:(lia)) as EN. fold x in EN. assert (F1 : finite (k1 b64_ops)) by reflexivity. assert (V1 : val (k1 b64_ops) = 1) by apply Bone_correct.
  pose proof (proj1 (ofN_ok m ltac:(lia))) as FN.
  destruct (div_ok (k1 b64_ops) (kofN b64_ops m) F1) as [F E].
  { rewrite EN. lra. }
  { rewrite EN, V1. unfold Rdiv. rewrite Rmult_1_l, Rabs_pos_eq; lra. }
  split; [exact F|]. rewrite EN, V1 in E. unfold Rdiv in E. rewrite Rmult_1_l in E. fold f in E. rewrite E.
  destruct (rnd_normal (/ x)) as (e & He & Ee).
  { rewrite Rabs_pos_eq by lra. eapply Rle_trans; [|apply Hi]. apply bpow_le. lia. }
  exists e. split; assumption.
Qed.

(** One step of a running average: a <- a + v * (1/m) with v close to s - a. *)
Lemma avg_step a v s m Z Ev : (2 <= m <= 2 ^ 53)%N -> finite a -> Rabs (val a) <= Z -> Rabs s <= Z -> ap v (s - val a) Ev -> Ev <= Z / 4 -> 4 * Z <= big -> eta <= u * u * Z ->
  let x := IZR (Z.of_N m) in
  ap (kadd b64_ops a (kmul b64_ops v (kdiv b64_ops (k1 b64_ops) (kofN b64_ops m)))) (val a + (s - val a) / x) ((Ev + 6 * u * Z) / x + 3 / 2 * (u * Z)).
Proof.
  intros Hm Fa HZ Hs Hv HE HB Ht x. pose proof u_pos as Hu. pose proof (ap_E _ _ _ Hv) as HE0.
  assert (Hx : 2 <= x <= bpow radix2 53).
  { unfold x. split; [apply (IZR_le 2); lia|]. change (bpow radix2 53) with (IZR (2 ^ 53)). apply IZR_le. lia. }
  assert (Hi : u <= / x <= / 2).
  { split; [change u with (/ bpow radix2 53); apply Rinv_le_contravar; lra|apply Rinv_le_contravar; lra]. }
  destruct (inv_ap m ltac:(lia)) as (Ff & e & He & Ef). fold x in Ef. set (f := kdiv b64_ops (k1 b64_ops) (kofN b64_ops m)) in *.
  assert (Hf : ap f (/ x) (u * / x)).
  { split; [exact Ff|]. rewrite Ef. eapply Rle_trans; [apply rnd_rel; [exact He|lra]|]. rewrite (Rabs_pos_eq (/ x)) by lra. lra. }
  assert (HZ0 : 0 <= Z) by (pose proof (Rabs_pos (val a)); lra).
  assert (Hsa : Rabs (s - val a) <= 2 * Z) by (unfold Rminus; eapply Rle_trans; [apply Rabs_triang|]; rewrite Rabs_Ropp; lra).
  pose proof (ap_abs _ _ _ _ Hv Hsa) as Hva.
  assert (Hfv : Rabs (val f) <= / x * (1 + u)). { pose proof (ap_abs _ _ _ (/ x) Hf ltac:(rewrite Rabs_pos_eq; lra)). lra. }
  assert (Hu1 : u <= / 1000) by (rewrite u_val; lra).
  assert (Hprod : Rabs (val v * val f) <= (9 / 4 * Z) * (/ x * (1 + u))).
  { rewrite Rabs_mult. apply Rmult_le_compat; try apply Rabs_pos; lra. }
  assert (HzI : 0 <= Z * / x <= Z * / 2) by (split; [apply Rmult_le_pos; lra|apply Rmult_le_compat_l; lra]).
  assert (HuZ : 0 <= u * Z) by (apply Rmult_le_pos; lra). assert (HuZi : 0 <= u * (Z * / x)) by (apply Rmult_le_pos; lra).
  assert (HuZe : u * (Z * / x) <= / 1000 * (Z * / x)) by (apply Rmult_le_compat_r; lra). assert (HuZe1 : u * Z <= / 1000 * Z) by (apply Rmult_le_compat_r; lra).
  pose proof big_1.
  pose proof (ap_mul v f (s - val a) (/ x) Ev (u * / x) (9 / 4 * Z) (/ x) _ Hv Hf ltac:(lra) ltac:(rewrite Rabs_pos_eq; lra) Hprod ltac:(lra)) as Hm1.
  assert (Ht2 : eta <= u * (Z * / x)). { eapply Rle_trans; [exact Ht|]. rewrite Rmult_assoc. apply Rmult_le_compat_l; [lra|]. rewrite (Rmult_comm Z). apply Rmult_le_compat_r; lra. }
  assert (HEx : 0 <= Ev * / x <= Z / 4 * / x) by (split; [apply Rmult_le_pos; lra|apply Rmult_le_compat_r; lra]).
  set (t := kmul b64_ops v f) in *.
  assert (HuuZ : u * (u * (Z * / x)) <= / 1000 * (u * (Z * / x))) by (apply Rmult_le_compat_r; lra).
  assert (Hm2 : ap t ((s - val a) * / x) (Ev * / x + 23 / 4 * (u * (Z * / x)))).
  { eapply ap_weaken; [exact Hm1|]. replace (9 / 4 * Z * (u * / x)) with (9 / 4 * (u * (Z * / x))) by ring. replace (u * (9 / 4 * Z * (/ x * (1 + u)))) with (9 / 4 * (u * (Z * / x)) + 9 / 4 * (u * (u * (Z * / x)))) by ring. lra. }
  assert (Hconv : Rabs (val a + (s - val a) * / x) <= Z).
  { replace (val a + (s - val a) * / x) with ((1 - / x) * val a + / x * s) by ring. eapply Rle_trans; [apply Rabs_triang|]. rewrite !Rabs_mult, (Rabs_pos_eq (1 - / x)), (Rabs_pos_eq (/ x)) by lra.
    assert ((1 - / x) * Rabs (val a) <= (1 - / x) * Z) by (apply Rmult_le_compat_l; lra). assert (/ x * Rabs s <= / x * Z) by (apply Rmult_le_compat_l; lra). lra. }
  eapply ap_weaken; [apply (ap_add a t (val a) ((s - val a) * / x) 0 _ (3 / 2 * Z) (ap_val a Fa) Hm2); lra|].
  unfold Rdiv. rewrite Rmult_plus_distr_r. replace (6 * u * Z * / x) with (6 * (u * (Z * / x))) by ring. lra.
Qed.
(** and its effect on the distance to the exact running average. *)
Lemma avg_err a r v s m Z Ev c : (2 <= m <= 2 ^ 53)%N -> Rabs (val a) <= Z -> Rabs s <= Z -> ap v (s - val a) Ev -> Ev <= Z / 4 -> 4 * Z <= big -> eta <= u * u * Z ->
  let x := IZR (Z.of_N m) in Ev <= c ->
  ap a r (c + u * Z * (x - 1 + 7)) ->
  ap (kadd b64_ops a (kmul b64_ops v (kdiv b64_ops (k1 b64_ops) (kofN b64_ops m)))) (r + (s - r) / x) (c + u * Z * (x + 7)).
Proof.
  intros Hm HZ Hs Hv HE HB Ht x Hc [Fa Ha]. pose proof u_pos as Hu.
  destruct (avg_step a v s m Z Ev Hm Fa HZ Hs Hv HE HB Ht) as [F H]. fold x in H. split; [exact F|].
  assert (Hx : 2 <= x) by (apply (IZR_le 2); lia). assert (HZ0 : 0 <= Z) by (pose proof (Rabs_pos (val a)); lra). assert (HuZ : 0 <= u * Z) by (apply Rmult_le_pos; lra).
  set (a' := val (kadd b64_ops a _)) in *.
  replace (a' - (r + (s - r) / x)) with (a' - (val a + (s - val a) / x) + (1 - / x) * (val a - r)) by (field; lra).
  eapply Rle_trans; [apply Rabs_triang|]. rewrite Rabs_mult.
  assert (Hi : 0 < / x <= / 2) by (split; [apply Rinv_0_lt_compat; lra|apply Rinv_le_contravar; lra]). rewrite (Rabs_pos_eq (1 - / x)) by lra.
  apply Rle_trans with ((Ev + 6 * u * Z) / x + 3 / 2 * (u * Z) + (1 - / x) * (c + u * Z * (x - 1 + 7))).
  { apply Rplus_le_compat; [exact H|apply Rmult_le_compat_l; [lra|exact Ha]]. }
  apply Rmult_le_reg_r with x; [lra|].
  replace (((Ev + 6 * u * Z) / x + 3 / 2 * (u * Z) + (1 - / x) * (c + u * Z * (x - 1 + 7))) * x) with (Ev + 6 * (u * Z) + 3 / 2 * (u * Z) * x + (x - 1) * (c + u * Z * (x - 1 + 7))) by (field; lra).
  set (q := u * Z) in *. assert (0 <= q * x) by (apply Rmult_le_pos; lra). nra.
Qed.
