(** Proofs about results that settle (C70). *)
From Coq Require Import Reals Lra Lia.
From Coquelicot Require Import Coquelicot.
From Verif Require Import Prelude MHSpec MHRunSpec MHProofs MHTop MarkovFinite MarkovTop MarkovStats MarkovThin DEStat PipeSpec PipeProofs VarProofs SettleSpec.
Import ListNotations.
Local Open Scope R_scope.
Local Open Scope list_scope.
Local Notation length := List.length.

(** ** Statistics that change slowly *)
Section Steady.
Context {X : Type}.
Variable states : list X.
Local Notation good := (good states).
Definition steady (Z : list X -> R) : Prop := exists B, 0 <= B /\ forall l y, good l -> In y states -> Rabs (Z (l ++ [y]) - Z l) <= B / INR (length l).
Definition limited (Z : list X -> R) : Prop := exists B, 0 <= B /\ forall l, good l -> Rabs (Z l) <= B.
Lemma good_snoc : forall l y, good l -> In y states -> good (l ++ [y]).
Proof. intros l y (H1 & H2) Hy. split; [destruct l; discriminate|]. now apply incl_snoc. Qed.
Lemma len_snoc : forall (l : list X) y, INR (length (l ++ [y])) = INR (length l) + 1.
Proof. intros l y. rewrite app_length. cbn [length]. now rewrite plus_INR. Qed.
Lemma frac_le : forall B n, 0 <= B -> 1 <= n -> B / (n + 1) <= B / n.
Proof. intros B n HB Hn. apply Rmult_le_compat_l; [exact HB|]. apply Rinv_le_contravar; lra. Qed.
Lemma st_near : forall Z W B, steady W -> 0 <= B -> (forall l, good l -> Rabs (Z l - W l) <= B / INR (length l)) -> steady Z.
Proof.
  intros Z W B (C & HC & H) HB HN. exists (C + 2 * B). split; [lra|]. intros l y Hl Hy. pose proof (H l y Hl Hy) as H1. pose proof (HN l Hl) as H2. pose proof (HN _ (good_snoc l y Hl Hy)) as H3.
  rewrite len_snoc in H3. pose proof (good_INR states l Hl) as HI. set (n := INR (length l)) in *. pose proof (frac_le B n HB HI) as H4.
  replace ((C + 2 * B) / n) with (C / n + B / n + B / n) by (field; lra).
  replace (Z (l ++ [y]) - Z l) with ((W (l ++ [y]) - W l) + (Z (l ++ [y]) - W (l ++ [y])) - (Z l - W l)) by ring.
  apply Rabs_le. apply Rcomplements.Rabs_le_between in H1, H2, H3. lra.
Qed.
Lemma st_ext : forall Z W, steady W -> (forall l, good l -> Z l = W l) -> steady Z.
Proof. intros Z W H HE. apply (st_near Z W 0 H); [lra|]. intros l Hl. rewrite (HE l Hl), Rminus_eq_0, Rabs_R0. unfold Rdiv. lra. Qed.
Lemma st_lin : forall a Z W, steady Z -> steady W -> steady (fun l => a * Z l + W l).
Proof.
  intros a Z W (B1 & HB1 & H1) (B2 & HB2 & H2). pose proof (Rabs_pos a) as Ha. exists (Rabs a * B1 + B2). split; [assert (0 <= Rabs a * B1) by (now apply Rmult_le_pos); lra|].
  intros l y Hl Hy. pose proof (H1 l y Hl Hy) as E1. pose proof (H2 l y Hl Hy) as E2. pose proof (good_INR states l Hl) as HI. set (n := INR (length l)) in *.
  replace (a * Z (l ++ [y]) + W (l ++ [y]) - (a * Z l + W l)) with (a * (Z (l ++ [y]) - Z l) + (W (l ++ [y]) - W l)) by ring.
  eapply Rle_trans; [apply Rabs_triang|]. rewrite Rabs_mult. replace ((Rabs a * B1 + B2) / n) with (Rabs a * (B1 / n) + B2 / n) by (field; lra).
  apply Rplus_le_compat; [now apply Rmult_le_compat_l|exact E2].
Qed.
Lemma st_const : forall c, steady (fun _ => c).
Proof. intros c. exists 0. split; [lra|]. intros l y _ _. rewrite Rminus_eq_0, Rabs_R0. unfold Rdiv. lra. Qed.
Lemma st_plus : forall Z W, steady Z -> steady W -> steady (fun l => Z l + W l).
Proof. intros Z W H1 H2. apply (st_ext _ (fun l => 1 * Z l + W l)); [now apply st_lin|intros; ring]. Qed.
Lemma st_opp : forall Z, steady Z -> steady (fun l => - Z l).
Proof. intros Z H. apply (st_ext _ (fun l => -1 * Z l + 0)); [apply (st_lin (-1) Z (fun _ => 0)); [exact H|apply st_const]|intros; ring]. Qed.
Lemma st_mul : forall Z W, steady Z -> steady W -> limited Z -> limited W -> steady (fun l => Z l * W l).
Proof.
  intros Z W (B1 & HB1 & H1) (B2 & HB2 & H2) (C1 & HC1 & L1) (C2 & HC2 & L2). exists (B1 * C2 + C1 * B2). split; [apply Rplus_le_le_0_compat; now apply Rmult_le_pos|].
  intros l y Hl Hy. pose proof (H1 l y Hl Hy) as E1. pose proof (H2 l y Hl Hy) as E2. pose proof (L1 _ Hl) as E3. pose proof (L2 _ (good_snoc l y Hl Hy)) as E4. pose proof (good_INR states l Hl) as HI. set (n := INR (length l)) in *.
  replace (Z (l ++ [y]) * W (l ++ [y]) - Z l * W l) with ((Z (l ++ [y]) - Z l) * W (l ++ [y]) + Z l * (W (l ++ [y]) - W l)) by ring.
  eapply Rle_trans; [apply Rabs_triang|]. rewrite !Rabs_mult. replace ((B1 * C2 + C1 * B2) / n) with (B1 / n * C2 + C1 * (B2 / n)) by (field; lra).
  apply Rplus_le_compat; apply Rmult_le_compat; try apply Rabs_pos; assumption.
Qed.
Lemma st_sum : forall {I} (L : list I) (Z : I -> list X -> R), (forall i, In i L -> steady (Z i)) -> steady (fun l => sumR (fun i => Z i l) L).
Proof.
  intros I L Z. induction L as [|i L IH]; intros H; [exact (st_const 0)|]. cbn [sumR]. apply (st_plus (Z i) (fun l => sumR (fun i => Z i l) L)); [apply H; now left|]. apply IH. intros j Hj. apply H. now right.
Qed.
Lemma lim_opp : forall Z, limited Z -> limited (fun l => - Z l).
Proof. intros Z (B & HB & H). exists B. split; [exact HB|]. intros l Hl. rewrite Rabs_Ropp. now apply H. Qed.
Lemma lim_mul : forall Z W, limited Z -> limited W -> limited (fun l => Z l * W l).
Proof. intros Z W (B1 & HB1 & H1) (B2 & HB2 & H2). exists (B1 * B2). split; [now apply Rmult_le_pos|]. intros l Hl. rewrite Rabs_mult. apply Rmult_le_compat; try apply Rabs_pos; auto. Qed.
Lemma lim_plus : forall Z W, limited Z -> limited W -> limited (fun l => Z l + W l).
Proof. intros Z W (B1 & HB1 & H1) (B2 & HB2 & H2). exists (B1 + B2). split; [lra|]. intros l Hl. eapply Rle_trans; [apply Rabs_triang|]. apply Rplus_le_compat; auto. Qed.
(** A sum with few new summands, divided by the number of samples. *)
Lemma st_quotient : forall (S : list X -> R) B, 0 <= B -> (forall l y, good l -> In y states -> Rabs (S (l ++ [y]) - S l) <= B) -> limited (fun l => S l / INR (length l)) -> steady (fun l => S l / INR (length l)).
Proof.
  intros S B HB HS (C & HC & HL). exists (B + C). split; [lra|]. intros l y Hl Hy. pose proof (HS l y Hl Hy) as H1. pose proof (HL l Hl) as H2. rewrite len_snoc. pose proof (good_INR states l Hl) as HI. set (n := INR (length l)) in *.
  replace (S (l ++ [y]) / (n + 1) - S l / n) with ((S (l ++ [y]) - S l) * / (n + 1) + - (S l / n) * / (n + 1)) by (field; lra).
  assert (Hi : 0 < / (n + 1)) by (apply Rinv_0_lt_compat; lra). assert (Hj : / (n + 1) <= / n) by (apply Rinv_le_contravar; lra).
  eapply Rle_trans; [apply Rabs_triang|]. rewrite !Rabs_mult, Rabs_Ropp, (Rabs_pos_eq (/ (n + 1))) by lra. unfold Rdiv at 2. rewrite Rmult_plus_distr_r.
  apply Rplus_le_compat; (apply Rmult_le_compat; [apply Rabs_pos|lra|assumption|exact Hj]).
Qed.
Lemma st_average : forall f, steady (fun l => sumR f l / INR (length l)).
Proof.
  intros f. apply (st_quotient (sumR f) (norm states f)); [apply norm_pos| |].
  - intros l y _ Hy. rewrite sumR_app. cbn [sumR]. replace (sumR f l + (f y + 0) - sumR f l) with (f y) by ring. now apply norm_within.
  - exact (avg_bounded states f).
Qed.
Lemma lag_lim : forall F j z, exists B, 0 <= B /\ forall l, good l -> Rabs (lagsum F j z l / INR (length l)) <= B.
Proof.
  intros F j z. destruct (bounded2 states F) as (B & HB0 & HB). exists B. split; [exact HB0|].
  intros l Hl. pose proof (good_INR states l Hl) as HI. destruct Hl as (_ & Hin). rewrite Rabs_div, (Rabs_pos_eq (INR _)) by lra.
  apply Rmult_le_reg_r with (INR (length l)); [lra|]. unfold Rdiv. rewrite Rmult_assoc, Rinv_l, Rmult_1_r by lra.
  unfold lagsum. apply Rle_trans with (INR (length l - j) * B).
  - eapply Rle_trans; [apply sumR_abs|]. apply Rle_trans with (sumR (fun _ : nat => B) (seq 0 (length l - j))).
    + apply sumR_le_in. intros t Ht. apply in_seq in Ht. apply HB; apply Hin, nth_In; lia.
    + right. rewrite <- (seq_length (length l - j) 0) at 2. generalize (seq 0 (length l - j)) as s. induction s as [|a s IH]; [cbn; ring|]. cbn [sumR length]. rewrite IH, S_INR. ring.
  - rewrite Rmult_comm. apply Rmult_le_compat_l; [exact HB0|]. apply le_INR. lia.
Qed.
Lemma st_lag : forall F j z, steady (fun l => lagsum F j z l / INR (length l)).
Proof.
  intros F j z. destruct (bounded2 states F) as (B & HB & H). apply (st_quotient (lagsum F j z) B); [exact HB| |exact (lag_lim F j z)].
  intros l y (Hne & Hin) Hy. unfold lagsum. rewrite app_length. cbn [length].
  assert (Same : forall n, (n + j <= length l)%nat -> sumR (fun t => F (nth t (l ++ [y]) z) (nth (t + j) (l ++ [y]) z)) (seq 0 n) = sumR (fun t => F (nth t l z) (nth (t + j) l z)) (seq 0 n)).
  { intros n Hn. apply MarkovFinite.sumR_ext_in. intros t Ht. apply in_seq in Ht. rewrite !app_nth1 by lia. reflexivity. }
  destruct (le_lt_dec j (length l)) as [Hj|Hj].
  - replace (length l + 1 - j)%nat with ((length l - j) + 1)%nat by lia. rewrite sumR_seq_app, Same by lia. cbn [seq sumR Nat.add]. 
    match goal with |- Rabs (?a + (?b + 0) - ?a) <= _ => replace (a + (b + 0) - a) with b by ring end.
    pose proof (good_snoc l y (conj Hne Hin) Hy) as (_ & Hin'). apply H; apply Hin', nth_In; rewrite app_length; cbn [length]; lia.
  - replace (length l + 1 - j)%nat with 0%nat by lia. replace (length l - j)%nat with 0%nat by lia. cbn [seq sumR]. rewrite Rminus_eq_0, Rabs_R0. exact HB.
Qed.
Lemma scale_near : forall Z W a B, (forall l, good l -> Rabs (W l) <= B) -> (forall l, good l -> (length l <= a)%nat -> Rabs (Z l) <= B) ->
  (forall l, good l -> (a < length l)%nat -> Z l = INR (length l) / INR (length l - a) * W l) -> forall l, good l -> Rabs (Z l - W l) <= (2 * INR a + 2) * (INR a + 1) * B / INR (length l).
Proof.
  intros Z W a B HB H1 H2 l Hl. pose proof (good_INR states l Hl) as HI. pose proof (HB l Hl) as Hb. pose proof (pos_INR a) as Ha.
  assert (HB0 : 0 <= B) by (eapply Rle_trans; [apply Rabs_pos|exact Hb]).
  destruct (Nat.le_gt_cases (length l) a) as [Hn|Hn].
  - pose proof (H1 l Hl Hn) as Hz. apply Rle_trans with (2 * B).
    + eapply Rle_trans; [apply Rabs_triang|]. rewrite Rabs_Ropp. lra.
    + apply le_INR in Hn. apply Rmult_le_reg_r with (INR (length l)); [lra|]. 
      replace ((2 * INR a + 2) * (INR a + 1) * B / INR (length l) * INR (length l)) with ((2 * INR a + 2) * (INR a + 1) * B) by (field; lra).
      apply Rle_trans with (2 * B * INR a); [apply Rmult_le_compat_l; lra|]. assert (0 <= INR a * INR a * B) by (repeat apply Rmult_le_pos; lra).
      assert (0 <= INR a * B) by (apply Rmult_le_pos; lra). lra.
  - rewrite (H2 l Hl Hn). rewrite minus_INR by lia. set (n := INR (length l)) in *. set (b := INR a) in *.
    assert (Hnb : b + 1 <= n) by (unfold b, n; rewrite <- S_INR; apply le_INR; lia).
    replace (n / (n - b) * W l - W l) with (b / (n - b) * W l) by (field; lra). rewrite Rabs_mult.
    rewrite Rabs_pos_eq by (apply Rmult_le_pos; [exact Ha|]; apply Rlt_le, Rinv_0_lt_compat; lra).
    assert (Hq : b / (n - b) <= b * (b + 1) / n).
    { apply Rmult_le_reg_r with ((n - b) * n); [apply Rmult_lt_0_compat; lra|].
      replace (b / (n - b) * ((n - b) * n)) with (b * n) by (field; lra). replace (b * (b + 1) / n * ((n - b) * n)) with (b * (b + 1) * (n - b)) by (field; lra).
      assert (0 <= b * (b * (n - b - 1))) by (repeat apply Rmult_le_pos; lra). nra. }
    apply Rle_trans with (b * (b + 1) / n * B).
    + apply Rmult_le_compat; [|apply Rabs_pos|exact Hq|exact Hb]. apply Rmult_le_pos; [exact Ha|]. apply Rlt_le, Rinv_0_lt_compat. lra.
    + replace ((2 * b + 2) * (b + 1) * B / n) with (b * (b + 1) / n * B + (b + 2) * (b + 1) / n * B) by (field; lra).
      assert (0 <= (b + 2) * (b + 1) / n * B); [|lra]. repeat apply Rmult_le_pos; try lra. apply Rlt_le, Rinv_0_lt_compat. lra.
Qed.
Lemma st_scale : forall Z W a, steady W -> limited W -> (forall l, good l -> (length l <= a)%nat -> Z l = 0) -> (forall l, good l -> (a < length l)%nat -> Z l = INR (length l) / INR (length l - a) * W l) -> steady Z.
Proof.
  intros Z W a H (B & HB & HL) H0 H1. pose proof (pos_INR a) as Ha. apply (st_near Z W ((2 * INR a + 2) * (INR a + 1) * B) H); [repeat apply Rmult_le_pos; lra|].
  apply scale_near; auto. intros l Hl Hn. rewrite (H0 l Hl Hn), Rabs_R0. exact HB.
Qed.

(** ** From a square number of samples to the next *)
Lemma prefix_good : forall l k, incl l states -> (0 < k <= length l)%nat -> good (firstn k l) /\ length (firstn k l) = k.
Proof.
  intros l k Hl Hk. assert (E : length (firstn k l) = k) by (rewrite firstn_length; lia). split; [|exact E]. split; [intros H; rewrite H in E; cbn in E; lia|].
  intros x Hx. apply Hl. rewrite <- (firstn_skipn k l). apply in_or_app. now left.
Qed.
Lemma firstn_snoc : forall (l : list X) k z, (k < length l)%nat -> firstn (S k) l = firstn k l ++ [nth k l z].
Proof. intros l. induction l as [|a l IH]; intros k z Hk; cbn [length] in Hk; [lia|]. destruct k as [|k]; [reflexivity|]. cbn [firstn nth app]. f_equal. apply IH. lia. Qed.
Lemma steady_prefix : forall Z B, 0 <= B -> (forall l y, good l -> In y states -> Rabs (Z (l ++ [y]) - Z l) <= B / INR (length l)) -> forall l j i, incl l states -> (0 < j)%nat -> (j + i <= length l)%nat ->
  Rabs (Z (firstn (j + i) l) - Z (firstn j l)) <= INR i * (B / INR j).
Proof.
  intros Z B HB H l j i Hl Hj. assert (HJ : 0 < INR j) by (apply lt_0_INR; exact Hj). induction i as [|i IH]; intros Hi.
  - rewrite Nat.add_0_r, Rminus_eq_0, Rabs_R0. cbn. lra.
  - specialize (IH ltac:(lia)). destruct l as [|z l']; [cbn in Hi; lia|]. set (l := z :: l') in *. replace (j + S i)%nat with (S (j + i)) by lia. rewrite (firstn_snoc l (j + i) z) by lia.
    destruct (prefix_good l (j + i) Hl ltac:(lia)) as [Hg Hlen]. assert (Hy : In (nth (j + i) l z) states) by (apply Hl, nth_In; lia).
    pose proof (H _ _ Hg Hy) as H1. rewrite Hlen in H1. assert (H2 : B / INR (j + i) <= B / INR j) by (apply Rmult_le_compat_l; [exact HB|]; apply Rinv_le_contravar; [exact HJ|apply le_INR; lia]).
    set (u := Z (firstn (j + i) l ++ [nth (j + i) l z])) in *. set (v := Z (firstn (j + i) l)) in *. set (w := Z (firstn j l)) in *.
    replace (u - w) with ((u - v) + (v - w)) by ring. eapply Rle_trans; [apply Rabs_triang|]. rewrite S_INR. lra.
Qed.
End Steady.

Lemma inv_square_sum : forall a n, (0 < a)%nat -> sumR (fun r => / INR r ^ 2) (seq a n) <= 2 / INR a.
Proof.
  intros a n Ha. assert (G : forall n a, (0 < a)%nat -> sumR (fun r => / INR r ^ 2) (seq (S a) n) <= / INR a - / INR (a + n)).
  { clear. induction n as [|n IH]; intros a Ha; cbn [seq sumR]; [rewrite Nat.add_0_r; lra|]. specialize (IH (S a) ltac:(lia)). replace (S a + n)%nat with (a + S n)%nat in IH by lia.
    assert (HA : 1 <= INR a) by (replace 1 with (INR 1) by reflexivity; apply le_INR; lia). rewrite S_INR in IH |- *. set (u := INR a) in *.
    assert (/ (u + 1) ^ 2 <= / u - / (u + 1)); [|lra]. replace (/ u - / (u + 1)) with (/ (u * (u + 1))) by (field; lra). apply Rinv_le_contravar; nra. }
  assert (HA : 1 <= INR a) by (replace 1 with (INR 1) by reflexivity; apply le_INR; lia). destruct n as [|n]; cbn [seq sumR]; [apply Rlt_le, Rdiv_lt_0_compat; lra|].
  specialize (G n a Ha). assert (0 < / INR (a + n)) by (apply Rinv_0_lt_compat, lt_0_INR; lia). assert (/ INR a ^ 2 <= / INR a) by (apply Rinv_le_contravar; [lra|]; nra). unfold Rdiv. lra.
Qed.
Lemma sqrt_half : forall n, (0 < n)%nat -> sqrt (INR n) <= 2 * INR (Nat.sqrt n) /\ (1 <= Nat.sqrt n)%nat.
Proof.
  intros n Hn. pose proof (Nat.sqrt_spec n ltac:(lia)) as [H1 H2]. set (r := Nat.sqrt n) in *. assert (Hr : (1 <= r)%nat) by (destruct r; [cbn in H2; lia|lia]). split; [|exact Hr].
  assert (HR : 1 <= INR r) by (replace 1 with (INR 1) by reflexivity; apply le_INR; lia).
  rewrite <- (sqrt_pow2 (2 * INR r)) by lra. apply sqrt_le_1_alt. apply Rle_trans with ((INR r + 1) ^ 2); [|nra].
  rewrite <- S_INR. cbn [pow]. rewrite Rmult_1_r, <- mult_INR. apply le_INR. lia.
Qed.

Section Sampler.
Context {X : Type}.
Variables (eqX : forall x y : X, {x = y} + {x <> y}) (states : list X) (ll : X -> R).
Variables (K q : X -> X -> R) (E : X -> nat -> (list X -> R) -> R -> Prop).
Hypothesis states_nodup : NoDup states.
Hypothesis HS : sampler eqX states ll K q E.
Local Notation p := (target states ll).
Let facts := sampler_ok X eqX states ll K q E states_nodup HS.
Let K_nonneg := sf_nonneg facts.
Let K_sum := sf_sum facts.
Local Notation consistent := (consistent states K).
Local Notation good := (good states).

Lemma marginal : forall j i x h, In x states -> markov states K (j + i) x (fun l => h (firstn j l)) = markov states K j x h.
Proof.
  clear - K_sum. induction j as [|j IH]; intros i x h Hx; cbn [Nat.add MHRunSpec.markov].
  - rewrite (markov_ext states K i x _ (fun _ => h [])) by (intros; reflexivity). now apply (markov_const states K K_sum).
  - apply MarkovFinite.sumR_ext_in. intros y Hy. f_equal. cbn [firstn]. exact (IH i y (fun l => h (y :: l)) Hy).
Qed.
Lemma ever_far_squares : forall Z B eps c l n m, 0 <= B -> 0 < eps -> (forall l y, good l -> In y states -> Rabs (Z (l ++ [y]) - Z l) <= B / INR (length l)) ->
  incl l states -> length l = m -> (0 < n <= m)%nat -> 4 * B / eps <= INR (Nat.sqrt n) ->
  indicator (ever_far eps c Z n m l) <= sumR (fun r => 4 / eps ^ 2 * (Z (firstn (r * r) l) - c) ^ 2) (seq (Nat.sqrt n) (Nat.sqrt m - Nat.sqrt n + 1)).
Proof.
  clear. intros Z B eps c l n m HB He HZ Hl Hlen Hnm Hr0.
  assert (Hpos : forall r, 0 <= 4 / eps ^ 2 * (Z (firstn (r * r) l) - c) ^ 2).
  { intros r. apply Rmult_le_pos; [apply Rlt_le, Rdiv_lt_0_compat; [lra|apply pow_lt; exact He]|apply pow2_ge_0]. }
  unfold indicator. destruct (ever_far eps c Z n m l) eqn:Ef.
  2:{ clear - Hpos. generalize (seq (Nat.sqrt n) (Nat.sqrt m - Nat.sqrt n + 1)) as s. induction s as [|r s IH]; cbn [sumR]; [lra|]. pose proof (Hpos r). lra. }
  apply existsb_exists in Ef. destruct Ef as (k & Hk & Hf). apply in_seq in Hk. unfold far in Hf. destruct (Rle_dec eps _) as [Hf'|]; [clear Hf|discriminate].
  pose proof (Nat.sqrt_spec k ltac:(lia)) as [Hk1 Hk2]. set (r := Nat.sqrt k) in *.
  assert (Hr : (Nat.sqrt n <= r)%nat) by (apply Nat.sqrt_le_mono; lia). assert (Hr' : (r <= Nat.sqrt m)%nat) by (apply Nat.sqrt_le_mono; lia).
  destruct (sqrt_half n ltac:(lia)) as [_ Hn1].
  assert (HR : 1 <= INR r) by (replace 1 with (INR 1) by reflexivity; apply le_INR; lia).
  assert (HRR : 4 * B / eps <= INR r) by (eapply Rle_trans; [exact Hr0|apply le_INR; exact Hr]).
  pose proof (steady_prefix states Z B HB HZ l (r * r) (k - r * r) Hl ltac:(nia) ltac:(lia)) as Hst. replace (r * r + (k - r * r))%nat with k in Hst by lia.
  assert (Hd : INR (k - r * r) * (B / INR (r * r)) <= eps / 2).
  { assert (Hi : INR (k - r * r) <= 2 * INR r) by (replace (2 * INR r) with (INR (2 * r)) by (rewrite mult_INR; reflexivity); apply le_INR; lia).
    rewrite mult_INR. set (u := INR r) in *. apply Rle_trans with (2 * u * (B / (u * u))).
    - apply Rmult_le_compat_r; [|exact Hi]. apply Rmult_le_pos; [exact HB|apply Rlt_le, Rinv_0_lt_compat, Rmult_lt_0_compat; lra].
    - replace (2 * u * (B / (u * u))) with (2 * B / u) by (field; lra). apply Rmult_le_reg_r with (2 * u); [lra|]. replace (2 * B / u * (2 * u)) with (4 * B) by (field; lra).
      replace (eps / 2 * (2 * u)) with (eps * u) by field. apply Rmult_le_compat_l with (r := eps) in HRR; [|lra]. replace (eps * (4 * B / eps)) with (4 * B) in HRR by (field; lra). exact HRR. }
  assert (Hfar : eps / 2 <= Rabs (Z (firstn (r * r) l) - c)).
  { set (a := Z (firstn k l)) in *. set (b := Z (firstn (r * r) l)) in *. pose proof (Rabs_triang (a - b) (b - c)) as Ht. replace (a - b + (b - c)) with (a - c) in Ht by ring. lra. }
  apply Rle_trans with (4 / eps ^ 2 * (Z (firstn (r * r) l) - c) ^ 2).
  - rewrite <- (pow2_abs (Z _ - c)). apply Rle_trans with (4 / eps ^ 2 * (eps / 2) ^ 2); [right; field; lra|].
    apply Rmult_le_compat_l; [apply Rlt_le, Rdiv_lt_0_compat; [lra|apply pow_lt; exact He]|]. apply pow_incr. lra.
  - assert (Hin : In r (seq (Nat.sqrt n) (Nat.sqrt m - Nat.sqrt n + 1))) by (apply in_seq; lia).
    clear - Hpos Hin. revert Hin. generalize (seq (Nat.sqrt n) (Nat.sqrt m - Nat.sqrt n + 1)) as s. induction s as [|a s IH]; intros Hin; [destruct Hin|]. cbn [sumR].
    assert (Hs : 0 <= sumR (fun r => 4 / eps ^ 2 * (Z (firstn (r * r) l) - c) ^ 2) s) by (clear - Hpos; induction s as [|b s IH]; cbn [sumR]; [lra|pose proof (Hpos b); lra]).
    destruct Hin as [->|Hin]; [lra|]. specialize (IH Hin). pose proof (Hpos a). lra.
Qed.
Theorem settle : forall least limit code Z c, consistent Z c -> steady states Z -> (forall l, good l -> (least <= length l)%nat -> (N.of_nat (length l) < limit)%N -> code l = Z l) -> settles states least limit E code Z c.
Proof.
  intros least limit code Z c (C0 & HC) (B & HB & HZ) Hcode eps He.
  set (C := Rabs C0). assert (HCp : 0 <= C) by apply Rabs_pos. assert (HC' : forall x n, In x states -> (0 < n)%nat -> markov states K n x (fun l => (Z l - c) ^ 2) <= C / INR n).
  { intros x n Hx Hn. eapply Rle_trans; [now apply HC|]. apply Rmult_le_compat_r; [apply Rlt_le, Rinv_0_lt_compat, lt_0_INR; exact Hn|apply RRle_abs]. }
  clearbody C. clear HC C0. assert (He2 : 0 < eps ^ 2) by (now apply pow_lt).
  exists (16 * C / eps ^ 2 + 8 * B / eps). intros x0 n m Hx0 Hnm. eexists. split; [|split; [apply (sf_law facts); exact Hx0|]].
  2:{ intros Hn Hm. rewrite (markov_eq_in states K K_nonneg m x0 _ (fun l => indicator (ever_far eps c code n m l))); [now apply (sf_law facts)| |exact Hx0].
      intros l Hl Hin. f_equal. unfold ever_far. assert (G : forall s, (forall k, In k s -> (n <= k <= m)%nat) -> existsb (fun k => far eps (Z (firstn k l)) c) s = existsb (fun k => far eps (code (firstn k l)) c) s).
      { induction s as [|k s IH]; intros Hs; [reflexivity|]. cbn [existsb]. rewrite IH by (intros; apply Hs; now right). f_equal. specialize (Hs k (or_introl eq_refl)).
        destruct (prefix_good states l k Hin ltac:(lia)) as [Hg Hk]. rewrite Hcode; [reflexivity|exact Hg|rewrite Hk; lia|rewrite Hk; lia]. }
      apply G. intros k Hk. apply in_seq in Hk. lia. }
  split. { rewrite <- (markov_const states K K_sum m x0 0 Hx0). apply markov_le_in; [exact K_nonneg| |exact Hx0]. intros l _ _. unfold indicator. destruct (ever_far _ _ _ _ _ _); lra. }
  destruct (sqrt_half n ltac:(lia)) as [Hs1 Hs2]. assert (HR : 1 <= INR (Nat.sqrt n)) by (replace 1 with (INR 1) by reflexivity; apply le_INR; lia).
  assert (Hsq : 0 < sqrt (INR n)) by (apply sqrt_lt_R0, lt_0_INR; lia).
  assert (HA : 0 <= 16 * C / eps ^ 2) by (apply Rmult_le_pos; [lra|apply Rlt_le, Rinv_0_lt_compat; exact He2]).
  assert (HBe : 0 <= 8 * B / eps) by (apply Rmult_le_pos; [lra|apply Rlt_le, Rinv_0_lt_compat; exact He]).
  replace ((16 * C / eps ^ 2 + 8 * B / eps) / sqrt (INR n)) with (16 * C / eps ^ 2 * / sqrt (INR n) + 8 * B / eps * / sqrt (INR n)) by (field; lra).
  assert (Hsi : 0 < / sqrt (INR n)) by (now apply Rinv_0_lt_compat).
  destruct (Rle_dec (4 * B / eps) (INR (Nat.sqrt n))) as [Hr0|Hr0].
  - apply Rle_trans with (16 * C / eps ^ 2 * / sqrt (INR n)); [|assert (0 <= 8 * B / eps * / sqrt (INR n)) by (apply Rmult_le_pos; lra); lra].
    apply Rle_trans with (markov states K m x0 (fun l => sumR (fun r => (fun r l => 4 / eps ^ 2 * (Z (firstn (r * r) l) - c) ^ 2) r l) (seq (Nat.sqrt n) (Nat.sqrt m - Nat.sqrt n + 1)))).
    { apply markov_le_in; [exact K_nonneg| |exact Hx0]. intros l Hl Hin. now apply (ever_far_squares Z B). }
    rewrite markov_sum_list by assumption.
    apply Rle_trans with (sumR (fun r => 4 * C / eps ^ 2 * / INR r ^ 2) (seq (Nat.sqrt n) (Nat.sqrt m - Nat.sqrt n + 1))).
    { apply MarkovFinite.sumR_le_in. intros r Hr. apply in_seq in Hr. assert (Hrm : (r * r <= m)%nat).
      { pose proof (Nat.sqrt_le_mono n m ltac:(lia)) as Hq. pose proof (Nat.sqrt_spec m ltac:(lia)) as [Hq' _]. etransitivity; [|exact Hq']. apply Nat.mul_le_mono; lia. }
      rewrite (markov_ext states K m x0 _ (fun l => 4 / eps ^ 2 * (Z (firstn (r * r) l) - c) ^ 2 + 0)) by (intros; ring).
      rewrite (markov_lin states K m x0 (4 / eps ^ 2) (fun l => (Z (firstn (r * r) l) - c) ^ 2) (fun _ => 0)), (markov_const states K K_sum) by exact Hx0. rewrite Rplus_0_r.
      replace m with (r * r + (m - r * r))%nat at 1 by lia. rewrite (marginal (r * r) (m - r * r) x0 (fun l => (Z l - c) ^ 2) Hx0).
      pose proof (HC' x0 (r * r)%nat Hx0 ltac:(nia)) as Hb. rewrite mult_INR in Hb. assert (HRr : 1 <= INR r) by (replace 1 with (INR 1) by reflexivity; apply le_INR; lia).
      replace (4 * C / eps ^ 2 * / INR r ^ 2) with (4 / eps ^ 2 * (C / (INR r * INR r))) by (field; lra). apply Rmult_le_compat_l; [|exact Hb]. apply Rlt_le, Rdiv_lt_0_compat; lra. }
    rewrite sumR_scal. eapply Rle_trans; [apply Rmult_le_compat_l; [|apply inv_square_sum; lia]|].
    + apply Rmult_le_pos; [lra|apply Rlt_le, Rinv_0_lt_compat; exact He2].
    + replace (16 * C / eps ^ 2 * / sqrt (INR n)) with (4 * C / eps ^ 2 * (4 / sqrt (INR n))) by (field; lra).
      apply Rmult_le_compat_l; [apply Rmult_le_pos; [lra|apply Rlt_le, Rinv_0_lt_compat; exact He2]|].
      apply Rmult_le_reg_r with (INR (Nat.sqrt n) * sqrt (INR n)); [apply Rmult_lt_0_compat; lra|].
      replace (2 / INR (Nat.sqrt n) * (INR (Nat.sqrt n) * sqrt (INR n))) with (2 * sqrt (INR n)) by (field; lra). replace (4 / sqrt (INR n) * (INR (Nat.sqrt n) * sqrt (INR n))) with (4 * INR (Nat.sqrt n)) by (field; lra). lra.
  - apply Rle_trans with 1.
    + rewrite <- (markov_const states K K_sum m x0 1 Hx0). apply markov_le_in; [exact K_nonneg| |exact Hx0]. intros l _ _. unfold indicator. destruct (ever_far _ _ _ _ _ _); lra.
    + assert (1 <= 8 * B / eps * / sqrt (INR n)); [|assert (0 <= 16 * C / eps ^ 2 * / sqrt (INR n)) by (apply Rmult_le_pos; lra); lra].
      apply Rmult_le_reg_r with (sqrt (INR n)); [exact Hsq|]. rewrite Rmult_assoc, Rinv_l by lra. replace (8 * B / eps) with (2 * (4 * B / eps)) in * by (field; lra). lra.
Qed.
End Sampler.
