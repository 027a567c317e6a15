(** How the results of the statistical consumers change when the samples are transformed (other units, other coordinates, selected components), and when a consumer sees the samples of several producers. *)
From Coq Require Import Field Permutation.
From Verif Require Import Prelude ConsumerModel StatsModel StatsSpec StatsProofs StatsTop.
Local Notation len xs := (N.of_nat (length xs)).

(** ** Specification *)
Section Spec.
Context {K : Type}.
Variable F : kops K.
(** The vector with components b_i + sum_k A_ik x_k, i = 0, ..., d'-1, for a vector x of size d. *)
Definition affine (d' d : nat) (A : nat -> nat -> K) (b : nat -> K) (x : vec K) : vec K :=
  map (fun i => kadd F (b i) (sumn F (fun k => kmul F (A i k) (comp F x k)) d)) (seq 0 d').
(** The components of x with the given numbers. *)
Definition select (idx : list nat) (x : vec K) : vec K := map (comp F x) idx.
End Spec.

Section P.
Context {K : Type}.
Variable F : kops K.
Variable inv : K -> K.
Hypothesis FT : field_theory (k0 F) (k1 F) (kadd F) (kmul F) (ksub F) (kopp F) (kdiv F) inv eq.
Hypothesis N0 : kofN F 0 = k0 F.
Hypothesis NS : forall n, kofN F (n + 1) = kadd F (kofN F n) (k1 F).
Hypothesis char0 : forall n, (0 < n)%N -> kofN F n <> k0 F.
Hypothesis conj_add : forall a b, kconj F (kadd F a b) = kadd F (kconj F a) (kconj F b).
Hypothesis conj_mul : forall a b, kconj F (kmul F a b) = kmul F (kconj F a) (kconj F b).
Hypothesis conj_1 : kconj F (k1 F) = k1 F.
Add Field KF : FT.
Local Notation "0" := (k0 F). Local Notation "1" := (k1 F).
Local Notation "a + b" := (kadd F a b). Local Notation "a * b" := (kmul F a b).
Local Notation "a - b" := (ksub F a b). Local Notation "a / b" := (kdiv F a b). Local Notation "- a" := (kopp F a).
Local Notation nk n := (kofN F n).
Local Notation suml := (suml F). Local Notation sumn := (sumn F).
Local Notation comp := (comp F).
Local Notation affine := (affine F).

Lemma affine_length : forall d' d A b x, length (affine d' d A b x) = d'.
Proof. intros. unfold StatsAffine.affine. now rewrite map_length, seq_length. Qed.
Lemma affine_size : forall d' d A b (xs : list (vec K)), all_size d' (map (affine d' d A b) xs).
Proof. intros. apply Forall_forall. intros x H. apply in_map_iff in H. destruct H as (y & <- & _). apply affine_length. Qed.
Lemma comp_affine : forall d' d A b x i, (i < d')%nat -> comp (affine d' d A b x) i = b i + sumn (fun k => A i k * comp x k) d.
Proof.
  intros d' d A b x i Hi. unfold StatsAffine.affine. set (f := fun i => b i + sumn (fun k => A i k * comp x k) d). change (nth i (map f (seq 0 d')) 0 = f i).
  rewrite (nth_indep _ _ (f O)) by now rewrite map_length, seq_length. now rewrite map_nth, seq_nth.
Qed.
Lemma suml_map' : forall A B (f : B -> K) (g : A -> B) l, suml f (map g l) = suml (fun x => f (g x)) l.
Proof. intros A B f g l. induction l as [|a l IH]; cbn; [reflexivity|now rewrite IH]. Qed.
Lemma div_sum : forall A (f : A -> K) l n, (0 < n)%N -> suml f l / nk n = suml (fun x => f x / nk n) l.
Proof. intros A f l n H. pose proof (char0 _ H) as Hc. induction l as [|a l IH]; cbn; [field; exact Hc|rewrite <- IH; field; exact Hc]. Qed.

Lemma the_mean_affine : forall d' d A b (xs : list (vec K)) i, xs <> [] -> (i < d')%nat ->
  the_mean F (map (affine d' d A b) xs) i = b i + sumn (fun k => A i k * the_mean F xs k) d.
Proof.
  intros d' d A b xs i Hne Hi. assert (Hn : (0 < len xs)%N) by (destruct xs; [congruence|cbn; lia]). pose proof (char0 _ Hn) as Hc.
  unfold the_mean. rewrite map_length, suml_map'.
  rewrite (suml_ext F _ _ (fun x => b i + sumn (fun k => A i k * comp x k) d)) by (intros; now apply comp_affine).
  rewrite (suml_add F inv FT), (suml_const F inv FT N0 NS).
  unfold StatsSpec.sumn. rewrite (suml_exchange F inv FT).
  transitivity (b i + suml (fun k => suml (fun x => A i k * comp x k) xs) (seq 0 d) / nk (len xs)); [field; exact Hc|].
  f_equal. rewrite div_sum by exact Hn. apply suml_ext. intros k _. rewrite (suml_scale F inv FT). field. exact Hc.
Qed.
(** The deviation from the mean is transformed by the matrix. *)
Lemma dev_affine : forall d' d A b (xs : list (vec K)) i x, xs <> [] -> (i < d')%nat ->
  comp (affine d' d A b x) i - the_mean F (map (affine d' d A b) xs) i = sumn (fun k => A i k * (comp x k - the_mean F xs k)) d.
Proof.
  intros d' d A b xs i x Hne Hi. rewrite the_mean_affine, comp_affine by assumption.
  transitivity (sumn (fun k => A i k * comp x k - A i k * the_mean F xs k) d).
  - rewrite (sumn_sub F inv FT). ring.
  - apply sumn_ext. intros. ring.
Qed.
Lemma sumn_mul : forall f g n m, sumn f n * sumn g m = sumn (fun k => sumn (fun l => f k * g l) m) n.
Proof.
  intros f g n m. transitivity (sumn (fun k => f k * sumn g m) n).
  - transitivity (sumn (fun k => sumn g m * f k) n); [rewrite (sumn_scale F inv FT); ring|]. apply sumn_ext. intros; ring.
  - apply sumn_ext. intros k _. rewrite (sumn_scale F inv FT). reflexivity.
Qed.
Lemma conj_sumn : forall f n, kconj F (sumn f n) = sumn (fun k => kconj F (f k)) n.
Proof. intros. unfold StatsSpec.sumn. apply (conj_suml F inv FT conj_add). Qed.
Lemma suml_sumn : forall A (f : A -> nat -> K) l n, suml (fun x => sumn (f x) n) l = sumn (fun k => suml (fun x => f x k) l) n.
Proof. intros. unfold StatsSpec.sumn. apply (suml_exchange F inv FT). Qed.
Lemma sumn_sumn : forall (f : nat -> nat -> K) m n, sumn (fun t => sumn (f t) n) m = sumn (fun k => sumn (fun t => f t k) m) n.
Proof. intros. unfold StatsSpec.sumn. apply (suml_exchange F inv FT). Qed.
Lemma div_sumn : forall (f : nat -> K) m n, (0 < n)%N -> sumn f m / nk n = sumn (fun x => f x / nk n) m.
Proof. intros. unfold StatsSpec.sumn. now apply div_sum. Qed.

Lemma the_covariance_affine : forall d' d A b (xs : list (vec K)) i j, (2 <= length xs)%nat -> (i < d')%nat -> (j < d')%nat ->
  the_covariance F (map (affine d' d A b) xs) i j = sumn (fun k => sumn (fun l => A i k * the_covariance F xs k l * kconj F (A j l)) d) d.
Proof.
  intros d' d A b xs i j H2 Hi Hj. assert (Hne : xs <> []) by (intros ->; cbn in H2; lia).
  assert (Hn : (0 < len xs - 1)%N) by lia. pose proof (char0 _ Hn) as Hc.
  unfold the_covariance at 1. rewrite map_length, suml_map'.
  rewrite (suml_ext F _ _ (fun x => sumn (fun k => sumn (fun l => A i k * ((comp x k - the_mean F xs k) * kconj F (comp x l - the_mean F xs l)) * kconj F (A j l)) d) d)).
  2:{ intros x _. rewrite !dev_affine by assumption. rewrite conj_sumn, sumn_mul. apply sumn_ext. intros k _. apply sumn_ext. intros l _. rewrite conj_mul. ring. }
  rewrite suml_sumn, div_sumn by exact Hn. apply sumn_ext. intros k _. rewrite suml_sumn, div_sumn by exact Hn. apply sumn_ext. intros l _.
  unfold the_covariance. rewrite (suml_ext F _ _ (fun x => (A i k * kconj F (A j l)) * ((comp x k - the_mean F xs k) * kconj F (comp x l - the_mean F xs l)))) by (intros; ring).
  rewrite (suml_scale F inv FT). field. exact Hc.
Qed.
Lemma X_map : forall d' d A b (xs : list (vec K)) t i, (t < length xs)%nat -> StatsSpec.X F (map (affine d' d A b) xs) t i = comp (affine d' d A b (nth t xs [])) i.
Proof. intros. unfold X. f_equal. rewrite (nth_indep _ _ (affine d' d A b [])) by now rewrite map_length. now rewrite map_nth. Qed.
Lemma the_autocovariance_affine : forall d' d A b (xs : list (vec K)) h i j, (h + 2 <= length xs)%nat -> (i < d')%nat -> (j < d')%nat ->
  the_autocovariance F (map (affine d' d A b) xs) h i j = sumn (fun k => sumn (fun l => A i k * the_autocovariance F xs h k l * A j l) d) d.
Proof.
  intros d' d A b xs h i j H2 Hi Hj. assert (Hne : xs <> []) by (intros ->; cbn in H2; lia).
  assert (Hn : (0 < len xs - N.of_nat h - 1)%N) by lia. pose proof (char0 _ Hn) as Hc.
  unfold the_autocovariance at 1. rewrite map_length.
  rewrite (sumn_ext F _ (fun t => sumn (fun k => sumn (fun l => A i k * ((X F xs (t + h) k - the_mean F xs k) * (X F xs t l - the_mean F xs l)) * A j l) d) d)).
  2:{ intros t Ht. rewrite !X_map by lia. rewrite !dev_affine by assumption. rewrite sumn_mul. apply sumn_ext. intros k _. apply sumn_ext. intros l _. unfold X. ring. }
  rewrite sumn_sumn, div_sumn by exact Hn. apply sumn_ext. intros k _. rewrite sumn_sumn, div_sumn by exact Hn. apply sumn_ext. intros l _.
  unfold the_autocovariance.
  rewrite (sumn_ext F (fun t => A i k * ((X F xs (t + h) k - the_mean F xs k) * (X F xs t l - the_mean F xs l)) * A j l) (fun t => (A i k * A j l) * ((X F xs (t + h) k - the_mean F xs k) * (X F xs t l - the_mean F xs l)))) by (intros; ring).
  rewrite (sumn_scale F inv FT). field. exact Hc.
Qed.
Lemma sumn_delta : forall (f : nat -> K) d k, (k < d)%nat -> sumn (fun l => if (l =? k)%nat then f l else 0) d = f k.
Proof.
  intros f d. induction d as [|d IH]; intros k Hk; [lia|]. rewrite (sumn_S F inv FT).
  destruct (Nat.eq_dec k d) as [->|Hd].
  - rewrite Nat.eqb_refl. rewrite (sumn_ext F _ (fun _ => 0)) by (intros t Ht; destruct (Nat.eqb_spec t d); [lia|reflexivity]). rewrite (sumn_zero F inv FT). ring.
  - rewrite IH by lia. destruct (Nat.eqb_spec d k); [congruence|ring].
Qed.
Lemma the_trace_affine : forall d' d A b c (xs : list (vec K)) h, (h + 2 <= length xs)%nat ->
  (forall k l, (k < d)%nat -> (l < d)%nat -> sumn (fun i => A i k * A i l) d' = if (l =? k)%nat then c else 0) ->
  the_autocovariance_trace F d' (map (affine d' d A b) xs) h = c * the_autocovariance_trace F d xs h.
Proof.
  intros d' d A b c xs h H2 Ho. unfold the_autocovariance_trace.
  rewrite (sumn_ext F _ (fun i => sumn (fun k => sumn (fun l => A i k * the_autocovariance F xs h k l * A i l) d) d)) by (intros; now apply the_autocovariance_affine).
  rewrite sumn_sumn. rewrite <- (sumn_scale F inv FT). apply sumn_ext. intros k Hk. rewrite sumn_sumn.
  rewrite (sumn_ext F _ (fun l => if (l =? k)%nat then (fun l => c * the_autocovariance F xs h k l) l else 0)); [now rewrite sumn_delta by exact Hk|].
  intros l Hl. cbv beta. transitivity (the_autocovariance F xs h k l * sumn (fun i => A i k * A i l) d').
  - rewrite <- (sumn_scale F inv FT). apply sumn_ext. intros; ring.
  - rewrite Ho by assumption. destruct (l =? k)%nat; ring.
Qed.
Lemma the_covariance_hermitian : (forall a, kconj F (kconj F a) = a) -> forall (xs : list (vec K)) i j, (2 <= length xs)%nat -> the_covariance F xs j i = kconj F (the_covariance F xs i j).
Proof.
  intros CC xs i j H. unfold the_covariance. rewrite (conj_divN F inv FT N0 NS char0 conj_add conj_mul conj_1) by lia.
  rewrite (conj_suml F inv FT conj_add). f_equal. apply suml_ext. intros x _. rewrite conj_mul, CC. ring.
Qed.

(** *** Two streams *)
Lemma nk_add : forall m n, nk (m + n)%N = nk m + nk n.
Proof.
  intros m n. induction n as [|n IH] using N.peano_ind; [rewrite N.add_0_r, N0; ring|].
  replace (m + N.succ n)%N with (m + n + 1)%N by lia. replace (N.succ n) with (n + 1)%N by lia. rewrite !NS, IH. ring.
Qed.
Lemma nk_sum : forall m n, (0 < m)%N -> nk m + nk n <> 0.
Proof. intros m n H. rewrite <- nk_add. apply char0. lia. Qed.
Lemma the_mean_app : forall (xs ys : list (vec K)) i, xs <> [] -> ys <> [] ->
  the_mean F (xs ++ ys) i = (nk (len xs) * the_mean F xs i + nk (len ys) * the_mean F ys i) / (nk (len xs) + nk (len ys)).
Proof.
  intros xs ys i H1 H2. assert (Hn : (0 < len xs)%N) by (destruct xs; [congruence|cbn; lia]). assert (Hm : (0 < len ys)%N) by (destruct ys; [congruence|cbn; lia]).
  pose proof (char0 _ Hn). pose proof (char0 _ Hm). pose proof (nk_sum _ (len ys) Hn).
  unfold the_mean. rewrite (suml_app F inv FT), app_length, Nat2N.inj_add, nk_add. field. repeat split; assumption.
Qed.
Lemma the_covariance_app : forall (xs ys : list (vec K)) i j, (2 <= length xs)%nat -> (2 <= length ys)%nat ->
  the_covariance F (xs ++ ys) i j =
  ((nk (len xs) - 1) * the_covariance F xs i j + (nk (len ys) - 1) * the_covariance F ys i j +
   nk (len xs) * nk (len ys) / (nk (len xs) + nk (len ys)) * ((the_mean F xs i - the_mean F ys i) * kconj F (the_mean F xs j - the_mean F ys j)))
  / (nk (len xs) + nk (len ys) - 1).
Proof.
  intros xs ys i j H1 H2.
  assert (Hx : xs <> []) by (intros ->; cbn in H1; lia). assert (Hy : ys <> []) by (intros ->; cbn in H2; lia). assert (Hxy : xs ++ ys <> []) by (destruct xs; [congruence|discriminate]).
  assert (Hn : (0 < len xs)%N) by lia. assert (Hm : (0 < len ys)%N) by lia.
  pose proof (char0 _ Hn) as C1. pose proof (char0 _ Hm) as C2. pose proof (nk_sum _ (len ys) Hn) as C3.
  assert (P : forall n, (0 < n)%N -> nk (n - 1)%N = nk n - 1). { intros n Hp. replace n with (n - 1 + 1)%N at 2 by lia. rewrite NS. ring. }
  assert (D1 : nk (len xs) - 1 <> 0) by (rewrite <- P by lia; apply char0; lia).
  assert (D2 : nk (len ys) - 1 <> 0) by (rewrite <- P by lia; apply char0; lia).
  assert (D3 : nk (len xs) + nk (len ys) - 1 <> 0) by (rewrite <- nk_add, <- P by lia; apply char0; lia).
  unfold the_covariance. rewrite !(cov_expand F inv FT N0 NS char0 conj_add conj_mul conj_1) by assumption.
  rewrite app_length, Nat2N.inj_add. rewrite !P by lia. rewrite nk_add. rewrite (conj_sub F inv FT conj_add). unfold the_mean. rewrite !(conj_divN F inv FT N0 NS char0 conj_add conj_mul conj_1) by assumption.
  unfold S1, S2. rewrite !(suml_app F inv FT). rewrite conj_add.
  fold (S1 F xs i) (S1 F xs j) (S1 F ys i) (S1 F ys j). fold (S2 F xs i j) (S2 F ys i j).
  generalize dependent (nk (len xs)). intros n C1 C3 D1 D3. generalize dependent (nk (len ys)). intros m C2 C3 D2 D3.
  generalize (S1 F xs i) (kconj F (S1 F xs j)) (S1 F ys i) (kconj F (S1 F ys j)) (S2 F xs i j) (S2 F ys i j). intros. field. repeat split; assumption.
Qed.
End P.
