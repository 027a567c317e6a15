(** Proofs about the statistical consumers in exact arithmetic. *)
From Coq Require Import Field Permutation.
From Verif Require Import Prelude ConsumerModel StatsModel StatsSpec.

Lemma wrap_small : forall n, (n < two64)%N -> wrap64 n = n.
Proof. intros. apply N.mod_small. assumption. Qed.
Lemma run_snoc : forall St A (c : St -> A -> outcome St) xs s x,
  run_consumer c s (xs ++ [x]) = (do s' <- run_consumer c s xs; c s' x).
Proof.
  intros St A c xs. induction xs as [|y xs IH]; intros s x; cbn.
  - destruct (c s x); reflexivity.
  - destruct (c s y); cbn; auto.
Qed.

Section P.
Context {K : Type}.
Variable F : kops K.
Variable inv : K -> K.
Hypothesis FT : field_theory (k0 F) (k1 F) (kadd F) (kmul F) (ksub F) (kopp F) (kdiv F) inv eq.
Hypothesis N0 : kofN F 0 = k0 F.
Hypothesis NS : forall n, kofN F (n + 1) = kadd F (kofN F n) (k1 F).
Hypothesis char0 : forall n, (0 < n)%N -> kofN F n <> k0 F.
Hypothesis conj_add : forall a b, kconj F (kadd F a b) = kadd F (kconj F a) (kconj F b).
Hypothesis conj_mul : forall a b, kconj F (kmul F a b) = kmul F (kconj F a) (kconj F b).
Hypothesis conj_1 : kconj F (k1 F) = k1 F.

Add Field KF : FT.
Local Notation "0" := (k0 F). Local Notation "1" := (k1 F).
Local Notation "a + b" := (kadd F a b). Local Notation "a * b" := (kmul F a b).
Local Notation "a - b" := (ksub F a b). Local Notation "a / b" := (kdiv F a b). Local Notation "- a" := (kopp F a).
Local Notation nk n := (kofN F n).
Local Notation suml := (suml F). Local Notation sumn := (sumn F).
Local Notation comp := (comp F).
Local Notation len xs := (N.of_nat (length xs)).

Lemma one_neq : 1 <> 0.
Proof. exact (F_1_neq_0 FT). Qed.
Lemma nk_1 : nk 1%N = 1.
Proof. change 1%N with (0 + 1)%N. rewrite NS, N0. ring. Qed.
Lemma mul_reg : forall a b c, a <> 0 -> a * b = a * c -> b = c.
Proof. intros a b c Ha H. transitivity ((a * b) / a); [field; exact Ha|]. rewrite H. field. exact Ha. Qed.
(** ** sums *)
Lemma suml_app : forall A (f : A -> K) l l', suml f (l ++ l') = suml f l + suml f l'.
Proof. intros A f l l'. induction l as [|x l IH]; cbn; [ring|]. rewrite IH. ring. Qed.
Lemma suml_snoc : forall A (f : A -> K) l x, suml f (l ++ [x]) = suml f l + f x.
Proof. intros. rewrite suml_app. cbn. ring. Qed.
Lemma suml_ext : forall A (f g : A -> K) l, (forall x, In x l -> f x = g x) -> suml f l = suml g l.
Proof.
  intros A f g l. induction l as [|x l IH]; intros H; cbn; [reflexivity|]. rewrite H by now left. f_equal. apply IH. intros; apply H. now right.
Qed.
Lemma suml_add : forall A (f g : A -> K) l, suml (fun x => f x + g x) l = suml f l + suml g l.
Proof. intros A f g l. induction l as [|x l IH]; cbn; [ring|]. rewrite IH. ring. Qed.
Lemma suml_sub : forall A (f g : A -> K) l, suml (fun x => f x - g x) l = suml f l - suml g l.
Proof. intros A f g l. induction l as [|x l IH]; cbn; [ring|]. rewrite IH. ring. Qed.
Lemma suml_scale : forall A (f : A -> K) c l, suml (fun x => c * f x) l = c * suml f l.
Proof. intros A f c l. induction l as [|x l IH]; cbn; [ring|]. rewrite IH. ring. Qed.
Lemma suml_zero : forall A (l : list A), suml (fun _ => 0) l = 0.
Proof. intros A l. induction l as [|x l IH]; cbn; [reflexivity|]. rewrite IH. ring. Qed.
Lemma suml_const : forall A c (l : list A), suml (fun _ => c) l = nk (len l) * c.
Proof.
  intros A c l. induction l as [|x l IH]; cbn [StatsSpec.suml length]; [cbn; rewrite N0; ring|].
  rewrite IH, Nnat.Nat2N.inj_succ, <- N.add_1_r, NS. ring.
Qed.
Lemma suml_exchange : forall A B (f : A -> B -> K) l l',
  suml (fun x => suml (f x) l') l = suml (fun y => suml (fun x => f x y) l) l'.
Proof.
  intros A B f l l'. induction l as [|x l IH]; cbn; [now rewrite suml_zero|]. rewrite IH. now rewrite <- suml_add.
Qed.
Lemma suml_perm : forall A (f : A -> K) l l', Permutation l l' -> suml f l = suml f l'.
Proof. intros A f l l' H. induction H; cbn; try congruence; ring. Qed.
Lemma sumn_S : forall f n, sumn f (S n) = sumn f n + f n.
Proof. intros. unfold StatsSpec.sumn. rewrite seq_S, suml_snoc. reflexivity. Qed.
Lemma sumn_ext : forall f g n, (forall t, (t < n)%nat -> f t = g t) -> sumn f n = sumn g n.
Proof. intros. apply suml_ext. intros x Hx. apply in_seq in Hx. apply H. lia. Qed.

(** ** conjugation *)
Lemma conj_0 : kconj F 0 = 0.
Proof.
  assert (kconj F 0 = kconj F 0 + kconj F 0) by (rewrite <- conj_add; f_equal; ring).
  assert (H1 : kconj F 0 - kconj F 0 = kconj F 0 + kconj F 0 - kconj F 0) by (rewrite <- H; reflexivity).
  replace (kconj F 0 - kconj F 0) with 0 in H1 by ring. rewrite H1 at 2. ring.
Qed.
Lemma conj_opp : forall a, kconj F (- a) = - kconj F a.
Proof.
  intros a. assert (kconj F a + kconj F (- a) = 0) by (rewrite <- conj_add, <- conj_0; f_equal; ring).
  replace (kconj F (- a)) with ((kconj F a + kconj F (- a)) - kconj F a) by ring. rewrite H. ring.
Qed.
Lemma conj_sub : forall a b, kconj F (a - b) = kconj F a - kconj F b.
Proof. intros. replace (a - b) with (a + - b) by ring. rewrite conj_add, conj_opp. ring. Qed.
Lemma conj_N : forall n, kconj F (nk n) = nk n.
Proof.
  intros n. induction n as [|n IH] using N.peano_ind; [rewrite N0; apply conj_0|].
  rewrite <- N.add_1_r, NS, conj_add, IH, conj_1. reflexivity.
Qed.
Lemma conj_divN : forall a n, (0 < n)%N -> kconj F (a / nk n) = kconj F a / nk n.
Proof.
  intros a n Hn. pose proof (char0 n Hn) as Hc.
  assert (H : kconj F (a / nk n) * nk n = kconj F a).
  { rewrite <- (conj_N n) at 2. rewrite <- conj_mul. f_equal. field. exact Hc. }
  rewrite <- H. field. exact Hc.
Qed.
Lemma conj_suml : forall A (f : A -> K) l, kconj F (suml f l) = suml (fun x => kconj F (f x)) l.
Proof. intros A f l. induction l as [|x l IH]; cbn; [apply conj_0|]. now rewrite conj_add, IH. Qed.

(** ** vectors *)
Lemma vop_length : forall f (a b : vec K), length a = length b -> length (vop f a b) = length a.
Proof. intros f a b H. unfold vop. rewrite map_length, combine_length. lia. Qed.
Lemma comp_vop : forall f (a b : vec K) i, length a = length b -> (i < length a)%nat -> comp (vop f a b) i = f (comp a i) (comp b i).
Proof.
  intros f a. induction a as [|x a IH]; intros [|y b] i H Hi; cbn in *; try lia.
  destruct i as [|i]; [reflexivity|]. apply IH; lia.
Qed.
Lemma comp_map : forall (f : K -> K) (a : vec K) i, (i < length a)%nat -> comp (map f a) i = f (comp a i).
Proof. intros f a. induction a as [|x a IH]; intros i Hi; cbn in *; [lia|]. destruct i; [reflexivity|]. apply IH. lia. Qed.
Lemma same_size_true : forall a b : vec K, length a = length b -> same_size a b = true.
Proof. intros. unfold same_size. now apply Nat.eqb_eq. Qed.

(** ** mean *)
Lemma mean_step : forall (xs : list (vec K)) x d mean,
  xs <> [] -> length x = d -> length mean = d -> (forall i, (i < d)%nat -> comp mean i = the_mean F xs i) ->
  length (mean_update F mean x (len (xs ++ [x]))) = d /\
  forall i, (i < d)%nat -> comp (mean_update F mean x (len (xs ++ [x]))) i = the_mean F (xs ++ [x]) i.
Proof.
  intros xs x d mean Hne Hx Hm Hmean. unfold mean_update.
  assert (L1 : length (vop (ksub F) x mean) = d) by (rewrite vop_length; congruence).
  assert (L2 : length (map (fun u => kdiv F u (kofN F (len (xs ++ [x])))) (vop (ksub F) x mean)) = d) by (rewrite map_length; exact L1).
  split; [rewrite vop_length; congruence|].
  intros i Hi. rewrite comp_vop by lia. rewrite comp_map by lia. rewrite comp_vop by lia. rewrite (Hmean i Hi).
  unfold the_mean. rewrite suml_snoc, app_length. cbn [length].
  assert (Hn : (0 < len xs)%N) by (destruct xs; [congruence|cbn; lia]).
  replace (N.of_nat (length xs + 1)%nat) with (len xs + 1)%N by lia.
  pose proof (char0 _ Hn) as Hc. pose proof (char0 (len xs + 1)%N ltac:(lia)) as Hc1. rewrite NS in *.
  field. split; assumption.
Qed.

Lemma mean_inv : forall (dflt : option (vec K)) (xs : list (vec K)) d, xs <> [] -> all_size d xs -> (len xs < two64)%N ->
  exists m, run_consumer (mean_consume F) (mean_init dflt) xs = Ok {| mv_mean := Some m; mv_n := len xs |} /\
    length m = d /\ forall i, (i < d)%nat -> comp m i = the_mean F xs i.
Proof.
  intros dflt xs d. induction xs as [|x xs IH] using rev_ind; [congruence|]. intros _ Hs Hn.
  apply Forall_app in Hs. destruct Hs as [Hs Hx]. inversion Hx as [|? ? Hx1 _]; subst. rewrite run_snoc.
  rewrite app_length in Hn. cbn [length] in Hn.
  destruct xs as [|y ys].
  - cbn. exists x. repeat split; auto. intros i Hi. unfold the_mean. cbn. change (BinNums.Npos BinNums.xH) with 1%N. rewrite nk_1. field. apply one_neq.
  - destruct IH as (m & Hr & Hl & Hm); [congruence|exact Hs|lia|]. rewrite Hr. unfold bind, mean_consume. cbn [mv_n mv_mean].
    destruct (N.eqb_spec (len (y :: ys)) 0%N) as [E|_]; [cbn in E; lia|].
    rewrite same_size_true by congruence.
    rewrite wrap_small by lia.
    destruct (mean_step (y :: ys) x (length x) m ltac:(congruence) eq_refl Hl Hm) as [L C].
    rewrite app_length in *. cbn [length] in *. rewrite Nnat.Nat2N.inj_add in *. cbn [N.of_nat] in *.
    eexists. split; [reflexivity|]. split; [exact L|exact C].
Qed.

Theorem mean_correct : forall dflt (xs : list (vec K)) d, xs <> [] -> all_size d xs -> (len xs < two64)%N ->
  exists s m, run_consumer (mean_consume F) (mean_init dflt) xs = Ok s /\ mean_get s = Ok m /\ length m = d /\
    forall i, (i < d)%nat -> comp m i = the_mean F xs i.
Proof.
  intros dflt xs d H1 H2 H3. destruct (mean_inv dflt xs d H1 H2 H3) as (m & Hr & Hl & Hm). eexists. exists m.
  split; [exact Hr|]. repeat split; auto.
Qed.
Lemma the_mean_perm : forall (xs ys : list (vec K)) i, Permutation xs ys -> the_mean F xs i = the_mean F ys i.
Proof. intros xs ys i H. unfold the_mean. rewrite (suml_perm _ _ _ _ H). now rewrite (Permutation_length H). Qed.
Lemma the_covariance_perm : forall (xs ys : list (vec K)) i j, Permutation xs ys -> the_covariance F xs i j = the_covariance F ys i j.
Proof.
  intros xs ys i j H. unfold the_covariance. rewrite !(the_mean_perm xs ys) by exact H. rewrite (suml_perm _ _ _ _ H).
  now rewrite (Permutation_length H).
Qed.

(** ** covariance *)
Definition S1 (xs : list (vec K)) i := suml (fun x => comp x i) xs.
Definition S2 (xs : list (vec K)) i j := suml (fun x => comp x i * kconj F (comp x j)) xs.
Lemma cov_expand : forall (xs : list (vec K)) i j, xs <> [] ->
  suml (fun x => (comp x i - the_mean F xs i) * kconj F (comp x j - the_mean F xs j)) xs =
  S2 xs i j - S1 xs i * kconj F (S1 xs j) / nk (len xs).
Proof.
  intros xs i j Hne. assert (Hn : (0 < len xs)%N) by (destruct xs; [congruence|cbn; lia]). pose proof (char0 _ Hn) as Hc.
  set (mi := the_mean F xs i). set (cm := kconj F (the_mean F xs j)).
  transitivity (suml (fun x => comp x i * kconj F (comp x j) + ((- mi) * kconj F (comp x j) + ((- cm) * comp x i + mi * cm))) xs).
  { apply suml_ext. intros x _. rewrite conj_sub. fold cm. ring. }
  rewrite !suml_add, !suml_scale, suml_const. rewrite <- conj_suml. fold (S1 xs i) (S1 xs j) (S2 xs i j).
  unfold cm, mi, the_mean. fold (S1 xs i) (S1 xs j). rewrite conj_divN by exact Hn. field. exact Hc.
Qed.
Lemma cov_inv : forall G (xs : list (vec K)) d, xs <> [] -> all_size d xs -> (len xs < two64)%N ->
  exists m c, run_consumer (cov_consume F) (cov_init G) xs = Ok {| cv_mean := Some m; cv_cov := c; cv_dim := d; cv_n := len xs |} /\
    length m = d /\ (forall i, (i < d)%nat -> comp m i = the_mean F xs i) /\
    (length xs = 1%nat -> c = G) /\
    (2 <= length xs -> forall i j, (i < d)%nat -> (j < d)%nat -> c i j = the_covariance F xs i j)%nat.
Proof.
  intros G xs d. induction xs as [|x xs IH] using rev_ind; [congruence|]. intros _ Hs Hn.
  apply Forall_app in Hs. destruct Hs as [Hs Hx]. inversion Hx as [|? ? Hx1 _]; subst. rewrite run_snoc.
  rewrite app_length in Hn. cbn [length] in Hn.
  destruct xs as [|y ys].
  - cbn. exists x, G. repeat split; auto; [|lia]. intros i Hi. unfold the_mean. cbn. change (BinNums.Npos BinNums.xH) with 1%N. rewrite nk_1. field. apply one_neq.
  - destruct IH as (m & c & Hr & Hl & Hm & Hc1 & Hc2); [congruence|exact Hs|lia|]. rewrite Hr. unfold bind, cov_consume. cbn [cv_n cv_mean cv_cov cv_dim].
    destruct (N.eqb_spec (len (y :: ys)) 0%N) as [E|_]; [cbn in E; lia|].
    rewrite same_size_true by congruence. rewrite wrap_small by lia.
    set (xs := y :: ys) in *. assert (Hne : xs <> []) by (unfold xs; congruence).
    destruct (mean_step xs x (length x) m Hne eq_refl Hl Hm) as [L C].
    replace (len xs + 1)%N with (len (xs ++ [x])) by (rewrite app_length; cbn; lia).
    eexists. eexists. split; [reflexivity|]. split; [exact L|]. split; [exact C|].
    split; [intros E; rewrite app_length in E; unfold xs in E; cbn in E; lia|].
    intros _ i j Hi Hj. unfold cov_entry. rewrite !comp_vop by lia. rewrite (Hm i Hi), (Hm j Hj).
    assert (Hn0 : (0 < len xs)%N) by (unfold xs; cbn; lia). pose proof (char0 _ Hn0) as Hk0.
    assert (Hn' : len (xs ++ [x]) = (len xs + 1)%N) by (rewrite app_length; cbn; lia).
    unfold the_covariance. rewrite cov_expand by (destruct xs; discriminate).
    rewrite Hn'. replace (len xs + 1 - 1)%N with (len xs) by lia.
    pose proof (char0 (len xs + 1)%N ltac:(lia)) as Hk1. rewrite NS in Hk1. rewrite !NS.
    unfold S1, S2. rewrite !suml_snoc. fold (S1 xs i) (S1 xs j) (S2 xs i j). rewrite conj_add, conj_sub.
    unfold the_mean. fold (S1 xs i) (S1 xs j). rewrite conj_divN by exact Hn0.
    destruct (Nat.eq_dec (length xs) 1) as [E1|E1].
    + rewrite (Hc1 E1). assert (Hk : nk (len xs) = 1) by (rewrite E1; cbn; change 1%N with (0 + 1)%N; rewrite NS, N0; ring).
      unfold xs in *. destruct ys; [|cbn in E1; lia]. unfold S1, S2. cbn [StatsSpec.suml]. rewrite Hk in *.
      rewrite conj_add, conj_0. field. repeat split; auto.
    + rewrite Hc2 by (unfold xs in *; cbn in *; lia). unfold the_covariance. rewrite cov_expand by exact Hne.
      assert (Hm1 : nk (len xs) = nk (len xs - 1) + 1) by (rewrite <- NS; f_equal; lia).
      assert (Hk2 : nk (len xs - 1) <> 0) by (apply char0; unfold xs in *; cbn [length] in *; lia).
      rewrite Hm1 in *. field. repeat split; auto.
Qed.

Lemma cov_correct : forall G (xs : list (vec K)) d, xs <> [] -> all_size d xs -> (len xs < two64)%N ->
  exists s, run_consumer (cov_consume F) (cov_init G) xs = Ok s /\ fst (cov_get s) = d /\
    (length xs = 1%nat -> snd (cov_get s) = G) /\
    (2 <= length xs -> forall i j, (i < d)%nat -> (j < d)%nat -> snd (cov_get s) i j = the_covariance F xs i j)%nat.
Proof.
  intros G xs d H1 H2 H3. destruct (cov_inv G xs d H1 H2 H3) as (m & c & Hr & _ & _ & Ha & Hb). eexists. split; [exact Hr|].
  cbn. repeat split; auto.
Qed.

(** ** the lags *)
Lemma lag_loop_ok : forall A (f : nat -> A -> outcome A) (Q : nat -> A -> Prop) data l,
  (forall k a, nth_error data k = Some a -> exists a', f (l + k)%nat a = Ok a' /\ Q (l + k)%nat a') ->
  exists r, lag_loop f l data = Ok r /\ length r = length data /\ forall k a, nth_error r k = Some a -> Q (l + k)%nat a.
Proof.
  intros A f Q data. induction data as [|a data IH]; intros l H.
  - exists []. cbn. repeat split; auto. intros [|k] a H1; discriminate.
  - destruct (H 0%nat a eq_refl) as (a' & Ha & HQ). rewrite Nat.add_0_r in *.
    destruct (IH (S l)) as (r & Hr & Hl & HQ').
    { intros k b Hb. destruct (H (S k) b Hb) as (b' & Hb' & HQb). exists b'. replace (S l + k)%nat with (l + S k)%nat by lia. auto. }
    exists (a' :: r). cbn [lag_loop]. rewrite Ha. cbn [bind]. rewrite Hr. cbn. repeat split; [lia|].
    intros [|k] b Hb; cbn in Hb; [injection Hb as <-; now rewrite Nat.add_0_r|].
    replace (l + S k)%nat with (S l + k)%nat by lia. apply HQ', Hb.
Qed.

Lemma trim_spec : forall M (x : vec K) xs, trim M (x :: firstn (M + 1) (rev xs)) = firstn (M + 1) (rev (xs ++ [x])).
Proof.
  intros M x xs. rewrite rev_unit. replace (M + 1)%nat with (S M) by lia. change (firstn (S M) (x :: rev xs)) with (x :: firstn M (rev xs)). unfold trim.
  destruct (Nat.ltb_spec (M + 1) (length (x :: firstn (S M) (rev xs)))) as [H|H].
  - cbn [length] in H. rewrite firstn_length in H. rewrite (removelast_firstn_len (x :: firstn (S M) (rev xs))).
    cbn [length]. rewrite firstn_length. replace (Nat.min (S M) (length (rev xs))) with (S M) by lia. cbn [Nat.pred].
    change (firstn (S M) (x :: firstn (S M) (rev xs))) with (x :: firstn M (firstn (S M) (rev xs))). f_equal. rewrite firstn_firstn. f_equal. lia.
  - cbn [length] in H. rewrite firstn_length in H. f_equal. rewrite !firstn_all2; auto; rewrite ?rev_length in *; lia.
Qed.

(** Element l of the deque after push_front is the sample issued l samples ago. *)
Lemma prev_nth : forall M (xs : list (vec K)) x l, (l <= M + 1)%nat -> (l <= length xs)%nat ->
  nth_error (x :: firstn (M + 1) (rev xs)) l = Some (nth (length xs - l) (xs ++ [x]) []).
Proof.
  intros M xs x l Hl Hn. destruct l as [|l].
  - cbn. rewrite Nat.sub_0_r, app_nth2, Nat.sub_diag by lia. reflexivity.
  - cbn [nth_error]. rewrite (nth_error_nth' _ []) by (rewrite firstn_length, rev_length; lia). f_equal.
    assert (nth l (firstn (M + 1) (rev xs)) [] = nth l (rev xs) []) as ->.
    { rewrite <- (firstn_skipn (M + 1) (rev xs)) at 2. rewrite app_nth1; [reflexivity|]. rewrite firstn_length, rev_length. lia. }
    rewrite rev_nth by lia. rewrite app_nth1 by lia. f_equal.
Qed.

Lemma X_app : forall (xs : list (vec K)) x t i, (t < length xs)%nat -> X F (xs ++ [x]) t i = X F xs t i.
Proof. intros. unfold X. now rewrite app_nth1. Qed.
Lemma X_last : forall (xs : list (vec K)) x i, X F (xs ++ [x]) (length xs) i = comp x i.
Proof. intros. unfold X. rewrite app_nth2, Nat.sub_diag by lia. reflexivity. Qed.

(** the three sums *)
Definition TT (xs : list (vec K)) l i j := sumn (fun t => X F xs (t + l) i * X F xs t j) (length xs - l).
Definition BB (xs : list (vec K)) l i := sumn (fun t => X F xs (t + l) i) (length xs - l).
Definition EE (xs : list (vec K)) l j := sumn (fun t => X F xs t j) (length xs - l).

Lemma TT_snoc : forall xs x l i j, (l <= length xs)%nat ->
  TT (xs ++ [x]) l i j = TT xs l i j + comp x i * comp (nth (length xs - l) (xs ++ [x]) []) j.
Proof.
  intros xs x l i j Hl. unfold TT. rewrite app_length. cbn [length]. replace (length xs + 1 - l)%nat with (S (length xs - l)) by lia.
  rewrite sumn_S. f_equal.
  - apply sumn_ext. intros t Ht. rewrite !X_app by lia. reflexivity.
  - replace (length xs - l + l)%nat with (length xs) by lia. rewrite X_last. reflexivity.
Qed.
Lemma BB_snoc : forall xs x l i, (l <= length xs)%nat -> BB (xs ++ [x]) l i = BB xs l i + comp x i.
Proof.
  intros xs x l i Hl. unfold BB. rewrite app_length. cbn [length]. replace (length xs + 1 - l)%nat with (S (length xs - l)) by lia.
  rewrite sumn_S. f_equal.
  - apply sumn_ext. intros t Ht. rewrite !X_app by lia. reflexivity.
  - replace (length xs - l + l)%nat with (length xs) by lia. apply X_last.
Qed.
Lemma EE_snoc : forall xs x l j, (l <= length xs)%nat ->
  EE (xs ++ [x]) l j = EE xs l j + comp (nth (length xs - l) (xs ++ [x]) []) j.
Proof.
  intros xs x l j Hl. unfold EE. rewrite app_length. cbn [length]. replace (length xs + 1 - l)%nat with (S (length xs - l)) by lia.
  rewrite sumn_S. f_equal. apply sumn_ext. intros t Ht. rewrite !X_app by lia. reflexivity.
Qed.
(** The sums when there is one pair. *)
Lemma TT_one : forall xs l i j, length xs = (l + 1)%nat -> TT xs l i j = comp (nth l xs []) i * comp (nth 0 xs []) j.
Proof. intros xs l i j H. unfold TT. replace (length xs - l)%nat with 1%nat by lia. cbn. unfold X. ring. Qed.
Lemma BB_one : forall xs l i, length xs = (l + 1)%nat -> BB xs l i = comp (nth l xs []) i.
Proof. intros xs l i H. unfold BB. replace (length xs - l)%nat with 1%nat by lia. cbn. unfold X. ring. Qed.
Lemma EE_one : forall xs l j, length xs = (l + 1)%nat -> EE xs l j = comp (nth 0 xs []) j.
Proof. intros xs l j H. unfold EE. replace (length xs - l)%nat with 1%nat by lia. cbn. unfold X. ring. Qed.

(** The documented estimator in terms of the sums *)
Lemma autocov_expand : forall (xs : list (vec K)) l i j, (l + 2 <= length xs)%nat ->
  the_autocovariance F xs l i j * nk (len xs - N.of_nat l - 1) =
  TT xs l i j - the_mean F xs i * EE xs l j - BB xs l i * the_mean F xs j
    + nk (len xs - N.of_nat l) * (the_mean F xs i * the_mean F xs j).
Proof.
  intros xs l i j H. unfold the_autocovariance.
  assert (Hc : nk (len xs - N.of_nat l - 1) <> 0) by (apply char0; lia).
  set (mi := the_mean F xs i). set (mj := the_mean F xs j).
  transitivity (sumn (fun t => (X F xs (t + l) i - mi) * (X F xs t j - mj)) (length xs - l)); [field; exact Hc|].
  unfold StatsSpec.sumn.
  transitivity (suml (fun t => X F xs (t + l) i * X F xs t j + ((- mi) * X F xs t j + ((- mj) * X F xs (t + l) i + mi * mj)))
                     (seq 0 (length xs - l))).
  { apply suml_ext. intros t _. ring. }
  rewrite !suml_add, !suml_scale, suml_const, seq_length.
  unfold TT, EE, BB, StatsSpec.sumn. replace (N.of_nat (length xs - l)) with (len xs - N.of_nat l)%N by lia. ring.
Qed.

Lemma all_size_nth : forall d (xs : list (vec K)) k, all_size d xs -> (k < length xs)%nat -> length (nth k xs []) = d.
Proof. intros d xs k H Hk. unfold all_size in H. rewrite Forall_forall in H. apply H. apply nth_In. exact Hk. Qed.

(** ** AutoCovarianceMatrix *)
Definition acm_inv (G : nat -> matrix K) (d : nat) (xs : list (vec K)) (l : nat) (abe : matrix K * vec K * vec K) : Prop :=
  let '(alpha, beta, eta) := abe in
  length beta = d /\ length eta = d /\
  ((length xs <= l + 1)%nat -> (forall i j, alpha i j = G l i j) /\ (forall i, (i < d)%nat -> comp beta i = 0) /\
      forall i, (i < d)%nat -> comp eta i = 0) /\
  ((l + 2 <= length xs)%nat -> forall i j, (i < d)%nat -> (j < d)%nat ->
      alpha i j * nk (len xs - N.of_nat l - 1) = G l i j + TT xs l i j /\
      comp beta i * nk (len xs - N.of_nat l - 1) = BB xs l i /\
      comp eta j * nk (len xs - N.of_nat l - 1) = EE xs l j).

Lemma acm_lag_ok : forall G d M (xs : list (vec K)) x l abe, xs <> [] -> all_size d (xs ++ [x]) -> (l <= M)%nat ->
  acm_inv G d xs l abe ->
  exists abe', acm_lag F (len xs) (x :: firstn (M + 1) (rev xs)) x l abe = Ok abe' /\ acm_inv G d (xs ++ [x]) l abe'.
Proof.
  intros G d M xs x l [[alpha beta] eta] Hne Hs Hl (Hb & He & H1 & H2).
  assert (Hlx : length x = d). { apply Forall_app in Hs. destruct Hs as [_ Hs]. now inversion Hs. }
  assert (Hn' : length (xs ++ [x]) = (length xs + 1)%nat) by (rewrite app_length; reflexivity).
  assert (Hd : forall k, (k <= length xs)%nat -> length (nth k (xs ++ [x]) []) = d).
  { intros k Hk. apply all_size_nth; [exact Hs|lia]. }
  unfold acm_lag. destruct (N.eqb_spec (len xs) (N.of_nat l + 1)) as [E|E].
  - assert (En : length xs = (l + 1)%nat) by lia.
    rewrite !prev_nth by lia. rewrite Nat.sub_0_r.
    assert (nth (length xs) (xs ++ [x]) [] = x) as -> by (rewrite app_nth2, Nat.sub_diag by lia; reflexivity).
    replace (length xs - 1)%nat with l by lia. replace (length xs - (l + 1))%nat with 0%nat by lia.
    eexists. split; [reflexivity|]. destruct (H1 ltac:(lia)) as (Ha & Hb0 & He0).
    assert (Dl : length (nth l (xs ++ [x]) []) = d) by (apply Hd; lia).
    assert (D0 : length (nth 0 (xs ++ [x]) []) = d) by (apply Hd; lia).
    assert (D1 : length (nth (length xs - l) (xs ++ [x]) []) = d) by (apply Hd; lia).
    assert (De : length (vop (kadd F) eta (nth (length xs - l) (xs ++ [x]) [])) = d) by (rewrite vop_length; congruence).
    split; [rewrite vop_length; congruence|]. split; [rewrite vop_length; congruence|].
    split; [intros; exfalso; lia|]. intros _ i j Hi Hj.
    assert (Hk : nk (len (xs ++ [x]) - N.of_nat l - 1) = 1) by (rewrite Hn'; replace (_ - _ - 1)%N with 1%N by lia; apply nk_1).
    rewrite Hk, TT_snoc, BB_snoc, EE_snoc by lia. rewrite (TT_one xs l i j En), (BB_one xs l i En), (EE_one xs l j En).
    rewrite !comp_vop by (rewrite ?De; lia). rewrite Ha, He0 by lia.
    rewrite (app_nth1 _ _ _ (n := l)) by lia. rewrite (app_nth1 _ _ _ (n := 0%nat)) by lia.
    repeat split; ring.
  - destruct (N.leb_spec (N.of_nat l + 2) (len xs)) as [E2|E2].
    + rewrite prev_nth by lia. eexists. split; [reflexivity|].
      set (pl := nth (length xs - l) (xs ++ [x]) []).
      assert (Dp : length pl = d) by (apply Hd; lia).
      assert (Dv : length (vop (ksub F) x beta) = d) by (rewrite vop_length; congruence).
      assert (Dw : length (vop (ksub F) pl eta) = d) by (rewrite vop_length; congruence).
      set (factor := 1 / nk (len xs - N.of_nat l)).
      split; [rewrite vop_length; [exact Hb|rewrite map_length; congruence]|].
      split; [rewrite vop_length; [exact He|rewrite map_length; congruence]|].
      split; [intros; exfalso; lia|]. intros _ i j Hi Hj.
      destruct (H2 ltac:(lia) i j Hi Hj) as (HA & HB & HE).
      rewrite TT_snoc, BB_snoc, EE_snoc by lia. fold pl. rewrite <- HB, <- HE.
      replace (G l i j + (TT xs l i j + comp x i * comp pl j)) with (alpha i j * nk (len xs - N.of_nat l - 1) + comp x i * comp pl j)
        by (rewrite HA; ring).
      rewrite !comp_vop by (rewrite ?map_length, ?Dv, ?Dw; lia). rewrite !comp_map by lia. rewrite !comp_vop by lia.
      replace (len (xs ++ [x]) - N.of_nat l - 1)%N with (len xs - N.of_nat l)%N by (rewrite Hn'; lia).
      assert (Hk : nk (len xs - N.of_nat l) = nk (len xs - N.of_nat l - 1) + 1) by (rewrite <- NS; f_equal; lia).
      assert (Hc : nk (len xs - N.of_nat l) <> 0) by (apply char0; lia).
      unfold factor. rewrite Hk in *. repeat split; field; exact Hc.
    + exists (alpha, beta, eta). split; [reflexivity|]. destruct (H1 ltac:(lia)) as (Ha & Hb0 & He0).
      repeat split; auto; intros; exfalso; lia.
Qed.

Lemma nth_error_map_seq : forall A (f : nat -> A) n k a, nth_error (map f (seq 0 n)) k = Some a -> (k < n)%nat /\ a = f k.
Proof.
  intros A f n k a H. assert (Hk : (k < n)%nat).
  { assert (k < length (map f (seq 0 n)))%nat by (apply nth_error_Some; congruence). now rewrite map_length, seq_length in H0. }
  split; [exact Hk|]. rewrite nth_error_map in H. rewrite (nth_error_nth' _ 0%nat) in H by now rewrite seq_length.
  rewrite seq_nth in H by exact Hk. cbn in H. congruence.
Qed.
Lemma comp_zeros : forall (x : vec K) i, comp (map (fun _ => 0) x) i = 0.
Proof. intros x. induction x as [|y x IH]; intros [|i]; cbn; auto. apply IH. Qed.

Lemma acm_run : forall G M (xs : list (vec K)) d, xs <> [] -> all_size d xs -> (len xs < two64)%N ->
  exists m lags, run_consumer (acm_consume F G M) acm_init xs =
      Ok {| lg_mean := Some m; lg_lags := lags; lg_prev := firstn (M + 1) (rev xs); lg_n := len xs |} /\
    length m = d /\ (forall i, (i < d)%nat -> comp m i = the_mean F xs i) /\
    length lags = (M + 1)%nat /\ forall l a, nth_error lags l = Some a -> acm_inv G d xs l a.
Proof.
  intros G M xs d. induction xs as [|x xs IH] using rev_ind; [congruence|]. intros _ Hs Hn.
  pose proof Hs as Hs'. apply Forall_app in Hs. destruct Hs as [Hs Hx]. inversion Hx as [|? ? Hx1 _]; subst. rewrite run_snoc.
  rewrite app_length in Hn. cbn [length] in Hn.
  destruct xs as [|y ys].
  - cbn [run_consumer bind]. unfold acm_consume, acm_init. cbn [lg_n lg_prev]. rewrite N.eqb_refl.
    eexists. eexists. split; [cbn [app rev length]; rewrite firstn_all2 by (cbn; lia); reflexivity|].
    split; [reflexivity|]. split.
    { intros i Hi. unfold the_mean. cbn. change (BinNums.Npos BinNums.xH) with 1%N. rewrite nk_1. field. apply one_neq. }
    split; [now rewrite map_length, seq_length|].
    intros l a Ha. apply nth_error_map_seq in Ha. destruct Ha as [Hl ->]. unfold acm_inv. rewrite !map_length.
    repeat split; auto; try (intros; apply comp_zeros); cbn [length app] in *; lia.
  - destruct IH as (m & lags & Hr & Hl & Hm & Hll & HI); [congruence|exact Hs|lia|]. rewrite Hr. unfold bind at 1, acm_consume.
    cbn [lg_n lg_mean lg_prev lg_lags].
    destruct (N.eqb_spec (len (y :: ys)) 0%N) as [E|_]; [cbn in E; lia|].
    rewrite same_size_true by congruence. rewrite wrap_small by lia.
    set (xs := y :: ys) in *. assert (Hne : xs <> []) by (unfold xs; congruence).
    destruct (lag_loop_ok _ (acm_lag F (len xs) (x :: firstn (M + 1) (rev xs)) x) (acm_inv G (length x) (xs ++ [x])) lags 0%nat)
      as (r & Hr' & Hlr & HQ).
    { intros k a Ha. apply acm_lag_ok; auto. assert (k < length lags)%nat by (apply nth_error_Some; congruence). lia. }
    rewrite Hr'. cbn [bind]. rewrite trim_spec.
    destruct (mean_step xs x (length x) m Hne eq_refl Hl Hm) as [L C].
    replace (len xs + 1)%N with (len (xs ++ [x])) by (rewrite app_length; cbn; lia).
    eexists. eexists. split; [reflexivity|]. split; [exact L|]. split; [exact C|]. split; [lia|]. exact HQ.
Qed.

Lemma acm_correct : forall G M (xs : list (vec K)) d, xs <> [] -> all_size d xs -> (len xs < two64)%N ->
  exists s, run_consumer (acm_consume F G M) acm_init xs = Ok s /\
    forall l i j, (l <= M)%nat -> (i < d)%nat -> (j < d)%nat ->
      acm_get F s l i j = Ok (if (length xs <=? l + 1)%nat then G l i j
                              else the_autocovariance F xs l i j + G l i j / nk (len xs - N.of_nat l - 1)).
Proof.
  intros G M xs d H1 H2 H3. destruct (acm_run G M xs d H1 H2 H3) as (m & lags & Hr & Hl & Hm & Hll & HI).
  eexists. split; [exact Hr|]. intros l i j Hlm Hi Hj. unfold acm_get. cbn [lg_lags lg_mean lg_n].
  destruct (nth_error lags l) as [[[alpha beta] eta]|] eqn:E; [|apply nth_error_None in E; lia].
  destruct (HI _ _ E) as (Hb & He & Ha1 & Ha2). f_equal. rewrite (Hm i Hi), (Hm j Hj).
  destruct (Nat.leb_spec (length xs) (l + 1)) as [Hc|Hc].
  - destruct (Ha1 Hc) as (HA & HB & HE). rewrite HA, HB, HE by auto.
    destruct (N.ltb_spec (N.of_nat l + 1) (len xs)) as [Hx|Hx]; [lia|]. ring.
  - destruct (N.ltb_spec (N.of_nat l + 1) (len xs)) as [Hx|Hx]; [|lia].
    destruct (Ha2 ltac:(lia) i j Hi Hj) as (HA & HB & HE).
    pose proof (autocov_expand xs l i j ltac:(lia)) as HX.
    assert (Hk : nk (len xs - N.of_nat l) = nk (len xs - N.of_nat l - 1) + 1) by (rewrite <- NS; f_equal; lia).
    assert (Hk0 : nk (len xs - N.of_nat l - 1) <> 0) by (apply char0; lia).
    apply (mul_reg (nk (len xs - N.of_nat l - 1))); [exact Hk0|].
    set (c := nk (len xs - N.of_nat l - 1)) in *. set (mi := the_mean F xs i) in *. set (mj := the_mean F xs j) in *.
    transitivity (alpha i j * c - mi * (comp eta j * c) - (comp beta i * c) * mj + (c + 1) * (mi * mj)); [field; exact Hk0|].
    rewrite HA, HB, HE.
    transitivity (the_autocovariance F xs l i j * c + G l i j); [rewrite HX, Hk; ring|field; exact Hk0].
Qed.

(** ** AutoCovarianceTrace *)
Lemma fold_suml : forall A (f : K -> A -> K) (g : A -> K), (forall s a, f s a = s + g a) ->
  forall l s, fold_left f l s = s + suml g l.
Proof. intros A f g H l. induction l as [|a l IH]; intros s; cbn; [ring|]. rewrite IH, H. ring. Qed.
Lemma suml_combine : forall (f : K -> K -> K) d (a b : vec K), length a = d -> length b = d ->
  suml (fun p => f (fst p) (snd p)) (combine a b) = sumn (fun i => f (comp a i) (comp b i)) d.
Proof.
  intros f d. induction d as [|d IH]; intros a b Ha Hb; destruct a as [|x a], b as [|y b]; cbn in *; try lia; [reflexivity|].
  unfold StatsSpec.sumn in *. cbn. f_equal. rewrite IH by lia. rewrite <- seq_shift.
  generalize (seq 0 d). induction l as [|z l IHl]; cbn; [reflexivity|]. now rewrite IHl.
Qed.
Lemma suml_comp : forall (f : K -> K) d (a : vec K), length a = d -> suml f a = sumn (fun i => f (comp a i)) d.
Proof.
  intros f d. induction d as [|d IH]; intros a Ha; destruct a as [|x a]; cbn in *; try lia; [reflexivity|].
  unfold StatsSpec.sumn in *. cbn. f_equal. rewrite IH by lia. rewrite <- seq_shift.
  generalize (seq 0 d). induction l as [|z l IHl]; cbn; [reflexivity|]. now rewrite IHl.
Qed.
Lemma dot_add_spec : forall d acc (a b : vec K), length a = d -> length b = d ->
  dot_add F acc a b = acc + sumn (fun i => comp a i * comp b i) d.
Proof.
  intros d acc a b Ha Hb. unfold dot_add. rewrite (fold_suml _ _ (fun p => fst p * snd p)) by reflexivity.
  f_equal. apply (suml_combine (fun u v => u * v)); assumption.
Qed.
Lemma sumn_add : forall f g n, sumn (fun t => f t + g t) n = sumn f n + sumn g n.
Proof. intros. apply suml_add. Qed.
Lemma sumn_scale : forall f c n, sumn (fun t => c * f t) n = c * sumn f n.
Proof. intros. apply suml_scale. Qed.
Lemma sumn_sub : forall f g n, sumn (fun t => f t - g t) n = sumn f n - sumn g n.
Proof. intros. apply suml_sub. Qed.
Lemma sumn_zero : forall n, sumn (fun _ => 0) n = 0.
Proof. intros. apply suml_zero. Qed.

Definition act_inv (d : nat) (xs : list (vec K)) (l : nat) (ab : K * vec K) : Prop :=
  let '(alpha, beta) := ab in
  length beta = d /\
  ((length xs <= l + 1)%nat -> alpha = 0 /\ (forall i, (i < d)%nat -> comp beta i = 0)) /\
  ((l + 2 <= length xs)%nat ->
      alpha * nk (len xs - N.of_nat l - 1) = sumn (fun i => TT xs l i i) d /\
      forall i, (i < d)%nat -> comp beta i * nk (len xs - N.of_nat l - 1) = BB xs l i + EE xs l i).

Lemma act_lag_ok : forall d M (xs : list (vec K)) x l ab, xs <> [] -> all_size d (xs ++ [x]) -> (l <= M)%nat ->
  act_inv d xs l ab ->
  exists ab', act_lag F (len xs) (x :: firstn (M + 1) (rev xs)) x l ab = Ok ab' /\ act_inv d (xs ++ [x]) l ab'.
Proof.
  intros d M xs x l [alpha beta] Hne Hs Hl (Hb & H1 & H2).
  assert (Hlx : length x = d). { apply Forall_app in Hs. destruct Hs as [_ Hs]. now inversion Hs. }
  assert (Hn' : length (xs ++ [x]) = (length xs + 1)%nat) by (rewrite app_length; reflexivity).
  assert (Hd : forall k, (k <= length xs)%nat -> length (nth k (xs ++ [x]) []) = d).
  { intros k Hk. apply all_size_nth; [exact Hs|lia]. }
  unfold act_lag. destruct (N.eqb_spec (len xs) (N.of_nat l + 1)) as [E|E].
  - assert (En : length xs = (l + 1)%nat) by lia.
    rewrite !prev_nth by lia. rewrite Nat.sub_0_r.
    assert (nth (length xs) (xs ++ [x]) [] = x) as -> by (rewrite app_nth2, Nat.sub_diag by lia; reflexivity).
    replace (length xs - 1)%nat with l by lia. replace (length xs - (l + 1))%nat with 0%nat by lia.
    eexists. split; [reflexivity|]. destruct (H1 ltac:(lia)) as (Ha & Hb0).
    assert (Dl : length (nth l (xs ++ [x]) []) = d) by (apply Hd; lia).
    assert (D0 : length (nth 0 (xs ++ [x]) []) = d) by (apply Hd; lia).
    assert (D1 : length (nth (length xs - l) (xs ++ [x]) []) = d) by (apply Hd; lia).
    assert (De : length (vop (kadd F) x (nth l (xs ++ [x]) [])) = d) by (rewrite vop_length; congruence).
    assert (De2 : length (vop (kadd F) (vop (kadd F) x (nth l (xs ++ [x]) [])) (nth (length xs - l) (xs ++ [x]) [])) = d)
      by (rewrite vop_length; congruence).
    split; [rewrite vop_length; congruence|].
    split; [intros; exfalso; lia|]. intros _.
    assert (Hk : nk (len (xs ++ [x]) - N.of_nat l - 1) = 1) by (rewrite Hn'; replace (_ - _ - 1)%N with 1%N by lia; apply nk_1).
    rewrite Hk. split.
    + rewrite !(dot_add_spec d) by assumption.
      transitivity (sumn (fun i => comp x i * comp (nth (length xs - l) (xs ++ [x]) []) i) d +
                    sumn (fun i => comp (nth l (xs ++ [x]) []) i * comp (nth 0 (xs ++ [x]) []) i) d); [ring|].
      rewrite <- sumn_add. apply sumn_ext. intros i Hi. rewrite TT_snoc by lia. rewrite (TT_one xs l i i En).
      rewrite (app_nth1 _ _ _ (n := l)) by lia. rewrite (app_nth1 _ _ _ (n := 0%nat)) by lia. ring.
    + intros i Hi. rewrite BB_snoc, EE_snoc by lia. rewrite (BB_one xs l i En), (EE_one xs l i En).
      rewrite !comp_vop by (rewrite ?De, ?De2; lia).
      rewrite (app_nth1 _ _ _ (n := l)) by lia. rewrite (app_nth1 _ _ _ (n := 0%nat)) by lia. ring.
  - destruct (N.leb_spec (N.of_nat l + 2) (len xs)) as [E2|E2].
    + rewrite prev_nth by lia. eexists. split; [reflexivity|].
      set (pl := nth (length xs - l) (xs ++ [x]) []).
      assert (Dp : length pl = d) by (apply Hd; lia).
      assert (Dv : length (vop (kadd F) x pl) = d) by (rewrite vop_length; congruence).
      assert (Dw : length (vop (ksub F) (vop (kadd F) x pl) beta) = d) by (rewrite vop_length; congruence).
      set (factor := 1 / nk (len xs - N.of_nat l)).
      split; [rewrite vop_length; [exact Hb|rewrite map_length; congruence]|].
      split; [intros; exfalso; lia|]. intros _.
      destruct (H2 ltac:(lia)) as (HA & HB).
      replace (len (xs ++ [x]) - N.of_nat l - 1)%N with (len xs - N.of_nat l)%N by (rewrite Hn'; lia).
      assert (Hk : nk (len xs - N.of_nat l) = nk (len xs - N.of_nat l - 1) + 1) by (rewrite <- NS; f_equal; lia).
      assert (Hc : nk (len xs - N.of_nat l) <> 0) by (apply char0; lia).
      split.
      * rewrite (dot_add_spec d) by assumption.
        transitivity (alpha * nk (len xs - N.of_nat l - 1) + sumn (fun i => comp x i * comp pl i) d);
          [unfold factor; rewrite Hk in *; field; exact Hc|].
        rewrite HA, <- sumn_add. apply sumn_ext. intros i Hi. rewrite TT_snoc by lia. reflexivity.
      * intros i Hi. rewrite BB_snoc, EE_snoc by lia. fold pl.
        replace (BB xs l i + comp x i + (EE xs l i + comp pl i)) with (comp beta i * nk (len xs - N.of_nat l - 1) + comp x i + comp pl i)
          by (rewrite (HB i Hi); ring).
        rewrite comp_vop by (rewrite ?map_length; lia). rewrite comp_map by lia. rewrite !comp_vop by lia.
        unfold factor. rewrite Hk in *. field; exact Hc.
    + exists (alpha, beta). split; [reflexivity|]. destruct (H1 ltac:(lia)) as (Ha & Hb0).
      repeat split; auto; intros; exfalso; lia.
Qed.

Lemma nth_error_repeat' : forall A (a : A) n k b, nth_error (repeat a n) k = Some b -> (k < n)%nat /\ b = a.
Proof.
  intros A a n k b H. assert (k < length (repeat a n))%nat by (apply nth_error_Some; congruence).
  rewrite repeat_length in H0. split; [assumption|]. apply nth_error_In in H. now apply repeat_spec in H.
Qed.

Lemma act_run : forall M (xs : list (vec K)) d, xs <> [] -> all_size d xs -> (len xs < two64)%N ->
  exists m lags, run_consumer (act_consume F M) act_init xs =
      Ok {| lg_mean := Some m; lg_lags := lags; lg_prev := firstn (M + 1) (rev xs); lg_n := len xs |} /\
    length m = d /\ (forall i, (i < d)%nat -> comp m i = the_mean F xs i) /\
    length lags = (M + 1)%nat /\ forall l a, nth_error lags l = Some a -> act_inv d xs l a.
Proof.
  intros M xs d. induction xs as [|x xs IH] using rev_ind; [congruence|]. intros _ Hs Hn.
  pose proof Hs as Hs'. apply Forall_app in Hs. destruct Hs as [Hs Hx]. inversion Hx as [|? ? Hx1 _]; subst. rewrite run_snoc.
  rewrite app_length in Hn. cbn [length] in Hn.
  destruct xs as [|y ys].
  - cbn [run_consumer bind]. unfold act_consume, act_init. cbn [lg_n lg_prev]. rewrite N.eqb_refl.
    eexists. eexists. split; [cbn [app rev length]; rewrite firstn_all2 by (cbn; lia); reflexivity|].
    split; [reflexivity|]. split.
    { intros i Hi. unfold the_mean. cbn. change (BinNums.Npos BinNums.xH) with 1%N. rewrite nk_1. field. apply one_neq. }
    split; [now rewrite repeat_length|].
    intros l a Ha. apply nth_error_repeat' in Ha. destruct Ha as [Hl ->]. unfold act_inv. rewrite !map_length.
    repeat split; auto; try (intros; apply comp_zeros); cbn [length app] in *; lia.
  - destruct IH as (m & lags & Hr & Hl & Hm & Hll & HI); [congruence|exact Hs|lia|]. rewrite Hr. unfold bind at 1, act_consume.
    cbn [lg_n lg_mean lg_prev lg_lags].
    destruct (N.eqb_spec (len (y :: ys)) 0%N) as [E|_]; [cbn in E; lia|].
    rewrite same_size_true by congruence. rewrite wrap_small by lia.
    set (xs := y :: ys) in *. assert (Hne : xs <> []) by (unfold xs; congruence).
    destruct (lag_loop_ok _ (act_lag F (len xs) (x :: firstn (M + 1) (rev xs)) x) (act_inv (length x) (xs ++ [x])) lags 0%nat)
      as (r & Hr' & Hlr & HQ).
    { intros k a Ha. apply act_lag_ok; auto. assert (k < length lags)%nat by (apply nth_error_Some; congruence). lia. }
    rewrite Hr'. cbn [bind]. rewrite trim_spec.
    destruct (mean_step xs x (length x) m Hne eq_refl Hl Hm) as [L C].
    replace (len xs + 1)%N with (len (xs ++ [x])) by (rewrite app_length; cbn; lia).
    eexists. eexists. split; [reflexivity|]. split; [exact L|]. split; [exact C|]. split; [lia|]. exact HQ.
Qed.

Lemma act_correct : forall M (xs : list (vec K)) d, xs <> [] -> all_size d xs -> (len xs < two64)%N ->
  exists s, run_consumer (act_consume F M) act_init xs = Ok s /\
    forall l, (l <= M)%nat ->
      act_get F s l = Ok (if (length xs <=? l + 1)%nat then 0 else the_autocovariance_trace F d xs l).
Proof.
  intros M xs d H1 H2 H3. destruct (act_run M xs d H1 H2 H3) as (m & lags & Hr & Hl & Hm & Hll & HI).
  eexists. split; [exact Hr|]. intros l Hlm. unfold act_get. cbn [lg_lags lg_mean lg_n].
  destruct (nth_error lags l) as [[alpha beta]|] eqn:E; [|apply nth_error_None in E; lia].
  destruct (HI _ _ E) as (Hb & Ha1 & Ha2). f_equal.
  rewrite (fold_suml _ _ (fun p => - (fst p * snd p))) by (intros; ring).
  rewrite (suml_combine (fun u v => - (u * v)) d) by assumption.
  destruct (Nat.leb_spec (length xs) (l + 1)) as [Hc|Hc].
  - destruct (Ha1 Hc) as (HA & HB). destruct (N.ltb_spec (N.of_nat l + 1) (len xs)) as [Hx|Hx]; [lia|].
    rewrite (sumn_ext _ (fun _ => 0)) by (intros t Ht; rewrite HB by exact Ht; ring). rewrite sumn_zero, HA. ring.
  - destruct (N.ltb_spec (N.of_nat l + 1) (len xs)) as [Hx|Hx]; [|lia].
    destruct (Ha2 ltac:(lia)) as (HA & HB).
    assert (Hk : nk (len xs - N.of_nat l) = nk (len xs - N.of_nat l - 1) + 1) by (rewrite <- NS; f_equal; lia).
    assert (Hk0 : nk (len xs - N.of_nat l - 1) <> 0) by (apply char0; lia).
    apply (mul_reg (nk (len xs - N.of_nat l - 1))); [exact Hk0|].
    set (c := nk (len xs - N.of_nat l - 1)) in *.
    rewrite (fold_suml _ _ (fun v => (1 + 1 / c) * v * v)) by reflexivity.
    rewrite (suml_comp (fun v => (1 + 1 / c) * v * v) d m Hl).
    unfold the_autocovariance_trace.
    transitivity (alpha * c + (c * sumn (fun i => - (comp m i * comp beta i)) d + c * sumn (fun i => (1 + 1 / c) * comp m i * comp m i) d)); [ring|].
    rewrite HA, <- !sumn_scale, <- !sumn_add. apply sumn_ext. intros i Hi. rewrite (Hm i Hi).
    transitivity (the_autocovariance F xs l i i * c); [|ring].
    unfold c at 4. rewrite (autocov_expand xs l i i ltac:(lia)). fold c in Hk. rewrite Hk.
    transitivity (TT xs l i i + (- the_mean F xs i * (comp beta i * c) + (c + 1) * (the_mean F xs i * the_mean F xs i))); [field; exact Hk0|].
    rewrite (HB i Hi). ring.
Qed.
End P.
