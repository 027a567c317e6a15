(** Proofs about AverageCosineBetweenSuccessiveSamples. *)
From Coq Require Import Reals Lra Lia.
From Verif Require Import Prelude ConsumerModel StatsCosModel StatsCosSpec.
Local Open Scope R_scope.
Local Notation len xs := (N.of_nat (length xs)).

Lemma run_snoc' : forall St A (c : St -> A -> outcome St) xs s x,
  run_consumer c s (xs ++ [x]) = (do s' <- run_consumer c s xs; c s' x).
Proof.
  intros St A c xs. induction xs as [|y xs IH]; intros s x; cbn.
  - destruct (c s x); reflexivity.
  - destruct (c s y); cbn; auto.
Qed.
Lemma dot_inner_acc : forall a b s, fold_left (fun s p => s + fst p * snd p) (combine a b) s = s + inner a b.
Proof. induction a as [|x a IH]; intros [|y b] s; cbn; try ring. rewrite IH. ring. Qed.
Lemma dot_inner : forall a b, dot a b = inner a b.
Proof. intros. unfold dot. rewrite dot_inner_acc. ring. Qed.
Lemma inner_nonneg : forall a, 0 <= inner a a.
Proof. induction a as [|x a IH]; cbn; [lra|]. pose proof (Rle_0_sqr x). unfold Rsqr in *. lra. Qed.
Lemma inner_pos : forall a, nonzero a -> 0 < inner a a.
Proof.
  intros a H. induction H as [x a H|x a H IH]; cbn.
  - pose proof (inner_nonneg a). pose proof (Rsqr_pos_lt x H). unfold Rsqr in *. lra.
  - pose proof (Rle_0_sqr x). unfold Rsqr in *. lra.
Qed.
Lemma cos_code : forall a b, dot a b / sqrt (dot a a * dot b b) = cos_angle a b.
Proof. intros. rewrite !dot_inner. unfold cos_angle, norm. now rewrite sqrt_mult by apply inner_nonneg. Qed.

(** Cauchy-Schwarz *)
Lemma inner_quad : forall a b t, length a = length b -> 0 <= inner a a + 2 * t * inner a b + t * t * inner b b.
Proof.
  induction a as [|x a IH]; intros [|y b] t H; cbn in *; try lia; [lra|].
  specialize (IH b t ltac:(lia)). pose proof (Rle_0_sqr (x + t * y)) as Hs. unfold Rsqr in Hs. nra.
Qed.
Lemma cauchy : forall a b, length a = length b -> nonzero b -> Rsqr (inner a b) <= inner a a * inner b b.
Proof.
  intros a b Hl Hb. pose proof (inner_pos b Hb) as Hp. pose proof (inner_quad a b (- (inner a b / inner b b)) Hl) as H.
  set (A := inner a a) in *. set (B := inner b b) in *. set (c := inner a b) in *.
  assert (E : A + 2 * - (c / B) * c + - (c / B) * - (c / B) * B = A - c * c / B) by (field; lra). rewrite E in H.
  assert (c * c / B <= A) by lra. unfold Rsqr. apply (Rmult_le_compat_r B) in H0; [|lra]. unfold Rdiv in H0.
  rewrite Rmult_assoc, Rinv_l, Rmult_1_r in H0 by lra. exact H0.
Qed.
Lemma cos_bound : forall a b, length a = length b -> nonzero a -> nonzero b -> -1 <= cos_angle a b <= 1.
Proof.
  intros a b Hl Ha Hb. unfold cos_angle, norm. rewrite <- sqrt_mult by apply inner_nonneg.
  pose proof (inner_pos a Ha) as Pa. pose proof (inner_pos b Hb) as Pb.
  assert (0 < sqrt (inner a a * inner b b)) by (apply sqrt_lt_R0; apply Rmult_lt_0_compat; lra).
  pose proof (cauchy a b Hl Hb) as C. apply sqrt_le_1_alt in C. rewrite sqrt_Rsqr_abs in C.
  set (s := sqrt (inner a a * inner b b)) in *. pose proof (Rle_abs (inner a b)). pose proof (Rle_abs (- inner a b)). rewrite Rabs_Ropp in *.
  split.
  - apply (Rmult_le_reg_r s); [assumption|]. unfold Rdiv. rewrite Rmult_assoc, Rinv_l by lra. lra.
  - apply (Rmult_le_reg_r s); [assumption|]. unfold Rdiv. rewrite Rmult_assoc, Rinv_l by lra. lra.
Qed.

Lemma rsum_app : forall l l', rsum (l ++ l') = rsum l + rsum l'.
Proof. induction l as [|x l IH]; intros; cbn; [ring|]. rewrite IH. ring. Qed.
Lemma cosines_snoc : forall xs x k, (1 <= k)%nat -> (k <= length xs)%nat ->
  cosines (xs ++ [x]) k = cosines xs k ++ [cos_angle x (nth (length xs - k) xs [])].
Proof.
  intros xs x k Hk Hn. unfold cosines. rewrite app_length. cbn [length]. replace (length xs + 1 - k)%nat with (S (length xs - k)) by lia.
  rewrite seq_S, map_app. cbn [map]. f_equal.
  - apply map_ext_in. intros t Ht. apply in_seq in Ht. now rewrite !app_nth1 by lia.
  - f_equal. replace (0 + (length xs - k) + k)%nat with (length xs) by lia. cbn [Nat.add].
    rewrite (app_nth1 _ _ _ (n := (length xs - k)%nat)) by lia. rewrite app_nth2, Nat.sub_diag by lia. reflexivity.
Qed.
Lemma cosines_length : forall xs k, length (cosines xs k) = (length xs - k)%nat.
Proof. intros. unfold cosines. now rewrite map_length, seq_length. Qed.
Lemma cosines_empty : forall xs k, (length xs <= k)%nat -> cosines xs k = [].
Proof. intros xs k H. unfold cosines. now replace (length xs - k)%nat with 0%nat by lia. Qed.

(** What get()[i] should be. *)
Definition want (xs : list (list R)) (i : nat) : R := if (length xs <=? i + 1)%nat then 0 else average (cosines xs (i + 1)).

Lemma nth_cos_loop : forall sample prev n l1 avg i, (i < length avg)%nat ->
  nth i (cos_loop sample prev n l1 avg) 0 =
  if (N.of_nat i <? l1)%N then cos_update sample (prev i) n i (nth i avg 0) else nth i avg 0.
Proof.
  intros sample prev n l1 avg i Hi. unfold cos_loop.
  set (f := fun ia : nat * R => if (N.of_nat (fst ia) <? l1)%N then cos_update sample (prev (fst ia)) n (fst ia) (snd ia) else snd ia).
  assert (L : length (combine (seq 0 (length avg)) avg) = length avg) by (rewrite combine_length, seq_length; lia).
  rewrite (nth_indep _ 0 (f (0%nat, 0))) by (rewrite map_length, L; exact Hi).
  rewrite map_nth, combine_nth by (now rewrite seq_length). rewrite seq_nth by exact Hi. reflexivity.
Qed.

Lemma cos_run : forall (H : N) g1 g2 xs d, xs <> [] -> Forall (fun x => length x = d) xs -> (0 < H < two32)%N -> (len xs < two32)%N ->
  exists s, run_consumer (cos_consume H) (cos_init g1 g2) xs = Ok s /\ cs_n s = len xs /\ cs_dim s = d /\
    length (cs_avg s) = N.to_nat H /\
    (forall i, (i < length xs)%nat -> (i < N.to_nat H)%nat -> cs_prev s i = nth (length xs - 1 - i) xs []) /\
    (forall i, (i < N.to_nat H)%nat -> nth i (cs_avg s) 0 = want xs i).
Proof.
  intros H g1 g2 xs d. induction xs as [|x xs IH] using rev_ind; [congruence|]. intros _ Hs HH Hn.
  apply Forall_app in Hs. destruct Hs as [Hs Hx]. inversion Hx as [|? ? Hx1 _]; subst. rewrite run_snoc'.
  rewrite app_length in Hn. cbn [length] in Hn.
  destruct xs as [|y ys].
  - cbn [run_consumer bind app]. unfold cos_consume, cos_init. cbn [cs_n]. rewrite N.eqb_refl.
    destruct (N.eqb_spec H 0) as [E|_]; [lia|]. cbn [andb]. eexists. split; [reflexivity|]. cbn [cs_n cs_dim cs_avg cs_prev].
    rewrite repeat_length. repeat split.
    + intros i Hi _. cbn in Hi. assert (i = 0)%nat as -> by lia. reflexivity.
    + intros i Hi. unfold want. cbn [length]. destruct (Nat.leb_spec 1 (i + 1)) as [_|E]; [|lia].
      apply (@repeat_spec R (N.to_nat H) 0). apply nth_In. now rewrite repeat_length.
  - destruct IH as (s & Hr & Hcn & Hd & Hl & Hp & Ha); [congruence|exact Hs|exact HH|lia|]. rewrite Hr. cbn [bind].
    set (xs := y :: ys) in *. assert (Hlen : (1 <= length xs)%nat) by (unfold xs; cbn; lia).
    unfold cos_consume. rewrite Hcn, Hd. destruct (N.eqb_spec (len xs) 0) as [E|_]; [lia|].
    rewrite Nat.eqb_refl. cbn [negb].
    assert (W1 : wrap32 (len xs) = len xs) by (apply N.mod_small; lia).
    assert (W2 : wrap32 (H + two32 - 1) = (H - 1)%N).
    { unfold wrap32. replace (H + two32 - 1)%N with ((H - 1) + 1 * two32)%N by lia. rewrite N.mod_add by discriminate. apply N.mod_small. lia. }
    assert (W3 : wrap64 (len xs + 1) = (len xs + 1)%N) by (apply N.mod_small; assert (two32 < two64)%N by reflexivity; lia).
    rewrite W1, W2, W3. eexists. split; [reflexivity|]. cbn [cs_n cs_dim cs_avg cs_prev].
    assert (Hn' : length (xs ++ [x]) = (length xs + 1)%nat) by (rewrite app_length; reflexivity).
    rewrite Hn'. split; [lia|]. split; [reflexivity|]. split; [|split].
    + unfold cos_loop. rewrite map_length, combine_length, seq_length. lia.
    + intros i Hi HiH. destruct (Nat.eqb_spec i 0) as [->|Hi0].
      * rewrite app_nth2 by lia. now replace (length xs + 1 - 1 - 0 - length xs)%nat with 0%nat by lia.
      * destruct (N.ltb_spec (N.of_nat (i - 1)) (N.min (len xs) (H - 1))) as [_|Hc]; [|lia].
        rewrite Hp by lia. rewrite app_nth1 by lia. f_equal. lia.
    + intros i HiH. rewrite nth_cos_loop by lia. rewrite Ha by lia.
      destruct (N.ltb_spec (N.of_nat i) (N.min (len xs) H)) as [Hc|Hc].
      * unfold cos_update. rewrite cos_code. rewrite Hp by lia.
        replace (N.to_nat (len xs + 1 - N.of_nat i - 1)) with (length xs - i)%nat by lia.
        unfold want. rewrite Hn'. destruct (Nat.leb_spec (length xs + 1) (i + 1)) as [Q|_]; [lia|].
        unfold average. rewrite (cosines_snoc xs x (i + 1)) by lia. rewrite app_length, cosines_length, rsum_app. cbn [rsum length].
        replace (length xs - (i + 1) + 1)%nat with (length xs - i)%nat by lia.
        replace (length xs - (i + 1))%nat with (length xs - 1 - i)%nat by lia.
        set (c := cos_angle x (nth (length xs - 1 - i) xs [])).
        assert (Hpos : INR (length xs - i) <> 0) by (apply not_0_INR; lia).
        destruct (Nat.leb_spec (length xs) (i + 1)) as [Q|Q].
        -- rewrite (cosines_empty xs (i + 1)) by lia. cbn [rsum]. field. exact Hpos.
        -- replace (length xs - 1 - i)%nat with (length xs - i - 1)%nat by lia.
           rewrite minus_INR by lia. cbn [INR].
           assert (1 < INR (length xs - i)) by (apply (lt_INR 1); lia). field. lra.
      * unfold want. rewrite Hn'. destruct (Nat.leb_spec (length xs) (i + 1)) as [_|Q]; [|lia].
        destruct (Nat.leb_spec (length xs + 1) (i + 1)) as [_|Q]; [reflexivity|lia].
Qed.

Lemma avg_bound : forall l, l <> [] -> Forall (fun c => -1 <= c <= 1) l -> -1 <= average l <= 1.
Proof.
  intros l Hne H. assert (Hb : - INR (length l) <= rsum l <= INR (length l)).
  { clear Hne. induction H as [|c l Hc H IH]; cbn [length rsum]; [cbn; lra|]. rewrite S_INR. lra. }
  assert (Hp : 0 < INR (length l)) by (apply lt_0_INR; destruct l; [congruence|cbn; lia]).
  unfold average. split; apply (Rmult_le_reg_r (INR (length l))); auto; unfold Rdiv; rewrite Rmult_assoc, Rinv_l by lra; lra.
Qed.

Lemma cos_correct : forall (H : N) g1 g2 xs d, xs <> [] -> Forall (fun x => length x = d) xs -> Forall nonzero xs ->
  (0 < H < two32)%N -> (len xs < two32)%N ->
  exists s, run_consumer (cos_consume H) (cos_init g1 g2) xs = Ok s /\ length (cos_get s) = N.to_nat H /\
    forall i, (i < N.to_nat H)%nat ->
      nth i (cos_get s) 0 = (if (length xs <=? i + 1)%nat then 0 else average (cosines xs (i + 1))) /\
      -1 <= nth i (cos_get s) 0 <= 1.
Proof.
  intros H g1 g2 xs d Hne Hs Hz HH Hn. destruct (cos_run H g1 g2 xs d Hne Hs HH Hn) as (s & Hr & _ & _ & Hl & _ & Ha).
  exists s. split; [exact Hr|]. split; [exact Hl|]. intros i Hi. unfold cos_get. rewrite (Ha i Hi). split; [reflexivity|].
  unfold want. destruct (Nat.leb_spec (length xs) (i + 1)) as [_|Q]; [lra|]. apply avg_bound.
  - intros E. apply (f_equal (@length R)) in E. rewrite cosines_length in E. cbn in E. lia.
  - unfold cosines. apply Forall_forall. intros c Hc. apply in_map_iff in Hc. destruct Hc as (t & <- & Ht). apply in_seq in Ht.
    rewrite Forall_forall in Hs, Hz. assert (In (nth (t + (i + 1)) xs []) xs) by (apply nth_In; lia).
    assert (In (nth t xs []) xs) by (apply nth_In; lia). apply cos_bound; [|apply Hz; auto|apply Hz; auto].
    rewrite !Hs by auto. reflexivity.
Qed.

(** A history length of zero. *)
Lemma cos_zero_history : forall g1 g2 x xs, x <> [] -> run_consumer (cos_consume 0) (cos_init g1 g2) (x :: xs) = UB.
Proof. intros g1 g2 [|a x] xs H; [congruence|]. reflexivity. Qed.
(** After 2^32 samples the next one is left out of the averages. *)
Lemma cos_wraps : forall H s x s', cs_n s = two32 -> cos_consume H s x = Ok s' -> cos_get s' = cos_get s.
Proof.
  intros H s x s' Hn. unfold cos_consume. rewrite Hn. destruct (N.eqb_spec two32 0) as [E|_]; [discriminate|].
  destruct (negb (Nat.eqb (length x) (cs_dim s))); [discriminate|]. intros E. injection E as <-. unfold cos_get. cbn [cs_avg].
  change (wrap32 two32) with 0%N. rewrite N.min_0_l. unfold cos_loop.
  set (l := cs_avg s). clearbody l. clear. generalize 0%nat. induction l as [|a l IH]; intros k; cbn [length seq combine map]; [reflexivity|].
  destruct (N.ltb_spec (N.of_nat (fst (k, a))) 0) as [E|_]; [lia|]. cbn [snd]. f_equal. apply IH.
Qed.
