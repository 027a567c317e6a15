(** The counts of a PairHistogram add up to the number of samples in the box. *)
From Coq Require Import QArith Permutation.
From Verif Require Import Prelude ConsumerModel ConsumerProofs HistModel HistSpec HistProofs HistTop.
Local Open Scope bool_scope.
Local Open Scope nat_scope.
Local Open Scope list_scope.
Local Notation length := List.length.

Lemma count_map' : forall A B (f : A -> B) P l, count P (map f l) = count (fun x => P (f x)) l.
Proof. intros A B f P l. unfold count. f_equal. induction l as [|x l IH]; [reflexivity|]. cbn. destruct (P (f x)); cbn; congruence. Qed.
Lemma count_filter : forall A (P Q : A -> bool) l, count P (filter Q l) = count (fun x => P x && Q x) l.
Proof.
  intros A P Q l. unfold count. f_equal. induction l as [|x l IH]; [reflexivity|]. cbn. destruct (Q x) eqn:E; cbn; destruct (P x); cbn; congruence.
Qed.
Lemma count_ext : forall A (P Q : A -> bool) l, (forall x, P x = Q x) -> count P l = count Q l.
Proof. intros A P Q l H. unfold count. f_equal. f_equal. induction l as [|x l IH]; [reflexivity|]. cbn. rewrite H. destruct (Q x); congruence. Qed.
Lemma total_app : forall l m, total (l ++ m) = (total l + total m)%N.
Proof. induction l as [|a l IH]; intros m; cbn; [lia|]. rewrite IH. lia. Qed.
Lemma total_flat : forall (f : nat -> list N) l, total (flat_map f l) = total (map (fun i => total (f i)) l).
Proof. intros f. induction l as [|a l IH]; cbn; [reflexivity|]. rewrite total_app, IH. reflexivity. Qed.
(** one axis, for samples given by a component *)
Lemma axis_total : forall A (f : A -> dbl) pts n (xs : list A), subdivision pts -> length pts = n + 1 -> (forall v, In v xs -> f v <> DNaN) ->
  (N.of_nat (length xs) < two64)%N ->
  total (map (fun k => count (fun v => belongs pts k (f v)) xs) (seq 0 n)) = count (fun v => in_range pts (f v)) xs.
Proof.
  intros A f pts n xs H1 H2 H3 H4. destruct (hist_total Debug pts n (map f xs) H1 H2) as (s & rows & _ & _ & E & Ht).
  { intros v Hv. apply in_map_iff in Hv as (x & <- & Hx). auto. }
  { rewrite map_length. exact H4. }
  rewrite E, map_map in Ht. cbn [snd] in Ht. rewrite count_map' in Ht. rewrite <- Ht. f_equal. apply map_ext. intros k. now rewrite count_map'.
Qed.
Lemma nth_grid : forall (f : nat -> nat -> N) ny nx i j s, i < nx -> j < ny ->
  nth_error (flat_map (fun i => map (f i) (seq 0 ny)) (seq s nx)) (i * ny + j) = Some (f (s + i) j).
Proof.
  intros f ny. induction nx as [|nx IH]; intros i j s Hi Hj; [lia|]. cbn [seq flat_map].
  destruct i as [|i].
  - rewrite nth_error_app1 by (rewrite map_length, seq_length; lia). rewrite nth_error_map. rewrite (nth_error_nth' (seq 0 ny) 0) by (rewrite seq_length; lia).
    rewrite seq_nth by lia. cbn. now rewrite Nat.add_0_r.
  - rewrite nth_error_app2 by (rewrite map_length, seq_length; lia). rewrite map_length, seq_length.
    replace (Datatypes.S i * ny + j - ny) with (i * ny + j) by lia. rewrite IH by lia. do 2 f_equal. lia.
Qed.
Lemma grid_length : forall (f : nat -> nat -> N) ny nx s, length (flat_map (fun i => map (f i) (seq 0 ny)) (seq s nx)) = nx * ny.
Proof. intros f ny. induction nx as [|nx IH]; intros s; [reflexivity|]. cbn [seq flat_map]. rewrite app_length, map_length, seq_length, IH. lia. Qed.
Lemma length_filter_le : forall A (P : A -> bool) l, length (filter P l) <= length l.
Proof. intros A P. induction l as [|x l IH]; cbn; [lia|]. destruct (P x); cbn; lia. Qed.

Lemma phist_sum : forall b xp yp nx ny xs, subdivision xp -> subdivision yp -> length xp = nx + 1 -> length yp = ny + 1 ->
  (forall v, In v xs -> length v = 2 /\ Forall (fun c => c <> DNaN) v) -> (N.of_nat nx * N.of_nat ny <= 2 ^ 32)%N -> (N.of_nat (length xs) < two64)%N ->
  exists s rows, run_consumer (phist_consume b) {| ph_x := xp; ph_y := yp; ph_rows := nx; ph_cols := ny; ph_bins := fun _ _ => 0%N |} xs = Ok s /\
    phist_get s = Ok rows /\
    total (map snd rows) = count (fun v => in_range xp (nth 0 v DNaN) && in_range yp (nth 1 v DNaN)) xs.
Proof.
  intros b xp yp nx ny xs H1 H2 H3 H4 H5 H6 H7.
  destruct (phist_total b xp yp nx ny (fun _ _ => 0%N) xs H1 H2 H3 H4 H5 H6) as (s & rows & Hr & Hg & Hl & Hk).
  exists s, rows. split; [exact Hr|]. split; [exact Hg|].
  set (f := fun i j => count (fun v => belongs xp i (nth 0 v DNaN) && belongs yp j (nth 1 v DNaN)) xs).
  assert (Hn : forall v, In v xs -> nth 0 v DNaN <> DNaN /\ nth 1 v DNaN <> DNaN).
  { intros v Hv. destruct (H5 v Hv) as [L F]. destruct v as [|a [|c [|]]]; try discriminate. inversion_clear F as [|? ? Fa F']. inversion_clear F' as [|? ? Fc _]. auto. }
  assert (E : map snd rows = flat_map (fun i => map (f i) (seq 0 ny)) (seq 0 nx)).
  { apply (nth_ext _ _ 0%N 0%N); [rewrite map_length, grid_length; exact Hl|]. intros k Hk1. assert (Hk0 : k < nx * ny) by (rewrite <- Hl; rewrite map_length in Hk1; exact Hk1). clear Hk1.
    assert (Ek : k = (k / ny) * ny + k mod ny) by (rewrite Nat.mul_comm; apply Nat.div_mod; nia).
    assert (L1 : k / ny < nx) by (apply Nat.div_lt_upper_bound; nia).
    assert (L2 : k mod ny < ny) by (apply Nat.mod_upper_bound; nia).
    rewrite Ek. rewrite (nth_error_nth _ _ _ (nth_grid f ny nx (k / ny) (k mod ny) 0 L1 L2)). cbn [Nat.add].
    assert (Z0 : (0 < 2 ^ 64)%N) by reflexivity.
    pose proof (Hk _ _ L1 L2 Z0) as HK. pose proof (map_nth_error snd _ _ HK) as HK'. rewrite (nth_error_nth _ _ _ HK'). cbn [snd]. rewrite N.add_0_l.
    fold (f (k / ny) (k mod ny)). apply N.mod_small. apply N.le_lt_trans with (N.of_nat (length xs)); [|exact H7].
    unfold f, count. pose proof (length_filter_le _ (fun v => belongs xp (k / ny) (nth 0 v DNaN) && belongs yp (k mod ny) (nth 1 v DNaN)) xs). lia. }
  rewrite E, total_flat.
  transitivity (total (map (fun k => count (fun v => belongs xp k (nth 0 v DNaN)) (filter (fun v => in_range yp (nth 1 v DNaN)) xs)) (seq 0 nx))).
  - f_equal. apply map_ext. intros i. rewrite count_filter. rewrite (count_ext _ _ (fun v => in_range yp (nth 1 v DNaN) && belongs xp i (nth 0 v DNaN))) by (intros; apply andb_comm).
    rewrite <- count_filter. rewrite <- (axis_total _ (fun v => nth 1 v DNaN) yp ny (filter (fun v => belongs xp i (nth 0 v DNaN)) xs) H2 H4).
    + f_equal. apply map_ext. intros j. unfold f. rewrite count_filter. apply count_ext. intros v. apply andb_comm.
    + intros v Hv. apply filter_In in Hv as [Hv _]. apply Hn. exact Hv.
    + eapply N.le_lt_trans; [|exact H7]. pose proof (length_filter_le _ (fun v => belongs xp i (nth 0 v DNaN)) xs). lia.
  - rewrite (axis_total _ (fun v => nth 0 v DNaN) xp nx _ H1 H3).
    + rewrite count_filter. reflexivity.
    + intros v Hv. apply filter_In in Hv as [Hv _]. apply Hn. exact Hv.
    + eapply N.le_lt_trans; [|exact H7]. pose proof (length_filter_le _ (fun v => in_range yp (nth 1 v DNaN)) xs). lia.
Qed.
