(** The statements of C79, assembled. *)
From Coq Require Import Reals QArith Qreals ZArith Lra Lia Permutation.
From Flocq Require Import Core BinarySingleNaN.
From Verif Require Import Prelude ConsumerModel HistModel HistSpec HistProofs HistFloat HistTop StatsModel FloatSpec FloatBase HfloSpec HfloProofs.
Local Open Scope R_scope.
Local Open Scope list_scope.
Local Notation length := List.length.

Lemma count_map : forall A B (f : A -> B) P l, count P (map f l) = count (fun x => P (f x)) l.
Proof.
  intros A B f P l. unfold count. f_equal. induction l as [|x l IH]; [reflexivity|]. cbn. destruct (P (f x)); cbn; congruence.
Qed.
Lemma count_mono : forall A (P Q : A -> bool) l, (forall x, In x l -> P x = true -> Q x = true) -> (count P l <= count Q l)%N.
Proof.
  intros A P Q l H. unfold count. enough (length (filter P l) <= length (filter Q l))%nat by lia.
  induction l as [|x l IH]; [apply le_n|]. cbn. specialize (IH (fun y Hy => H y (or_intror Hy))). specialize (H x (or_introl eq_refl)).
  destruct (P x), (Q x); cbn; try lia; discriminate (H eq_refl).
Qed.
Lemma count_eq : forall A (P Q : A -> bool) l, (forall x, In x l -> (P x = true <-> Q x = true)) -> count P l = count Q l.
Proof. intros A P Q l H. apply N.le_antisymm; apply count_mono; intros x Hx; apply (H x Hx). Qed.
Lemma sample_cases : forall x : f64, is_nan x = false -> is_finite x = true \/ x = B754_infinity true \/ x = B754_infinity false.
Proof. intros [s|[]| |s m e H] N; auto; discriminate. Qed.
Lemma in_closed_iff : forall a c x, in_closed a c x = true <-> (is_finite x = true /\ a <= val x <= c).
Proof. intros a c x. unfold in_closed. destruct (Rle_dec a (val x)); [destruct (Rle_dec (val x) c)|]; split; try tauto; try discriminate; intros [_ ?]; lra. Qed.
Lemma in_left_open_iff : forall a c x, in_left_open a c x = true <-> (is_finite x = true /\ a < val x <= c).
Proof. intros a c x. unfold in_left_open. destruct (Rlt_dec a (val x)); [destruct (Rle_dec (val x) c)|]; split; try tauto; try discriminate; intros [_ ?]; lra. Qed.
Lemma in_right_open_iff : forall a c x, in_right_open a c x = true <-> (is_finite x = true /\ a <= val x < c).
Proof. intros a c x. unfold in_right_open. destruct (Rle_dec a (val x)); [destruct (Rlt_dec (val x) c)|]; split; try tauto; try discriminate; intros [_ ?]; lra. Qed.

Section Main.
Variables (mn mx : f64) (n : nat).
Hypothesis (Fmn : finite mn) (Fmx : finite mx) (Hn : (0 < N.of_nat n <= 2 ^ 32)%N).
Hypothesis Hlo : bpow radix2 (-980) <= val mx - val mn.
Hypothesis Hhi : val mx - val mn <= DBL_MAX.
Definition pf (k : nat) : f64 := if (k <? n)%nat then cpp_point mn mx n k else mx.
Lemma pf_ok : forall k, (k <= n)%nat -> finite (pf k) /\ val (pf k) = fl_point (val mn) (val mx) n k.
Proof.
  intros k Hk. unfold pf. destruct (Nat.ltb_spec k n) as [L|L].
  - apply cpp_point_ok; assumption.
  - split; [assumption|]. unfold fl_point. destruct (Nat.ltb_spec k n) as [C|_]; [lia|reflexivity].
Qed.
Lemma slack_pos : 0 < slack mn mx.
Proof.
  pose proof (w_positive mn mx Hlo). pose proof (Rmax_l (Rabs (val mn)) (Rabs (val mx))). pose proof (Rabs_pos (val mn)).
  unfold slack. apply Rmult_lt_0_compat; [rewrite ur_val; lra|lra].
Qed.
Lemma edge_n : edge mn mx n n = val mx.
Proof. unfold edge. pose proof (nINR n Hn). field. lra. Qed.
Lemma edge_le : forall k, (k <= n)%nat -> edge mn mx n k <= val mx.
Proof.
  intros k Hk. rewrite <- edge_n. unfold edge. apply Rplus_le_compat_l. apply Rmult_le_compat_r; [|apply le_INR; exact Hk].
  pose proof (nINR n Hn). pose proof (w_positive mn mx Hlo). apply Rlt_le, Rdiv_lt_0_compat; lra.
Qed.
Lemma pf_acc : forall k, (k <= n)%nat -> Rabs (val (pf k) - edge mn mx n k) <= slack mn mx.
Proof.
  intros k Hk. rewrite (proj2 (pf_ok k Hk)). destruct (Nat.eq_dec k n) as [E|E].
  - subst k. rewrite edge_n. unfold fl_point. rewrite Nat.ltb_irrefl. rewrite Rminus_diag_eq, Rabs_R0 by reflexivity. apply Rlt_le, slack_pos.
  - apply point_acc; try assumption; lia.
Qed.
Lemma pf_0 : val (pf 0) = val mn.
Proof. rewrite (proj2 (pf_ok 0 (Nat.le_0_l n))). apply fl_points_sorted; auto using val_double. Qed.
Lemma pf_n : pf n = mx. Proof. unfold pf. now rewrite Nat.ltb_irrefl. Qed.
Lemma pf_mono : forall i j, (i <= j <= n)%nat -> val (pf i) <= val (pf j).
Proof.
  intros i j [Hij Hj]. induction Hij as [|j Hij IH]; [lra|]. eapply Rle_trans; [apply IH; lia|].
  rewrite (proj2 (pf_ok j ltac:(lia))), (proj2 (pf_ok (Datatypes.S j) Hj)). rewrite <- (Nat.add_1_r j).
  apply (fl_points_sorted (val mn) (val mx) n); auto using val_double.
Qed.
Definition pts : list dbl := axis_points n (fun bin => to_dbl (cpp_point mn mx n bin)) (to_dbl mx).
Lemma pts_length : length pts = (n + 1)%nat. Proof. apply axis_length. Qed.
Lemma pts_nth : forall k, (k <= n)%nat -> nth k pts DNaN = to_dbl (pf k).
Proof.
  intros k Hk. unfold pf. destruct (Nat.ltb_spec k n) as [L|L].
  - exact (axis_nth n (fun bin => to_dbl (cpp_point mn mx n bin)) (to_dbl mx) k L).
  - replace k with n by lia. apply axis_last.
Qed.
Lemma pts_subdivision : subdivision pts.
Proof.
  split; [|split].
  - intros C. pose proof pts_length as L. rewrite C in L. cbn in L. lia.
  - intros p Hp. destruct (In_nth _ _ DNaN Hp) as (k & Hk & <-). rewrite pts_length in Hk. rewrite pts_nth by lia.
    destruct (to_fin (pf k)) as (q & -> & _); [apply pf_ok; lia|discriminate].
  - intros i j Hij. rewrite pts_length in Hij. rewrite !pts_nth by lia. apply to_le; try (apply pf_ok; lia). apply pf_mono. lia.
Qed.
Lemma new_ok : forall b, hist_double b mn mx n = Ok {| h_pts := pts; h_bins := repeat 0%N n |}.
Proof.
  intros b. unfold hist_double, hist_new. rewrite (proj2 (to_lt mn mx Fmn Fmx)); [reflexivity|]. pose proof (w_positive mn mx Hlo). lra.
Qed.
Lemma inf_not : forall s k, belongs pts k (to_dbl (B754_infinity s)) = false.
Proof.
  intros [] k; unfold belongs; cbn [to_dbl].
  - assert (E : dlt (nth k pts DNaN) DNInf = false) by (destruct (nth k pts DNaN); reflexivity). rewrite E. rewrite (pts_nth 0) by lia.
    destruct (to_fin (pf 0)) as (q & -> & _); [apply pf_ok; lia|]. cbn. now rewrite Bool.andb_false_r.
  - rewrite pts_length. replace (n + 1 - 1)%nat with n by lia. rewrite (pts_nth n) by lia.
    destruct (to_fin (pf n)) as (q & -> & _); [apply pf_ok; lia|]. cbn. now rewrite Bool.andb_false_r.
Qed.
Lemma belongs_fin : forall k x, (k < n)%nat -> is_finite x = true ->
  (belongs pts k (to_dbl x) = true <->
   ((val (pf k) < val x <= val (pf (k + 1))) \/ (k = 0%nat /\ val x = val mn)) /\ val x < val mx).
Proof.
  intros k x Hk Hx. unfold belongs. rewrite pts_length. replace (n + 1 - 1)%nat with n by lia. rewrite !pts_nth by lia.
  rewrite Bool.andb_true_iff, Bool.orb_true_iff, !Bool.andb_true_iff, !to_lt, to_le, to_eq, Nat.eqb_eq, pf_0, pf_n by (try exact Hx; apply pf_ok; lia). tauto.
Qed.
Lemma belongs_upper : forall k x, (k < n)%nat -> is_nan x = false -> belongs pts k (to_dbl x) = true ->
  in_closed (edge mn mx n k - slack mn mx) (edge mn mx n (k + 1) + slack mn mx) x = true.
Proof.
  intros k x Hk Hx H. destruct (sample_cases x Hx) as [F|[->| ->]]; [|rewrite inf_not in H; discriminate..].
  apply (belongs_fin k x Hk F) in H. apply in_closed_iff. split; [exact F|].
  pose proof (pf_acc k ltac:(lia)) as A1. pose proof (pf_acc (k + 1) ltac:(lia)) as A2. apply Rabs_le_inv in A1. apply Rabs_le_inv in A2.
  destruct H as [[H|[E H]] _]; [lra|]. pose proof (pf_mono k (k + 1) ltac:(lia)) as M. subst k. rewrite pf_0 in *. lra.
Qed.
Lemma belongs_lower : forall k x, (k < n)%nat -> in_left_open (edge mn mx n k + slack mn mx) (edge mn mx n (k + 1) - slack mn mx) x = true ->
  belongs pts k (to_dbl x) = true.
Proof.
  intros k x Hk H. apply in_left_open_iff in H as [F H]. apply (belongs_fin k x Hk F).
  pose proof (pf_acc k ltac:(lia)) as A1. pose proof (pf_acc (k + 1) ltac:(lia)) as A2. apply Rabs_le_inv in A1. apply Rabs_le_inv in A2.
  pose proof (edge_le (k + 1) ltac:(lia)). pose proof slack_pos. split; [left|]; lra.
Qed.
Lemma in_range_iff : forall x, is_nan x = false -> (in_range pts (to_dbl x) = true <-> in_right_open (val mn) (val mx) x = true).
Proof.
  intros x Hx. rewrite in_right_open_iff. unfold in_range. rewrite pts_length. replace (n + 1 - 1)%nat with n by lia. rewrite !pts_nth by lia.
  destruct (sample_cases x Hx) as [F|[->| ->]].
  - rewrite Bool.andb_true_iff, to_le, to_lt, pf_0, pf_n by (try exact F; apply pf_ok; lia). tauto.
  - destruct (to_fin (pf 0)) as (q & -> & _); [apply pf_ok; lia|]. cbn. split; [discriminate|intros [C _]; discriminate].
  - destruct (to_fin (pf n)) as (q & -> & _); [apply pf_ok; lia|]. cbn. rewrite Bool.andb_false_r. split; [discriminate|intros [C _]; discriminate].
Qed.
Lemma counts : forall (b : build) (xs : list f64), Forall (fun x => is_nan x = false) xs -> (N.of_nat (length xs) < 2 ^ 64)%N ->
  exists h s rows, hist_double b mn mx n = Ok h /\ run_consumer (hist_consume b) h (map to_dbl xs) = Ok s /\ hist_get s = Ok rows /\ length rows = n /\
    (forall k, (k < n)%nat -> exists p p' c, nth_error rows k = Some (to_dbl p, to_dbl p', c) /\ finite p /\ finite p' /\ val p <= val p' /\
       Rabs (val p - edge mn mx n k) <= slack mn mx /\ Rabs (val p' - edge mn mx n (k + 1)) <= slack mn mx /\
       (count (in_left_open (edge mn mx n k + slack mn mx) (edge mn mx n (k + 1) - slack mn mx)) xs <= c)%N /\
       (c <= count (in_closed (edge mn mx n k - slack mn mx) (edge mn mx n (k + 1) + slack mn mx)) xs)%N) /\
    total (map snd rows) = count (in_right_open (val mn) (val mx)) xs.
Proof.
  intros b xs Hxs Hl.
  destruct (hist_total b pts n (map to_dbl xs) pts_subdivision pts_length) as (s & rows & Hr & Hg & E & Ht).
  { intros v Hv. apply in_map_iff in Hv as (x & <- & Hx). rewrite Forall_forall in Hxs. specialize (Hxs x Hx).
    destruct x as [?|[]| |]; discriminate. }
  { rewrite map_length. exact Hl. }
  rewrite Forall_forall in Hxs.
  eexists. exists s, rows. split; [apply new_ok|]. split; [exact Hr|]. split; [exact Hg|]. split; [rewrite E, map_length, seq_length; reflexivity|]. split.
  - intros k Hk. exists (pf k), (pf (k + 1)), (count (fun x => belongs pts k (to_dbl x)) xs).
    split.
    { rewrite E. rewrite nth_error_map. rewrite (nth_error_nth' (seq 0 n) 0%nat) by (rewrite seq_length; exact Hk). rewrite seq_nth by exact Hk.
      cbn [option_map Nat.add]. rewrite !pts_nth by lia. rewrite count_map. reflexivity. }
    split; [apply pf_ok; lia|]. split; [apply pf_ok; lia|]. split; [apply pf_mono; lia|]. split; [apply pf_acc; lia|]. split; [apply pf_acc; lia|]. split.
    + apply count_mono. intros x _ H. now apply belongs_lower.
    + apply count_mono. intros x Hx H. apply belongs_upper; auto.
  - rewrite Ht, count_map. apply count_eq. intros x Hx. apply in_range_iff. auto.
Qed.
End Main.
