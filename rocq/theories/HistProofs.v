(** Proofs about the histograms. *)
From Coq Require Import String Ascii QArith Permutation.
From Verif Require Import Prelude ConsumerModel ConsumerProofs HistModel HistSpec.
Local Open Scope bool_scope.
Local Open Scope nat_scope.
Local Open Scope list_scope.
Local Notation length := List.length.

(** ** order *)
Lemma deq_sym : forall a b, deq a b = deq b a.
Proof. intros [| |x|] [| |y|]; try reflexivity. cbn. apply eq_true_iff_eq. rewrite !Qeq_bool_iff. split; intros; now symmetry. Qed.
Lemma dle_dlt : forall a b, a <> DNaN -> b <> DNaN -> dle a b = negb (dlt b a).
Proof.
  intros a b Ha Hb. destruct a as [| |x|], b as [| |y|]; try congruence; try reflexivity. unfold dle. cbn.
  apply eq_true_iff_eq. rewrite orb_true_iff, !negb_true_iff, negb_false_iff, Qeq_bool_iff, Qle_bool_iff. 
  destruct (Qle_bool y x) eqn:E.
  - apply Qle_bool_iff in E. split; [intros [H|H]; [discriminate|rewrite H; apply Qle_refl]|intros H; right; now apply Qle_antisym].
  - assert (~ (y <= x)%Q) as E' by (intros H; apply Qle_bool_iff in H; congruence). apply Qnot_le_lt in E'.
    split; [intros _; now apply Qlt_le_weak|auto].
Qed.
Lemma dle_nan_l : forall b, dle DNaN b = false. Proof. destruct b; reflexivity. Qed.
Lemma dle_nan_r : forall a, dle a DNaN = false. Proof. destruct a; reflexivity. Qed.
Lemma dlt_nan_l : forall b, dlt DNaN b = false. Proof. destruct b; reflexivity. Qed.
Lemma dlt_nan_r : forall a, dlt a DNaN = false. Proof. destruct a; reflexivity. Qed.
Lemma deq_iff : forall a b, a <> DNaN -> b <> DNaN -> deq a b = negb (dlt a b) && negb (dlt b a).
Proof.
  intros a b Ha Hb. rewrite <- (dle_dlt a b) by assumption. unfold dle.
  destruct (dlt a b) eqn:E; cbn [orb negb andb].
  - destruct (deq a b) eqn:Q; [|reflexivity]. exfalso. destruct a as [| |x|], b as [| |y|]; try discriminate. cbn in *.
    apply Qeq_bool_iff in Q. apply negb_true_iff in E. assert (Qle_bool y x = true) by (apply Qle_bool_iff; rewrite Q; apply Qle_refl). congruence.
  - reflexivity.
Qed.

(** ** lower_bound *)
Lemma lower_bound_le : forall pts v, lower_bound pts v <= length pts.
Proof. induction pts as [|p pts IH]; intros v; cbn; [lia|]. destruct (dlt p v); [|lia]. specialize (IH v). lia. Qed.
Lemma lower_bound_lt : forall pts v k, k < lower_bound pts v -> dlt (nth k pts DNaN) v = true.
Proof.
  induction pts as [|p pts IH]; intros v k H; cbn in *; [lia|]. destruct (dlt p v) eqn:E; [|lia]. destruct k; [exact E|]. apply IH. lia.
Qed.
Lemma lower_bound_ge : forall pts v, lower_bound pts v < length pts -> dlt (nth (lower_bound pts v) pts DNaN) v = false.
Proof.
  induction pts as [|p pts IH]; intros v H; cbn in *; [lia|]. destruct (dlt p v) eqn:E; [|exact E]. apply IH. lia.
Qed.

Section One.
Variable pts : list dbl.
Hypothesis HS : subdivision pts.
Let p (k : nat) := nth k pts DNaN.
Lemma p_ok : forall k, k < length pts -> p k <> DNaN.
Proof. intros k Hk. destruct HS as (_ & H & _). apply H. apply nth_In. exact Hk. Qed.
Lemma p_mono : forall i j, i <= j < length pts -> dlt (p j) (p i) = false.
Proof.
  intros i j H. destruct (Nat.eq_dec i j) as [->|N]; [apply dlt_irrefl|]. destruct HS as (_ & _ & H1). specialize (H1 i j ltac:(lia)).
  fold (p i) (p j) in H1. rewrite dle_dlt in H1 by (apply p_ok; lia). now apply negb_true_iff in H1.
Qed.
Lemma len_pos : 0 < length pts.
Proof. destruct HS as (H & _). destruct pts; [congruence|cbn; lia]. Qed.
Lemma front_p : front pts = p 0.
Proof. unfold front, p. destruct pts; reflexivity. Qed.
Lemma back_p : back pts = p (length pts - 1).
Proof.
  unfold back, p. clear. induction pts as [|a l IH]; [reflexivity|]. destruct l as [|b l']; [reflexivity|].
  change (last (a :: b :: l') DNaN) with (last (b :: l') DNaN). rewrite IH. cbn [List.length].
  replace (S (S (length l')) - 1) with (S (S (length l') - 1)) by lia. reflexivity.
Qed.
(** What the code computes for a number that is not discarded. *)
Lemma outside_spec : forall v, v <> DNaN -> outside pts v = negb (in_range pts v).
Proof.
  intros v Hv. unfold outside, in_range. rewrite front_p, back_p. fold (p 0) (p (length pts - 1)). pose proof len_pos.
  rewrite !dle_dlt by (try assumption; apply p_ok; lia). rewrite negb_andb, !negb_involutive. reflexivity.
Qed.
Lemma bin_spec : forall v b, in_range pts v = true -> b < length pts - 1 ->
  bin_of pts v < length pts - 1 /\ belongs pts b v = (b =? bin_of pts v).
Proof.
  intros v b HR Hb. unfold in_range in HR. fold (p 0) (p (length pts - 1)) in HR. apply andb_prop in HR. destruct HR as [H0 Hn].
  assert (Hv : v <> DNaN) by (intros ->; rewrite dle_nan_r in H0; discriminate).
  rewrite dle_dlt in H0 by (try assumption; apply p_ok; lia). apply negb_true_iff in H0.
  unfold belongs. fold (p b) (p (b + 1)) (p 0) (p (length pts - 1)). rewrite Hn, andb_true_r.
  set (L := lower_bound pts v).
  assert (HL : L < length pts).
  { pose proof (lower_bound_le pts v). destruct (Nat.eq_dec L (length pts)) as [E|E]; [|unfold L in *; lia]. exfalso.
    assert (dlt (p (length pts - 1)) v = true) by (apply lower_bound_lt; fold L; lia).
    pose proof (dlt_trans _ _ _ Hn H1) as Q. rewrite dlt_irrefl in Q. discriminate. }
  assert (Hlt : forall k, k < L -> dlt (p k) v = true) by (intros; now apply lower_bound_lt).
  assert (Hge : forall k, L <= k < length pts -> dlt (p k) v = false).
  { intros k Hk. destruct (dlt (p k) v) eqn:E; [|reflexivity]. exfalso.
    pose proof (lower_bound_ge pts v HL) as G. fold L in G. fold (p L) in G.
    pose proof (dlt_neg_trans (p k) (p L) v (p_ok L HL) (p_mono L k Hk) G) as Q. congruence. }
  unfold bin_of. fold L. split; [lia|].
  rewrite dle_dlt by (try assumption; apply p_ok; lia). rewrite deq_iff by (try assumption; apply p_ok; lia). rewrite H0. cbn [negb andb].
  destruct (Nat.eq_dec L 0) as [E|E].
  - rewrite (Hge b ltac:(lia)), (Hge 0 ltac:(lia)). cbn. rewrite E. cbn. now rewrite andb_true_r.
  - rewrite (Hlt 0 ltac:(lia)). cbn [negb]. rewrite andb_false_r, orb_false_r.
    destruct (Nat.eqb_spec b (L - 1)) as [->|N].
    + rewrite (Hlt (L - 1)) by lia. rewrite (Hge (L - 1 + 1)) by lia. reflexivity.
    + destruct (Nat.lt_ge_cases b L) as [C|C].
      * rewrite (Hlt (b + 1)) by lia. now rewrite andb_false_r.
      * rewrite (Hge b) by lia. reflexivity.
Qed.
Lemma belongs_range : forall v b, b < length pts - 1 -> belongs pts b v = true -> in_range pts v = true.
Proof.
  intros v b Hb H. unfold belongs in H. fold (p b) (p (b + 1)) (p 0) (p (length pts - 1)) in H. apply andb_prop in H. destruct H as [H Hn].
  unfold in_range. fold (p 0) (p (length pts - 1)). rewrite Hn, andb_true_r.
  assert (Hv : v <> DNaN) by (intros ->; rewrite dlt_nan_l in Hn; discriminate).
  apply orb_prop in H. destruct H as [H|H]; apply andb_prop in H; destruct H as [H1 H2].
  - rewrite dle_dlt by (try assumption; apply p_ok; lia). apply negb_true_iff. destruct (dlt v (p 0)) eqn:E; [|reflexivity]. exfalso.
    pose proof (dlt_trans _ _ _ H1 E) as Q. pose proof (p_mono 0 b ltac:(lia)). congruence.
  - unfold dle. rewrite deq_sym in H2. rewrite H2. apply orb_true_r.
Qed.
End One.

(** ** the counts *)
Lemma incr_length : forall bins k, length (incr bins k) = length bins.
Proof. induction bins as [|c bins IH]; intros [|k]; cbn; auto. Qed.
Lemma incr_nth : forall bins k b, nth b (incr bins k) 0%N = if (b =? k) && (k <? length bins) then wrap64 (nth b bins 0%N + 1) else nth b bins 0%N.
Proof.
  induction bins as [|c bins IH]; intros k b.
  - cbn. rewrite andb_false_r. destruct k; reflexivity.
  - destruct k as [|k], b as [|b]; cbn; try reflexivity. rewrite IH. reflexivity.
Qed.
Lemma count_snoc : forall A (P : A -> bool) l x, count P (l ++ [x]) = (count P l + if P x then 1 else 0)%N.
Proof. intros. unfold count. rewrite filter_app, app_length. cbn. destruct (P x); cbn; lia. Qed.
Lemma count_le : forall A (P : A -> bool) l, (count P l <= N.of_nat (length l))%N.
Proof. intros A P l. induction l as [|x l IH]; unfold count in *; cbn; [lia|]. destruct (P x); cbn [List.length]; lia. Qed.
Lemma run_snoc_h : forall St A (c : St -> A -> outcome St) xs s x,
  run_consumer c s (xs ++ [x]) = (do s' <- run_consumer c s xs; c s' x).
Proof.
  intros St A c xs. induction xs as [|y xs IH]; intros s x; cbn.
  - destruct (c s x); reflexivity.
  - destruct (c s y); cbn; auto.
Qed.

Lemma hist_run : forall b pts n xs, subdivision pts -> length pts = n + 1 -> (forall v, In v xs -> v <> DNaN) -> (N.of_nat (length xs) < two64)%N ->
  exists s, run_consumer (hist_consume b) {| h_pts := pts; h_bins := repeat 0%N n |} xs = Ok s /\
    h_pts s = pts /\ length (h_bins s) = n /\ forall k, k < n -> nth k (h_bins s) 0%N = count (belongs pts k) xs.
Proof.
  intros b pts n xs HS HL. induction xs as [|x xs IH] using rev_ind; intros Hv Hn.
  - eexists. split; [reflexivity|]. cbn. rewrite repeat_length. repeat split. intros k Hk.
    apply (repeat_spec n 0%N). apply nth_In. now rewrite repeat_length.
  - destruct IH as (s & Hr & Hp & Hl & Hk); [intros; apply Hv; apply in_or_app; auto|rewrite app_length in Hn; lia|].
    rewrite run_snoc_h, Hr. cbn [bind]. unfold hist_consume. rewrite Hp.
    destruct pts as [|p0 pts'] eqn:Ep; [cbn in HL; lia|]. rewrite <- Ep in *. clear Ep p0 pts'.
    assert (Hx : x <> DNaN) by (apply Hv, in_or_app; right; now left).
    rewrite (outside_spec pts HS x Hx). destruct (in_range pts x) eqn:ER; cbn [negb].
    + unfold bin_number.
      assert (Hb : dle (front pts) x && dle x (back pts) = true).
      { pose proof ER as ER'. unfold in_range in ER'. apply andb_prop in ER'. destruct ER' as [E1 E2].
        rewrite front_p, back_p by exact HS. rewrite E1. cbn [andb]. unfold dle. now rewrite E2. }
      rewrite Hb. cbn [assert_then bind].
      assert (HB : bin_of pts x < n). { destruct n; [|destruct (bin_spec pts HS x 0 ER ltac:(lia)); lia]. exfalso.
        unfold in_range in ER. rewrite HL in ER. cbn [Nat.add Nat.sub] in ER. apply andb_prop in ER. destruct ER as [E1 E2].
        rewrite dle_dlt, E2 in E1; [discriminate| |exact Hx]. apply (p_ok pts HS). lia. }
      rewrite Hl. destruct (Nat.ltb_spec (bin_of pts x) n) as [_|C]; [|lia].
      eexists. split; [reflexivity|]. cbn [h_pts h_bins]. rewrite incr_length. repeat split; auto.
      intros k Hkn. rewrite incr_nth, Hl, count_snoc. destruct (bin_spec pts HS x k ER ltac:(lia)) as [_ ->].
      destruct (Nat.ltb_spec (bin_of pts x) n) as [_|C]; [|lia]. rewrite andb_true_r. rewrite Hk by exact Hkn.
      destruct (k =? bin_of pts x); [|lia]. apply N.mod_small. pose proof (count_le _ (belongs pts k) xs) as Hc. rewrite app_length in Hn. cbn [List.length] in Hn. lia.
    + eexists. split; [reflexivity|]. repeat split; auto. intros k Hkn. rewrite count_snoc, Hk by exact Hkn.
      destruct (belongs pts k x) eqn:EB; [|lia]. exfalso. rewrite (belongs_range pts HS x k ltac:(lia) EB) in ER. discriminate.
Qed.

Lemma total_map : forall (f : nat -> N) l, total (map f l) = fold_right (fun k s => (f k + s)%N) 0%N l.
Proof. induction l as [|k l IH]; cbn; [reflexivity|]. now rewrite IH. Qed.
(** Each number in the range belongs to exactly one interval. *)
Lemma exactly_one : forall pts v, subdivision pts -> in_range pts v = true ->
  exists k, k < length pts - 1 /\ forall b, b < length pts - 1 -> (belongs pts b v = true <-> b = k).
Proof.
  intros pts v HS HR.
  assert (HL : 2 <= length pts).
  { pose proof (len_pos pts HS). destruct (Nat.eq_dec (length pts) 1) as [E|E]; [|lia]. exfalso. unfold in_range in HR. rewrite E in HR. cbn [Nat.sub] in HR.
    apply andb_prop in HR. destruct HR as [H1 H2]. rewrite dle_dlt, H2 in H1; [discriminate|apply (p_ok pts HS); lia|].
    intros ->. rewrite dlt_nan_l in H2. discriminate. }
  exists (bin_of pts v). split; [apply (proj1 (bin_spec pts HS v 0 HR ltac:(lia)))|]. intros b Hb.
  destruct (bin_spec pts HS v b HR Hb) as [_ ->]. apply Nat.eqb_eq.
Qed.
Lemma sum_indicator : forall n k, k < n -> total (map (fun b => if (b =? k)%nat then 1%N else 0%N) (seq 0 n)) = 1%N.
Proof.
  intros n k Hk. replace n with (k + (1 + (n - k - 1))) by lia. rewrite seq_app, map_app.
  assert (T : forall a b, total (a ++ b) = (total a + total b)%N) by (induction a as [|c a IH]; intros; cbn; [reflexivity|rewrite IH; lia]).
  rewrite T. cbn [Nat.add seq map total]. rewrite Nat.eqb_refl.
  assert (Z : forall l, (forall x, In x l -> x <> k) -> total (map (fun b => if (b =? k)%nat then 1%N else 0%N) l) = 0%N).
  { induction l as [|x l IH]; intros H; cbn; [reflexivity|]. destruct (Nat.eqb_spec x k) as [E|_]; [exfalso; apply (H x); [now left|exact E]|].
    rewrite IH; [reflexivity|]. intros; apply H; now right. }
  rewrite !Z; [reflexivity| |]; intros x Hx; apply in_seq in Hx; lia.
Qed.
Lemma total_add : forall (f g : nat -> N) l, total (map (fun k => (f k + g k)%N) l) = (total (map f l) + total (map g l))%N.
Proof. induction l as [|k l IH]; cbn; [reflexivity|]. rewrite IH. lia. Qed.
Lemma total_ext : forall (f g : nat -> N) l, (forall k, In k l -> f k = g k) -> total (map f l) = total (map g l).
Proof. induction l as [|k l IH]; intros H; cbn; [reflexivity|]. rewrite H by now left. rewrite IH; [reflexivity|]. intros; apply H; now right. Qed.
Lemma total_counts : forall pts xs, subdivision pts ->
  total (map (fun b => count (belongs pts b) xs) (seq 0 (length pts - 1))) = count (in_range pts) xs.
Proof.
  intros pts xs HS. induction xs as [|x xs IH] using rev_ind.
  - cbn. generalize (seq 0 (length pts - 1)). induction l; cbn; auto.
  - rewrite count_snoc, <- IH. rewrite <- (total_ext (fun b => (count (belongs pts b) xs + if belongs pts b x then 1 else 0)%N)) by (intros; now rewrite count_snoc).
    rewrite total_add. f_equal. destruct (in_range pts x) eqn:ER.
    + destruct (exactly_one pts x HS ER) as (k & Hk & H). rewrite (total_ext _ (fun b => if (b =? k)%nat then 1%N else 0%N)); [now apply sum_indicator|].
      intros b Hb. apply in_seq in Hb. destruct (Nat.eqb_spec b k) as [->|N]; [rewrite (proj2 (H k Hk)); auto|].
      destruct (belongs pts b x) eqn:E; [|reflexivity]. apply H in E; [contradiction|lia].
    + rewrite (total_ext _ (fun _ => 0%N)).
      * generalize (seq 0 (length pts - 1)). induction l; cbn; auto.
      * intros b Hb. apply in_seq in Hb. destruct (belongs pts b x) eqn:E; [|reflexivity].
        rewrite (belongs_range pts HS x b ltac:(lia) E) in ER. discriminate.
Qed.
Lemma bins_as_map : forall (l : list N) n f, length l = n -> (forall k, k < n -> nth k l 0%N = f k) -> l = map f (seq 0 n).
Proof.
  intros l n f HL H. apply (nth_ext _ _ 0%N 0%N); [now rewrite map_length, seq_length|]. intros k Hk. rewrite HL in Hk. rewrite (H k Hk).
  rewrite (nth_indep _ 0%N (f 0)) by (now rewrite map_length, seq_length). rewrite map_nth, seq_nth by exact Hk. reflexivity.
Qed.

Lemma hist_correct : forall b pts n xs, subdivision pts -> length pts = n + 1 -> (forall v, In v xs -> v <> DNaN) -> (N.of_nat (length xs) < two64)%N ->
  exists s, run_consumer (hist_consume b) {| h_pts := pts; h_bins := repeat 0%N n |} xs = Ok s /\
    h_pts s = pts /\ h_bins s = map (fun k => count (belongs pts k) xs) (seq 0 n) /\ total (h_bins s) = count (in_range pts) xs.
Proof.
  intros b pts n xs H1 H2 H3 H4. destruct (hist_run b pts n xs H1 H2 H3 H4) as (s & Hr & Hp & Hl & Hk). exists s.
  assert (E : h_bins s = map (fun k => count (belongs pts k) xs) (seq 0 n)) by (apply bins_as_map; assumption).
  repeat split; auto. rewrite E. rewrite <- total_counts by exact H1. do 3 f_equal. lia.
Qed.

(** NaN samples *)
Lemma hist_nan : forall s, h_pts s <> [] ->
  hist_consume Debug s DNaN = AssertFail /\
  exists s', hist_consume Release s DNaN = Ok s' /\ h_bins s' = incr (h_bins s) 0.
Proof.
  intros s Hp. unfold hist_consume. destruct (h_pts s) as [|q pts] eqn:E; [congruence|].
  unfold outside. rewrite dlt_nan_l, dle_nan_r. cbn [orb]. unfold bin_number. rewrite dle_nan_r. cbn [andb assert_then]. split; [reflexivity|].
  cbn [bind]. unfold bin_of. cbn [lower_bound]. rewrite dlt_nan_r. cbn [Nat.sub].
  destruct (h_bins s) as [|c bins] eqn:Eb; cbn [List.length Nat.ltb Nat.leb]; eexists; (split; [reflexivity|]); cbn; auto.
Qed.

(** ** the constructors *)
Lemma axis_length : forall n f l, length (axis_points n f l) = n + 1.
Proof. intros. unfold axis_points. rewrite app_length, map_length, seq_length. reflexivity. Qed.
Lemma axis_nth : forall n f l k, k < n -> nth k (axis_points n f l) DNaN = f k.
Proof.
  intros n f l k Hk. unfold axis_points. rewrite app_nth1 by (now rewrite map_length, seq_length).
  rewrite (nth_indep _ DNaN (f 0)) by (now rewrite map_length, seq_length). rewrite map_nth, seq_nth by exact Hk. reflexivity.
Qed.
Lemma axis_last : forall n f l, nth n (axis_points n f l) DNaN = l.
Proof. intros. unfold axis_points. rewrite app_nth2 by (rewrite map_length, seq_length; lia). rewrite map_length, seq_length, Nat.sub_diag. reflexivity. Qed.

Lemma exact_subdivision : forall (mn mx : Q) n, (mn < mx)%Q ->
  subdivision (axis_points n (fun k => DFin (exact_point mn mx n k)) (DFin mx)) /\
  (forall k, k < n -> dlt (nth k (axis_points n (fun k => DFin (exact_point mn mx n k)) (DFin mx)) DNaN)
                          (nth (k + 1) (axis_points n (fun k => DFin (exact_point mn mx n k)) (DFin mx)) DNaN) = true) /\
  (0 < n -> deq (nth 0 (axis_points n (fun k => DFin (exact_point mn mx n k)) (DFin mx)) DNaN) (DFin mn) = true).
Proof.
  intros mn mx n Hm. set (A := axis_points n (fun k => DFin (exact_point mn mx n k)) (DFin mx)).
  assert (HL : length A = n + 1) by apply axis_length.
  assert (Hw : forall i j, i < j -> j <= n -> dlt (nth i A DNaN) (nth j A DNaN) = true).
  { intros i j Hij Hj. unfold A. rewrite axis_nth by lia.
    assert (Hn : (0 < inject_Z (Z.of_nat n))%Q) by (unfold Qlt; cbn; lia).
    assert (Hd : (0 < (mx - mn) / inject_Z (Z.of_nat n))%Q).
    { apply Qlt_shift_div_l; [exact Hn|]. rewrite Qmult_0_l. apply -> Qlt_minus_iff in Hm. exact Hm. }
    assert (HE : (inject_Z (Z.of_nat n) * ((mx - mn) / inject_Z (Z.of_nat n)) == mx - mn)%Q).
    { apply Qmult_div_r. intros E. rewrite E in Hn. discriminate. }
    destruct (Nat.eq_dec j n) as [->|N].
    - rewrite axis_last. apply dlt_fin. unfold exact_point. 
      setoid_replace mx with (mn + inject_Z (Z.of_nat n) * ((mx - mn) / inject_Z (Z.of_nat n)))%Q at 2 by (rewrite HE; ring).
      apply Qplus_lt_r, Qmult_lt_r; [exact Hd|]. unfold Qlt; cbn; lia.
    - rewrite axis_nth by lia. apply dlt_fin. unfold exact_point. apply Qplus_lt_r, Qmult_lt_r; [exact Hd|]. unfold Qlt; cbn; lia. }
  split; [split; [|split]|split].
  - intros E. rewrite E in HL. cbn in HL. lia.
  - intros p Hp. unfold A, axis_points in Hp. apply in_app_or in Hp. destruct Hp as [Hp|[<-|[]]]; [|discriminate].
    apply in_map_iff in Hp. destruct Hp as (k & <- & _). discriminate.
  - intros i j Hij. unfold dle. rewrite Hw by lia. reflexivity.
  - intros k Hk. apply Hw; lia.
  - intros Hn. unfold A. rewrite axis_nth by exact Hn. cbn. apply Qeq_bool_iff. unfold exact_point. cbn [Z.of_nat]. 
    setoid_replace (inject_Z 0) with 0%Q by reflexivity. ring.
Qed.

Lemma increasing_nth : forall pts, increasing pts = true -> forall k, k + 1 < length pts -> dlt (nth k pts DNaN) (nth (k + 1) pts DNaN) = true.
Proof.
  induction pts as [|a [|b l] IH]; intros H k Hk; cbn [List.length] in Hk; try lia.
  cbn [increasing] in H. apply andb_prop in H. destruct H as [H1 H2]. destruct k as [|k]; [exact H1|]. 
  change (nth (S k) (a :: b :: l) DNaN) with (nth k (b :: l) DNaN). change (nth (S k + 1) (a :: b :: l) DNaN) with (nth (k + 1) (b :: l) DNaN).
  apply IH; [exact H2|]. cbn [List.length]. lia.
Qed.
Lemma increasing_subdivision : forall pts, 2 <= length pts -> increasing pts = true -> subdivision pts.
Proof.
  intros pts HL H. pose proof (increasing_nth pts H) as HI.
  assert (Hw : forall j i, i < j -> j < length pts -> dlt (nth i pts DNaN) (nth j pts DNaN) = true).
  { induction j as [|j IH]; intros i Hij Hj; [lia|]. replace (S j) with (j + 1) by lia. destruct (Nat.eq_dec i j) as [->|N]; [apply HI; lia|].
    eapply dlt_trans; [apply IH; lia|]. apply HI. lia. }
  split; [intros ->; cbn in HL; lia|]. split.
  - intros p Hp. apply (In_nth _ _ DNaN) in Hp. destruct Hp as (k & Hk & <-). intros E.
    destruct k as [|k].
    + specialize (HI 0 ltac:(lia)). rewrite E in HI. rewrite dlt_nan_l in HI. discriminate.
    + specialize (HI k ltac:(lia)). replace (k + 1) with (S k) in HI by lia. rewrite E, dlt_nan_r in HI. discriminate.
  - intros i j Hij. unfold dle. rewrite Hw by lia. reflexivity.
Qed.

(** ** get *)
Lemma hist_rows_ok : forall bins pts, length pts = length bins + 1 ->
  exists rows, hist_rows pts bins = Ok rows /\ length rows = length bins /\
    forall k, k < length bins -> nth_error rows k = Some (nth k pts DNaN, nth (k + 1) pts DNaN, nth k bins 0%N).
Proof.
  induction bins as [|c bins IH]; intros pts HL.
  - exists []. split; [destruct pts as [|? [|]]; reflexivity|]. split; [reflexivity|]. cbn. intros; lia.
  - destruct pts as [|q [|q' r]]; cbn in HL; try lia. destruct (IH (q' :: r)) as (rows & Hr & Hl & Hk); [cbn; lia|].
    change (hist_rows (q :: q' :: r) (c :: bins)) with (do rest <- hist_rows (q' :: r) bins; Ok ((q, q', c) :: rest)).
    rewrite Hr. cbn [bind]. eexists. split; [reflexivity|]. split; [cbn; lia|].
    intros [|k] H; [reflexivity|]. cbn [nth_error]. rewrite Hk by (cbn in H; lia). reflexivity.
Qed.
Lemma gnuplot_fold : forall fd fn rows out,
  fold_left (fun out r => let '(p, p', c) := r in ((out ++ (fd p ++ sp ++ fn c ++ nl)) ++ (fd p' ++ sp ++ fn c ++ nl))%string) rows out =
  (out ++ String.concat "" (map (fun r : dbl * dbl * N => fd (fst (fst r)) ++ sp ++ fn (snd r) ++ nl ++ fd (snd (fst r)) ++ sp ++ fn (snd r) ++ nl)%string rows))%string.
Proof.
  assert (AA : forall a b c, ((a ++ b) ++ c = a ++ (b ++ c))%string) by (induction a; intros; cbn; [reflexivity|now rewrite IHa]).
  assert (AE : forall a, (a ++ "" = a)%string) by (induction a; cbn; [reflexivity|now rewrite IHa]).
  assert (CC : forall x l, String.concat "" (x :: l) = (x ++ String.concat "" l)%string).
  { intros x l. destruct l; cbn; [now rewrite AE|reflexivity]. }
  intros fd fn. induction rows as [|[[q q'] c] rows IH]; intros out.
  - cbn. now rewrite AE.
  - cbn [fold_left map]. rewrite IH, CC. cbn [fst snd]. rewrite !AA. reflexivity.
Qed.

(** ** PairHistogram *)
Definition pair_belongs (xp yp : list dbl) (i j : nat) (v : list dbl) : bool :=
  belongs xp i (nth 0 v DNaN) && belongs yp j (nth 1 v DNaN).
Lemma wrap_add : forall a c, wrap64 (wrap64 (a + c) + 1) = wrap64 (a + (c + 1)).
Proof. intros. unfold wrap64. rewrite N.add_assoc. rewrite N.add_mod_idemp_l by discriminate. reflexivity. Qed.

Lemma phist_run : forall b xp yp nx ny G xs, subdivision xp -> subdivision yp -> length xp = nx + 1 -> length yp = ny + 1 ->
  (forall v, In v xs -> length v = 2 /\ Forall (fun c => c <> DNaN) v) ->
  exists s, run_consumer (phist_consume b) {| ph_x := xp; ph_y := yp; ph_rows := nx; ph_cols := ny; ph_bins := G |} xs = Ok s /\
    ph_x s = xp /\ ph_y s = yp /\ ph_rows s = nx /\ ph_cols s = ny /\
    forall i j, i < nx -> j < ny -> (G i j < two64)%N -> ph_bins s i j = wrap64 (G i j + count (pair_belongs xp yp i j) xs).
Proof.
  intros b xp yp nx ny G xs HX HY LX LY. induction xs as [|v xs IH] using rev_ind; intros Hv.
  - eexists. split; [reflexivity|]. cbn. repeat split. intros i j _ _ HG. rewrite N.add_0_r. symmetry. now apply N.mod_small.
  - destruct IH as (s & Hr & Hpx & Hpy & Hrr & Hcc & Hk); [intros; apply Hv; apply in_or_app; auto|].
    rewrite run_snoc_h, Hr. cbn [bind]. unfold phist_consume. rewrite Hpx, Hpy.
    destruct (Hv v ltac:(apply in_or_app; right; now left)) as [L2 HF].
    rewrite L2. cbn [Nat.eqb assert_then].
    destruct xp as [|x0 xp'] eqn:Ex; [cbn in LX; lia|]. destruct yp as [|y0 yp'] eqn:Ey; [cbn in LY; lia|]. rewrite <- Ex, <- Ey in *. clear Ex Ey x0 y0 xp' yp'.
    destruct v as [|v0 [|v1 [|]]]; cbn in L2; try lia. pose proof (Forall_inv HF) as N0. pose proof (Forall_inv (Forall_inv_tail HF)) as N1.
    rewrite (outside_spec xp HX v0 N0), (outside_spec yp HY v1 N1).
    assert (SAME : (forall i j, i < nx -> j < ny -> belongs xp i v0 && belongs yp j v1 = false) ->
      exists s0, Ok s = Ok s0 /\ ph_x s0 = xp /\ ph_y s0 = yp /\ ph_rows s0 = nx /\ ph_cols s0 = ny /\
      forall i j, i < nx -> j < ny -> (G i j < two64)%N -> ph_bins s0 i j = wrap64 (G i j + count (pair_belongs xp yp i j) (xs ++ [[v0; v1]]))).
    { intros HN. exists s. repeat split; auto. intros i j Hi Hj HG. rewrite Hk by assumption. rewrite count_snoc.
      unfold pair_belongs at 3. cbn [nth]. rewrite HN by assumption. f_equal. lia. }
    destruct (in_range xp v0) eqn:EX; cbn [negb].
    2:{ apply SAME. intros i j Hi Hj. destruct (belongs xp i v0) eqn:E; [|reflexivity]. rewrite (belongs_range xp HX v0 i ltac:(lia) E) in EX. discriminate. }
    destruct (in_range yp v1) eqn:EY; cbn [negb].
    2:{ apply SAME. intros i j Hi Hj. destruct (belongs yp j v1) eqn:E; [|now rewrite andb_false_r]. rewrite (belongs_range yp HY v1 j ltac:(lia) E) in EY. discriminate. }
    unfold pbin_number. rewrite !front_p, !back_p by assumption. unfold in_range in EX, EY. rewrite EX, EY. cbn [assert_then bind].
    fold (in_range xp v0) in EX. fold (in_range yp v1) in EY. rewrite Hrr, Hcc.
    assert (PX : 0 < nx /\ bin_of xp v0 < nx).
    { destruct (exactly_one xp v0 HX EX) as (k & Hk' & _). split; [lia|]. destruct (bin_spec xp HX v0 0 EX ltac:(lia)). lia. }
    assert (PY : 0 < ny /\ bin_of yp v1 < ny).
    { destruct (exactly_one yp v1 HY EY) as (k & Hk' & _). split; [lia|]. destruct (bin_spec yp HY v1 0 EY ltac:(lia)). lia. }
    destruct (Nat.ltb_spec (bin_of xp v0) nx) as [_|C]; [|lia]. destruct (Nat.ltb_spec (bin_of yp v1) ny) as [_|C]; [|lia]. cbn [andb].
    eexists. split; [reflexivity|]. cbn [ph_x ph_y ph_rows ph_cols ph_bins]. repeat split; auto.
    intros i j Hi Hj HG. rewrite count_snoc. unfold pair_belongs at 2. cbn [nth].
    destruct (bin_spec xp HX v0 i EX ltac:(lia)) as [_ ->]. destruct (bin_spec yp HY v1 j EY ltac:(lia)) as [_ ->].
    rewrite Hk by assumption. destruct ((i =? bin_of xp v0) && (j =? bin_of yp v1)); [apply wrap_add|]. f_equal. lia.
Qed.

Lemma store_ok : forall A (v : A) l k, k < length l -> exists r, store l k v = Ok r /\ length r = length l /\
  forall j, nth_error r j = if j =? k then Some v else nth_error l j.
Proof.
  intros A v. induction l as [|a l IH]; intros k Hk; cbn in Hk; [lia|]. destruct k as [|k].
  - exists (v :: l). repeat split. intros [|j]; reflexivity.
  - destruct (IH k ltac:(lia)) as (r & Hr & Hl & Hn). exists (a :: r). cbn [store]. rewrite Hr. cbn. repeat split; [lia|].
    intros [|j]; [reflexivity|]. cbn. apply Hn.
Qed.
Lemma for_each_seq : forall St (f : nat -> St -> outcome St) (I : nat -> St -> Prop) n s,
  (forall k s, k < n -> I k s -> exists s', f k s = Ok s' /\ I (S k) s') -> I 0 s -> exists s', for_each f (seq 0 n) s = Ok s' /\ I n s'.
Proof.
  intros St f I n. assert (H : forall m a s, (forall k s, a <= k < a + m -> I k s -> exists s', f k s = Ok s' /\ I (S k) s') -> I a s ->
    exists s', for_each f (seq a m) s = Ok s' /\ I (a + m) s').
  { induction m as [|m IH]; intros a s H H0.
    - exists s. rewrite Nat.add_0_r. split; [reflexivity|exact H0].
    - destruct (H a s ltac:(lia) H0) as (s1 & H1 & H2). destruct (IH (S a) s1) as (s2 & H3 & H4); [intros; apply H; [lia|assumption]|exact H2|].
      exists s2. cbn [seq for_each]. rewrite H1. cbn [bind]. replace (a + S m) with (S a + m) by lia. auto. }
  intros s H1 H2. apply (H n 0 s); [|exact H2]. intros; apply H1; [lia|assumption].
Qed.
Lemma flat_bin_small : forall R C x y, x < R -> y < C -> (N.of_nat R * N.of_nat C <= two32)%N -> flat_bin C x y = x * C + y /\ x * C + y < R * C.
Proof.
  intros R C x y Hx Hy HB. assert (x * C + y < R * C) by nia. split; [|assumption]. unfold flat_bin, wrap32. rewrite N.mod_small; lia.
Qed.
Lemma phist_get_ok : forall s, length (ph_x s) = ph_rows s + 1 -> length (ph_y s) = ph_cols s + 1 ->
  (N.of_nat (ph_rows s) * N.of_nat (ph_cols s) <= two32)%N ->
  exists rows, phist_get s = Ok rows /\ length rows = ph_rows s * ph_cols s /\
    forall i j, i < ph_rows s -> j < ph_cols s -> nth_error rows (i * ph_cols s + j) =
      Some ((nth i (ph_x s) DNaN, nth j (ph_y s) DNaN), (nth (i + 1) (ph_x s) DNaN, nth (j + 1) (ph_y s) DNaN), ph_bins s i j).
Proof.
  intros s LX LY HB. set (R := ph_rows s) in *. set (C := ph_cols s) in *.
  set (row := fun i j => ((nth i (ph_x s) DNaN, nth j (ph_y s) DNaN), (nth (i + 1) (ph_x s) DNaN, nth (j + 1) (ph_y s) DNaN), ph_bins s i j)).
  assert (PT : forall l k, k < length l -> pt l k = Ok (nth k l DNaN)) by (intros l k Hk; unfold pt; now rewrite (nth_error_nth' _ DNaN)).
  unfold phist_get. fold R C.
  destruct (for_each_seq _ (fun x_bin => for_each (fun y_bin table =>
      do x0 <- pt (ph_x s) x_bin; do y0 <- pt (ph_y s) y_bin;
      do x1 <- pt (ph_x s) (x_bin + 1); do y1 <- pt (ph_y s) (y_bin + 1);
      store table (flat_bin C x_bin y_bin) ((x0, y0), (x1, y1), ph_bins s x_bin y_bin)) (seq 0 C))
    (fun x t => length t = R * C /\ forall i j, i < x -> j < C -> nth_error t (i * C + j) = Some (row i j)) R
    (repeat ((DFin 0, DFin 0), (DFin 0, DFin 0), 0%N) (R * C))) as (r & Hr & Hl & Hn).
  - intros x t Hx [Ht1 Ht2].
    destruct (for_each_seq _ (fun y_bin table =>
      do x0 <- pt (ph_x s) x; do y0 <- pt (ph_y s) y_bin;
      do x1 <- pt (ph_x s) (x + 1); do y1 <- pt (ph_y s) (y_bin + 1);
      store table (flat_bin C x y_bin) ((x0, y0), (x1, y1), ph_bins s x y_bin))
      (fun y t => length t = R * C /\ (forall i j, i < x -> j < C -> nth_error t (i * C + j) = Some (row i j)) /\
                  forall j, j < y -> nth_error t (x * C + j) = Some (row x j)) C t) as (r & Hr & Hl & Hn1 & Hn2).
    + intros y t' Hy (H1 & H2 & H3). rewrite !PT by lia. cbn [bind]. destruct (flat_bin_small R C x y Hx Hy HB) as [-> Hlt].
      destruct (store_ok _ (row x y) t' (x * C + y) ltac:(lia)) as (r & Hr & Hl & Hn). exists r. split; [exact Hr|]. split; [lia|]. split.
      * intros i j Hi Hj. rewrite Hn. destruct (Nat.eqb_spec (i * C + j) (x * C + y)) as [E|_]; [exfalso; nia|]. now apply H2.
      * intros j Hj. rewrite Hn. destruct (Nat.eqb_spec (x * C + j) (x * C + y)) as [E|E]; [now replace j with y by lia|]. apply H3. lia.
    + repeat split; auto. intros; lia.
    + exists r. split; [exact Hr|]. split; [exact Hl|]. intros i j Hi Hj. destruct (Nat.eq_dec i x) as [->|N]; [now apply Hn2|]. apply Hn1; [lia|exact Hj].
  - split; [now rewrite repeat_length|]. intros; lia.
  - exists r. auto.
Qed.
