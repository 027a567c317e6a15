(** Histograms: the statements of the properties, assembled. *)
From Coq Require Import String Ascii QArith Permutation.
From Verif Require Import Prelude ConsumerModel ConsumerProofs HistModel HistSpec HistProofs.
Local Open Scope bool_scope.
Local Open Scope nat_scope.
Local Open Scope list_scope.
Local Notation length := List.length.

Lemma count_perm : forall A (P : A -> bool) l l', Permutation l l' -> count P l = count P l'.
Proof.
  intros A P l l' H. unfold count. f_equal. induction H; cbn; auto.
  - destruct (P x); cbn; congruence.
  - destruct (P x), (P y); reflexivity.
  - congruence.
Qed.

Lemma hist_new_correct : forall b (mn mx : Q) n, (mn < mx)%Q ->
  exists pts, hist_new b (DFin mn) (DFin mx) n (fun k => DFin (exact_point mn mx n k)) = Ok {| h_pts := pts; h_bins := repeat 0%N n |} /\
    length pts = n + 1 /\ subdivision pts /\ (0 < n -> deq (nth 0 pts DNaN) (DFin mn) = true) /\ nth n pts DNaN = DFin mx /\
    (forall k, k < n -> nth k pts DNaN = DFin (exact_point mn mx n k)) /\
    forall k, k < n -> dlt (nth k pts DNaN) (nth (k + 1) pts DNaN) = true.
Proof.
  intros b mn mx n H. eexists. unfold hist_new. rewrite (proj2 (dlt_fin mn mx) H). cbn [assert_then]. split; [reflexivity|].
  destruct (exact_subdivision mn mx n H) as (H1 & H2 & H3). split; [apply axis_length|]. split; [exact H1|]. split; [exact H3|].
  split; [apply axis_last|]. split; [intros; now apply axis_nth|exact H2].
Qed.
Lemma hist_new_f_correct : forall mn mx n point f h, 0 < n -> hist_new_f Debug mn mx n point f = Ok h ->
  subdivision (h_pts h) /\ length (h_pts h) = n + 1 /\ h_bins h = repeat 0%N n /\ nth n (h_pts h) DNaN = f mx /\
  (forall k, k < n -> nth k (h_pts h) DNaN = f (point k)) /\ dlt mn mx = true /\
  forall k, k < n -> dlt (nth k (h_pts h) DNaN) (nth (k + 1) (h_pts h) DNaN) = true.
Proof.
  intros mn mx n point f h Hn H. unfold hist_new_f in H. destruct (dlt mn mx) eqn:E1; [|discriminate]. cbn [assert_then] in H.
  destruct (increasing _) eqn:E2; [|discriminate]. cbn [assert_then] in H. injection H as <-. cbn [h_pts h_bins].
  split; [apply increasing_subdivision; [rewrite axis_length; lia|exact E2]|]. split; [apply axis_length|]. split; [reflexivity|].
  split; [apply axis_last|]. split; [intros; now apply (axis_nth n (fun bin => f (point bin)))|]. split; [reflexivity|].
  intros k Hk. apply increasing_nth; [exact E2|]. rewrite axis_length. lia.
Qed.
Lemma hist_total : forall b pts n xs, subdivision pts -> length pts = n + 1 -> (forall v, In v xs -> v <> DNaN) -> (N.of_nat (length xs) < two64)%N ->
  exists s rows, run_consumer (hist_consume b) {| h_pts := pts; h_bins := repeat 0%N n |} xs = Ok s /\ hist_get s = Ok rows /\
    rows = map (fun k => (nth k pts DNaN, nth (k + 1) pts DNaN, count (belongs pts k) xs)) (seq 0 n) /\
    total (map snd rows) = count (in_range pts) xs.
Proof.
  intros b pts n xs H1 H2 H3 H4. destruct (hist_correct b pts n xs H1 H2 H3 H4) as (s & Hr & Hp & Hb & Ht).
  assert (HL : length (h_bins s) = n) by (rewrite Hb, map_length, seq_length; reflexivity).
  destruct (hist_rows_ok (h_bins s) (h_pts s) ltac:(rewrite Hp, HL; exact H2)) as (rows & Hg & Hl & Hk).
  exists s, rows. split; [exact Hr|]. split; [exact Hg|].
  assert (E : rows = map (fun k => (nth k pts DNaN, nth (k + 1) pts DNaN, count (belongs pts k) xs)) (seq 0 n)).
  { apply (nth_ext _ _ (DNaN, DNaN, 0%N) (nth 0 pts DNaN, nth (0 + 1) pts DNaN, count (belongs pts 0) xs)).
    - rewrite map_length, seq_length. congruence.
    - intros k Hk'. rewrite (map_nth (fun k => (nth k pts DNaN, nth (k + 1) pts DNaN, count (belongs pts k) xs)) (seq 0 n) 0 k).
      rewrite seq_nth by congruence. cbn [Nat.add]. rewrite Hl, HL in Hk'.
      erewrite nth_error_nth; [|apply Hk; congruence]. rewrite Hp. f_equal. rewrite Hb.
      rewrite (nth_indep _ 0%N (count (belongs pts 0) xs)) by (rewrite map_length, seq_length; exact Hk').
      rewrite (map_nth (fun k => count (belongs pts k) xs) (seq 0 n) 0 k), seq_nth by exact Hk'. reflexivity. }
  split; [exact E|]. rewrite E, map_map. cbn [snd]. rewrite <- Hb. exact Ht.
Qed.
Lemma hist_perm : forall b pts n xs ys, subdivision pts -> length pts = n + 1 -> (forall v, In v xs -> v <> DNaN) -> (N.of_nat (length xs) < two64)%N ->
  Permutation xs ys ->
  exists s s' rows, run_consumer (hist_consume b) {| h_pts := pts; h_bins := repeat 0%N n |} xs = Ok s /\
    run_consumer (hist_consume b) {| h_pts := pts; h_bins := repeat 0%N n |} ys = Ok s' /\ hist_get s = Ok rows /\ hist_get s' = Ok rows.
Proof.
  intros b pts n xs ys H1 H2 H3 H4 HP. destruct (hist_total b pts n xs H1 H2 H3 H4) as (s & rows & Hr & Hg & E & _).
  destruct (hist_total b pts n ys H1 H2) as (s' & rows' & Hr' & Hg' & E' & _).
  { intros v Hv. apply H3. eapply Permutation_in; [apply Permutation_sym; exact HP|exact Hv]. }
  { now rewrite <- (Permutation_length HP). }
  exists s, s', rows. repeat split; auto. rewrite Hg'. f_equal. rewrite E, E'. apply map_ext. intros k. f_equal. symmetry. now apply count_perm.
Qed.
Lemma gnuplot_correct : forall fd fn s rows, hist_get s = Ok rows ->
  hist_gnuplot fd fn s = Ok (String.concat "" (map (fun r : dbl * dbl * N =>
    fd (fst (fst r)) ++ " " ++ fn (snd r) ++ nl ++ fd (snd (fst r)) ++ " " ++ fn (snd r) ++ nl)%string rows)).
Proof. intros fd fn s rows H. unfold hist_gnuplot. rewrite H. cbn [bind]. rewrite gnuplot_fold. reflexivity. Qed.

Lemma phist_total : forall b xp yp nx ny G xs, subdivision xp -> subdivision yp -> length xp = nx + 1 -> length yp = ny + 1 ->
  (forall v, In v xs -> length v = 2 /\ Forall (fun c => c <> DNaN) v) -> (N.of_nat nx * N.of_nat ny <= 2 ^ 32)%N ->
  exists s rows, run_consumer (phist_consume b) {| ph_x := xp; ph_y := yp; ph_rows := nx; ph_cols := ny; ph_bins := G |} xs = Ok s /\
    phist_get s = Ok rows /\ length rows = nx * ny /\
    forall i j, i < nx -> j < ny -> (G i j < 2 ^ 64)%N ->
      nth_error rows (i * ny + j) = Some ((nth i xp DNaN, nth j yp DNaN), (nth (i + 1) xp DNaN, nth (j + 1) yp DNaN),
        ((G i j + count (fun v => belongs xp i (nth 0 v DNaN) && belongs yp j (nth 1 v DNaN)) xs) mod 2 ^ 64)%N).
Proof.
  intros b xp yp nx ny G xs H1 H2 H3 H4 H5 H6. destruct (phist_run b xp yp nx ny G xs H1 H2 H3 H4 H5) as (s & Hr & Hx & Hy & Hrr & Hcc & Hk).
  destruct (phist_get_ok s) as (rows & Hg & Hl & Hn); [congruence|congruence|rewrite Hrr, Hcc; exact H6|].
  exists s, rows. split; [exact Hr|]. split; [exact Hg|]. rewrite Hrr, Hcc in *. split; [exact Hl|].
  intros i j Hi Hj HG. rewrite Hn by assumption. rewrite Hx, Hy, Hk by assumption. reflexivity.
Qed.
Lemma phist_nan : forall G,
  let pts := [DFin 0; DFin 1] in
  let s := {| ph_x := pts; ph_y := pts; ph_rows := 1; ph_cols := 1; ph_bins := G |} in
  phist_consume Debug s [DNaN; DFin (1 # 2)] = AssertFail /\
  exists s', phist_consume Release s [DNaN; DFin (1 # 2)] = Ok s' /\ ph_bins s' 0 0 = wrap64 (G 0 0 + 1).
Proof. intros G. cbv zeta. split; [reflexivity|]. eexists. split; [reflexivity|]. reflexivity. Qed.
Lemma bottom_face : forall r, let '((x0, y0), (x1, y1), h) := r in
  nth 4 (patches r) [] = [(x0, y0, 0%N); (x1, y0, 0%N); (x1, y0, 0%N); (x1, y1, 0%N)] /\
  (x0 <> x1 -> y0 <> y1 -> ~ In (x0, y1, 0%N) (nth 4 (patches r) [])).
Proof.
  intros [[[x0 y0] [x1 y1]] h]. cbn. split; [reflexivity|]. intros Hx Hy [E|[E|[E|[E|[]]]]]; congruence.
Qed.
Lemma other_faces : forall r, let '((x0, y0), (x1, y1), h) := r in
  is_face (nth 0 (patches r) []) [(x0, y0, 0%N); (x1, y0, 0%N); (x0, y0, h); (x1, y0, h)] /\
  is_face (nth 1 (patches r) []) [(x0, y1, 0%N); (x1, y1, 0%N); (x0, y1, h); (x1, y1, h)] /\
  is_face (nth 2 (patches r) []) [(x0, y0, 0%N); (x0, y1, 0%N); (x0, y0, h); (x0, y1, h)] /\
  is_face (nth 3 (patches r) []) [(x1, y0, 0%N); (x1, y1, 0%N); (x1, y0, h); (x1, y1, h)] /\
  is_face (nth 5 (patches r) []) [(x0, y0, h); (x1, y0, h); (x0, y1, h); (x1, y1, h)].
Proof. intros [[[x0 y0] [x1 y1]] h]. cbn. repeat split; intros H; exact H. Qed.
Lemma flat_map_length : forall rows, length (flat_map patches rows) = 6 * length rows.
Proof. induction rows as [|[[[x0 y0] [x1 y1]] h] rows IH]; [reflexivity|]. cbn [flat_map]. rewrite app_length, IH. cbn [patches List.length]. lia. Qed.

Lemma right_end_dropped : forall b pts bins m, subdivision pts -> m = last pts DNaN ->
  hist_consume b {| h_pts := pts; h_bins := bins |} m = Ok {| h_pts := pts; h_bins := bins |}.
Proof.
  intros b pts bins m HS ->. unfold hist_consume. cbn [h_pts].
  assert (HI : In (last pts DNaN) pts).
  { destruct (exists_last (proj1 HS)) as (l & a & ->). rewrite last_last. apply in_or_app. right. now left. }
  assert (HN : last pts DNaN <> DNaN) by (now apply HS).
  assert (H : outside pts (last pts DNaN) = true).
  { unfold outside. apply orb_true_iff. right. unfold back. rewrite dle_dlt by assumption. destruct (last pts DNaN); try reflexivity. cbn.
    destruct (Qlt_le_dec q q) as [C|C]; [exfalso; exact (Qlt_irrefl _ C)|]. rewrite Bool.negb_involutive. apply Qle_bool_iff. exact C. }
  destruct pts; [destruct HS; congruence|]. now rewrite H.
Qed.
Lemma get_rows : forall s : hist, length (h_pts s) = length (h_bins s) + 1 ->
  exists rows, hist_get s = Ok rows /\ length rows = length (h_bins s) /\
    (forall k r, nth_error rows k = Some r -> snd r = nth k (h_bins s) 0%N /\ fst (fst r) = nth k (h_pts s) DNaN) /\
    (forall k r r', nth_error rows k = Some r -> nth_error rows (k + 1) = Some r' -> snd (fst r) = fst (fst r')) /\
    (forall r, nth_error rows (length rows - 1) = Some r -> snd (fst r) = last (h_pts s) DNaN).
Proof.
  intros s HL. destruct (hist_rows_ok _ _ HL) as (rows & Hg & Hl & Hk). exists rows. split; [exact Hg|]. split; [exact Hl|].
  assert (HS : forall k r, nth_error rows k = Some r -> r = (nth k (h_pts s) DNaN, nth (k + 1) (h_pts s) DNaN, nth k (h_bins s) 0%N)).
  { intros k r H. assert (k < length rows) by (apply nth_error_Some; congruence). rewrite Hk in H by lia. congruence. }
  split; [|split].
  - intros k r H. rewrite (HS k r H). auto.
  - intros k r r' H H'. rewrite (HS k r H), (HS (k + 1) r' H'). reflexivity.
  - intros r H. assert (HN : length rows - 1 < length rows) by (apply nth_error_Some; congruence). rewrite (HS _ r H). cbn [fst snd].
    replace (length rows - 1 + 1) with (length (h_pts s) - 1) by lia. clear. induction (h_pts s) as [|a [|c l] IH]; [reflexivity|reflexivity|].
    cbn [List.length last] in *. replace (S (S (length l)) - 1) with (S (S (length l) - 1)) by lia. exact IH.
Qed.
Lemma hist_copy_id : forall s, hist_copy s = s. Proof. intros []. reflexivity. Qed.
Lemma copy_correct : forall (b : build) (s s1 : hist) (xs : list dbl), hist_get (hist_copy s) = hist_get s /\
  (run_consumer (hist_consume b) s xs = Ok s1 -> exists s2, run_consumer (hist_consume b) (hist_copy s) xs = Ok s2 /\ hist_get s2 = hist_get s1).
Proof. intros b s s1 xs. rewrite hist_copy_id. split; [reflexivity|]. intros H. now exists s1. Qed.
Lemma uninitialised : exists (garbage : nat -> nat -> N) s,
    phist_new Debug garbage (DFin (inject_Z 0)) (DFin (inject_Z 1)) 1 (fun _ => DFin (inject_Z 0)) (DFin (inject_Z 0)) (DFin (inject_Z 1)) 1 (fun _ => DFin (inject_Z 0)) = Ok s /\
    phist_get s = Ok [((DFin (inject_Z 0), DFin (inject_Z 0)), (DFin (inject_Z 1), DFin (inject_Z 1)), 42%N)].
Proof. exists (fun _ _ => 42%N). eexists. split; reflexivity. Qed.
Lemma phist_perm :
  forall (b : build) (xp yp : list dbl) (nx ny : nat) (garbage : nat -> nat -> N) (xs ys : list (list dbl)),
  subdivision xp -> subdivision yp -> length xp = nx + 1 -> length yp = ny + 1 ->
  (forall v, In v xs -> length v = 2 /\ Forall (fun c => c <> DNaN) v) -> (N.of_nat nx * N.of_nat ny <= 2 ^ 32)%N ->
  (forall i j, (garbage i j < 2 ^ 64)%N) -> Permutation xs ys ->
  let s0 := {| ph_x := xp; ph_y := yp; ph_rows := nx; ph_cols := ny; ph_bins := garbage |} in
  exists s s' rows, run_consumer (phist_consume b) s0 xs = Ok s /\ run_consumer (phist_consume b) s0 ys = Ok s' /\
    phist_get s = Ok rows /\ phist_get s' = Ok rows.
Proof.
  intros b xp yp nx ny G xs ys H1 H2 H3 H4 H5 H6 HG HP. cbv zeta.
  destruct (phist_total b xp yp nx ny G xs H1 H2 H3 H4 H5 H6) as (s & rows & Hr & Hg & Hl & Hk).
  destruct (phist_total b xp yp nx ny G ys H1 H2 H3 H4) as (s' & rows' & Hr' & Hg' & Hl' & Hk'); [|exact H6|].
  { intros v Hv. apply H5. eapply Permutation_in; [apply Permutation_sym; exact HP|exact Hv]. }
  exists s, s', rows. split; [exact Hr|]. split; [exact Hr'|]. split; [exact Hg|]. rewrite Hg'. f_equal. symmetry.
  apply (nth_ext _ _ ((DNaN, DNaN), (DNaN, DNaN), 0%N) ((DNaN, DNaN), (DNaN, DNaN), 0%N)); [exact (eq_trans Hl (eq_sym Hl'))|].
  intros k Hk0'. assert (Hk0 : k < nx * ny) by (rewrite <- Hl; exact Hk0').
  assert (E : k = (k / ny) * ny + k mod ny) by (rewrite Nat.mul_comm; apply Nat.div_mod; nia).
  assert (L1 : k / ny < nx) by (apply Nat.div_lt_upper_bound; nia).
  assert (L2 : k mod ny < ny) by (apply Nat.mod_upper_bound; nia).
  rewrite E. rewrite (nth_error_nth _ _ _ (Hk _ _ L1 L2 (HG _ _))), (nth_error_nth _ _ _ (Hk' _ _ L1 L2 (HG _ _))).
  rewrite (count_perm _ _ _ _ HP). reflexivity.
Qed.
Lemma count_run : forall X (xs : list X) s, exists s', run_consumer count_consume s xs = Ok s' /\ forall ys : list X, length ys = length xs -> run_consumer count_consume s ys = Ok s'.
Proof.
  induction xs as [|x xs IH]; intros s.
  - exists s. split; [reflexivity|]. intros [|y ys] H; [reflexivity|discriminate].
  - cbn [run_consumer]. unfold count_consume at 1. cbn [bind]. destruct (IH (wrap64 (s + 1))) as (s' & H1 & H2). exists s'. split; [exact H1|].
    intros [|y ys] H; [discriminate|]. cbn [run_consumer]. unfold count_consume at 1. cbn [bind]. apply H2. cbn in H. lia.
Qed.
Lemma count_consumer_perm : forall X (xs ys : list X), Permutation xs ys ->
  exists s s', run_consumer count_consume count_init xs = Ok s /\ run_consumer count_consume count_init ys = Ok s' /\ count_get s = count_get s'.
Proof.
  intros X xs ys H. destruct (count_run X xs count_init) as (s & H1 & H2). exists s, s. split; [exact H1|]. split; [|reflexivity].
  apply H2. symmetry. now apply Permutation_length.
Qed.
Lemma six_patches : forall (s : phist) (rows : list prow), phist_get s = Ok rows ->
  exists ps, phist_gnuplot s = Ok ps /\ length ps = 6 * length rows /\
    forall k r f, nth_error rows k = Some r -> f < 6 -> nth (6 * k + f) ps [] = nth f (patches r) [].
Proof.
  intros s rows H. exists (flat_map patches rows). split; [unfold phist_gnuplot; now rewrite H|]. split; [apply flat_map_length|].
  clear H. induction rows as [|[[[x0 y0] [x1 y1]] h] rows IH]; intros k r f Hk Hf; [destruct k; discriminate|].
  cbn [flat_map]. set (p := patches (x0, y0, (x1, y1), h)). assert (HL : length p = 6) by reflexivity.
  destruct k as [|k].
  - injection Hk as <-. rewrite Nat.mul_0_r, Nat.add_0_l, app_nth1 by lia. reflexivity.
  - rewrite app_nth2 by lia. replace (6 * S k + f - length p) with (6 * k + f) by lia. now apply IH.
Qed.

Lemma phist_new_correct : forall b G (mnx mxx mny mxy : Q) nx ny, (mnx < mxx)%Q -> (mny < mxy)%Q ->
  exists xp yp, phist_new b G (DFin mnx) (DFin mxx) nx (fun k => DFin (exact_point mnx mxx nx k))
                             (DFin mny) (DFin mxy) ny (fun k => DFin (exact_point mny mxy ny k))
      = Ok {| ph_x := xp; ph_y := yp; ph_rows := nx; ph_cols := ny; ph_bins := G |} /\
    length xp = nx + 1 /\ length yp = ny + 1 /\ subdivision xp /\ subdivision yp /\
    nth nx xp DNaN = DFin mxx /\ nth ny yp DNaN = DFin mxy /\
    (forall k, k < nx -> nth k xp DNaN = DFin (mnx + inject_Z (Z.of_nat k) * ((mxx - mnx) / inject_Z (Z.of_nat nx)))%Q) /\
    (forall k, k < ny -> nth k yp DNaN = DFin (mny + inject_Z (Z.of_nat k) * ((mxy - mny) / inject_Z (Z.of_nat ny)))%Q).
Proof.
  intros b G mnx mxx mny mxy nx ny Hx Hy. do 2 eexists. unfold phist_new.
  rewrite (proj2 (dlt_fin mnx mxx) Hx), (proj2 (dlt_fin mny mxy) Hy). cbn [assert_then]. split; [reflexivity|].
  destruct (exact_subdivision mnx mxx nx Hx) as (H1 & _ & _). destruct (exact_subdivision mny mxy ny Hy) as (H2 & _ & _).
  repeat split; try apply axis_length; try apply axis_last; try apply H1; try apply H2; intros; now apply axis_nth.
Qed.
Lemma phist_new_f_correct : forall G mnx mxx nx px fx mny mxy ny py fy h, 0 < nx -> 0 < ny ->
  phist_new_f Debug G mnx mxx nx px fx mny mxy ny py fy = Ok h ->
  subdivision (ph_x h) /\ subdivision (ph_y h) /\ length (ph_x h) = nx + 1 /\ length (ph_y h) = ny + 1 /\
  ph_rows h = nx /\ ph_cols h = ny /\ nth nx (ph_x h) DNaN = fx mxx /\ nth ny (ph_y h) DNaN = fy mxy /\
  (forall k, k < nx -> nth k (ph_x h) DNaN = fx (px k) /\ dlt (nth k (ph_x h) DNaN) (nth (k + 1) (ph_x h) DNaN) = true) /\
  (forall k, k < ny -> nth k (ph_y h) DNaN = fy (py k) /\ dlt (nth k (ph_y h) DNaN) (nth (k + 1) (ph_y h) DNaN) = true) /\
  dlt mnx mxx = true /\ dlt mny mxy = true.
Proof.
  intros G mnx mxx nx px fx mny mxy ny py fy h Hx Hy H. unfold phist_new_f in H.
  destruct (dlt mnx mxx) eqn:E1; [|discriminate]. cbn [assert_then] in H.
  destruct (increasing (axis_points nx _ _)) eqn:E2; [|discriminate]. cbn [assert_then] in H.
  destruct (dlt mny mxy) eqn:E3; [|discriminate]. cbn [assert_then] in H.
  destruct (increasing (axis_points ny _ _)) eqn:E4; [|discriminate]. cbn [assert_then] in H. injection H as <-. cbn [ph_x ph_y ph_rows ph_cols].
  split; [apply increasing_subdivision; [rewrite axis_length; lia|exact E2]|].
  split; [apply increasing_subdivision; [rewrite axis_length; lia|exact E4]|].
  split; [apply axis_length|]. split; [apply axis_length|]. split; [reflexivity|]. split; [reflexivity|].
  split; [apply axis_last|]. split; [apply axis_last|].
  split; [|split; [|split; reflexivity]].
  - intros k Hk. split; [now apply (axis_nth nx (fun bin => fx (px bin)))|]. apply increasing_nth; [exact E2|]. rewrite axis_length. lia.
  - intros k Hk. split; [now apply (axis_nth ny (fun bin => fy (py bin)))|]. apply increasing_nth; [exact E4|]. rewrite axis_length. lia.
Qed.
Lemma phist_copy_correct : forall (b : build) (s : phist) (xs : list (list dbl)), phist_get (phist_copy s) = phist_get s /\
  forall s1, run_consumer (phist_consume b) s xs = Ok s1 -> exists s2, run_consumer (phist_consume b) (phist_copy s) xs = Ok s2 /\ phist_get s2 = phist_get s1.
Proof. intros b [x y r c g] xs. split; [reflexivity|]. intros s1 H. now exists s1. Qed.
