(** Property theorems about Histogram and PairHistogram (C20 - C22, C48, and C39 for the histograms and CountSamples). *)
From Coq Require Import String Ascii QArith Reals Permutation SpecFloat.
From Flocq Require Import Core.
From Verif Require Import Prelude ConsumerModel HistModel HistSpec HistProofs HistFloat HistTop.
Local Open Scope bool_scope.
Local Open Scope nat_scope.
Local Open Scope list_scope.
Local Notation length := List.length.
Definition i (z : Z) : dbl := DFin (inject_Z z).

(** C20: for every subdivision and every stream without NaN, get() returns for each bin its end points and the number of samples that belong to it,
    and the counts add up to the number of samples in [p_0, p_n). *)
Theorem C20_histogram_counts :
  forall (b : build) (pts : list dbl) (n : nat) (xs : list dbl),
  subdivision pts -> length pts = n + 1 -> (forall v, In v xs -> v <> DNaN) -> (N.of_nat (length xs) < 2 ^ 64)%N ->
  exists s rows, run_consumer (hist_consume b) {| h_pts := pts; h_bins := repeat 0%N n |} xs = Ok s /\ hist_get s = Ok rows /\
    rows = map (fun k => (nth k pts DNaN, nth (k + 1) pts DNaN, count (belongs pts k) xs)) (seq 0 n) /\
    total (map snd rows) = count (in_range pts) xs.
Proof. exact hist_total. Qed.
Print Assumptions C20_histogram_counts.
Example C20_counts_example :
  subdivision [i 0; i 1; i 3] /\
  exists s, run_consumer (hist_consume Debug) {| h_pts := [i 0; i 1; i 3]; h_bins := [0; 0]%N |} [i 0; i 1; i 2; i 3; i (-1); DPInf; DNInf] = Ok s /\
    hist_get s = Ok [(i 0, i 1, 2%N); (i 1, i 3, 1%N)].
Proof.
  split; [apply increasing_subdivision; [cbn; lia|reflexivity]|]. eexists. split; reflexivity.
Qed.
(** C20: every number in [p_0, p_n) belongs to exactly one interval. *)
Theorem C20_exactly_one_bin :
  forall (pts : list dbl) (v : dbl), subdivision pts -> in_range pts v = true ->
  exists k, k < length pts - 1 /\ forall b, b < length pts - 1 -> (belongs pts b v = true <-> b = k).
Proof. exact exactly_one. Qed.
Print Assumptions C20_exactly_one_bin.
Example C20_exactly_one_example : in_range [i 0; i 1; i 3] (i 1) = true /\ belongs [i 0; i 1; i 3] 0 (i 1) = true /\ belongs [i 0; i 1; i 3] 1 (i 1) = false.
Proof. repeat split. Qed.
(** C20: the first constructor makes, in exact arithmetic, n bins of equal width from min to max, all counts zero. *)
Theorem C20_constructor :
  forall (b : build) (mn mx : Q) (n : nat), (mn < mx)%Q ->
  exists pts, hist_new b (DFin mn) (DFin mx) n (fun k => DFin (exact_point mn mx n k)) = Ok {| h_pts := pts; h_bins := repeat 0%N n |} /\
    length pts = n + 1 /\ subdivision pts /\ (0 < n -> deq (nth 0 pts DNaN) (DFin mn) = true) /\ nth n pts DNaN = DFin mx /\
    (forall k, k < n -> nth k pts DNaN = DFin (mn + inject_Z (Z.of_nat k) * ((mx - mn) / inject_Z (Z.of_nat n)))%Q) /\
    forall k, k < n -> dlt (nth k pts DNaN) (nth (k + 1) pts DNaN) = true.
Proof. exact hist_new_correct. Qed.
Print Assumptions C20_constructor.
Example C20_constructor_example : (0 < 10)%Q. Proof. reflexivity. Qed.
(** C20: in IEEE double arithmetic the break points are still in non-decreasing order, from min to max, if the range is not tiny. *)
Theorem C20_break_points_in_double_arithmetic :
  forall (mn mx : R) (n : nat), is_double mn -> is_double mx -> (0 < N.of_nat n <= 2 ^ 32)%N -> (bpow radix2 (-980) <= mx - mn)%R ->
  fl_point mn mx n 0 = mn /\ fl_point mn mx n n = mx /\ forall k, k < n -> (fl_point mn mx n k <= fl_point mn mx n (k + 1))%R.
Proof. exact fl_points_sorted. Qed.
Print Assumptions C20_break_points_in_double_arithmetic.
Example C20_double_example : is_double 0 /\ is_double 1 /\ (bpow radix2 (-980) <= 1 - 0)%R.
Proof.
  split; [apply generic_format_0|]. split.
  - replace 1%R with (bpow radix2 0) by reflexivity. apply generic_format_bpow. unfold HistFloat.fexp, FLT_exp. lia.
  - rewrite Rminus_0_r. replace 1%R with (bpow radix2 0) by reflexivity. apply bpow_le. lia.
Qed.
(** C20: that restriction is needed: Histogram(0, 15*2^-1074, 10) has the break points 16*2^-1074 and 18*2^-1074 before the last one, 15*2^-1074. *)
Theorem C20_tiny_ranges_refuted :
  let point k := sf_point (S754_zero false) (S754_finite false 15 (-1074)) 10 k in
  point 8%Z = S754_finite false 16 (-1074) /\ point 9%Z = S754_finite false 18 (-1074) /\
  SFltb (S754_finite false 15 (-1074)) (point 8%Z) = true.
Proof. cbv zeta. split; [reflexivity|]. split; reflexivity. Qed.
Print Assumptions C20_tiny_ranges_refuted.
(** C20: the second constructor, in a build with assertions: whenever it returns, the images of the equidistant points form a strictly increasing subdivision. *)
Theorem C20_constructor_with_function :
  forall (mn mx : dbl) (n : nat) (point : nat -> dbl) (f : dbl -> dbl) (h : hist), 0 < n -> hist_new_f Debug mn mx n point f = Ok h ->
  subdivision (h_pts h) /\ length (h_pts h) = n + 1 /\ h_bins h = repeat 0%N n /\ nth n (h_pts h) DNaN = f mx /\
  (forall k, k < n -> nth k (h_pts h) DNaN = f (point k)) /\ dlt mn mx = true /\
  forall k, k < n -> dlt (nth k (h_pts h) DNaN) (nth (k + 1) (h_pts h) DNaN) = true.
Proof. exact hist_new_f_correct. Qed.
Print Assumptions C20_constructor_with_function.
Example C20_constructor_f_example :
  let cube d := match d with DFin x => DFin (x * x * x)%Q | _ => d end in
  hist_new_f Debug (i 0) (i 3) 3 (fun k => i (Z.of_nat k)) cube = Ok {| h_pts := [i 0; i 1; i 8; i 27]; h_bins := [0; 0; 0]%N |} /\
  hist_new_f Debug (i 0) (i 3) 3 (fun k => i (Z.of_nat k)) (fun _ => i 0) = AssertFail.
Proof. split; reflexivity. Qed.
(** C20: the documentation drops samples larger than max; a sample equal to max is dropped as well, in every subdivision. *)
Theorem C20_right_end_point_refuted :
  forall (b : build) (pts : list dbl) (bins : list N) (m : dbl), subdivision pts -> m = last pts DNaN ->
  hist_consume b {| h_pts := pts; h_bins := bins |} m = Ok {| h_pts := pts; h_bins := bins |}.
Proof. exact right_end_dropped. Qed.
Print Assumptions C20_right_end_point_refuted.
(** C20: a NaN fails the assertion; without assertions it is counted in the first bin. *)
Theorem C20_nan :
  forall s, h_pts s <> [] ->
  hist_consume Debug s DNaN = AssertFail /\
  exists s', hist_consume Release s DNaN = Ok s' /\ h_bins s' = incr (h_bins s) 0.
Proof. exact hist_nan. Qed.
Print Assumptions C20_nan.
Example C20_nan_example : hist_consume Release {| h_pts := [i 0; i 1]; h_bins := [4%N] |} DNaN = Ok {| h_pts := [i 0; i 1]; h_bins := [5%N] |}.
Proof. reflexivity. Qed.

(** C21: get() returns one row per bin, in order, adjacent rows sharing their end point, the first starting at p_0 and the last ending at p_n, and changes nothing. *)
Theorem C21_get :
  forall s : hist, length (h_pts s) = length (h_bins s) + 1 ->
  exists rows, hist_get s = Ok rows /\ length rows = length (h_bins s) /\
    (forall k r, nth_error rows k = Some r -> snd r = nth k (h_bins s) 0%N /\ fst (fst r) = nth k (h_pts s) DNaN) /\
    (forall k r r', nth_error rows k = Some r -> nth_error rows (k + 1) = Some r' -> snd (fst r) = fst (fst r')) /\
    (forall r, nth_error rows (length rows - 1) = Some r -> snd (fst r) = last (h_pts s) DNaN).
Proof. exact get_rows. Qed.
Print Assumptions C21_get.
Example C21_get_example : hist_get {| h_pts := [i 0; i 1; i 3]; h_bins := [2; 7]%N |} = Ok [(i 0, i 1, 2%N); (i 1, i 3, 7%N)].
Proof. reflexivity. Qed.
(** C21: write_gnuplot writes for each row of get(), in order, the lines "left count" and "right count". *)
Theorem C21_write_gnuplot :
  forall (fd : dbl -> string) (fn : N -> string) (s : hist) rows, hist_get s = Ok rows ->
  hist_gnuplot fd fn s = Ok (String.concat "" (map (fun r : dbl * dbl * N =>
    fd (fst (fst r)) ++ " " ++ fn (snd r) ++ nl ++ fd (snd (fst r)) ++ " " ++ fn (snd r) ++ nl)%string rows)).
Proof. exact gnuplot_correct. Qed.
Print Assumptions C21_write_gnuplot.
Example C21_gnuplot_example :
  hist_gnuplot (fun d => "d"%string) (fun n => "n"%string) {| h_pts := [i 0; i 1; i 3]; h_bins := [2; 7]%N |}
  = Ok ("d n" ++ nl ++ "d n" ++ nl ++ "d n" ++ nl ++ "d n" ++ nl)%string.
Proof. reflexivity. Qed.
(** C21: a copy answers get() like the original, and consuming in the one does not change the other's answers. *)
Theorem C21_copy :
  forall (b : build) (s s1 : hist) (xs : list dbl), hist_get (hist_copy s) = hist_get s /\
  (run_consumer (hist_consume b) s xs = Ok s1 -> exists s2, run_consumer (hist_consume b) (hist_copy s) xs = Ok s2 /\ hist_get s2 = hist_get s1).
Proof. exact copy_correct. Qed.
Print Assumptions C21_copy.
Example C21_copy_example : exists s2, run_consumer (hist_consume Debug) (hist_copy {| h_pts := [i 0; i 1]; h_bins := [4%N] |}) [i 0; i 5] = Ok s2 /\ hist_get s2 = Ok [(i 0, i 1, 5%N)].
Proof. eexists. split; reflexivity. Qed.

(** C22: cell (i,j) of get(), at position i * ny + j, is the number of pairs in the rectangle, added to what was in the uninitialised memory [garbage]. *)
Theorem C22_pair_histogram_counts :
  forall (b : build) (xp yp : list dbl) (nx ny : nat) (garbage : nat -> nat -> N) (xs : list (list dbl)),
  subdivision xp -> subdivision yp -> length xp = nx + 1 -> length yp = ny + 1 ->
  (forall v, In v xs -> length v = 2 /\ Forall (fun c => c <> DNaN) v) -> (N.of_nat nx * N.of_nat ny <= 2 ^ 32)%N ->
  exists s rows, run_consumer (phist_consume b) {| ph_x := xp; ph_y := yp; ph_rows := nx; ph_cols := ny; ph_bins := garbage |} xs = Ok s /\
    phist_get s = Ok rows /\ length rows = nx * ny /\
    forall i j, i < nx -> j < ny -> (garbage i j < 2 ^ 64)%N ->
      nth_error rows (i * ny + j) = Some ((nth i xp DNaN, nth j yp DNaN), (nth (i + 1) xp DNaN, nth (j + 1) yp DNaN),
        ((garbage i j + count (fun v => belongs xp i (nth 0 v DNaN) && belongs yp j (nth 1 v DNaN)) xs) mod 2 ^ 64)%N).
Proof. exact phist_total. Qed.
Print Assumptions C22_pair_histogram_counts.
Example C22_counts_example :
  let s0 := {| ph_x := [i 0; i 1; i 2]; ph_y := [i 0; i 5]; ph_rows := 2; ph_cols := 1; ph_bins := fun _ _ => 100%N |} in
  exists s, run_consumer (phist_consume Debug) s0 [[i 1; i 1]; [i 0; i 7]; [DFin (3 # 2); i 0]] = Ok s /\
    phist_get s = Ok [((i 0, i 0), (i 1, i 5), 101%N); ((i 1, i 0), (i 2, i 5), 101%N)].
Proof. cbv zeta. eexists. split; reflexivity. Qed.
(** C22: the first constructor makes, in exact arithmetic, nx by ny cells of equal size; only the counts are left as they are in the memory. *)
Theorem C22_constructor :
  forall (b : build) (garbage : nat -> nat -> N) (mnx mxx mny mxy : Q) (nx ny : nat), (mnx < mxx)%Q -> (mny < mxy)%Q ->
  exists xp yp, phist_new b garbage (DFin mnx) (DFin mxx) nx (fun k => DFin (exact_point mnx mxx nx k))
                                   (DFin mny) (DFin mxy) ny (fun k => DFin (exact_point mny mxy ny k))
      = Ok {| ph_x := xp; ph_y := yp; ph_rows := nx; ph_cols := ny; ph_bins := garbage |} /\
    length xp = nx + 1 /\ length yp = ny + 1 /\ subdivision xp /\ subdivision yp /\
    nth nx xp DNaN = DFin mxx /\ nth ny yp DNaN = DFin mxy /\
    (forall k, k < nx -> nth k xp DNaN = DFin (mnx + inject_Z (Z.of_nat k) * ((mxx - mnx) / inject_Z (Z.of_nat nx)))%Q) /\
    (forall k, k < ny -> nth k yp DNaN = DFin (mny + inject_Z (Z.of_nat k) * ((mxy - mny) / inject_Z (Z.of_nat ny)))%Q).
Proof. exact phist_new_correct. Qed.
Print Assumptions C22_constructor.
Example C22_constructor_example : (0 < 10)%Q /\ (5 < 6)%Q. Proof. split; reflexivity. Qed.
(** C22: the second constructor, in a build with assertions. *)
Theorem C22_constructor_with_functions :
  forall (garbage : nat -> nat -> N) (mnx mxx : dbl) (nx : nat) (px : nat -> dbl) (fx : dbl -> dbl)
         (mny mxy : dbl) (ny : nat) (py : nat -> dbl) (fy : dbl -> dbl) (h : phist), 0 < nx -> 0 < ny ->
  phist_new_f Debug garbage mnx mxx nx px fx mny mxy ny py fy = Ok h ->
  subdivision (ph_x h) /\ subdivision (ph_y h) /\ length (ph_x h) = nx + 1 /\ length (ph_y h) = ny + 1 /\
  ph_rows h = nx /\ ph_cols h = ny /\ nth nx (ph_x h) DNaN = fx mxx /\ nth ny (ph_y h) DNaN = fy mxy /\
  (forall k, k < nx -> nth k (ph_x h) DNaN = fx (px k) /\ dlt (nth k (ph_x h) DNaN) (nth (k + 1) (ph_x h) DNaN) = true) /\
  (forall k, k < ny -> nth k (ph_y h) DNaN = fy (py k) /\ dlt (nth k (ph_y h) DNaN) (nth (k + 1) (ph_y h) DNaN) = true) /\
  dlt mnx mxx = true /\ dlt mny mxy = true.
Proof. exact phist_new_f_correct. Qed.
Print Assumptions C22_constructor_with_functions.
Example C22_constructor_f_example :
  let cube d := match d with DFin x => DFin (x * x * x)%Q | _ => d end in
  exists h, phist_new_f Debug (fun _ _ => 0%N) (i 0) (i 3) 3 (fun k => i (Z.of_nat k)) cube (i 0) (i 1) 1 (fun k => i (Z.of_nat k)) (fun d => d) = Ok h /\
    ph_x h = [i 0; i 1; i 8; i 27] /\ ph_y h = [i 0; i 1].
Proof. cbv zeta. eexists. split; [reflexivity|]. split; reflexivity. Qed.
(** C22: a copy answers get() like the original, and does so after both have consumed the same samples. *)
Theorem C22_copy :
  forall (b : build) (s : phist) (xs : list (list dbl)), phist_get (phist_copy s) = phist_get s /\
  forall s1, run_consumer (phist_consume b) s xs = Ok s1 -> exists s2, run_consumer (phist_consume b) (phist_copy s) xs = Ok s2 /\ phist_get s2 = phist_get s1.
Proof. exact phist_copy_correct. Qed.
Print Assumptions C22_copy.
(** C22: so there is initial memory with which even an unused histogram does not report zero: the documented counts are refuted. *)
Theorem C22_uninitialised_counts_refuted :
  exists (garbage : nat -> nat -> N) s,
    phist_new Debug garbage (i 0) (i 1) 1 (fun _ => i 0) (i 0) (i 1) 1 (fun _ => i 0) = Ok s /\
    phist_get s = Ok [((i 0, i 0), (i 1, i 1), 42%N)].
Proof. exact uninitialised. Qed.
Print Assumptions C22_uninitialised_counts_refuted.
(** C22: NaN components: assertion, or counted in the first row. *)
Theorem C22_nan :
  forall garbage,
  let pts := [DFin 0; DFin 1] in
  let s := {| ph_x := pts; ph_y := pts; ph_rows := 1; ph_cols := 1; ph_bins := garbage |} in
  phist_consume Debug s [DNaN; DFin (1 # 2)] = AssertFail /\
  exists s', phist_consume Release s [DNaN; DFin (1 # 2)] = Ok s' /\ ph_bins s' 0%nat 0%nat = ((garbage 0%nat 0%nat + 1) mod 2 ^ 64)%N.
Proof. exact phist_nan. Qed.
Print Assumptions C22_nan.

(** C39: a histogram does not depend on the order of the samples. *)
Theorem C39_histogram_order_independent :
  forall (b : build) (pts : list dbl) (n : nat) (xs ys : list dbl),
  subdivision pts -> length pts = n + 1 -> (forall v, In v xs -> v <> DNaN) -> (N.of_nat (length xs) < 2 ^ 64)%N -> Permutation xs ys ->
  exists s s' rows, run_consumer (hist_consume b) {| h_pts := pts; h_bins := repeat 0%N n |} xs = Ok s /\
    run_consumer (hist_consume b) {| h_pts := pts; h_bins := repeat 0%N n |} ys = Ok s' /\ hist_get s = Ok rows /\ hist_get s' = Ok rows.
Proof. exact hist_perm. Qed.
Print Assumptions C39_histogram_order_independent.
Example C39_histogram_example : Permutation [i 0; i 1; i 2] [i 2; i 0; i 1] /\ subdivision [i 0; i 1; i 3].
Proof.
  split; [apply Permutation_sym, (Permutation_cons_append [i 0; i 1] (i 2))|apply increasing_subdivision; [cbn; lia|reflexivity]].
Qed.
Theorem C39_pair_histogram_order_independent :
  forall (b : build) (xp yp : list dbl) (nx ny : nat) (garbage : nat -> nat -> N) (xs ys : list (list dbl)),
  subdivision xp -> subdivision yp -> length xp = nx + 1 -> length yp = ny + 1 ->
  (forall v, In v xs -> length v = 2 /\ Forall (fun c => c <> DNaN) v) -> (N.of_nat nx * N.of_nat ny <= 2 ^ 32)%N ->
  (forall i j, (garbage i j < 2 ^ 64)%N) -> Permutation xs ys ->
  let s0 := {| ph_x := xp; ph_y := yp; ph_rows := nx; ph_cols := ny; ph_bins := garbage |} in
  exists s s' rows, run_consumer (phist_consume b) s0 xs = Ok s /\ run_consumer (phist_consume b) s0 ys = Ok s' /\
    phist_get s = Ok rows /\ phist_get s' = Ok rows.
Proof. exact phist_perm. Qed.
Print Assumptions C39_pair_histogram_order_independent.
Theorem C39_count_order_independent :
  forall X (xs ys : list X), Permutation xs ys ->
  exists s s', run_consumer count_consume count_init xs = Ok s /\ run_consumer count_consume count_init ys = Ok s' /\ count_get s = count_get s'.
Proof. exact @count_consumer_perm. Qed.
Print Assumptions C39_count_order_independent.
Example C39_count_example : Permutation [1; 2] [2; 1]. Proof. apply perm_swap. Qed.

(** C48: six patches per cell, in the order of the cells of get(). *)
Theorem C48_six_patches_per_cell :
  forall (s : phist) (rows : list prow), phist_get s = Ok rows ->
  exists ps, phist_gnuplot s = Ok ps /\ length ps = 6 * length rows /\
    forall k r f, nth_error rows k = Some r -> f < 6 -> nth (6 * k + f) ps [] = nth f (patches r) [].
Proof. exact six_patches. Qed.
Print Assumptions C48_six_patches_per_cell.
Example C48_six_example : exists ps, phist_gnuplot {| ph_x := [i 0; i 1]; ph_y := [i 2; i 3]; ph_rows := 1; ph_cols := 1; ph_bins := fun _ _ => 9%N |} = Ok ps /\
  nth 5 ps [] = [(i 0, i 2, 9%N); (i 1, i 2, 9%N); (i 0, i 3, 9%N); (i 1, i 3, 9%N)].
Proof. eexists. split; reflexivity. Qed.
(** C48: front, back, left, right and top of the box over the cell are right. *)
Theorem C48_five_faces :
  forall r : prow, let '((x0, y0), (x1, y1), h) := r in
  is_face (nth 0 (patches r) []) [(x0, y0, 0%N); (x1, y0, 0%N); (x0, y0, h); (x1, y0, h)] /\
  is_face (nth 1 (patches r) []) [(x0, y1, 0%N); (x1, y1, 0%N); (x0, y1, h); (x1, y1, h)] /\
  is_face (nth 2 (patches r) []) [(x0, y0, 0%N); (x0, y1, 0%N); (x0, y0, h); (x0, y1, h)] /\
  is_face (nth 3 (patches r) []) [(x1, y0, 0%N); (x1, y1, 0%N); (x1, y0, h); (x1, y1, h)] /\
  is_face (nth 5 (patches r) []) [(x0, y0, h); (x1, y0, h); (x0, y1, h); (x1, y1, h)].
Proof. exact other_faces. Qed.
Print Assumptions C48_five_faces.
(** C48: the bottom face is wrong: it has the corner (x1,y0,0) twice and lacks the corner (x0,y1,0). *)
Theorem C48_bottom_face_refuted :
  forall r : prow, let '((x0, y0), (x1, y1), h) := r in
  nth 4 (patches r) [] = [(x0, y0, 0%N); (x1, y0, 0%N); (x1, y0, 0%N); (x1, y1, 0%N)] /\
  (x0 <> x1 -> y0 <> y1 -> ~ In (x0, y1, 0%N) (nth 4 (patches r) [])).
Proof. exact bottom_face. Qed.
Print Assumptions C48_bottom_face_refuted.
Example C48_bottom_example : i 0 <> i 1. Proof. discriminate. Qed.
