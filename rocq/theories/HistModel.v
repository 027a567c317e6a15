(** Model of Histogram and PairHistogram. Doubles are [dbl] (ConsumerModel): NaN, infinities, finite numbers. Samples of other
    arithmetic types are taken to be converted to double exactly. *)
From Coq Require Import String Ascii QArith.
From Verif Require Import Prelude ConsumerModel.
Local Open Scope bool_scope.
Local Open Scope nat_scope.

(** IEEE [a <= b] *)
Definition dle (a b : dbl) : bool := dlt a b || deq a b.

(** ** The subdivision of an axis *)

(** interval_points as filled by the loops of histogram.impl.h:255-261 and 281-287 (pair_histogram.impl.h:284-290, 297-301, 332-338, 353-357):
    [point bin] is the double that [f(min + bin*delta)] evaluates to, [last] is [f(max)]. n_bins is at most 2^32 - 2 (n_bins+1 is
    computed in unsigned int). *)
Definition axis_points (n_bins : nat) (point : nat -> dbl) (last : dbl) : list dbl :=
  map point (seq 0 n_bins) ++ [last].
(** [assert (interval_points[bin] < interval_points[bin+1])] for all bins, histogram.impl.h:292-295 *)
Fixpoint increasing (pts : list dbl) : bool :=
  match pts with
  | p :: (p' :: _) as r => dlt p p' && increasing r
  | _ => true
  end.
(** Constructor with min_value, max_value, n_bins: histogram.impl.h:243-262. The bins of a std::vector are zero. *)
Record hist := { h_pts : list dbl; h_bins : list N }.
Definition hist_new (b : build) (min max : dbl) (n_bins : nat) (point : nat -> dbl) : outcome hist :=
  assert_then b (dlt min max) (Ok {| h_pts := axis_points n_bins point max; h_bins := repeat 0%N n_bins |}).
(** In exact arithmetic the points are min + bin * ((max - min)/n_bins). *)
Definition exact_point (min max : Q) (n_bins : nat) (bin : nat) : Q :=
  (min + inject_Z (Z.of_nat bin) * ((max - min) / inject_Z (Z.of_nat n_bins)))%Q.
(** Constructor with a transformation f: histogram.impl.h:268-296. *)
Definition hist_new_f (b : build) (min_pre max_pre : dbl) (n_bins : nat) (point : nat -> dbl) (f : dbl -> dbl) : outcome hist :=
  let pts := axis_points n_bins (fun bin => f (point bin)) (f max_pre) in
  assert_then b (dlt min_pre max_pre) (assert_then b (increasing pts) (Ok {| h_pts := pts; h_bins := repeat 0%N n_bins |})).
(** Copy constructor, histogram.impl.h:303-310. *)
Definition hist_copy (o : hist) : hist := {| h_pts := h_pts o; h_bins := h_bins o |}.

(** std::lower_bound on a sorted range: the position of the first element that is not < value. *)
Fixpoint lower_bound (pts : list dbl) (v : dbl) : nat :=
  match pts with
  | [] => 0
  | p :: pts' => if dlt p v then S (lower_bound pts' v) else 0
  end.
(** [p == begin() ? 0 : p - begin() - 1], histogram.impl.h:415-418 *)
Definition bin_of (pts : list dbl) (v : dbl) : nat := lower_bound pts v - 1.
(** interval_points.front(), back(): undefined for an empty vector. *)
Definition front (pts : list dbl) : dbl := hd DNaN pts.
Definition back (pts : list dbl) : dbl := last pts DNaN.
(** [bin_number], histogram.impl.h:403-419: asserts [value >= front && value <= back]. *)
Definition bin_number (b : build) (pts : list dbl) (v : dbl) : outcome nat :=
  assert_then b (dle (front pts) v && dle v (back pts)) (Ok (bin_of pts v)).

(** ++bins[bin] on std::size_t *)
Fixpoint incr (bins : list N) (bin : nat) : list N :=
  match bins, bin with
  | c :: bins', 0 => wrap64 (c + 1) :: bins'
  | c :: bins', S k => c :: incr bins' k
  | [], _ => []
  end.
(** [sample < front || sample >= back], histogram.impl.h:331 *)
Definition outside (pts : list dbl) (v : dbl) : bool := dlt v (front pts) || dle (back pts) v.
(** [Histogram::consume], histogram.impl.h:328-342. *)
Definition hist_consume (b : build) (s : hist) (v : dbl) : outcome hist :=
  match h_pts s with
  | [] => UB
  | _ :: _ =>
    if outside (h_pts s) v then Ok s else
    do bin <- bin_number b (h_pts s) v;
    if bin <? length (h_bins s) then Ok {| h_pts := h_pts s; h_bins := incr (h_bins s) bin |} else Ok s
  end.
(** [Histogram::get], histogram.impl.h:350-372; interval_points[bin+1] is in range since there is one point more than bins. *)
Fixpoint hist_rows (pts : list dbl) (bins : list N) : outcome (list (dbl * dbl * N)) :=
  match bins, pts with
  | [], _ => Ok []
  | c :: bins', p :: (p' :: _) as r => do rest <- hist_rows r bins'; Ok ((p, p', c) :: rest)
  | _ :: _, _ => UB
  end.
Definition hist_get (s : hist) : outcome (list (dbl * dbl * N)) := hist_rows (h_pts s) (h_bins s).
(** [Histogram::write_gnuplot], histogram.impl.h:380-395; [fd], [fn] is what operator<< writes for a double and for a count. *)
Definition sp : string := " ".
Definition hist_gnuplot (fd : dbl -> string) (fn : N -> string) (s : hist) : outcome string :=
  do rows <- hist_get s;
  Ok (fold_left (fun out r => let '(p, p', c) := r in
        ((out ++ (fd p ++ sp ++ fn c ++ nl)) ++ (fd p' ++ sp ++ fn c ++ nl))%string) rows EmptyString).

(** ** PairHistogram *)

Record phist := { ph_x : list dbl; ph_y : list dbl; ph_rows : nat; ph_cols : nat; ph_bins : nat -> nat -> N }.
(** The constructors, pair_histogram.impl.h:266-304 and 312-365; [garbage] stands for the memory of the Eigen matrix, which the constructor
    does not initialise. *)
Definition phist_new (b : build) (garbage : nat -> nat -> N)
    (minx maxx : dbl) (nx : nat) (px : nat -> dbl) (miny maxy : dbl) (ny : nat) (py : nat -> dbl) : outcome phist :=
  assert_then b (dlt minx maxx) (assert_then b (dlt miny maxy)
    (Ok {| ph_x := axis_points nx px maxx; ph_y := axis_points ny py maxy; ph_rows := nx; ph_cols := ny; ph_bins := garbage |})).
Definition phist_new_f (b : build) (garbage : nat -> nat -> N)
    (minx maxx : dbl) (nx : nat) (px : nat -> dbl) (fx : dbl -> dbl) (miny maxy : dbl) (ny : nat) (py : nat -> dbl) (fy : dbl -> dbl) : outcome phist :=
  let xs := axis_points nx (fun bin => fx (px bin)) (fx maxx) in
  let ys := axis_points ny (fun bin => fy (py bin)) (fy maxy) in
  assert_then b (dlt minx maxx) (assert_then b (increasing xs) (assert_then b (dlt miny maxy) (assert_then b (increasing ys)
    (Ok {| ph_x := xs; ph_y := ys; ph_rows := nx; ph_cols := ny; ph_bins := garbage |})))).
(** Copy constructor, pair_histogram.impl.h:373-382. *)
Definition phist_copy (o : phist) : phist :=
  {| ph_x := ph_x o; ph_y := ph_y o; ph_rows := ph_rows o; ph_cols := ph_cols o; ph_bins := ph_bins o |}.
(** [x_bin_number], [y_bin_number], pair_histogram.impl.h:558-574 and 584-600: these assert [value < back]. *)
Definition pbin_number (b : build) (pts : list dbl) (v : dbl) : outcome nat :=
  assert_then b (dle (front pts) v && dlt v (back pts)) (Ok (bin_of pts v)).
(** [PairHistogram::consume], pair_histogram.impl.h:404-426; sample[0], sample[1] of a shorter sample are undefined behaviour. *)
Definition phist_consume (b : build) (s : phist) (sample : list dbl) : outcome phist :=
  assert_then b (length sample =? 2)
  (match ph_x s, ph_y s with
   | _ :: _, _ :: _ =>
     match sample with
     | [] => UB
     | v0 :: r =>
       if outside (ph_x s) v0 then Ok s else
       match r with
       | [] => UB
       | v1 :: _ =>
         if outside (ph_y s) v1 then Ok s else
         do xb <- pbin_number b (ph_x s) v0;
         do yb <- pbin_number b (ph_y s) v1;
         if (xb <? ph_rows s) && (yb <? ph_cols s)
         then Ok {| ph_x := ph_x s; ph_y := ph_y s; ph_rows := ph_rows s; ph_cols := ph_cols s;
                    ph_bins := fun i j => if (i =? xb) && (j =? yb) then wrap64 (ph_bins s i j + 1) else ph_bins s i j |}
         else Ok s
       end
     end
   | _, _ => UB
   end).

(** [return_value[bin] = v] *)
Fixpoint store {A} (l : list A) (k : nat) (v : A) : outcome (list A) :=
  match l, k with
  | [], _ => UB
  | _ :: l', 0 => Ok (v :: l')
  | a :: l', S k' => do r <- store l' k' v; Ok (a :: r)
  end.
Fixpoint for_each {A St} (f : A -> St -> outcome St) (l : list A) (s : St) : outcome St :=
  match l with [] => Ok s | a :: l' => do s' <- f a s; for_each f l' s' end.
(** The value of bin number [x_bin * cols + y_bin], truncated to unsigned int (pair_histogram.impl.h:447, 458). *)
Definition flat_bin (cols x y : nat) : nat := N.to_nat (wrap32 (N.of_nat x * N.of_nat cols + N.of_nat y)).
(** A row of the table: bottom left, top right, count. *)
Definition prow : Type := (dbl * dbl) * (dbl * dbl) * N.
Definition pt (pts : list dbl) (k : nat) : outcome dbl := match nth_error pts k with Some p => Ok p | None => UB end.
(** One pass of the loops of pair_histogram.impl.h:444-450 and 455-460 ([PairHistogram::get], 436-463) together: the two passes write different components of the same entries. *)
Definition phist_get (s : phist) : outcome (list prow) :=
  for_each (fun x_bin => for_each (fun y_bin table =>
      do x0 <- pt (ph_x s) x_bin; do y0 <- pt (ph_y s) y_bin;
      do x1 <- pt (ph_x s) (x_bin + 1); do y1 <- pt (ph_y s) (y_bin + 1);
      store table (flat_bin (ph_cols s) x_bin y_bin) ((x0, y0), (x1, y1), ph_bins s x_bin y_bin))
    (seq 0 (ph_cols s))) (seq 0 (ph_rows s))
    (repeat ((DFin 0, DFin 0), (DFin 0, DFin 0), 0%N) (ph_rows s * ph_cols s)).

(** [PairHistogram::write_gnuplot], pair_histogram.impl.h:473-548: for each bin six patches of two lines of two points (x, y, z) each. The text format is
    abstracted away: a patch is the list of its four points in the order in which they are written. *)
Definition point3 : Type := dbl * dbl * N.
Definition patches (r : prow) : list (list point3) :=
  let '((x0, y0), (x1, y1), height) := r in
  [ [(x0, y0, 0%N); (x1, y0, 0%N); (x0, y0, height); (x1, y0, height)];       (* front, 498-503 *)
    [(x0, y1, 0%N); (x1, y1, 0%N); (x0, y1, height); (x1, y1, height)];       (* back, 506-511 *)
    [(x0, y0, 0%N); (x0, y1, 0%N); (x0, y0, height); (x0, y1, height)];       (* left, 514-519 *)
    [(x1, y0, 0%N); (x1, y1, 0%N); (x1, y0, height); (x1, y1, height)];       (* right, 522-527 *)
    [(x0, y0, 0%N); (x1, y0, 0%N); (x1, y0, 0%N); (x1, y1, 0%N)];             (* bottom, 530-535 *)
    [(x0, y0, height); (x1, y0, height); (x0, y1, height); (x1, y1, height)]  (* top, 538-543 *) ].
Definition phist_gnuplot (s : phist) : outcome (list (list point3)) :=
  do rows <- phist_get s; Ok (flat_map patches rows).
