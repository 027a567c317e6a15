(** C22 and C80: the counts of a PairHistogram add up to the number of samples in the box. *)
From Coq Require Import Reals QArith ZArith Lra Lia.
From Flocq Require Import Core BinarySingleNaN.
From Verif Require Import Prelude ConsumerModel HistModel HistSpec PhistTotal StatsModel FloatSpec HfloSpec PfloSpec PfloTotal.
Local Open Scope R_scope.
Local Open Scope list_scope.
Local Notation length := List.length.

(** C22: if the memory of the matrix was zero, the counts add up to the number of samples (x, y) with x in [x_0, x_n) and y in [y_0, y_m): each of
    them is counted exactly once. *)
Theorem C22_counts_add_up : forall (b : build) (xp yp : list dbl) (nx ny : nat) (xs : list (list dbl)),
  subdivision xp -> subdivision yp -> length xp = (nx + 1)%nat -> length yp = (ny + 1)%nat ->
  (forall v, In v xs -> length v = 2%nat /\ Forall (fun c => c <> DNaN) v) -> (N.of_nat nx * N.of_nat ny <= 2 ^ 32)%N -> (N.of_nat (length xs) < two64)%N ->
  exists s rows, run_consumer (phist_consume b) {| ph_x := xp; ph_y := yp; ph_rows := nx; ph_cols := ny; ph_bins := fun _ _ => 0%N |} xs = Ok s /\
    phist_get s = Ok rows /\
    total (map snd rows) = count (fun v => in_range xp (nth 0 v DNaN) && in_range yp (nth 1 v DNaN))%bool xs.
Proof. exact phist_sum. Qed.
Print Assumptions C22_counts_add_up.
(** Three samples, one of them outside the box [0,2) x [0,1). *)
Example C22_counts_add_up_example :
  let xp := [DFin 0; DFin 1; DFin 2] in let yp := [DFin 0; DFin 1] in
  let xs := [[DFin 0; DFin (1 # 2)]; [DFin (3 # 2); DFin 0]; [DFin 1; DFin 1]] in
  exists s rows, run_consumer (phist_consume Debug) {| ph_x := xp; ph_y := yp; ph_rows := 2; ph_cols := 1; ph_bins := fun _ _ => 0%N |} xs = Ok s /\
    phist_get s = Ok rows /\ map snd rows = [1; 1]%N /\
    count (fun v => in_range xp (nth 0 v DNaN) && in_range yp (nth 1 v DNaN))%bool xs = 2%N.
Proof. cbv zeta. eexists. eexists. split; [reflexivity|]. split; [reflexivity|]. split; reflexivity. Qed.

(** C80: the same for the break points computed in double arithmetic, in terms of min and max. *)
Theorem C80_counts_add_up : forall mnx mxx nx mny mxy ny, good_axis mnx mxx nx -> good_axis mny mxy ny -> (N.of_nat nx * N.of_nat ny <= 2 ^ 32)%N ->
  forall (b : build) (xs : list (list f64)),
  Forall (fun v => length v = 2%nat /\ is_nan (at_ 0 v) = false /\ is_nan (at_ 1 v) = false) xs -> (N.of_nat (length xs) < 2 ^ 64)%N ->
  exists h s rows, phist_double b (fun _ _ => 0%N) mnx mxx nx mny mxy ny = Ok h /\ run_consumer (phist_consume b) h (map (map to_dbl) xs) = Ok s /\
    phist_get s = Ok rows /\
    total (map snd rows) = count (fun v => in_right_open (val mnx) (val mxx) (at_ 0 v) && in_right_open (val mny) (val mxy) (at_ 1 v))%bool xs.
Proof. exact pair_total. Qed.
Print Assumptions C80_counts_add_up.
(** Axes as assumed: C80_example. *)
Example C80_counts_add_up_example : Forall (fun v => length v = 2%nat /\ is_nan (at_ 0 v) = false /\ is_nan (at_ 1 v) = false) [[kofN b64_ops 0; kofN b64_ops 1]; [B754_infinity true; kofN b64_ops 2]].
Proof. repeat constructor. Qed.
