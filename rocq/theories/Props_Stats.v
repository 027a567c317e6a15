(** Property theorems about the statistical consumers (C12 - C17, and C39 for MeanValue and CovarianceMatrix). *)
From Coq Require Import Field QArith Qcanon Reals Lra SpecFloat Permutation.
From Coquelicot Require Import Complex.
From Verif Require Import Prelude ConsumerModel StatsModel StatsSpec StatsProofs StatsTop StatsInst StatsCosModel StatsCosSpec StatsCosProofs.
Local Open Scope nat_scope.
Local Notation len xs := (N.of_nat (length xs)).

(** The hypothesis [exact_arithmetic] of the theorems below is met by the rational, the real and the complex numbers. *)
Example exact_rationals : exact_arithmetic Qc_ops. Proof. exact Qc_exact. Qed.
Example exact_reals : exact_arithmetic R_ops. Proof. exact R_exact. Qed.
Example exact_complex : exact_arithmetic C_ops. Proof. exact C_exact. Qed.
Definition q (n : Z) (d : positive) : Qc := Q2Qc (n # d).

(** C12: in exact arithmetic get() is the mean, for every stream of at least one sample, whatever the member was initialised with. *)
Theorem C12_mean_value :
  forall (K : Type) (F : kops K), exact_arithmetic F ->
  forall (dflt : option (list K)) (xs : list (list K)) (d : nat),
  xs <> [] -> all_size d xs -> (len xs < 2 ^ 64)%N ->
  exists s m, run_consumer (mean_consume F) (mean_init dflt) xs = Ok s /\ mean_get s = Ok m /\ length m = d /\
    forall i, i < d -> nth i m (k0 F) = kdiv F (suml F (fun x => nth i x (k0 F)) xs) (kofN F (len xs)).
Proof. exact @top_mean. Qed.
Print Assumptions C12_mean_value.
Example C12_example : exists s, run_consumer (mean_consume Qc_ops) (mean_init None) [[q 1 1]; [q 2 1]; [q 4 1]; [q (-5) 1]] = Ok s /\
  mean_get s = Ok [q 1 2].
Proof. eexists. split; [vm_compute; reflexivity|]. vm_compute. do 2 f_equal. apply Qc_is_canon. reflexivity. Qed.

(** C12: the documented "default-constructed object" is returned before the first sample only for class types; for
    arithmetic types the value is indeterminate. *)
Theorem C12_no_sample_yet_refuted :
  forall (K : Type) (d : list K), mean_get (mean_init (Some d)) = Ok d /\ mean_get (@mean_init K None) = UB.
Proof. intros K d. split; reflexivity. Qed.
Print Assumptions C12_no_sample_yet_refuted.

(** C13: int samples that never decrease: the mean is computed with C++'s integer division (rounding towards zero), as
    documented, and stays within the range of the samples. *)
Theorem C13_int_mean_nondecreasing :
  forall (x : Z) (xs : list Z) (hi : Z),
  is_int x = true -> is_int hi = true -> is_int (hi - x) = true -> (len (x :: xs) < 2 ^ 64)%N ->
  nondecreasing x xs -> Forall (fun y => (y <= hi)%Z) (x :: xs) ->
  exists s, run_consumer int_mean_consume int_mean_init (x :: xs) = Ok s /\ int_mean_get s = Ok (int_running 1 x xs) /\
            (x <= int_running 1 x xs <= hi)%Z.
Proof. exact int_mean_nondecreasing. Qed.
Print Assumptions C13_int_mean_nondecreasing.
Example C13_example : exists s, run_consumer int_mean_consume int_mean_init [1; 3; 6; 6; 6]%Z = Ok s /\ int_mean_get s = Ok 3%Z /\
  int_running 1 1 [3; 6; 6; 6]%Z = 3%Z.
Proof. eexists. split; [reflexivity|]. split; reflexivity. Qed.

(** C13: in general the documented arithmetic is refuted: the sixth throw of a dice changes the mean, which should be impossible
    "once k >= 6", and takes it to a number that no dice shows. *)
Theorem C13_int_mean_dice_refuted :
  let throws := [2; 2; 2; 2; 2; 1]%Z in
  Forall (fun x => (1 <= x <= 6)%Z) throws /\ int_running 1 2 [2; 2; 2; 2; 1]%Z = 2%Z /\
  exists s s', run_consumer int_mean_consume int_mean_init (removelast throws) = Ok s /\ int_mean_get s = Ok 2%Z /\
    run_consumer int_mean_consume int_mean_init throws = Ok s' /\ int_mean_get s' = Ok (-1431655764)%Z.
Proof. cbv zeta. split; [repeat constructor; lia|]. split; [reflexivity|]. eexists. eexists. repeat split; reflexivity. Qed.
Print Assumptions C13_int_mean_dice_refuted.

(** C14: in exact arithmetic and after two or more samples, get() is the unbiased covariance, whatever the uninitialised matrix contained. *)
Theorem C14_covariance :
  forall (K : Type) (F : kops K), exact_arithmetic F ->
  forall (garbage : matrix K) (xs : list (list K)) (d : nat),
  xs <> [] -> all_size d xs -> (len xs < 2 ^ 64)%N ->
  exists s, run_consumer (cov_consume F) (cov_init garbage) xs = Ok s /\ fst (cov_get s) = d /\
    (length xs = 1 -> snd (cov_get s) = garbage) /\
    (2 <= length xs -> forall i j, i < d -> j < d -> snd (cov_get s) i j = the_covariance F xs i j).
Proof. exact @top_cov. Qed.
Print Assumptions C14_covariance.
Example C14_example : exists s, run_consumer (cov_consume Qc_ops) (cov_init (fun _ _ => q 77 3)) [[q 1 1; q 2 1]; [q 3 1; q (-1) 1]] = Ok s /\
  Qeq (this (snd (cov_get s) 0 1)) (-3 # 1) /\ Qeq (this (snd (cov_get s) 0 0)) (2 # 1).
Proof. eexists. split; [reflexivity|]. split; vm_compute; reflexivity. Qed.
Theorem C14_no_sample_yet : forall (K : Type) (garbage : matrix K), fst (cov_get (cov_init garbage)) = 0.
Proof. reflexivity. Qed.
Print Assumptions C14_no_sample_yet.
(** C14: after a single sample get() is not the zero matrix the comments promise. *)
Theorem C14_one_sample_refuted :
  forall (K : Type) (F : kops K) (garbage : matrix K) (x : list K),
  exists s, run_consumer (cov_consume F) (cov_init garbage) [x] = Ok s /\ cov_get s = (length x, garbage).
Proof. intros. eexists. split; reflexivity. Qed.
Print Assumptions C14_one_sample_refuted.
(** C14: with IEEE arithmetic the contents of the uninitialised memory do matter: an entry that was NaN stays NaN, however many samples come. *)
Theorem C14_covariance_ieee_refuted :
  forall (garbage : matrix spec_float) (xs : list (list spec_float)) s (i j : nat),
  garbage i j = S754_nan -> run_consumer (cov_consume fl_ops) (cov_init garbage) xs = Ok s -> snd (cov_get s) i j = S754_nan.
Proof. exact cov_nan. Qed.
Print Assumptions C14_covariance_ieee_refuted.
Example C14_ieee_example : exists s,
  run_consumer (cov_consume fl_ops) (cov_init (fun _ _ => S754_nan)) [[kofN fl_ops 1]; [kofN fl_ops 3]; [kofN fl_ops 3]] = Ok s.
Proof. eexists. vm_compute. reflexivity. Qed.

(** C15: AutoCovarianceTrace: no undefined behaviour while consuming; the documented estimator for n >= l+2, zero before. *)
Theorem C15_autocovariance_trace :
  forall (K : Type) (F : kops K), exact_arithmetic F ->
  forall (max_lag : nat) (xs : list (list K)) (d : nat),
  xs <> [] -> all_size d xs -> (len xs < 2 ^ 64)%N ->
  exists s, run_consumer (act_consume F max_lag) act_init xs = Ok s /\
    forall l, l <= max_lag ->
      act_get F s l = Ok (if length xs <=? l + 1 then k0 F else the_autocovariance_trace F d xs l).
Proof. exact @top_act. Qed.
Print Assumptions C15_autocovariance_trace.
Example C15_example : exists s, run_consumer (act_consume Qc_ops 1) act_init [[q 1 1]; [q 2 1]; [q 6 1]] = Ok s /\
  exists v, act_get Qc_ops s 1 = Ok v /\ Qeq (this v) (-1 # 1).
Proof. eexists. split; [reflexivity|]. eexists. split; [reflexivity|]. vm_compute. reflexivity. Qed.
(** C15: lag zero is the trace of what CovarianceMatrix computes (real samples, at least two of them). *)
Theorem C15_lag_zero_is_variance :
  forall (K : Type) (F : kops K), exact_arithmetic F ->
  forall (garbage : matrix K) (max_lag : nat) (xs : list (list K)) (d : nat),
  (forall a, kconj F a = a) -> 2 <= length xs -> all_size d xs -> (len xs < 2 ^ 64)%N ->
  exists s s', run_consumer (cov_consume F) (cov_init garbage) xs = Ok s /\ run_consumer (act_consume F max_lag) act_init xs = Ok s' /\
    act_get F s' 0 = Ok (sumn F (fun i => snd (cov_get s) i i) d).
Proof. exact @top_lag0. Qed.
Print Assumptions C15_lag_zero_is_variance.
Example C15_lag_zero_example : forall a, kconj R_ops a = a. Proof. reflexivity. Qed.
(** C15: get() before the first sample reads alpha[0] of an empty vector, although a default-constructed object is documented. *)
Theorem C15_no_sample_yet_refuted : forall (K : Type) (F : kops K) (l : nat), act_get F act_init l = UB.
Proof. intros K F l. unfold act_get. destruct l; reflexivity. Qed.
Print Assumptions C15_no_sample_yet_refuted.

(** C16: AutoCovarianceMatrix: the documented estimator plus garbage/(n-l-1); before that the garbage itself. *)
Theorem C16_autocovariance_matrix :
  forall (K : Type) (F : kops K), exact_arithmetic F ->
  forall (garbage : nat -> matrix K) (max_lag : nat) (xs : list (list K)) (d : nat),
  xs <> [] -> all_size d xs -> (len xs < 2 ^ 64)%N ->
  exists s, run_consumer (acm_consume F garbage max_lag) acm_init xs = Ok s /\
    forall l i j, l <= max_lag -> i < d -> j < d ->
      acm_get F s l i j = Ok (if length xs <=? l + 1 then garbage l i j
        else kadd F (the_autocovariance F xs l i j) (kdiv F (garbage l i j) (kofN F (len xs - N.of_nat l - 1)))).
Proof. exact @top_acm. Qed.
Print Assumptions C16_autocovariance_matrix.
Example C16_example : exists s, run_consumer (acm_consume Qc_ops (fun _ _ _ => q 8 1) 1) acm_init [[q 1 1]; [q 2 1]; [q 6 1]; [q 3 1]] = Ok s /\
  exists v, acm_get Qc_ops s 1 0 0 = Ok v /\ Qeq (this v) (7 # 2).
Proof. eexists. split; [reflexivity|]. eexists. split; [reflexivity|]. vm_compute. reflexivity. Qed.
(** C16: so an entry is right (the documented estimator, or zero while there are too few samples) exactly if its memory was zero. *)
Theorem C16_right_iff_memory_zero :
  forall (K : Type) (F : kops K), exact_arithmetic F ->
  forall (garbage : nat -> matrix K) (max_lag : nat) (xs : list (list K)) (d : nat),
  xs <> [] -> all_size d xs -> (len xs < 2 ^ 64)%N ->
  exists s, run_consumer (acm_consume F garbage max_lag) acm_init xs = Ok s /\
    forall l i j, l <= max_lag -> i < d -> j < d ->
      (acm_get F s l i j = Ok (if length xs <=? l + 1 then k0 F else the_autocovariance F xs l i j) <-> garbage l i j = k0 F).
Proof. exact @top_acm_zero. Qed.
Print Assumptions C16_right_iff_memory_zero.
(** C16: with IEEE arithmetic a NaN in the uninitialised memory stays forever. *)
Theorem C16_nan_stays :
  forall (garbage : nat -> matrix spec_float) (max_lag : nat) (xs : list (list spec_float)) s (l i j : nat),
  (forall l, garbage l i j = S754_nan) -> l <= max_lag -> xs <> [] ->
  run_consumer (acm_consume fl_ops garbage max_lag) acm_init xs = Ok s -> acm_get fl_ops s l i j = Ok S754_nan.
Proof. exact acm_nan. Qed.
Print Assumptions C16_nan_stays.
Example C16_nan_example : exists s,
  run_consumer (acm_consume fl_ops (fun _ _ _ => S754_nan) 1) acm_init [[kofN fl_ops 1]; [kofN fl_ops 3]; [kofN fl_ops 3]] = Ok s.
Proof. eexists. vm_compute. reflexivity. Qed.
(** C16: the sum of the diagonal is what AutoCovarianceTrace computes, if the memory was zero. *)
Theorem C16_diagonal_sum_is_trace :
  forall (K : Type) (F : kops K), exact_arithmetic F ->
  forall (garbage : nat -> matrix K) (max_lag : nat) (xs : list (list K)) (d : nat),
  xs <> [] -> all_size d xs -> (len xs < 2 ^ 64)%N -> (forall l i, garbage l i i = k0 F) ->
  exists s s', run_consumer (acm_consume F garbage max_lag) acm_init xs = Ok s /\ run_consumer (act_consume F max_lag) act_init xs = Ok s' /\
    forall l, l <= max_lag -> exists f, (forall i, i < d -> acm_get F s l i i = Ok (f i)) /\ act_get F s' l = Ok (sumn F f d).
Proof. exact @top_agree. Qed.
Print Assumptions C16_diagonal_sum_is_trace.
Example C16_diagonal_example : (forall l i : nat, (fun _ _ _ : nat => k0 Qc_ops) l i i = k0 Qc_ops) /\
  exists s s', run_consumer (acm_consume Qc_ops (fun _ _ _ => k0 Qc_ops) 1) acm_init [[q 1 1; q 0 1]; [q 2 1; q 3 1]; [q 6 1; q 1 1]] = Ok s /\
    run_consumer (act_consume Qc_ops 1) act_init [[q 1 1; q 0 1]; [q 2 1; q 3 1]; [q 6 1; q 1 1]] = Ok s'.
Proof. split; [reflexivity|]. eexists. eexists. split; reflexivity. Qed.

(** C17: entry i of get() is the average of the cosines between samples i+1 apart, over all pairs seen so far, and in [-1,1]; zero if there is no pair.
    The uninitialised rows of the two matrices do not matter. *)
Theorem C17_average_cosine :
  forall (history_length : N) (garbage1 garbage2 : nat -> list R) (xs : list (list R)) (d : nat),
  xs <> [] -> Forall (fun x => length x = d) xs -> Forall nonzero xs -> (0 < history_length < 2 ^ 32)%N -> (len xs < 2 ^ 32)%N ->
  exists s, run_consumer (cos_consume history_length) (cos_init garbage1 garbage2) xs = Ok s /\
    length (cos_get s) = N.to_nat history_length /\
    forall i, i < N.to_nat history_length ->
      nth i (cos_get s) 0%R = (if length xs <=? i + 1 then 0%R else average (cosines xs (i + 1))) /\
      (-1 <= nth i (cos_get s) 0 <= 1)%R.
Proof. exact cos_correct. Qed.
Print Assumptions C17_average_cosine.
Example C17_example : Forall (fun x => length x = 2) [[1; 0]; [0; 2]; [3; 0]]%R /\ Forall nonzero [[1; 0]; [0; 2]; [3; 0]]%R /\
  cosines [[1; 0]; [0; 2]; [3; 0]]%R 2 = [cos_angle [3; 0]%R [1; 0]%R].
Proof. split; [repeat constructor|]. split; [|reflexivity]. repeat constructor; lra. Qed.
(** C17: a history length of zero is undefined behaviour at the first non-empty sample. *)
Theorem C17_zero_history_refuted :
  forall garbage1 garbage2 (x : list R) xs, x <> [] -> run_consumer (cos_consume 0) (cos_init garbage1 garbage2) (x :: xs) = UB.
Proof. exact cos_zero_history. Qed.
Print Assumptions C17_zero_history_refuted.
Example C17_zero_history_example : [1%R] <> []. Proof. discriminate. Qed.
(** C17: the sample that follows 2^32 samples is left out of all averages. *)
Theorem C17_long_streams_refuted :
  forall (history_length : N) s (x : list R) s',
  cs_n s = (2 ^ 32)%N -> cos_consume history_length s x = Ok s' -> cos_get s' = cos_get s.
Proof. exact cos_wraps. Qed.
Print Assumptions C17_long_streams_refuted.
Example C17_long_streams_example : exists s', cos_consume 1
  {| cs_avg := [1%R]; cs_prev := fun _ => [1%R]; cs_repl := fun _ => [1%R]; cs_n := 2 ^ 32; cs_dim := 1 |} [(-1)%R] = Ok s'.
Proof. eexists. reflexivity. Qed.

(** C39: MeanValue and CovarianceMatrix do not depend on the order of the samples. *)
Theorem C39_mean_order_independent :
  forall (K : Type) (F : kops K), exact_arithmetic F ->
  forall (dflt dflt' : option (list K)) (xs ys : list (list K)) (d : nat),
  xs <> [] -> all_size d xs -> (len xs < 2 ^ 64)%N -> Permutation xs ys ->
  exists s s' m, run_consumer (mean_consume F) (mean_init dflt) xs = Ok s /\ run_consumer (mean_consume F) (mean_init dflt') ys = Ok s' /\
    mean_get s = Ok m /\ mean_get s' = Ok m.
Proof. exact @top_mean_perm. Qed.
Print Assumptions C39_mean_order_independent.
Theorem C39_covariance_order_independent :
  forall (K : Type) (F : kops K), exact_arithmetic F ->
  forall (garbage garbage' : matrix K) (xs ys : list (list K)) (d : nat),
  2 <= length xs -> all_size d xs -> (len xs < 2 ^ 64)%N -> Permutation xs ys ->
  exists s s', run_consumer (cov_consume F) (cov_init garbage) xs = Ok s /\ run_consumer (cov_consume F) (cov_init garbage') ys = Ok s' /\
    fst (cov_get s) = d /\ fst (cov_get s') = d /\ forall i j, i < d -> j < d -> snd (cov_get s) i j = snd (cov_get s') i j.
Proof. exact @top_cov_perm. Qed.
Print Assumptions C39_covariance_order_independent.
Example C39_example : Permutation [[q 1 1]; [q 2 1]; [q 3 1]] [[q 3 1]; [q 1 1]; [q 2 1]] /\ all_size 1 [[q 1 1]; [q 2 1]; [q 3 1]].
Proof. split; [apply (Permutation_cons_append [_; _] _) || (apply Permutation_sym, (Permutation_cons_append [[q 1 1]; [q 2 1]] [q 3 1]))|repeat constructor]. Qed.
