(** Property theorems C63, C64: what transformations of the samples and combinations of streams do to the results of the statistical consumers. *)
From Coq Require Import Field QArith Qcanon Reals Lra Permutation.
From Verif Require Import Prelude ConsumerModel StatsModel StatsSpec StatsInst StatsAffine StatsAffineTop.
Local Open Scope nat_scope.
Local Notation len xs := (N.of_nat (length xs)).
Definition q (n : Z) (d : positive) : Qc := Q2Qc (n # d).

(** C63: if each sample x is replaced by b + A x (for example by a Conversion filter that changes units or coordinates), the mean value m is replaced by b + A m. [affine F d' d A b x] is the vector with the d' components
    b_i + sum_{k<d} A_ik x_k (StatsAffine.v). *)
Theorem C63_mean_of_transformed_samples :
  forall (K : Type) (F : kops K), exact_arithmetic F ->
  forall (dflt dflt' : option (list K)) (xs : list (list K)) (d d' : nat) (A : nat -> nat -> K) (b : nat -> K),
  xs <> [] -> all_size d xs -> (len xs < 2 ^ 64)%N ->
  exists s m s', run_consumer (mean_consume F) (mean_init dflt) xs = Ok s /\ mean_get s = Ok m /\
    run_consumer (mean_consume F) (mean_init dflt') (map (affine F d' d A b) xs) = Ok s' /\ mean_get s' = Ok (affine F d' d A b m).
Proof. exact @mean_affine. Qed.
Print Assumptions C63_mean_of_transformed_samples.
(** C63: ... and the covariance matrix C by A C A^H. *)
Theorem C63_covariance_of_transformed_samples :
  forall (K : Type) (F : kops K), exact_arithmetic F ->
  forall (G G' : matrix K) (xs : list (list K)) (d d' : nat) (A : nat -> nat -> K) (b : nat -> K),
  2 <= length xs -> all_size d xs -> (len xs < 2 ^ 64)%N ->
  exists s s', run_consumer (cov_consume F) (cov_init G) xs = Ok s /\ run_consumer (cov_consume F) (cov_init G') (map (affine F d' d A b) xs) = Ok s' /\
    fst (cov_get s') = d' /\ forall i j, i < d' -> j < d' ->
      snd (cov_get s') i j = sumn F (fun k => sumn F (fun l => kmul F (kmul F (A i k) (snd (cov_get s) k l)) (kconj F (A j l))) d) d.
Proof. exact @cov_affine. Qed.
Print Assumptions C63_covariance_of_transformed_samples.
(** C63: ... and the autocovariance matrix R at each lag by A R A^T (if the memory it was put in was zero, see C16). *)
Theorem C63_autocovariance_of_transformed_samples :
  forall (K : Type) (F : kops K), exact_arithmetic F ->
  forall (G G' : nat -> matrix K) (M : nat) (xs : list (list K)) (d d' : nat) (A : nat -> nat -> K) (b : nat -> K) (h : nat),
  h <= M -> h + 2 <= length xs -> all_size d xs -> (len xs < 2 ^ 64)%N -> (forall i j, G h i j = k0 F) -> (forall i j, G' h i j = k0 F) ->
  exists s s', run_consumer (acm_consume F G M) acm_init xs = Ok s /\ run_consumer (acm_consume F G' M) acm_init (map (affine F d' d A b) xs) = Ok s' /\
    exists R : nat -> nat -> K, (forall k l, k < d -> l < d -> acm_get F s h k l = Ok (R k l)) /\
    forall i j, i < d' -> j < d' -> acm_get F s' h i j = Ok (sumn F (fun k => sumn F (fun l => kmul F (kmul F (A i k) (R k l)) (A j l)) d) d).
Proof. exact @acm_affine. Qed.
Print Assumptions C63_autocovariance_of_transformed_samples.
(** C63: ... and AutoCovarianceTrace is not changed by translations and rotations, and multiplied by c = a^2 if samples are multiplied by a (A^T A = c I). *)
Theorem C63_autocovariance_trace_of_transformed_samples :
  forall (K : Type) (F : kops K), exact_arithmetic F ->
  forall (M : nat) (xs : list (list K)) (d d' : nat) (A : nat -> nat -> K) (b : nat -> K) (c : K) (h : nat),
  h <= M -> h + 2 <= length xs -> all_size d xs -> (len xs < 2 ^ 64)%N ->
  (forall k l, k < d -> l < d -> sumn F (fun i => kmul F (A i k) (A i l)) d' = if l =? k then c else k0 F) ->
  exists s s' v, run_consumer (act_consume F M) act_init xs = Ok s /\ run_consumer (act_consume F M) act_init (map (affine F d' d A b) xs) = Ok s' /\
    act_get F s h = Ok v /\ act_get F s' h = Ok (kmul F c v).
Proof. exact @act_affine. Qed.
Print Assumptions C63_autocovariance_trace_of_transformed_samples.
(** A rotation by 90 degrees and a translation, (x, y) -> (5 - y, x); c = 1. *)
Definition rot (i k : nat) : Qc := match i, k with 0, 1 => q (-1) 1 | 1, 0 => q 1 1 | _, _ => q 0 1 end.
Definition shift (i : nat) : Qc := match i with 0 => q 5 1 | _ => q 0 1 end.
Definition data : list (list Qc) := [[q 1 1; q 2 1]; [q 3 1; q (-1) 1]; [q 2 1; q 4 1]; [q 0 1; q 0 1]].
Definition qv (l : list Qc) : list Q := map this l.
Example C63_example : exact_arithmetic Qc_ops /\ all_size 2 data /\ 2 + 2 <= length data /\
  map qv (map (affine Qc_ops 2 2 rot shift) data) = [[3 # 1; 1 # 1]; [6 # 1; 3 # 1]; [1 # 1; 2 # 1]; [5 # 1; 0 # 1]]%Q /\
  (forall k l, k < 2 -> l < 2 -> sumn Qc_ops (fun i => kmul Qc_ops (rot i k) (rot i l)) 2 = if l =? k then q 1 1 else k0 Qc_ops) /\
  exists s s', run_consumer (cov_consume Qc_ops) (cov_init (fun _ _ => q 7 1)) data = Ok s /\ run_consumer (cov_consume Qc_ops) (cov_init (fun _ _ => q 8 1)) (map (affine Qc_ops 2 2 rot shift) data) = Ok s' /\
    this (snd (cov_get s') 0 0) = this (snd (cov_get s) 1 1) /\ this (snd (cov_get s') 0 1) = this (Qcopp (snd (cov_get s) 0 1)) /\ ~ Qeq (this (snd (cov_get s) 0 1)) 0%Q.
Proof.
  split; [exact Qc_exact|]. split; [repeat constructor|]. split; [cbn; lia|]. split; [vm_compute; reflexivity|]. split.
  { intros [|[|k]] [|[|l]] Hk Hl; try lia; apply Qc_is_canon; vm_compute; reflexivity. }
  do 2 eexists. split; [reflexivity|]. split; [reflexivity|]. split; [vm_compute; reflexivity|]. split; [vm_compute; reflexivity|]. vm_compute. discriminate.
Qed.

(** C63: MeanValue behind a filter that selects components (ComponentSplitter: one component) returns these components of what MeanValue returns without it: to the last bit, in any arithmetic, for any number of samples. *)
Theorem C63_mean_of_selected_components :
  forall (K : Type) (F : kops K) (idx : list nat) (d : nat), Forall (fun i => i < d) idx ->
  forall (dflt dflt' : option (list K)) (xs : list (list K)), xs <> [] -> all_size d xs ->
  exists s m s', run_consumer (mean_consume F) (mean_init dflt) xs = Ok s /\ mean_get s = Ok m /\
    run_consumer (mean_consume F) (mean_init dflt') (map (select F idx) xs) = Ok s' /\ mean_get s' = Ok (select F idx m).
Proof. exact @mean_select. Qed.
Print Assumptions C63_mean_of_selected_components.
(** C63: likewise each entry of the covariance matrix depends only on its two components (and on its own memory). *)
Theorem C63_covariance_of_selected_components :
  forall (K : Type) (F : kops K) (idx : list nat) (d : nat), Forall (fun i => i < d) idx ->
  forall (G G' : matrix K) (xs : list (list K)), xs <> [] -> all_size d xs ->
  (forall a b, a < length idx -> b < length idx -> G' a b = G (nth a idx 0) (nth b idx 0)) ->
  exists s s', run_consumer (cov_consume F) (cov_init G) xs = Ok s /\ run_consumer (cov_consume F) (cov_init G') (map (select F idx) xs) = Ok s' /\ fst (cov_get s') = length idx /\
    forall a b, a < length idx -> b < length idx -> snd (cov_get s') a b = snd (cov_get s) (nth a idx 0) (nth b idx 0).
Proof. exact @cov_select. Qed.
Print Assumptions C63_covariance_of_selected_components.
Example C63_select_example : Forall (fun i => i < 2) [1] /\ exists s s', run_consumer (mean_consume Qc_ops) (mean_init None) data = Ok s /\
  run_consumer (mean_consume Qc_ops) (mean_init None) (map (select Qc_ops [1]) data) = Ok s' /\
  match mean_get s, mean_get s' with Ok m, Ok m' => map this m = [3 # 2; 5 # 4]%Q /\ map this m' = [5 # 4]%Q | _, _ => False end.
Proof. split; [repeat constructor|]. do 2 eexists. split; [reflexivity|]. split; [reflexivity|]. vm_compute. split; reflexivity. Qed.

(** C63: the covariance matrix is Hermitian (symmetric for real numbers)... *)
Theorem C63_covariance_is_hermitian :
  forall (K : Type) (F : kops K), exact_arithmetic F -> (forall a, kconj F (kconj F a) = a) ->
  forall (G : matrix K) (xs : list (list K)) (d : nat), 2 <= length xs -> all_size d xs -> (len xs < 2 ^ 64)%N ->
  exists s, run_consumer (cov_consume F) (cov_init G) xs = Ok s /\ forall i j, i < d -> j < d -> snd (cov_get s) j i = kconj F (snd (cov_get s) i j).
Proof. exact @cov_hermitian. Qed.
Print Assumptions C63_covariance_is_hermitian.
(** C63: ... and for real numbers positive semidefinite: v^T C v >= 0, with equality if and only if v.x is the same for all samples x. *)
Theorem C63_covariance_is_positive :
  forall (G : matrix R) (xs : list (list R)) (d : nat), 2 <= length xs -> all_size d xs -> (len xs < 2 ^ 64)%N ->
  exists s, run_consumer (cov_consume R_ops) (cov_init G) xs = Ok s /\
  forall v : nat -> R,
    (0 <= sumn R_ops (fun i => sumn R_ops (fun j => v i * snd (cov_get s) i j * v j) d) d /\
     (sumn R_ops (fun i => sumn R_ops (fun j => v i * snd (cov_get s) i j * v j) d) d = 0 <->
      forall x y, In x xs -> In y xs -> sumn R_ops (fun i => v i * nth i x 0) d = sumn R_ops (fun i => v i * nth i y 0) d))%R.
Proof. exact cov_psd. Qed.
Print Assumptions C63_covariance_is_positive.
(** C63: so variances are not negative, and zero exactly for components that never change; and correlations C_ij / sqrt(C_ii C_jj) are between -1 and 1. *)
Theorem C63_correlations :
  forall (G : matrix R) (xs : list (list R)) (d : nat), 2 <= length xs -> all_size d xs -> (len xs < 2 ^ 64)%N ->
  exists s, run_consumer (cov_consume R_ops) (cov_init G) xs = Ok s /\
  forall i j, i < d -> j < d ->
    (snd (cov_get s) i j = snd (cov_get s) j i /\ 0 <= snd (cov_get s) i i /\ (snd (cov_get s) i j) ^ 2 <= snd (cov_get s) i i * snd (cov_get s) j j /\
     (snd (cov_get s) i i = 0 <-> forall x y, In x xs -> In y xs -> nth i x 0 = nth i y 0))%R.
Proof. exact cov_schwarz. Qed.
Print Assumptions C63_correlations.
Example C63_positive_example : let xs := [[1; 2]; [3; 2]]%R in 2 <= length xs /\ all_size 2 xs /\ (len xs < 2 ^ 64)%N /\ nth 0 [1; 2]%R 0%R <> nth 0 [3; 2]%R 0%R.
Proof. cbn. split; [lia|]. split; [repeat constructor|]. split; [reflexivity|]. lra. Qed.

(** C64: MeanValue connected to two producers (or to one that samples twice) returns the weighted mean of the means of the two streams, whatever the order in which the samples of the two arrive. *)
Theorem C64_mean_of_combined_streams :
  forall (K : Type) (F : kops K), exact_arithmetic F ->
  forall (df df1 df2 : option (list K)) (xs ys zs : list (list K)) (d : nat),
  xs <> [] -> ys <> [] -> all_size d xs -> all_size d ys -> Permutation (xs ++ ys) zs -> (len zs < 2 ^ 64)%N ->
  exists s s1 s2 m m1 m2, run_consumer (mean_consume F) (mean_init df) zs = Ok s /\ run_consumer (mean_consume F) (mean_init df1) xs = Ok s1 /\ run_consumer (mean_consume F) (mean_init df2) ys = Ok s2 /\
    mean_get s = Ok m /\ mean_get s1 = Ok m1 /\ mean_get s2 = Ok m2 /\ length m = d /\
    forall i, i < d -> nth i m (k0 F) = kdiv F (kadd F (kmul F (kofN F (len xs)) (nth i m1 (k0 F))) (kmul F (kofN F (len ys)) (nth i m2 (k0 F)))) (kadd F (kofN F (len xs)) (kofN F (len ys))).
Proof. exact @mean_combined. Qed.
Print Assumptions C64_mean_of_combined_streams.
(** C64: and CovarianceMatrix the covariance matrices of the streams combined with the difference of their means:
    ((n-1) C1 + (m-1) C2 + nm/(n+m) (mean1 - mean2)(mean1 - mean2)^H) / (n+m-1). *)
Theorem C64_covariance_of_combined_streams :
  forall (K : Type) (F : kops K), exact_arithmetic F ->
  forall (G G1 G2 : matrix K) (xs ys zs : list (list K)) (d : nat),
  2 <= length xs -> 2 <= length ys -> all_size d xs -> all_size d ys -> Permutation (xs ++ ys) zs -> (len zs < 2 ^ 64)%N ->
  exists s s1 s2, run_consumer (cov_consume F) (cov_init G) zs = Ok s /\ run_consumer (cov_consume F) (cov_init G1) xs = Ok s1 /\ run_consumer (cov_consume F) (cov_init G2) ys = Ok s2 /\
    fst (cov_get s) = d /\
    forall i j, i < d -> j < d ->
      let n := kofN F (len xs) in let m := kofN F (len ys) in
      snd (cov_get s) i j =
      kdiv F (kadd F (kadd F (kmul F (ksub F n (k1 F)) (snd (cov_get s1) i j)) (kmul F (ksub F m (k1 F)) (snd (cov_get s2) i j)))
                     (kmul F (kdiv F (kmul F n m) (kadd F n m)) (kmul F (ksub F (the_mean F xs i) (the_mean F ys i)) (kconj F (ksub F (the_mean F xs j) (the_mean F ys j))))))
             (ksub F (kadd F n m) (k1 F)).
Proof. exact @cov_combined. Qed.
Print Assumptions C64_covariance_of_combined_streams.
(** Streams 0, 2 and 4, 6, 5 in the order 4, 0, 6, 5, 2: means 1 and 5, together (2*1 + 3*5)/5 = 17/5; variances 2 and 1, together (1*2 + 2*1 + 6/5*16)/4 = 29/5. *)
Example C64_example :
  Permutation ([[q 0 1]; [q 2 1]] ++ [[q 4 1]; [q 6 1]; [q 5 1]]) [[q 4 1]; [q 0 1]; [q 6 1]; [q 5 1]; [q 2 1]] /\
  exists s s', run_consumer (mean_consume Qc_ops) (mean_init None) [[q 4 1]; [q 0 1]; [q 6 1]; [q 5 1]; [q 2 1]] = Ok s /\
    run_consumer (cov_consume Qc_ops) (cov_init (fun _ _ => q 9 1)) [[q 4 1]; [q 0 1]; [q 6 1]; [q 5 1]; [q 2 1]] = Ok s' /\
    match mean_get s with Ok m => map this m = [17 # 5]%Q | _ => False end /\ this (snd (cov_get s') 0 0) = (29 # 5)%Q.
Proof.
  split.
  - cbn [app]. set (a := [q 0 1]). set (b := [q 2 1]). set (c := [q 4 1]). set (e := [q 6 1]). set (f := [q 5 1]).
    change [a; b; c; e; f] with ([a; b] ++ c :: [e; f]). apply Permutation_sym, Permutation_cons_app. cbn [app].
    apply perm_skip. change [b; e; f] with ([b] ++ [e; f]). apply Permutation_trans with ([e; f] ++ [b]); [reflexivity|apply Permutation_app_comm].
  - do 2 eexists. split; [reflexivity|]. split; [reflexivity|]. split; vm_compute; reflexivity.
Qed.
