(** Model of the statistical consumers: MeanValue, CovarianceMatrix, AutoCovarianceTrace, AutoCovarianceMatrix,
    AverageCosineBetweenSuccessiveSamples. Samples are vectors (lists) of scalars; scalar sample types are the vectors
    of length one (Utilities::size and Utilities::get_nth_element, element_access.impl.h). The scalars' arithmetic is a parameter, so
    that theorems can be stated for exact arithmetic in any field. Operations between vectors of different
    sizes are undefined behaviour (std::valarray) in the model. *)
From Verif Require Import Prelude ConsumerModel.

Record kops (K : Type) := {
  k0 : K; k1 : K; kadd : K -> K -> K; ksub : K -> K -> K; kmul : K -> K -> K; kdiv : K -> K -> K; kopp : K -> K;
  kconj : K -> K;          (* Utilities::conj, element_access.impl.h *)
  kofN : N -> K }.         (* conversion of types::sample_index *)
Arguments k0 {K}. Arguments k1 {K}. Arguments kadd {K}. Arguments ksub {K}. Arguments kmul {K}. Arguments kdiv {K}.
Arguments kopp {K}. Arguments kconj {K}. Arguments kofN {K}.

Section Stats.
Context {K : Type}.
Variable F : kops K.
Local Notation vec := (list K).
Definition vop (f : K -> K -> K) (a b : vec) : vec := map (fun p => f (fst p) (snd p)) (combine a b).
Definition same_size (a b : vec) : bool := Nat.eqb (length a) (length b).
(** get_nth_element(a, i) for i < size(a) *)
Definition comp (a : vec) (i : nat) : K := nth i a (k0 F).

(** ** MeanValue *)

(** The update of a running mean: [update = sample; update -= mean; update /= n; mean += update], for example
    mean_value.impl.h:194-198. *)
Definition mean_update (mean sample : vec) (n : N) : vec :=
  let update := vop (ksub F) sample mean in
  let update := map (fun u => kdiv F u (kofN F n)) update in
  vop (kadd F) mean update.

Record mean_state := { mv_mean : option vec; mv_n : N }.
(** Constructor, mean_value.impl.h:150-159: current_mean is default-initialised (indeterminate for arithmetic types). *)
Definition mean_init (dflt : option vec) : mean_state := {| mv_mean := dflt; mv_n := 0 |}.
(** [MeanValue::consume], mean_value.impl.h:173-200. *)
Definition mean_consume (s : mean_state) (sample : vec) : outcome mean_state :=
  if (mv_n s =? 0)%N then Ok {| mv_mean := Some sample; mv_n := 1 |} else
  let n := wrap64 (mv_n s + 1) in
  match mv_mean s with
  | None => UB
  | Some mean =>
    if same_size sample mean then Ok {| mv_mean := Some (mean_update mean sample n); mv_n := n |} else UB
  end.
(** [MeanValue::get], mean_value.impl.h:204-213. *)
Definition mean_get (s : mean_state) : outcome vec := match mv_mean s with Some m => Ok m | None => UB end.

(** ** CovarianceMatrix *)

Definition matrix := nat -> nat -> K.
Record cov_state := { cv_mean : option vec; cv_cov : matrix; cv_dim : nat; cv_n : N }.
(** Constructor, covariance_matrix.impl.h:132-141. [garbage] stands for what the memory contains which
    [current_covariance_matrix.resize] (line 173) will allocate and not initialise. *)
Definition cov_init (garbage : matrix) : cov_state := {| cv_mean := None; cv_cov := garbage; cv_dim := 0; cv_n := 0 |}.
(** The new value of one matrix entry, covariance_matrix.impl.h:184-190. The two loops change each entry once and read only
    that entry. *)
Definition cov_entry (delta : vec) (n : N) (c : matrix) (i j : nat) : K :=
  let delta_i := comp delta i in
  let delta_j := kconj F (comp delta j) in
  kadd F (c i j) (ksub F (kdiv F (kmul F delta_i delta_j) (kmul F (k1 F) (kofN F n)))
                         (kdiv F (c i j) (ksub F (kmul F (k1 F) (kofN F n)) (k1 F)))).
(** [CovarianceMatrix::consume], covariance_matrix.impl.h:155-196. *)
Definition cov_consume (s : cov_state) (sample : vec) : outcome cov_state :=
  if (cv_n s =? 0)%N
  then Ok {| cv_mean := Some sample; cv_cov := cv_cov s; cv_dim := length sample; cv_n := 1 |}
  else
  let n := wrap64 (cv_n s + 1) in
  match cv_mean s with
  | None => UB
  | Some mean =>
    if same_size sample mean then
      let delta := vop (ksub F) sample mean in
      Ok {| cv_mean := Some (mean_update mean sample n); cv_cov := cov_entry delta n (cv_cov s); cv_dim := cv_dim s; cv_n := n |}
    else UB
  end.
(** [CovarianceMatrix::get], covariance_matrix.impl.h:200-211: dimension and entries. *)
Definition cov_get (s : cov_state) : nat * matrix := (cv_dim s, cv_cov s).

(** ** AutoCovarianceTrace *)

(** [sum += a_j * b_j] for all j, e.g. auto_covariance_trace.impl.h:457-459. *)
Definition dot_add (acc : K) (a b : vec) : K :=
  fold_left (fun s p => kadd F s (kmul F (fst p) (snd p))) (combine a b) acc.

Record lagged (A : Type) := { lg_mean : option vec; lg_lags : list A; lg_prev : list vec; lg_n : N }.
Arguments lg_mean {A}. Arguments lg_lags {A}. Arguments lg_prev {A}. Arguments lg_n {A}.

(** A loop over all lags, each of which has its own data (e.g. lines 451-498). *)
Fixpoint lag_loop {A} (f : nat -> A -> outcome A) (l : nat) (data : list A) : outcome (list A) :=
  match data with
  | [] => Ok []
  | a :: data' => do a' <- f l a; do r <- lag_loop f (S l) data'; Ok (a' :: r)
  end.

(** The body of the loop over l, auto_covariance_trace.impl.h:453-497; [n] is n_samples before the sample, [prev] is the deque after the
    new sample has been pushed to its front. (alpha[l], beta[l]) *)
Definition act_lag (n : N) (prev : list vec) (sample : vec) (l : nat) (ab : K * vec) : outcome (K * vec) :=
  let (alpha, beta) := ab in
  if (n =? N.of_nat l + 1)%N then
    match nth_error prev 0, nth_error prev l, nth_error prev 1, nth_error prev (l + 1) with
    | Some p0, Some pl, Some p1, Some pl1 =>
      let alpha := k0 F in
      let alpha := dot_add alpha p0 pl in
      let alpha := dot_add alpha p1 pl1 in
      let beta := vop (kadd F) (vop (kadd F) (vop (kadd F) p0 p1) pl) pl1 in
      Ok (alpha, beta)
    | _, _, _, _ => UB
    end
  else if (N.of_nat l + 2 <=? n)%N then
    match nth_error prev l with
    | Some pl =>
      let factor := kdiv F (k1 F) (kofN F (n - N.of_nat l)) in
      let alphaupd := kmul F (dot_add (kopp F alpha) sample pl) factor in
      let betaupd := map (fun b => kmul F b factor) (vop (ksub F) (vop (kadd F) sample pl) beta) in
      Ok (kadd F alpha alphaupd, vop (kadd F) beta betaupd)
    | None => UB
    end
  else Ok (alpha, beta).

(** previous_samples.push_front (auto_covariance_trace.impl.h:449), and pop_back if it has become longer than max_lag+1 (lines 500-501) *)
Definition trim (max_lag : nat) (prev : list vec) : list vec :=
  if (max_lag + 1 <? length prev)%nat then removelast prev else prev.

(** Constructor, auto_covariance_trace.impl.h:387-395 (max_lag < 2^32 - 1). *)
Definition act_init : lagged (K * vec) := {| lg_mean := None; lg_lags := []; lg_prev := []; lg_n := 0 |}.
(** [AutoCovarianceTrace::consume], auto_covariance_trace.impl.h:409-510. *)
Definition act_consume (max_lag : nat) (s : lagged (K * vec)) (sample : vec) : outcome (lagged (K * vec)) :=
  if (lg_n s =? 0)%N then
    Ok {| lg_mean := Some sample; lg_lags := repeat (k0 F, map (fun _ => k0 F) sample) (max_lag + 1);
          lg_prev := sample :: lg_prev s; lg_n := 1 |}
  else
  match lg_mean s with
  | None => UB
  | Some mean =>
    if same_size sample mean then
      let prev := sample :: lg_prev s in
      do lags <- lag_loop (act_lag (lg_n s) prev sample) 0 (lg_lags s);
      let n := wrap64 (lg_n s + 1) in
      Ok {| lg_mean := Some (mean_update mean sample n); lg_lags := lags; lg_prev := trim max_lag prev; lg_n := n |}
    else UB
  end.
(** [AutoCovarianceTrace::get], auto_covariance_trace.impl.h:514-542: the entry for lag l, for l <= max_lag. alpha[l] is out of
    range before the first sample. *)
Definition act_get (s : lagged (K * vec)) (l : nat) : outcome K :=
  match nth_error (lg_lags s) l, lg_mean s with
  | Some (alpha, beta), Some mean =>
    let g := alpha in
    let g := fold_left (fun g p => ksub F g (kmul F (fst p) (snd p))) (combine mean beta) g in
    let g := if (N.of_nat l + 1 <? lg_n s)%N
             then let c := kadd F (k1 F) (kdiv F (k1 F) (kofN F (lg_n s - N.of_nat l - 1))) in
                  fold_left (fun g m => kadd F g (kmul F (kmul F c m) m)) mean g
             else g in
    Ok g
  | _, _ => UB
  end.

(** ** AutoCovarianceMatrix *)

(** The body of the loop over l, auto_covariance_matrix.impl.h:417-461. (alpha[l], beta[l], eta[l]). The loops over i and j change each
    entry of alpha[l] once and read only that entry. *)
Definition acm_lag (n : N) (prev : list vec) (sample : vec) (l : nat) (abe : matrix * vec * vec) : outcome (matrix * vec * vec) :=
  let '(alpha, beta, eta) := abe in
  if (n =? N.of_nat l + 1)%N then
    match nth_error prev 0, nth_error prev l, nth_error prev 1, nth_error prev (l + 1) with
    | Some p0, Some pl, Some p1, Some pl1 =>
      let alpha := fun i j => kadd F (alpha i j) (kmul F (comp p0 i) (comp pl j)) in
      let alpha := fun i j => kadd F (alpha i j) (kmul F (comp p1 i) (comp pl1 j)) in
      Ok (alpha, vop (kadd F) p0 p1, vop (kadd F) (vop (kadd F) eta pl) pl1)
    | _, _, _, _ => UB
    end
  else if (N.of_nat l + 2 <=? n)%N then
    match nth_error prev l with
    | Some pl =>
      let factor := kdiv F (k1 F) (kofN F (n - N.of_nat l)) in
      let alphaupd := fun i j => kmul F (kadd F (kopp F (alpha i j)) (kmul F (comp sample i) (comp pl j))) factor in
      let betaupd := map (fun b => kmul F b factor) (vop (ksub F) sample beta) in
      let etaupd := map (fun b => kmul F b factor) (vop (ksub F) pl eta) in
      Ok (fun i j => kadd F (alpha i j) (alphaupd i j), vop (kadd F) beta betaupd, vop (kadd F) eta etaupd)
    | None => UB
    end
  else Ok (alpha, beta, eta).

(** Constructor, auto_covariance_matrix.impl.h:347-355 *)
Definition acm_init : lagged (matrix * vec * vec) := {| lg_mean := None; lg_lags := []; lg_prev := []; lg_n := 0 |}.
(** [AutoCovarianceMatrix::consume], auto_covariance_matrix.impl.h:368-474; [garbage l] is what the memory contains which line 385 allocates for
    alpha[l] and does not initialise. *)
Definition acm_consume (garbage : nat -> matrix) (max_lag : nat) (s : lagged (matrix * vec * vec)) (sample : vec)
    : outcome (lagged (matrix * vec * vec)) :=
  if (lg_n s =? 0)%N then
    Ok {| lg_mean := Some sample;
          lg_lags := map (fun l => (garbage l, map (fun _ => k0 F) sample, map (fun _ => k0 F) sample)) (seq 0 (max_lag + 1));
          lg_prev := sample :: lg_prev s; lg_n := 1 |}
  else
  match lg_mean s with
  | None => UB
  | Some mean =>
    if same_size sample mean then
      let prev := sample :: lg_prev s in
      do lags <- lag_loop (acm_lag (lg_n s) prev sample) 0 (lg_lags s);
      let n := wrap64 (lg_n s + 1) in
      Ok {| lg_mean := Some (mean_update mean sample n); lg_lags := lags; lg_prev := trim max_lag prev; lg_n := n |}
    else UB
  end.
(** [AutoCovarianceMatrix::get], auto_covariance_matrix.impl.h:478-514: entry (i,j) of the matrix for lag l, l <= max_lag. *)
Definition acm_get (s : lagged (matrix * vec * vec)) (l i j : nat) : outcome K :=
  match nth_error (lg_lags s) l, lg_mean s with
  | Some (alpha, beta, eta), Some mean =>
    let g := alpha i j in
    let g := ksub F g (kmul F (comp mean i) (comp eta j)) in
    let g := ksub F g (kmul F (comp beta i) (comp mean j)) in
    let g := if (N.of_nat l + 1 <? lg_n s)%N
             then let c := kadd F (k1 F) (kdiv F (k1 F) (kofN F (lg_n s - N.of_nat l - 1))) in
                  kadd F g (kmul F (kmul F c (comp mean i)) (comp mean j))
             else g in
    Ok g
  | _, _ => UB
  end.
End Stats.
Arguments lg_mean {K A}. Arguments lg_lags {K A}. Arguments lg_prev {K A}. Arguments lg_n {K A}.
Arguments mean_init {K}. Arguments cov_init {K}. Arguments act_init {K}. Arguments acm_init {K}.
Arguments cov_get {K}. Arguments mean_get {K}. Arguments matrix K : clear implicits.
(** Samples are vectors of scalars. *)
Notation vec := list (only parsing).

(** ** MeanValue<int> *)

(** int is a 32 bit two's complement type, std::size_t has 64 bits. *)
Definition int_min : Z := (- 2 ^ 31)%Z.
Definition int_max : Z := (2 ^ 31 - 1)%Z.
Definition is_int (x : Z) : bool := ((int_min <=? x) && (x <=? int_max))%Z.
(** Conversion of an unsigned number to int: modulo 2^32 (C++20). *)
Definition to_int (x : N) : Z := ((Z.of_N x + 2 ^ 31) mod 2 ^ 32 - 2 ^ 31)%Z.
(** [update /= n] with an int on the left and a std::size_t on the right: the left operand is converted to std::size_t, the unsigned quotient is
    converted back to int (usual arithmetic conversions). *)
Definition int_div_assign (update : Z) (n : N) : outcome Z :=
  if (n =? 0)%N then UB else Ok (to_int (Z.to_N (update mod 2 ^ 64) / n)).
(** [MeanValue<int>::consume], mean_value.impl.h:173-200; overflow of int is undefined behaviour. *)
Definition int_mean_consume (s : option Z * N) (sample : Z) : outcome (option Z * N) :=
  let (mean, n_samples) := s in
  if (n_samples =? 0)%N then Ok (Some sample, 1%N) else
  match mean with
  | None => UB
  | Some mean =>
    let n := wrap64 (n_samples + 1) in
    let update := (sample - mean)%Z in
    if negb (is_int update) then UB else
    do update <- int_div_assign update n;
    if negb (is_int (mean + update)) then UB else Ok (Some (mean + update)%Z, n)
  end.
(** Constructor (mean_value.impl.h:150-159), [MeanValue<int>::get] (204-213). *)
Definition int_mean_init : option Z * N := (None, 0%N).
Definition int_mean_get (s : option Z * N) : outcome Z := match fst s with Some m => Ok m | None => UB end.
