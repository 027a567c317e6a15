(** Property theorems about the simple consumers and helper functions
    (C10, C11, C18, C19, C23, C40, C43). *)
From Coq Require Import String Ascii QArith.
From Verif Require Import Prelude ConsumerModel ConsumerSpec ConsumerProofs.
Local Open Scope nat_scope.
Local Open Scope list_scope.

(** C10: get() is the number of samples modulo 2^64, for every stream. *)
Theorem C10_count_samples :
  forall (X : Type) (xs : list X),
  exists s, run_consumer count_consume count_init xs = Ok s /\
            count_get s = (N.of_nat (List.length xs) mod 2 ^ 64)%N.
Proof. exact @count_correct. Qed.
Print Assumptions C10_count_samples.
Example C10_example : run_consumer count_consume count_init [5; 5; 7] = Ok 3%N.
Proof. reflexivity. Qed.

(** C11: after at least one sample, get() is the most recent one. *)
Theorem C11_last_sample :
  forall (X : Type) (dflt : option X) (xs : list X) (x : X),
  exists s, run_consumer last_consume (last_init dflt) (xs ++ [x]) = Ok s /\ last_get s = Ok x.
Proof. exact @last_correct. Qed.
Print Assumptions C11_last_sample.
(** C11: the documented default-constructed object before the first sample exists only for class types; for
    arithmetic types (no value given by default-initialisation) get() reads an indeterminate value. *)
Theorem C11_no_sample_yet_refuted :
  forall (X : Type) (d : X),
  last_get (last_init (Some d)) = Ok d /\ last_get (@last_init X None) = UB.
Proof. intros X d. split; reflexivity. Qed.
Print Assumptions C11_no_sample_yet_refuted.
Example C11_example : run_consumer last_consume (last_init None) [1; 2; 3] = Ok (Some 3).
Proof. reflexivity. Qed.

(** C18: get() = (1 + number of positions where a sample differs from its predecessor) / n, in (0, 1]. [same] is
    the equality test of the sample type; like == on doubles (NaN!) it need not be reflexive. *)
Theorem C18_acceptance_ratio :
  forall (X : Type) (same : X -> X -> bool),
  (forall x y, same x y = true -> same y x = true) ->
  (forall x y z, same x y = true -> same y z = true -> same x z = true) ->
  forall (x : X) (xs : list X), (N.of_nat (List.length (x :: xs)) < two64)%N ->
  exists s, run_consumer (acc_consume same) acc_init (x :: xs) = Ok s /\
    (acc_get s == (Z.of_nat (1 + changes same (x :: xs)) # 1) / (Z.of_nat (List.length (x :: xs)) # 1))%Q /\
    (0 < acc_get s <= 1)%Q.
Proof. exact @acc_correct. Qed.
Print Assumptions C18_acceptance_ratio.
(** C18: before any sample, 0. *)
Theorem C18_no_samples :
  forall (X : Type) (same : X -> X -> bool),
  exists s, run_consumer (acc_consume same) acc_init [] = Ok s /\ acc_get s = 0%Q.
Proof. exact @acc_none. Qed.
Print Assumptions C18_no_samples.
(** C18: the special comparison for std::valarray holds iff sizes agree and no component differs, and it inherits
    symmetry and transitivity, as the theorem above needs. *)
Theorem C18_valarray_comparison :
  forall (T : Type) (ne : T -> T -> bool),
  (forall t1 t2, valarray_is_equal ne t1 t2 = true <-> Forall2 (fun x y => ne x y = false) t1 t2) /\
  ((forall x y, ne x y = false -> ne y x = false) ->
   (forall x y z, ne x y = false -> ne y z = false -> ne x z = false) ->
   (forall x y, valarray_is_equal ne x y = true -> valarray_is_equal ne y x = true) /\
   (forall x y z, valarray_is_equal ne x y = true -> valarray_is_equal ne y z = true ->
                  valarray_is_equal ne x z = true)).
Proof. intros T ne. exact (conj (valarray_spec ne) (valarray_per ne)). Qed.
Print Assumptions C18_valarray_comparison.
(** C18: the length hypothesis is needed: the sample that brings the counter to 2^64 makes get() return 0. *)
Theorem C18_counter_wraps :
  forall (X : Type) (same : X -> X -> bool) (a : N) (p x : X),
  exists s, acc_consume same {| a_n := two64 - 1; a_acc := a; a_prev := Some p |} x = Ok s /\ acc_get s = 0%Q.
Proof. exact @acc_wraps. Qed.
Print Assumptions C18_counter_wraps.
Example C18_example :
  match run_consumer (acc_consume Nat.eqb) acc_init [4; 4; 7; 7; 7; 4] with
  | Ok s => (acc_get s == 3 # 6)%Q /\ 1 + changes Nat.eqb [4; 4; 7; 7; 7; 4] = 3
  | _ => False
  end.
Proof. split; reflexivity. Qed.

(** C19: with ordinary likelihoods, get() returns the first sample of maximal likelihood with its auxiliary data;
    a default-constructed pair if no sample carried a likelihood. *)
Theorem C19_first_maximiser :
  forall (X : Type) (xs : list (X * aux)), Forall ordinary xs ->
  exists s, run_consumer max_consume max_init xs = Ok s /\
    (((forall x, In x xs -> log_lik x = None) /\ max_get s = (None, [])) \/
     (exists x, first_maximiser xs x /\ max_get s = (Some (fst x), snd x))).
Proof. exact @max_correct. Qed.
Print Assumptions C19_first_maximiser.
(** C19: the specification determines the sample uniquely. *)
Theorem C19_first_maximiser_is_unique :
  forall (X : Type) (xs : list (X * aux)) x y,
  first_maximiser xs x -> first_maximiser xs y -> x = y.
Proof. exact @first_maximiser_unique. Qed.
Print Assumptions C19_first_maximiser_is_unique.
(** C19: a sample with likelihood lowest() (the "zero probability" value MetropolisHastings recommends) is replaced by
    whatever comes next, even something less likely (-infinity) or NaN. *)
Theorem C19_lowest_is_forgotten_refuted :
  forall (X : Type) (x y : X * aux) (d : dbl),
  log_lik x = Some lowest -> log_lik y = Some d ->
  exists s, run_consumer max_consume max_init [x; y] = Ok s /\ max_get s = (Some (fst y), snd y).
Proof. exact @max_lowest_replaced. Qed.
Print Assumptions C19_lowest_is_forgotten_refuted.
(** C19: a first sample with likelihood NaN is kept forever. *)
Theorem C19_nan_first_is_kept_refuted :
  forall (X : Type) (x : X * aux) (xs : list (X * aux)),
  log_lik x = Some DNaN ->
  (forall y, In y xs -> aux_find ll_key (snd y) = None \/ exists d, log_lik y = Some d) ->
  exists s, run_consumer max_consume max_init (x :: xs) = Ok s /\ max_get s = (Some (fst x), snd x).
Proof. exact @max_nan_stuck. Qed.
Print Assumptions C19_nan_first_is_kept_refuted.
Definition ll (q : Q) : aux := [("sample is repeated"%string, AnyBool false); (ll_key, AnyDouble (DFin q))].
Example C19_example :
  Forall ordinary [(10, ll (-5 # 1)); (11, []); (12, ll (-1 # 2)); (13, ll (-1 # 2)); (14, [(ll_key, AnyDouble DNInf)])] /\
  match run_consumer max_consume max_init
    [(10, ll (-5 # 1)); (11, []); (12, ll (-1 # 2)); (13, ll (-1 # 2)); (14, [(ll_key, AnyDouble DNInf)])] with
  | Ok s => max_get s = (Some 12, ll (-1 # 2))
  | _ => False
  end.
Proof.
  split; [|vm_compute; reflexivity].
  assert (O : forall (n : nat) q, deq (DFin q) lowest = false -> ordinary (n, ll q)).
  { intros n q H. right. exists (DFin q). split; [reflexivity|]. split; [discriminate|exact H]. }
  apply Forall_cons; [apply O; vm_compute; reflexivity|].
  apply Forall_cons; [left; reflexivity|].
  apply Forall_cons; [apply O; vm_compute; reflexivity|].
  apply Forall_cons; [apply O; vm_compute; reflexivity|].
  apply Forall_cons; [|apply Forall_nil].
  right. exists DNInf. split; [reflexivity|]. split; [discriminate|reflexivity].
Qed.

(** C23: the output is the concatenation of one record per sample, each the text of the sample followed by a newline;
    if no scalar prints a newline the lines of the output are exactly the texts of the samples in order. *)
Theorem C23_stream_output :
  forall (xs : list sample), Forall texts_ok xs ->
  exists out, run_consumer out_consume ""%string xs = Ok out /\
     out = String.concat "" (map (fun s => (text s ++ nl)%string) xs) /\ lines out = map text xs.
Proof. exact out_lines. Qed.
Print Assumptions C23_stream_output.
Example C23_example :
  Forall texts_ok [Scalar "1.5"; Vec [Scalar "2"; Scalar "3"]; Vec []] /\
  run_consumer out_consume ""%string [Scalar "1.5"; Vec [Scalar "2"; Scalar "3"]; Vec []] =
    Ok ("1.5" ++ nl ++ "2 3 " ++ nl ++ nl)%string.
Proof.
  split; [|reflexivity]. repeat (apply Forall_cons; [cbn; repeat split; discriminate|]). apply Forall_nil.
Qed.

(** C40: set_parallel_mode on an unconnected consumer accepts exactly the masks that intersect the supported modes. *)
Theorem C40_mode_check :
  forall (c : cls) (m : N), (m < 4)%N ->
  (set_parallel_mode Debug (supported c) 0 m = Ok m <-> N.land m (supported c) <> 0%N) /\
  (set_parallel_mode Debug (supported c) 0 m = AssertFail <-> N.land m (supported c) = 0%N).
Proof. exact mode_check. Qed.
Print Assumptions C40_mode_check.
(** C40: the order-sensitive classes accept synchronous and reject asynchronous processing. *)
Theorem C40_order_sensitive_classes_refuse_async :
  forall (c : cls), order_sensitive c = true ->
  set_parallel_mode Debug (supported c) 0 synchronous = Ok synchronous /\
  set_parallel_mode Debug (supported c) 0 asynchronous = AssertFail.
Proof. exact mode_sensitive. Qed.
Print Assumptions C40_order_sensitive_classes_refuse_async.
(** C40: all other classes accept both modes; an Action what its constructor was told (with the first theorem). *)
Theorem C40_other_classes_accept_async :
  (forall (c : cls), order_sensitive c = false -> (forall s, c <> CAction s) ->
   set_parallel_mode Debug (supported c) 0 synchronous = Ok synchronous /\
   set_parallel_mode Debug (supported c) 0 asynchronous = Ok asynchronous) /\
  (forall (m s : N), (m < 4)%N -> (set_parallel_mode Debug (supported (CAction s)) 0 m = Ok m <-> N.land m s <> 0%N)).
Proof. exact (conj mode_insensitive (fun m s H => proj1 (mode_check (CAction s) m H))). Qed.
Print Assumptions C40_other_classes_accept_async.
(** C40: in a release build there is no check: even order-sensitive classes can be put into asynchronous mode, and
    the mode can be changed while connected. *)
Theorem C40_release_build_checks_nothing_refuted :
  forall (c : cls) (n : nat) (m : N), set_parallel_mode Release (supported c) n m = Ok m.
Proof. exact (fun c => mode_release (supported c)). Qed.
Print Assumptions C40_release_build_checks_nothing_refuted.
(** C40: the mode of a connected consumer cannot be changed. *)
Theorem C40_not_while_connected :
  forall (c : cls) (n : nat) (m : N), set_parallel_mode Debug (supported c) (S n) m = AssertFail.
Proof. exact mode_connected. Qed.
Print Assumptions C40_not_while_connected.
(** C40: connect_to_producer makes a slot exactly for the two single modes. *)
Theorem C40_slots_exist_for_single_modes_only :
  forall (b : build) (m : N),
  (m = synchronous -> choose_slot b m = Ok SyncSlot) /\
  (m = asynchronous -> choose_slot b m = Ok AsyncSlot) /\
  (m <> synchronous -> m <> asynchronous ->
   choose_slot b m = match b with Debug => AssertFail | Release => Ok NoSlot end).
Proof. exact mode_slots. Qed.
Print Assumptions C40_slots_exist_for_single_modes_only.
(** C40: the combined mask synchronous|asynchronous passes the check of every class (even the synchronous-only ones)
    although no connection can be made with it afterwards. *)
Theorem C40_combined_mask_refuted :
  forall (c : cls), (forall s, c = CAction s -> N.land 3 s <> 0%N) ->
  set_parallel_mode Debug (supported c) 0 3 = Ok 3%N /\
  choose_slot Debug 3 = AssertFail /\ choose_slot Release 3 = Ok NoSlot.
Proof. exact mode_combined. Qed.
Print Assumptions C40_combined_mask_refuted.
Example C40_example :
  order_sensitive CAcceptanceRatio = true /\
  set_parallel_mode Debug (supported CMeanValue) 0 asynchronous = Ok asynchronous /\
  (forall s, CMeanValue = CAction s -> N.land 3 s <> 0%N).
Proof. repeat split. discriminate. Qed.

(** C43: size() is the number of components. *)
Theorem C43_size :
  forall (T : Type) (s : tysample T), (forall x n, s <> KSized x n) -> (forall l, s <> KSubscript l) ->
  usize s = List.length (components s).
Proof. exact @access_size. Qed.
Print Assumptions C43_size.
(** C43: for every index below size(s), get_nth_element returns that component (scalars, containers, arrays), in debug
    and release builds. *)
Theorem C43_element_access_in_range :
  forall (T : Type) (b : build) (s : tysample T) (i : nat),
  (forall x n, s <> KSized x n) -> (forall l, s <> KSubscript l) ->
  i < usize s -> exists x, nth_error (components s) i = Some x /\ get_nth_element b s i = Ok x.
Proof. exact @access_in_range. Qed.
Print Assumptions C43_element_access_in_range.
(** C43: other indices fail the assertion in a debug build, *)
Theorem C43_element_access_out_of_range :
  forall (T : Type) (s : tysample T) (i : nat), (forall x n, s <> KSized x n) ->
  usize s <= i -> get_nth_element Debug s i = AssertFail.
Proof. exact @access_out_of_range. Qed.
Print Assumptions C43_element_access_out_of_range.
(** C43: and are undefined behaviour in a release build for containers. *)
Theorem C43_element_access_out_of_range_release :
  forall (T : Type) (l : list T) (i : nat), List.length l <= i ->
  get_nth_element Release (KContainer l) i = UB.
Proof. exact @access_out_of_range_release. Qed.
Print Assumptions C43_element_access_out_of_range_release.
(** C43: for types with size() but without operator[] (std::list) size and access disagree. *)
Theorem C43_sized_without_subscript_refuted :
  forall (T : Type) (x : T) (n : nat), 1 < n ->
  usize (KSized x n) = n /\ get_nth_element Debug (KSized x n) 1 = AssertFail.
Proof. exact @access_sized. Qed.
Print Assumptions C43_sized_without_subscript_refuted.
(** C43: conj is the identity on real and an involution on complex numbers. *)
Theorem C43_conj :
  (forall (T : Type) (x : T), conj_real x = x) /\
  (forall (T : Type) (opp : T -> T), (forall t, opp (opp t) = t) ->
     forall z, conj_complex opp (conj_complex opp z) = z /\ fst (conj_complex opp z) = fst z /\
               snd (conj_complex opp z) = opp (snd z)).
Proof. exact conj_laws. Qed.
Print Assumptions C43_conj.
Example C43_example :
  get_nth_element Release (KContainer [4; 5; 6]) 2 = Ok 6 /\ get_nth_element Debug (KScalar 8) 0 = Ok 8 /\
  get_nth_element Debug (KArray [1; 2]) 2 = AssertFail /\ conj_complex Z.opp (3, 4)%Z = (3, -4)%Z.
Proof. repeat split. Qed.
