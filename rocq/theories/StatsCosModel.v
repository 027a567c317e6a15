(** Model of AverageCosineBetweenSuccessiveSamples, over the real numbers. *)
From Coq Require Import Reals.
From Verif Require Import Prelude ConsumerModel.
Local Open Scope R_scope.

(** The state: current_avg_cosine (history_length entries), the rows of previous_sample and previous_sample_replace (matrices
    with history_length rows), n_samples. *)
Record cos_state := { cs_avg : list R; cs_prev : nat -> list R; cs_repl : nat -> list R; cs_n : N; cs_dim : nat }.

(** Constructor, average_cosinus.impl.h:133-142. [garbage1], [garbage2] are the rows which the two matrices contain when they have been resized
    (lines 179-180) and not initialised. *)
Definition cos_init (garbage1 garbage2 : nat -> list R) : cos_state :=
  {| cs_avg := []; cs_prev := garbage1; cs_repl := garbage2; cs_n := 0; cs_dim := 0 |}.

(** [sum += a[j]*b[j]] for all j, starting at 0: lines 196-202. *)
Definition dot (a b : list R) : R := fold_left (fun s p => s + fst p * snd p) (combine a b) 0.

(** The loop body of lines 196-206 for one i: the new current_avg_cosine[i]; [n] is n_samples after the increment, so n-i-1 >= 1. *)
Definition cos_update (sample prev_i : list R) (n : N) (i : nat) (avg : R) : R :=
  let update := dot sample prev_i in
  let norm1 := dot sample sample in
  let norm2 := dot prev_i prev_i in
  let update := update / sqrt (norm1 * norm2) in
  let update := update - avg in
  let update := update / INR (N.to_nat (n - N.of_nat i - 1)) in
  avg + update.

(** Lines 192-207: all i < length1, the others are unchanged. *)
Definition cos_loop (sample : list R) (prev : nat -> list R) (n : N) (length1 : N) (avg : list R) : list R :=
  map (fun ia => if (N.of_nat (fst ia) <? length1)%N then cos_update sample (prev (fst ia)) n (fst ia) (snd ia) else snd ia)
      (combine (seq 0 (length avg)) avg).

(** [consume], average_cosinus.impl.h:156-222. history_length is an unsigned int, n_samples is cast to unsigned int (lines 188-189).
    A sample whose size is not that of the first one is undefined behaviour in the model (the code reads or writes the matrices out of range, or
    updates part of a row). *)
Definition cos_consume (history_length : N) (s : cos_state) (sample : list R) : outcome cos_state :=
  if (cs_n s =? 0)%N then
    if ((history_length =? 0)%N && negb (Nat.eqb (length sample) 0))%bool then UB else     (* previous_sample(0,i) with no row *)
    Ok {| cs_avg := repeat 0 (N.to_nat history_length);
          cs_prev := fun i => if Nat.eqb i 0 then sample else cs_prev s i;
          cs_repl := cs_repl s; cs_n := 1; cs_dim := length sample |}
  else if negb (Nat.eqb (length sample) (cs_dim s)) then UB else
  let length1 := N.min (wrap32 (cs_n s)) history_length in
  let length2 := N.min (wrap32 (cs_n s)) (wrap32 (history_length + two32 - 1)) in
  let n := wrap64 (cs_n s + 1) in
  let avg := cos_loop sample (cs_prev s) n length1 (cs_avg s) in
  let repl := fun i => if Nat.eqb i 0 then sample
                       else if (N.of_nat (i - 1) <? length2)%N then cs_prev s (i - 1) else cs_repl s i in
  Ok {| cs_avg := avg; cs_prev := repl; cs_repl := repl; cs_n := n; cs_dim := cs_dim s |}.
(** [get], average_cosinus.impl.h:226-235 *)
Definition cos_get (s : cos_state) : list R := cs_avg s.
