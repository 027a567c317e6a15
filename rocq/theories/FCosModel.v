(** Model of AverageCosineBetweenSuccessiveSamples over any type of numbers: the operations are those of [kops], and [ksqrt] is std::sqrt. With the real numbers it is the model of StatsCosModel (FCosProofs.real_model). *)
From Verif Require Import Prelude ConsumerModel StatsModel.

Section Cos.
  Context {K : Type} (F : kops K) (ksqrt : K -> K).

  (** The members, average_cosinus.impl.h:104-130: current_avg_cosine, the rows of previous_sample and previous_sample_replace, n_samples; and the number of columns of the matrices. *)
  Record gcos_state := { gc_avg : list K; gc_prev : nat -> list K; gc_repl : nat -> list K; gc_n : N; gc_dim : nat }.
  (** Constructor, average_cosinus.impl.h:133-142; [garbage1] and [garbage2] are the uninitialised rows of the matrices (lines 179-180). *)
  Definition gcos_init (garbage1 garbage2 : nat -> list K) : gcos_state := {| gc_avg := []; gc_prev := garbage1; gc_repl := garbage2; gc_n := 0; gc_dim := 0 |}.

  (** [sum += a[j]*b[j]] for all j, starting at 0, average_cosinus.impl.h:196-202. *)
  Definition gdot (a b : list K) : K := fold_left (fun s p => kadd F s (kmul F (fst p) (snd p))) (combine a b) (k0 F).
  (** average_cosinus.impl.h:196-203: the cosine of the angle between two samples. *)
  Definition gcosine (sample prev_i : list K) : K := kdiv F (gdot sample prev_i) (ksqrt (kmul F (gdot sample sample) (gdot prev_i prev_i))).
  (** average_cosinus.impl.h:203-206: the new current_avg_cosine[i]. *)
  Definition gcos_update (sample prev_i : list K) (n : N) (i : nat) (avg : K) : K :=
    kadd F avg (kdiv F (ksub F (gcosine sample prev_i) avg) (kofN F (n - N.of_nat i - 1))).
  (** average_cosinus.impl.h:192-207: all i < length1. *)
  Definition gcos_loop (sample : list K) (prev : nat -> list K) (n length1 : N) (avg : list K) : list K :=
    map (fun ia => if (N.of_nat (fst ia) <? length1)%N then gcos_update sample (prev (fst ia)) n (fst ia) (snd ia) else snd ia) (combine (seq 0 (length avg)) avg).
  (** [consume], average_cosinus.impl.h:156-222, as in StatsCosModel.cos_consume. *)
  Definition gcos_consume (history_length : N) (s : gcos_state) (sample : list K) : outcome gcos_state :=
    if (gc_n s =? 0)%N then
      if ((history_length =? 0)%N && negb (Nat.eqb (length sample) 0))%bool then UB else
      Ok {| gc_avg := repeat (k0 F) (N.to_nat history_length); gc_prev := fun i => if Nat.eqb i 0 then sample else gc_prev s i;
            gc_repl := gc_repl s; gc_n := 1; gc_dim := length sample |}
    else if negb (Nat.eqb (length sample) (gc_dim s)) then UB else
    let length1 := N.min (wrap32 (gc_n s)) history_length in
    let length2 := N.min (wrap32 (gc_n s)) (wrap32 (history_length + two32 - 1)) in
    let n := wrap64 (gc_n s + 1) in
    let avg := gcos_loop sample (gc_prev s) n length1 (gc_avg s) in
    let repl := fun i => if Nat.eqb i 0 then sample else if (N.of_nat (i - 1) <? length2)%N then gc_prev s (i - 1) else gc_repl s i in
    Ok {| gc_avg := avg; gc_prev := repl; gc_repl := repl; gc_n := n; gc_dim := gc_dim s |}.
  (** [get], average_cosinus.impl.h:226-235 *)
  Definition gcos_get (s : gcos_state) : list K := gc_avg s.
End Cos.
Arguments gcos_state K : clear implicits.

(** [AcceptanceRatio::get], acceptance_ratio.impl.h:228-241, over any type of numbers. *)
Definition gacc_get {X K} (F : kops K) (s : acc_state X) : K := if (0 <? a_n s)%N then kdiv F (kofN F (a_acc s)) (kofN F (a_n s)) else k0 F.
