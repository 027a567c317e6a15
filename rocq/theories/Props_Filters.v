(** Property theorems about the filter classes (C02, C07, C08, C09). *)
From Coq Require Import NArith List Arith.
From Verif Require Import Prelude FilterModel FilterSpec FilterProofs.

(** C07: exactly the samples with index divisible by n come out, in order and unchanged. *)
Theorem C07_take_every_nth :
  forall (X A : Type) (n : N) (xs : list (X * A)),
  (0 < n < two64)%N ->
  exists c, run_filter (ten_filter n) ten_init xs =
            Ok (c, pick (fun i => N.of_nat i mod n =? 0)%N xs).
Proof. exact @ten_correct. Qed.
Print Assumptions C07_take_every_nth.

(** C07: the number of forwarded samples is ceil(N/n). *)
Theorem C07_take_every_nth_count :
  forall (X A : Type) (n : nat) (xs : list (X * A)) c ys,
  0 < n -> (N.of_nat n < two64)%N ->
  run_filter (ten_filter (N.of_nat n)) ten_init xs = Ok (c, ys) ->
  length ys = ceil_div (length xs) n.
Proof. exact @ten_count. Qed.
Print Assumptions C07_take_every_nth_count.

(** C07: the counter stays at most n for streams of every length: it never wraps. *)
Theorem C07_take_every_nth_no_overflow :
  forall (X A : Type) (n : N) (xs : list (X * A)) c ys,
  (0 < n < two64)%N ->
  run_filter (ten_filter n) ten_init xs = Ok (c, ys) -> (c <= n)%N.
Proof. exact @ten_counter_bounded. Qed.
Print Assumptions C07_take_every_nth_no_overflow.

(** C07: n = 0 is undefined behaviour on the first sample. *)
Theorem C07_take_every_0th_is_undefined :
  forall (X A : Type) (x : X * A) xs,
  run_filter (ten_filter 0) ten_init (x :: xs) = UB.
Proof. exact @ten_zero_ub. Qed.
Print Assumptions C07_take_every_0th_is_undefined.

Example C07_example :
  run_filter (ten_filter 3) ten_init [(10,0);(11,0);(12,0);(13,1);(14,0);(15,0);(16,2);(17,0)]
  = Ok (2%N, [(10,0);(13,1);(16,2)])
  /\ ceil_div 8 3 = 3.
Proof. split; reflexivity. Qed.

(** C08: for streams of fewer than 2^64 samples, exactly the first n are dropped. *)
Theorem C08_discard_first_n :
  forall (X A : Type) (n : nat) (xs : list (X * A)),
  (N.of_nat (length xs) < two64)%N ->
  exists c, run_filter (dfn_filter (N.of_nat n)) dfn_init xs = Ok (c, skipn n xs).
Proof. exact @dfn_correct. Qed.
Print Assumptions C08_discard_first_n.

(** C08: the exact behaviour for streams of every length. *)
Theorem C08_discard_first_n_exact :
  forall (X A : Type) (n : N) (xs : list (X * A)),
  exists c, run_filter (dfn_filter n) dfn_init xs =
            Ok (c, pick (fun i => n <? (N.of_nat i + 1) mod 2 ^ 64)%N xs).
Proof. exact @dfn_exact. Qed.
Print Assumptions C08_discard_first_n_exact.

(** C08: sample number 2^64 is always lost, whatever n is. *)
Theorem C08_discard_first_n_wraps :
  forall (X A : Type) (n : nat) (xs : list (X * A)) x,
  N.of_nat (length xs) = (two64 - 1)%N ->
  exists c, run_filter (dfn_filter (N.of_nat n)) dfn_init (xs ++ [x]) = Ok (c, skipn n xs).
Proof. exact @dfn_wrap_loses. Qed.
Print Assumptions C08_discard_first_n_wraps.

(** C08 without the length restriction is false. *)
Theorem C08_discard_first_n_unbounded_refuted :
  forall (X A : Type) (x : X * A),
  ~ (forall (n : nat) (xs : list (X * A)), (N.of_nat n < two64)%N ->
       exists c, run_filter (dfn_filter (N.of_nat n)) dfn_init xs = Ok (c, skipn n xs)).
Proof. exact @dfn_unbounded_false. Qed.
Print Assumptions C08_discard_first_n_unbounded_refuted.

Example C08_example :
  run_filter (dfn_filter 2) dfn_init [(10,0);(11,0);(12,7);(13,1)] = Ok (4%N, [(12,7);(13,1)])
  /\ (N.of_nat (length [(10,0);(11,0);(12,7);(13,1)]) < two64)%N.
Proof. split; reflexivity. Qed.

(** C09: Condition. *)
Theorem C09_condition :
  forall (X A : Type) (p : X -> A -> bool) (xs : list (X * A)) s,
  run_filter (cond_filter p) s xs = Ok (s, filter (fun x => p (fst x) (snd x)) xs).
Proof. exact @cond_correct. Qed.
Print Assumptions C09_condition.

Theorem C09_condition_without_aux :
  forall (X A : Type) (p : X -> bool) (xs : list (X * A)) s,
  run_filter (cond_filter1 p) s xs = Ok (s, filter (fun x => p (fst x)) xs).
Proof. exact (fun X A p => @cond_correct X A (fun x _ => p x)). Qed.
Print Assumptions C09_condition_without_aux.

(** C09: Conversion. *)
Theorem C09_conversion :
  forall (X Y A : Type) (g : X -> Y) (xs : list (X * A)) s,
  run_filter (conv_filter g) s xs = Ok (s, map (fun x => (g (fst x), snd x)) xs).
Proof. exact @conv_correct. Qed.
Print Assumptions C09_conversion.

(** C09: PassThrough. *)
Theorem C09_pass_through :
  forall (X A : Type) (xs : list (X * A)) s,
  run_filter pass_filter s xs = Ok (s, xs).
Proof. exact @pass_correct. Qed.
Print Assumptions C09_pass_through.

(** C09: ComponentSplitter succeeds with [ys] iff each y is component k of the
    corresponding sample, with that sample's auxiliary data. *)
Theorem C09_component_splitter :
  forall (X A : Type) b k (xs : list (list X * A)) (ys : list (X * A)) s,
  Forall2 (fun x y => nth_error (fst x) k = Some (fst y) /\ snd x = snd y) xs ys ->
  run_filter (split_filter b k) s xs = Ok (s, ys).
Proof. exact @split_ok. Qed.
Print Assumptions C09_component_splitter.

Theorem C09_component_splitter_only :
  forall (X A : Type) b k (xs : list (list X * A)) (ys : list (X * A)) s s',
  run_filter (split_filter b k) s xs = Ok (s', ys) ->
  Forall2 (fun x y => nth_error (fst x) k = Some (fst y) /\ snd x = snd y) xs ys.
Proof. exact @split_ok_inv. Qed.
Print Assumptions C09_component_splitter_only.

(** C09: the first sample that is too short is an assertion failure, or
    undefined behaviour in a release build. *)
Theorem C09_component_splitter_out_of_range :
  forall (X A : Type) b k (pre : list (list X * A)) x post s,
  Forall (fun y => k < length (fst y)) pre ->
  length (fst x) <= k ->
  run_filter (split_filter b k) s (pre ++ x :: post) =
  match b with Debug => AssertFail | Release => UB end.
Proof. exact @split_fail. Qed.
Print Assumptions C09_component_splitter_out_of_range.

Example C09_example :
  run_filter (cond_filter (fun x a => Nat.even (x + a))) tt [(1,1);(2,1);(3,5);(4,0)]
    = Ok (tt, [(1,1);(3,5);(4,0)])
  /\ run_filter (split_filter Debug 1) tt [([1;2],7);([3;4;5],8)] = Ok (tt, [(2,7);(4,8)])
  /\ run_filter (split_filter Debug 1) tt [([1;2],7);([3],8);([5;6],8)] = AssertFail
  /\ run_filter (split_filter Release 1) tt [([1;2],7);([3],8);([5;6],8)] = UB.
Proof. repeat split; reflexivity. Qed.

(** C02: two filters in sequence are the composition of their stream functions. *)
Theorem C02_two_filters_compose :
  forall (S1 S2 X Y Z A : Type) (f : filter_fn S1 X Y A) (g : filter_fn S2 Y Z A)
         s1 s2 xs s1' s2' zs,
  run_filter (seq_filter f g) (s1, s2) xs = Ok ((s1', s2'), zs) <->
  exists ys, run_filter f s1 xs = Ok (s1', ys) /\ run_filter g s2 ys = Ok (s2', zs).
Proof. exact @seq_filter_correct. Qed.
Print Assumptions C02_two_filters_compose.

(** C02: a chain of any length, processed sample by sample (depth first),
    equals the composition of the stream functions of its filters. *)
Theorem C02_pipeline_is_composition :
  forall (X A : Type) (p : pipe X A) (xs zs : list (X * A)),
  pipe_run p xs = Ok zs <-> pipe_compose p xs = Ok zs.
Proof. exact @pipe_correct. Qed.
Print Assumptions C02_pipeline_is_composition.

Example C02_example :
  let p := PCons N dfn_init (dfn_filter 1)
           (PCons unit tt (cond_filter (fun x _ => Nat.odd x))
           (PCons N ten_init (ten_filter 2) PNil)) in
  pipe_run p [(1,0);(2,0);(3,9);(5,0);(6,0);(7,4);(9,0)] = Ok [(3,9);(7,4)].
Proof. reflexivity. Qed.
