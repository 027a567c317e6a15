(** Model of the filter classes (include/sampleflow/filters/) and of
    [Filter::consume] (filter.impl.h:160-188).

    A sample together with its auxiliary data is a pair [In * A]; [A] (the C++
    [AuxiliaryData], auxiliary_data.impl.h) is an arbitrary type here because
    no filter looks into it, except a user predicate of [Condition]. *)
From Verif Require Import Prelude.

(** The virtual function [Filter::filter] (filter.impl.h:152-155) together with
    the mutable members of the class: old member values and the sample are
    mapped to new member values and a [std::optional]. *)
Definition filter_fn (St In Out A : Type) : Type :=
  St -> In * A -> outcome (St * option (Out * A)).

(** Feeding a filter a stream of samples one after the other: what it passes to
    [issue_sample], in order.  One iteration is [Filter::consume],
    filter.impl.h:174-188: call [filter()], and [issue_sample] the result
    iff the optional is non-empty. *)
Fixpoint run_filter {St In Out A} (f : filter_fn St In Out A) (s : St)
         (xs : list (In * A)) : outcome (St * list (Out * A)) :=
  match xs with
  | [] => Ok (s, [])
  | x :: xs' =>
    do (s1, o) <- f s x;
    do (s2, ys) <- run_filter f s1 xs';
    Ok (s2, match o with Some y => y :: ys | None => ys end)
  end.

(** [TakeEveryNth]: constructor, take_every_nth.impl.h:107-112 (counter = 0). *)
Definition ten_init : N := 0%N.

(** [TakeEveryNth::filter], take_every_nth.impl.h:125-143.  [%] with a zero right
    operand is undefined behaviour.  The mutex (line 131) makes the call atomic;
    see ConcModel for concurrent callers. *)
Definition ten_filter {X A} (every_nth : N) : filter_fn N X X A :=
  fun counter x =>
    if (every_nth =? 0)%N then UB
    else if (counter mod every_nth =? 0)%N
         then Ok (1%N, Some x)
         else Ok (wrap64 (counter + 1), None).

(** [DiscardFirstN]: constructor, discard_first_n.impl.h:99-104. *)
Definition dfn_init : N := 0%N.

(** [DiscardFirstN::filter], discard_first_n.impl.h:116-133. *)
Definition dfn_filter {X A} (initial_n_samples : N) : filter_fn N X X A :=
  fun counter x =>
    let counter' := wrap64 (counter + 1) in
    if (initial_n_samples <? counter')%N
    then Ok (counter', Some x)
    else Ok (counter', None).

(** [Condition::filter], condition.impl.h:142-152; the one-argument predicate
    constructor (111-120) wraps the predicate and ignores the auxiliary data. *)
Definition cond_filter {X A} (predicate : X -> A -> bool) : filter_fn unit X X A :=
  fun s x => Ok (s, if predicate (fst x) (snd x) then Some (fst x, snd x) else None).
Definition cond_filter1 {X A} (predicate : X -> bool) : filter_fn unit X X A :=
  cond_filter (fun x _ => predicate x).

(** [Conversion::filter], conversion.impl.h:132-139. *)
Definition conv_filter {X Y A} (conversion : X -> Y) : filter_fn unit X Y A :=
  fun s x => Ok (s, Some (conversion (fst x), snd x)).

(** [PassThrough::filter], pass_through.impl.h:101-108. *)
Definition pass_filter {X A} : filter_fn unit X X A :=
  fun s x => Ok (s, Some (fst x, snd x)).

(** [ComponentSplitter::filter], component_splitter.impl.h:129-141, for samples
    that are sequences; [sample[k]] out of range is undefined behaviour. *)
Definition split_filter {X A} (b : build) (selected : nat) : filter_fn unit (list X) X A :=
  fun s x =>
    assert_then b (selected <? length (fst x))%nat
      match nth_error (fst x) selected with
      | Some y => Ok (s, Some (y, snd x))
      | None => UB
      end.

(** Sequential composition of two filters, [f >> g] (the output of [f] is the
    input of [g]): connections.impl.h:598-635 connects [g] to [f], and
    [Filter::consume] of [f] synchronously invokes [g]'s sample slot. *)
Definition seq_filter {S1 S2 X Y Z A}
           (f : filter_fn S1 X Y A) (g : filter_fn S2 Y Z A)
  : filter_fn (S1 * S2) X Z A :=
  fun '(s1, s2) x =>
    do (s1', o) <- f s1 x;
    match o with
    | None => Ok ((s1', s2), None)
    | Some y => do (s2', o') <- g s2 y; Ok ((s1', s2'), o')
    end.

(** A whole chain of filters over one sample type. *)
Inductive pipe (X A : Type) : Type :=
| PNil
| PCons (St : Type) (s0 : St) (f : filter_fn St X X A) (rest : pipe X A).
Arguments PNil {X A}.
Arguments PCons {X A} St s0 f rest.

(** One sample enters the first filter of the chain; [consume] of each filter
    calls the next one before it returns (depth first), filter.impl.h:185-187. *)
Fixpoint pipe_step {X A} (p : pipe X A) (x : X * A)
  : outcome (pipe X A * option (X * A)) :=
  match p with
  | PNil => Ok (PNil, Some x)
  | PCons St s f rest =>
    do (s', o) <- f s x;
    match o with
    | None => Ok (PCons St s' f rest, None)
    | Some y => do (rest', o') <- pipe_step rest y;
                Ok (PCons St s' f rest', o')
    end
  end.

Fixpoint pipe_run {X A} (p : pipe X A) (xs : list (X * A))
  : outcome (list (X * A)) :=
  match xs with
  | [] => Ok []
  | x :: xs' =>
    do (p', o) <- pipe_step p x;
    do ys <- pipe_run p' xs';
    Ok (match o with Some y => y :: ys | None => ys end)
  end.
