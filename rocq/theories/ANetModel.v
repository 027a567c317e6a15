(** Model of a whole network of filters and consumers, any of them in synchronous or asynchronous mode, used by any number of threads:
    producer.impl.h, consumer.impl.h, filter.impl.h.

    As in ConcModel a thread is the list of instructions it still has to execute, and a schedule is any sequence of choices of threads. ConcModel looks at one
    consumer in full detail (connecting, disconnecting, destruction); here the network is fixed while the threads run, and the subject is how samples and flushes travel through it.

    consume() of a consumer, filter() of a filter and std::async may throw an exception at any time. An exception leaves the calls it passes through one after the other
    ([unwind]), until it reaches the user's call of issue_sample(), or the beginning of a task: there it is stored in the future, where nobody looks for it, since flush() and
    trim_background_queue() only wait. The sample() functions of producers run flush_consumers() from the destructor of a ScopeExit object, also when issue_sample() throws (scope_exit.impl.h:78-91;
    metropolis_hastings.impl.h:613, delayed_rejection_mh.impl.h:215, differential_evaluation_mh.impl.h:162, range.impl.h:114): here a thread goes on with its program after a call that has thrown, so what a sample() left by an exception does
    is what a thread with fewer issue_sample() calls before its flush_consumers() does.

    Simplifications: A filter() that throws leaves the member variables of the filter as they were (what can throw in the library's filters are the user functions
    of Condition and Conversion, which have none, and access to components in ComponentSplitter). What a consumer that throws has done before is not modelled: neither are the member variables of consumers. No connection is made or removed, so the shared mutex
    synchronous_mode_mutex (consumer.impl.h:386), which is only ever locked uniquely by disconnect_and_flush(), never blocks and is left out, and the check for
    connections (391, 426) always succeeds. A task that std::async defers is executed by the thread that waits for its future; here it is a thread of its own that cannot start
    before some thread waits for it ([IParked]), and that thread cannot continue before it is done. Launching a task and recording its future (437, 442) are one step: both happen under
    the lock that protects the list of futures. flush() takes the futures out of the list when it has acquired the lock, not at the end (568-577): nobody
    else can look at the list in between. *)
From Verif Require Import Prelude.
Local Open Scope nat_scope.

(** ParallelMode, parallel_mode.impl.h:26-98: the mode in force when a connection is made decides which slot is connected (consumer.impl.h:349-460). *)
Inductive mode := Sync | Async.
(** A connection: consumer [g_to] is connected to producer [g_from]. Producers, filters and consumers are numbered; a filter has one number for both of its sides. *)
Record edge := { g_from : nat; g_to : nat; g_mode : mode }.

(** Calls that user threads make: [issue_sample(x)] and [flush_consumers()] of a producer (both are what the sample() functions of producers consist of), and [flush()] of a consumer or filter. *)
Inductive op (X : Type) :=
| OSend (p : nat) (x : X)
| OFlushConsumers (p : nat)
| OFlush (c : nat).
Arguments OSend {X}. Arguments OFlushConsumers {X}. Arguments OFlush {X}.

(** Every call has a number, in the order in which they are made. A sample on its way is labelled by the number of the call that sent it, and by the connections it has
    passed, the last one first. Labels are not part of the program: nothing depends on them. *)
Notation trail := (list nat) (only parsing).
Notation label := (nat * list nat)%type (only parsing).

Inductive instr (X : Type) :=
| ICall (o : op X)
| IReturn (n : nat) (o : op X)
| IEmit (l : label) (p : nat) (x : X)               (* issue_sample(x) of p *)
| ISlot (l : label) (c : nat) (m : mode) (x : X)    (* a slot of c is called *)
| IAsync (l : label) (c : nat) (x : X)              (* asynchronous slot once it has the lock *)
| IUnlock (c : nat)                                 (* asynchronous_mode_mutex of c *)
| IAcqTrim (c : nat)                                (* trim_background_queue() *)
| ITrim (c : nat)                                   (* ... once it has the lock *)
| IParked (d : nat)                                 (* deferred task: waits to be waited for *)
| IConsume (l : label) (c : nat) (x : X)            (* consume(x) of c begins *)
| IEnd (l : label) (c : nat) (d : option nat)       (* consume(x) ends; in a task, its future becomes ready *)
| IEmitFlush (n : nat) (r : trail) (p : nat)        (* flush_consumers() of p; n and r are the number of the call and the connections passed *)
| ISlotFlush (n : nat) (r : trail) (c : nat)        (* flush() of c *)
| IFlush (n : nat) (r : trail) (c : nat)            (* ... once it has the lock *)
| IWaits (n : nat) (r : trail) (c : nat) (l : list nat). (* ... still has to wait for these futures *)
Arguments ICall {X}. Arguments IReturn {X}. Arguments IEmit {X}. Arguments ISlot {X}. Arguments IAsync {X}. Arguments IUnlock {X}. Arguments IAcqTrim {X}.
Arguments ITrim {X}. Arguments IParked {X}. Arguments IConsume {X}. Arguments IEnd {X}. Arguments IEmitFlush {X}. Arguments ISlotFlush {X}. Arguments IFlush {X}. Arguments IWaits {X}.

(** Tasks: not created yet; deferred; running or about to; done (the future is ready). *)
Inductive stat := SFresh | SDeferred | SActive | SDone.

(** What an observer sees of a step of thread [t]. *)
Inductive event (X : Type) :=
| ECall (t n : nat) (o : op X)
| EReturn (t n : nat) (o : op X)
| EThrew (t n : nat) (o : op X)                     (* the call ends by an exception *)
| EIssue (t : nat) (l : label) (p : nat) (x : X)    (* producer or filter p issues x *)
| EStart (t : nat) (l : label) (c : nat) (x : X)    (* consume(x) of c begins *)
| EFail (t : nat) (l : label) (c : nat) (x : X)     (* consume(x) of c begins and throws; for a filter: filter() throws *)
| EEnd (t : nat) (l : label) (c : nat)              (* consume() returns *)
| EAbort (t : nat) (l : label) (c : nat)            (* an exception leaves consume() *)
| ERefuse (t : nat) (l : label) (c : nat)           (* std::async throws: there is no task *)
| ESkip (t : nat) (l : label) (c : nat)             (* a slot of c is not called because of an exception *)
| ETau (t : nat).                                   (* anything else *)
Arguments ECall {X}. Arguments EReturn {X}. Arguments EThrew {X}. Arguments EIssue {X}. Arguments EStart {X}. Arguments EFail {X}. Arguments EEnd {X}. Arguments EAbort {X}. Arguments ERefuse {X}.
Arguments ESkip {X}. Arguments ETau {X}.

(** What happens in a step is decided by the thread, and by: does std::async start a task immediately, or defer it? does a consume(), a filter() or std::async throw? *)
Record choice := { immediately : bool; throws : bool }.

Record state (X St : Type) := {
  a_lock : nat -> bool;             (* is asynchronous_mode_mutex of this consumer locked? consumer.impl.h:266 *)
  a_queue : list (nat * nat);       (* background_tasks of all consumers: (consumer, task), 283 *)
  a_stat : nat -> stat;
  a_next : nat;                     (* next task *)
  a_calls : nat;                    (* next call *)
  a_st : nat -> St;                 (* member variables of filters *)
  a_exc : nat -> bool;              (* is an exception on its way up the stack of this thread? *)
  a_threads : list (list (instr X)) }.
Arguments a_lock {X St}. Arguments a_queue {X St}. Arguments a_stat {X St}. Arguments a_next {X St}. Arguments a_calls {X St}. Arguments a_st {X St}. Arguments a_exc {X St}. Arguments a_threads {X St}.

Section Model.
Context {X St : Type}.
(** The connections in the order in which they were made, and [Filter::filter()] of filters ([None] for consumers that are not filters), filter.impl.h:152-155. A filter
    reads and writes its member variables in one step: the classes that have such variables protect them by a mutex, e.g. take_every_nth.impl.h:128. *)
Variable edges : list edge.
Variable filt : nat -> option (St -> X -> St * option X).
Implicit Types (s : state X St) (k : list (instr X)).

Definition set_lock s (c : nat) (v : bool) : state X St := {| a_lock := fun c' => if c' =? c then v else a_lock s c'; a_queue := a_queue s; a_stat := a_stat s; a_next := a_next s; a_calls := a_calls s;
  a_st := a_st s; a_exc := a_exc s; a_threads := a_threads s |}.
Definition set_queue s (v : list (nat * nat)) : state X St := {| a_lock := a_lock s; a_queue := v; a_stat := a_stat s; a_next := a_next s; a_calls := a_calls s; a_st := a_st s; a_exc := a_exc s; a_threads := a_threads s |}.
Definition set_stat s (d : nat) (v : stat) : state X St := {| a_lock := a_lock s; a_queue := a_queue s; a_stat := fun e => if e =? d then v else a_stat s e; a_next := a_next s; a_calls := a_calls s;
  a_st := a_st s; a_exc := a_exc s; a_threads := a_threads s |}.
Definition new_task s : state X St := {| a_lock := a_lock s; a_queue := a_queue s; a_stat := a_stat s; a_next := S (a_next s); a_calls := a_calls s; a_st := a_st s; a_exc := a_exc s; a_threads := a_threads s |}.
Definition new_call s : state X St := {| a_lock := a_lock s; a_queue := a_queue s; a_stat := a_stat s; a_next := a_next s; a_calls := S (a_calls s); a_st := a_st s; a_exc := a_exc s; a_threads := a_threads s |}.
Definition set_st s (c : nat) (v : St) : state X St := {| a_lock := a_lock s; a_queue := a_queue s; a_stat := a_stat s; a_next := a_next s; a_calls := a_calls s;
  a_st := fun c' => if c' =? c then v else a_st s c'; a_exc := a_exc s; a_threads := a_threads s |}.
Definition set_exc s (t : nat) (v : bool) : state X St := {| a_lock := a_lock s; a_queue := a_queue s; a_stat := a_stat s; a_next := a_next s; a_calls := a_calls s;
  a_st := a_st s; a_exc := fun t' => if t' =? t then v else a_exc s t'; a_threads := a_threads s |}.
Definition set_threads s (v : list (list (instr X))) : state X St := {| a_lock := a_lock s; a_queue := a_queue s; a_stat := a_stat s; a_next := a_next s; a_calls := a_calls s; a_st := a_st s; a_exc := a_exc s; a_threads := v |}.
Fixpoint upd {A} (l : list A) (t : nat) (a : A) : list A :=
  match l, t with
  | [], _ => []
  | _ :: l', 0 => a :: l'
  | b :: l', S t' => b :: upd l' t' a
  end.

(** The slots of the signals of [p]: the connections to it with their numbers, producer.impl.h:219-238. *)
Definition slots (p : nat) : list (nat * edge) := filter (fun ie => g_from (snd ie) =? p) (combine (seq 0 (length edges)) edges).
(** The background tasks of [c]. *)
Definition queue s (c : nat) : list nat := map snd (filter (fun cd => fst cd =? c) (a_queue s)).
(** What a call consists of. *)
Definition code (n : nat) (o : op X) : list (instr X) :=
  match o with
  | OSend p x => [IEmit (n, []) p x]
  | OFlushConsumers p => [IEmitFlush n [] p]
  | OFlush c => [ISlotFlush n [] c]
  end.
(** A call of consume(x) of [c], in task [d] if not on the thread of the caller. *)
Definition consume_code (l : label) (c : nat) (x : X) (d : option nat) : list (instr X) := [IConsume l c x; IEnd l c d].

(** Executing one instruction: the event, the instructions that take its place, new threads, the new state (threads not updated yet); [None]: blocked. *)
Definition normal (b : choice) (t : nat) s (i : instr X) : option (event X * list (instr X) * list (list (instr X)) * state X St) :=
  match i with
  | ICall o => let n := a_calls s in Some (ECall t n o, code n o ++ [IReturn n o], [], new_call s)
  | IReturn n o => Some (EReturn t n o, [], [], s)
  (* boost::signals2: all slots are called one after the other *)
  | IEmit l p x => Some (EIssue t l p x, map (fun ie => ISlot (fst l, fst ie :: snd l) (g_to (snd ie)) (g_mode (snd ie)) x) (slots p), [], s)
  (* consumer.impl.h:382-397 *)
  | ISlot l c Sync x => Some (ETau t, consume_code l c x None, [], s)
  (* consumer.impl.h:405-452 *)
  | ISlot l c Async x => if a_lock s c then None else Some (ETau t, [IAsync l c x], [], set_lock s c true)
  | IAsync l c x =>
      let d := a_next s in
      (* the destructor of the lock_guard in line 426 releases the mutex *)
      if throws b then Some (ERefuse t l c, [], [], set_exc (set_lock s c false) t true)
      else Some (ETau t, [IUnlock c; IAcqTrim c],
            [if immediately b then consume_code l c x (Some d) else IParked d :: consume_code l c x (Some d)],
            set_queue (set_stat (new_task s) d (if immediately b then SActive else SDeferred)) (a_queue s ++ [(c, d)]))
  | IUnlock c => Some (ETau t, [], [], set_lock s c false)
  (* trim_background_queue, consumer.impl.h:583-598 *)
  | IAcqTrim c => if a_lock s c then None else Some (ETau t, [ITrim c], [], set_lock s c true)
  | ITrim c =>
      match queue s c with
      | d :: _ => match a_stat s d with
                  | SDone => Some (ETau t, [ITrim c], [], set_queue s (filter (fun cd => negb (snd cd =? d)) (a_queue s)))
                  | _ => Some (ETau t, [IUnlock c], [], s)
                  end
      | [] => Some (ETau t, [IUnlock c], [], s)
      end
  | IParked d => match a_stat s d with SDeferred => None | _ => Some (ETau t, [], [], s) end
  (* Filter::consume, filter.impl.h:174-188 *)
  | IConsume l c x =>
      if throws b then Some (EFail t l c x, [], [], set_exc s t true)
      else match filt c with
      | None => Some (EStart t l c x, [], [], s)
      | Some f => let (v, o) := f (a_st s c) x in
                  Some (EStart t l c x, match o with Some y => [IEmit l c y] | None => [] end, [], set_st s c v)
      end
  | IEnd l c d => Some (EEnd t l c, [], [], match d with Some d => set_stat s d SDone | None => s end)
  (* Consumer::flush, consumer.impl.h:560-579, Filter::flush, filter.impl.h:192-205 *)
  | IEmitFlush n r p => Some (ETau t, map (fun ie => ISlotFlush n (fst ie :: r) (g_to (snd ie))) (slots p), [], s)
  | ISlotFlush n r c => if a_lock s c then None else Some (ETau t, [IFlush n r c], [], set_lock s c true)
  | IFlush n r c => Some (ETau t, [IWaits n r c (queue s c)], [], set_queue s (filter (fun cd => negb (fst cd =? c)) (a_queue s)))
  | IWaits n r c [] => Some (ETau t, IUnlock c :: match filt c with Some _ => [IEmitFlush n r c] | None => [] end, [], s)
  | IWaits n r c (d :: l) =>
      match a_stat s d with
      | SDone => Some (ETau t, [IWaits n r c l], [], s)
      | SDeferred => Some (ETau t, [IWaits n r c (d :: l)], [], set_stat s d SActive)
      | _ => None
      end
  end.
(** What becomes of an instruction when an exception passes: the rest of a signal's slots is not called (boost::signals2 lets exceptions propagate), the destructors of
    lock_guard objects release mutexes, the exception ends in the user's call or, if this is a task, in its future. *)
Definition unwind (t : nat) s (i : instr X) : option (event X * list (instr X) * list (list (instr X)) * state X St) :=
  Some match i with
  | IReturn n o => (EThrew t n o, [], [], set_exc s t false)
  | IEnd l c None => (EAbort t l c, [], [], s)
  | IEnd l c (Some d) => (EAbort t l c, [], [], set_stat (set_exc s t false) d SDone)
  | ISlot l c _ _ => (ESkip t l c, [], [], s)
  | IAsync _ c _ | IUnlock c | ITrim c | IFlush _ _ c | IWaits _ _ c _ => (ETau t, [], [], set_lock s c false)
  | _ => (ETau t, [], [], s)
  end.
Definition exec1 (b : choice) (t : nat) s (i : instr X) := if a_exc s t then unwind t s i else normal b t s i.
Definition step (b : choice) (t : nat) s : option (event X * state X St) :=
  match nth_error (a_threads s) t with
  | None | Some [] => None
  | Some (i :: k) =>
    match exec1 b t s i with
    | None => None
    | Some (ev, e, sp, s1) => Some (ev, set_threads s1 (upd (a_threads s) t (e ++ k) ++ sp))
    end
  end.
(** A schedule is a list of choices; choosing a thread that cannot move has no effect. *)
Fixpoint run (sched : list (nat * choice)) s : list (event X) * state X St :=
  match sched with
  | [] => ([], s)
  | (t, b) :: r =>
    match step b t s with
    | None => run r s
    | Some (e, s') => let '(tr, s'') := run r s' in (e :: tr, s'')
    end
  end.
(** Threads that are going to make the given calls. *)
Definition initial (s0 : nat -> St) (programs : list (list (op X))) : state X St :=
  {| a_lock := fun _ => false; a_queue := []; a_stat := fun _ => SFresh; a_next := 0; a_calls := 0; a_st := s0; a_exc := fun _ => false; a_threads := map (map ICall) programs |}.
End Model.
