(** Model of the threads that meet in one Consumer object: samples sent by any number of producers on any number of threads, background tasks,
    flush(), disconnect_and_flush(), connecting, and destruction of producers and of the consumer.

    A thread is the list of instructions it still has to execute; executing the first one may put others in its place. One instruction is
    one indivisible action: acquiring or releasing a mutex, one access to the shared members under the mutex, one call to or return from a user visible function.
    A schedule picks the thread that makes the next step; any schedule is allowed.

    Abstractions: the memory is sequentially consistent (data races are treated separately, see [accesses] in ConcSpec); consume() is the
    pair of events "start" and "end" with the calls in between that it makes on this same consumer ([body]), an exception thrown by it counts as an end (in a background
    task it is stored in the future and dropped with it; in synchronous mode it passes through the slot after the lock has been released;
    what it does to the sender is in NetModel). *)
From Verif Require Import Prelude.
Local Open Scope nat_scope.

(** The three signals of a producer: producer.impl.h:129, 177, 186. *)
Inductive signal := SigSample | SigFlush | SigDisconnect.
(** The parallel mode in force when a connection was made decides what the slot does: consumer.impl.h:349-460. *)
Inductive kind := KSync | KAsync.
(** One slot in the slot list of a signal of producer [hk_prod], belonging to connection [hk_conn] of the consumer. *)
Record hook := { hk_sig : signal; hk_conn : nat; hk_prod : nat; hk_kind : kind }.
Definition sig_eqb (a b : signal) : bool :=
  match a, b with SigSample, SigSample | SigFlush, SigFlush | SigDisconnect, SigDisconnect => true | _, _ => false end.

(** Calls that threads make: a producer issues a sample ([issue_sample(x,aux)]; [X] comprises sample and auxiliary data) or calls its flush_consumers;
    connect_to_producer(p) in the given mode; flush(); disconnect_and_flush(); the destructor of a producer; the destructor of a class derived from
    Consumer, which calls disconnect_and_flush() first. *)
Inductive op (X : Type) :=
| OSend (p : nat) (x : X)
| OFlushConsumers (p : nat)
| OConnect (p : nat) (m : kind)
| OFlush
| ODisconnectFlush
| ODestroyProducer (p : nat)
| ODestroyConsumer.
Arguments OSend {X}. Arguments OFlushConsumers {X}. Arguments OConnect {X}. Arguments OFlush {X}. Arguments ODisconnectFlush {X}.
Arguments ODestroyProducer {X}. Arguments ODestroyConsumer {X}.

Inductive instr (X : Type) :=
| ICall (o : op X)                         (* call [o] *)
| IReturn (o : op X)                       (* return from [o] *)
| IEmitSample (p : nat) (x : X)            (* boost::signals2::signal::operator(): take a snapshot of the list of slots *)
| IEmitFlush (p : nat)
| IEmitDisconnect (p : nat)
| ITrySample (c : nat) (m : kind) (x : X)  (* ... and call each one that is still connected *)
| ITryFlush (c : nat)
| ITryDisconnect (c p : nat)
| IDestroySignals (p : nat)                (* the members of the producer are destroyed *)
| IConnect (p : nat) (m : kind)            (* connect_to_signals *)
| IHook (h : hook)                         (* one signal.connect() *)
| IInsert (c p : nat)                      (* connections_to_producers.insert *)
| IAcqA | IRelA                            (* asynchronous_mode_mutex *)
| IAcqX | IRelX                            (* synchronous_mode_mutex, unique_lock *)
| IAcqS | IRelS                            (* synchronous_mode_mutex, shared_lock *)
| ISyncBody (d : nat) (x : X)              (* synchronous slot once it has the lock *)
| IAsyncBody (d : nat) (x : X)             (* asynchronous slot once it has the lock *)
| IPush (d : nat)                          (* background_tasks.emplace_back *)
| ITrim                                    (* loop of trim_background_queue *)
| IStart (sy : kind) (d : nat) (x : X)     (* consume(x) begins *)
| IEnd (sy : kind) (d : nat)               (* consume(x) ends *)
| IFlush                                   (* flush() once it has the lock *)
| IWaits (l : list nat)                    (* ... still has to wait for these futures *)
| IDisconnect                              (* disconnect_and_flush() once it has both locks *)
| IDiscs (l : list nat)                    (* ... still has to disconnect these connections *)
| IContains (p : nat)                      (* assert (connections_to_producers.contains(&p)) *)
| IFindErase (p : nat)                     (* disconnect slot once it has both locks *)
| IDestroy.                                (* the consumer object ceases to exist *)
Arguments ICall {X}. Arguments IReturn {X}. Arguments IEmitSample {X}. Arguments IEmitFlush {X}. Arguments IEmitDisconnect {X}.
Arguments ITrySample {X}. Arguments ITryFlush {X}. Arguments ITryDisconnect {X}. Arguments IDestroySignals {X}. Arguments IConnect {X}.
Arguments IHook {X}. Arguments IInsert {X}. Arguments IAcqA {X}. Arguments IRelA {X}. Arguments IAcqX {X}. Arguments IRelX {X}.
Arguments IAcqS {X}. Arguments IRelS {X}. Arguments ISyncBody {X}. Arguments IAsyncBody {X}. Arguments IPush {X}. Arguments ITrim {X}.
Arguments IStart {X}. Arguments IEnd {X}. Arguments IFlush {X}. Arguments IWaits {X}. Arguments IDisconnect {X}. Arguments IDiscs {X}.
Arguments IContains {X}. Arguments IFindErase {X}. Arguments IDestroy {X}.

(** What has become of a sample handed to a slot ("delivery"), numbered in the order of arrival. *)
Inductive stat (X : Type) :=
| SFresh                (* arrived (or not yet), nothing decided *)
| SDeferred (x : X)     (* std::async chose to defer the task: it will run on the thread that waits for the future *)
| SActive (sy : kind)   (* consume() is about to run or running *)
| SDone                 (* consume() has ended; the future, if there is one, is ready *)
| SDropped.             (* the slot returned without doing anything *)
Arguments SFresh {X}. Arguments SDeferred {X}. Arguments SActive {X}. Arguments SDone {X}. Arguments SDropped {X}.
Inductive crash_kind := AssertionFailure | UndefinedBehaviour | UseAfterFree.

Record state (X : Type) := {
  c_conns : list (nat * nat);      (* connections_to_producers: (connection, producer), consumer.impl.h:232-234 *)
  c_hooks : list hook;             (* the slot lists of the signals of all producers *)
  c_alock : option nat;            (* owner of asynchronous_mode_mutex, 266 *)
  c_xlock : option nat;            (* unique owner of synchronous_mode_mutex, 277 *)
  c_shared : nat -> nat;           (* how many shared locks on it each thread holds *)
  c_queue : list nat;              (* background_tasks, 283 *)
  c_qsize : nat;                   (* queue_size, 258 *)
  c_stat : nat -> stat X;
  c_next : nat;                    (* next delivery *)
  c_nextc : nat;                   (* next connection *)
  c_threads : list (list (instr X));
  c_alive : bool;                  (* the consumer object exists *)
  c_crash : option crash_kind }.
Arguments c_conns {X}. Arguments c_hooks {X}. Arguments c_alock {X}. Arguments c_xlock {X}. Arguments c_shared {X}. Arguments c_queue {X}.
Arguments c_qsize {X}. Arguments c_stat {X}. Arguments c_next {X}. Arguments c_nextc {X}. Arguments c_threads {X}. Arguments c_alive {X}. Arguments c_crash {X}.

(** What an observer sees of a step of thread [t]. *)
Inductive event (X : Type) :=
| ECall (t : nat) (o : op X)
| EReturn (t : nat) (o : op X)
| EDeliver (t : nat) (d : nat) (m : kind) (x : X)  (* the slot is called with the sample x: delivery number d *)
| EAccept (t : nat) (d : nat)       (* the slot decides to consume it *)
| EDrop (t : nat) (d : nat)         (* the slot returns without consuming it *)
| EStart (t : nat) (d : nat) (x : X)
| EEnd (t : nat) (d : nat)
| EInsert (t : nat) (c p : nat)     (* a new connection is recorded *)
| EErase (t : nat) (l : list nat)   (* connections are removed from the record *)
| EFlushLocked (t : nat)            (* flush() has acquired its lock *)
| ETau (t : nat)                    (* anything else *)
| ECrash (t : nat) (w : crash_kind).
Arguments ECall {X}. Arguments EReturn {X}. Arguments EDeliver {X}. Arguments EAccept {X}. Arguments EDrop {X}. Arguments EStart {X}.
Arguments EEnd {X}. Arguments EInsert {X}. Arguments EErase {X}. Arguments EFlushLocked {X}. Arguments ETau {X}. Arguments ECrash {X}.

Section Model.
Context {X : Type}.
Implicit Types (s : state X) (k : list (instr X)).

(** Updates of single components of the state. *)
Definition set_conns s v := {| c_conns := v; c_hooks := c_hooks s; c_alock := c_alock s; c_xlock := c_xlock s; c_shared := c_shared s; c_queue := c_queue s;
  c_qsize := c_qsize s; c_stat := c_stat s; c_next := c_next s; c_nextc := c_nextc s; c_threads := c_threads s; c_alive := c_alive s; c_crash := c_crash s |}.
Definition set_hooks s v := {| c_conns := c_conns s; c_hooks := v; c_alock := c_alock s; c_xlock := c_xlock s; c_shared := c_shared s; c_queue := c_queue s;
  c_qsize := c_qsize s; c_stat := c_stat s; c_next := c_next s; c_nextc := c_nextc s; c_threads := c_threads s; c_alive := c_alive s; c_crash := c_crash s |}.
Definition set_alock s v := {| c_conns := c_conns s; c_hooks := c_hooks s; c_alock := v; c_xlock := c_xlock s; c_shared := c_shared s; c_queue := c_queue s;
  c_qsize := c_qsize s; c_stat := c_stat s; c_next := c_next s; c_nextc := c_nextc s; c_threads := c_threads s; c_alive := c_alive s; c_crash := c_crash s |}.
Definition set_xlock s v := {| c_conns := c_conns s; c_hooks := c_hooks s; c_alock := c_alock s; c_xlock := v; c_shared := c_shared s; c_queue := c_queue s;
  c_qsize := c_qsize s; c_stat := c_stat s; c_next := c_next s; c_nextc := c_nextc s; c_threads := c_threads s; c_alive := c_alive s; c_crash := c_crash s |}.
Definition set_shared s t v := {| c_conns := c_conns s; c_hooks := c_hooks s; c_alock := c_alock s; c_xlock := c_xlock s;
  c_shared := fun u => if u =? t then v else c_shared s u; c_queue := c_queue s;
  c_qsize := c_qsize s; c_stat := c_stat s; c_next := c_next s; c_nextc := c_nextc s; c_threads := c_threads s; c_alive := c_alive s; c_crash := c_crash s |}.
Definition set_queue s v := {| c_conns := c_conns s; c_hooks := c_hooks s; c_alock := c_alock s; c_xlock := c_xlock s; c_shared := c_shared s; c_queue := v;
  c_qsize := c_qsize s; c_stat := c_stat s; c_next := c_next s; c_nextc := c_nextc s; c_threads := c_threads s; c_alive := c_alive s; c_crash := c_crash s |}.
Definition set_stat s d v := {| c_conns := c_conns s; c_hooks := c_hooks s; c_alock := c_alock s; c_xlock := c_xlock s; c_shared := c_shared s; c_queue := c_queue s;
  c_qsize := c_qsize s; c_stat := fun e => if e =? d then v else c_stat s e; c_next := c_next s; c_nextc := c_nextc s; c_threads := c_threads s;
  c_alive := c_alive s; c_crash := c_crash s |}.
Definition new_delivery s := {| c_conns := c_conns s; c_hooks := c_hooks s; c_alock := c_alock s; c_xlock := c_xlock s; c_shared := c_shared s; c_queue := c_queue s;
  c_qsize := c_qsize s; c_stat := c_stat s; c_next := S (c_next s); c_nextc := c_nextc s; c_threads := c_threads s; c_alive := c_alive s; c_crash := c_crash s |}.
Definition new_conn s := {| c_conns := c_conns s; c_hooks := c_hooks s; c_alock := c_alock s; c_xlock := c_xlock s; c_shared := c_shared s; c_queue := c_queue s;
  c_qsize := c_qsize s; c_stat := c_stat s; c_next := c_next s; c_nextc := S (c_nextc s); c_threads := c_threads s; c_alive := c_alive s; c_crash := c_crash s |}.
Definition set_threads s v := {| c_conns := c_conns s; c_hooks := c_hooks s; c_alock := c_alock s; c_xlock := c_xlock s; c_shared := c_shared s; c_queue := c_queue s;
  c_qsize := c_qsize s; c_stat := c_stat s; c_next := c_next s; c_nextc := c_nextc s; c_threads := v; c_alive := c_alive s; c_crash := c_crash s |}.
Definition set_dead s := {| c_conns := c_conns s; c_hooks := c_hooks s; c_alock := c_alock s; c_xlock := c_xlock s; c_shared := c_shared s; c_queue := c_queue s;
  c_qsize := c_qsize s; c_stat := c_stat s; c_next := c_next s; c_nextc := c_nextc s; c_threads := c_threads s; c_alive := false; c_crash := c_crash s |}.
Definition set_crash s w := {| c_conns := c_conns s; c_hooks := c_hooks s; c_alock := c_alock s; c_xlock := c_xlock s; c_shared := c_shared s; c_queue := c_queue s;
  c_qsize := c_qsize s; c_stat := c_stat s; c_next := c_next s; c_nextc := c_nextc s; c_threads := c_threads s; c_alive := c_alive s; c_crash := Some w |}.
Fixpoint upd (l : list (list (instr X))) (t : nat) k : list (list (instr X)) :=
  match l, t with
  | [], _ => []
  | _ :: l', 0 => k :: l'
  | a :: l', S t' => a :: upd l' t' k
  end.
(** thread [t] continues with [k] *)
Definition go s t k := set_threads s (upd (c_threads s) t k).
(** a new thread *)
Definition spawn s k := set_threads s (c_threads s ++ [k]).

(** flush(), consumer.impl.h:560-579: lock_guard, then the loop over the futures, see [IFlush], [IWaits]. *)
Definition flush_code : list (instr X) := [IAcqA; IFlush].
(** disconnect_and_flush(), consumer.impl.h:523-556. *)
Definition disconnect_flush_code : list (instr X) := [IAcqA; IAcqX; IDisconnect] ++ flush_code.
(** The lambda disconnect_from_producer, consumer.impl.h:472-495. *)
Definition disconnect_slot_code (p : nat) : list (instr X) := [IContains p; IAcqA; IAcqX; IFindErase p].
(** The lambda sample_consumer: synchronous mode consumer.impl.h:382-397, asynchronous mode 405-452. *)
Definition slot_code (m : kind) (d : nat) (x : X) : list (instr X) :=
  match m with KSync => [IAcqS; ISyncBody d x] | KAsync => [IAcqA; IAsyncBody d x] end.
(** What the calls consist of; the destructors are producer.impl.h:210-215 and, e.g., count_samples.impl.h:108-113. *)
Definition code (o : op X) : list (instr X) :=
  match o with
  | OSend p x => [IEmitSample p x]
  | OFlushConsumers p => [IEmitFlush p]
  | OConnect p m => [IConnect p m]
  | OFlush => flush_code
  | ODisconnectFlush => disconnect_flush_code
  | ODestroyProducer p => [IEmitDisconnect p; IDestroySignals p]
  | ODestroyConsumer => disconnect_flush_code ++ [IDestroy]
  end.

(** A call of consume(x), which makes the calls [body x] on the consumer itself. *)
Definition consume_code (body : X -> list (op X)) (m : kind) (d : nat) (x : X) : list (instr X) :=
  IStart m d x :: map ICall (body x) ++ [IEnd m d].

Definition hooks_of s (g : signal) (p : nat) : list hook := filter (fun h => sig_eqb (hk_sig h) g && (hk_prod h =? p)) (c_hooks s).
Definition connected s (g : signal) (c : nat) : bool := existsb (fun h => sig_eqb (hk_sig h) g && (hk_conn h =? c)) (c_hooks s).
(** connection::disconnect() on the three connections of connection [c]. *)
Definition unhook s (c : nat) := set_hooks s (filter (fun h => negb (hk_conn h =? c)) (c_hooks s)).
(** Instructions that use members of the consumer object. *)
Definition touches (i : instr X) : bool :=
  match i with
  | ICall _ | IReturn _ | IEmitSample _ _ | IEmitFlush _ | IEmitDisconnect _ | ITrySample _ _ _ | ITryFlush _ | ITryDisconnect _ _
  | IDestroySignals _ | IConnect _ _ | IHook _ => false
  | _ => true
  end.
Definition is_none {A} (o : option A) : bool := match o with None => true | Some _ => false end.
(** Is some thread waiting for the unique lock? std::shared_mutex may or may not let such a writer go first ([prefer_writers]). *)
Definition writer_waiting s : bool := existsb (fun k => match k with IAcqX :: _ => true | _ => false end) (c_threads s).
Definition no_readers s : bool := forallb (fun t => c_shared s t =? 0) (seq 0 (length (c_threads s))).
Definition crashed s t w : option (event X * state X) := Some (ECrash t w, set_crash s w).

(** One step of thread [t]; [None] if it has finished or is blocked. [immediate] is the choice of std::async between a new thread and a deferred task. *)
Definition step (b : build) (prefer_writers : bool) (body : X -> list (op X)) (immediate : bool) (t : nat) s : option (event X * state X) :=
  if negb (is_none (c_crash s)) then None else
  match nth_error (c_threads s) t with
  | None | Some [] => None
  | Some (i :: k) =>
    if touches i && negb (c_alive s) then crashed s t UseAfterFree else
    match i with
    | ICall o => Some (ECall t o, go s t (code o ++ IReturn o :: k))
    | IReturn o => Some (EReturn t o, go s t k)
    (* issue_sample(x), flush_consumers(), disconnect_consumers( *this): boost::signals2 *)
    | IEmitSample p x => Some (ETau t, go s t (map (fun h => ITrySample (hk_conn h) (hk_kind h) x) (hooks_of s SigSample p) ++ k))
    | IEmitFlush p => Some (ETau t, go s t (map (fun h => ITryFlush (hk_conn h)) (hooks_of s SigFlush p) ++ k))
    | IEmitDisconnect p => Some (ETau t, go s t (map (fun h => ITryDisconnect (hk_conn h) p) (hooks_of s SigDisconnect p) ++ k))
    | ITrySample c m x =>
        if connected s SigSample c
        then Some (EDeliver t (c_next s) m x, go (new_delivery s) t (slot_code m (c_next s) x ++ k))
        else Some (ETau t, go s t k)
    | ITryFlush c => Some (ETau t, go s t ((if connected s SigFlush c then flush_code else []) ++ k))
    | ITryDisconnect c p => Some (ETau t, go s t ((if connected s SigDisconnect c then disconnect_slot_code p else []) ++ k))
    | IDestroySignals p => Some (ETau t, go (set_hooks s (filter (fun h => negb (hk_prod h =? p)) (c_hooks s))) t k)
    (* producer.impl.h:219-238 and consumer.impl.h:498-500 *)
    | IConnect p m =>
        let c := c_nextc s in
        let h g := IHook {| hk_sig := g; hk_conn := c; hk_prod := p; hk_kind := m |} in
        Some (ETau t, go (new_conn s) t ([h SigSample; h SigFlush; h SigDisconnect; IInsert c p] ++ k))
    | IHook h => Some (ETau t, go (set_hooks s (c_hooks s ++ [h])) t k)
    | IInsert c p => Some (EInsert t c p, go (set_conns s (c_conns s ++ [(c, p)])) t k)
    (* mutexes *)
    | IAcqA => if is_none (c_alock s) then Some (ETau t, go (set_alock s (Some t)) t k) else None
    | IRelA => Some (ETau t, go (set_alock s None) t k)
    | IAcqX => if is_none (c_xlock s) && no_readers s then Some (ETau t, go (set_xlock s (Some t)) t k) else None
    | IRelX => Some (ETau t, go (set_xlock s None) t k)
    | IAcqS => if is_none (c_xlock s) && negb (prefer_writers && writer_waiting s)
               then Some (ETau t, go (set_shared s t (S (c_shared s t))) t k) else None
    | IRelS => Some (ETau t, go (set_shared s t (c_shared s t - 1)) t k)
    (* consumer.impl.h:386-396 *)
    | ISyncBody d x =>
        if length (c_conns s) =? 0
        then Some (EDrop t d, go (set_stat s d SDropped) t (IRelS :: k))
        else Some (EAccept t d, go (set_stat s d (SActive KSync)) t (consume_code body KSync d x ++ k))
    | IStart m d x => Some (EStart t d x, go s t k)
    | IEnd m d => Some (EEnd t d, go (set_stat s d SDone) t (match m with KSync => IRelS :: k | KAsync => k end))
    (* consumer.impl.h:421-451 *)
    | IAsyncBody d x =>
        if length (c_conns s) =? 0
        then Some (EDrop t d, go (set_stat s d SDropped) t (IRelA :: k))
        else if immediate
        then Some (EAccept t d, spawn (go (set_stat s d (SActive KAsync)) t (IPush d :: k)) (consume_code body KAsync d x))
        else Some (EAccept t d, go (set_stat s d (SDeferred x)) t (IPush d :: k))
    | IPush d => Some (ETau t, go (set_queue s (c_queue s ++ [d])) t ([IRelA; IAcqA; ITrim] ++ k))
    (* trim_background_queue, consumer.impl.h:583-598 *)
    | ITrim =>
        match c_queue s with
        | d :: q => match c_stat s d with
                    | SDone => Some (ETau t, go (set_queue s q) t (ITrim :: k))
                    | _ => Some (ETau t, go s t (IRelA :: k))
                    end
        | [] => Some (ETau t, go s t (IRelA :: k))
        end
    (* flush, consumer.impl.h:565-578; the queue cannot change while the lock is held *)
    | IFlush => Some (EFlushLocked t, go s t (IWaits (c_queue s) :: k))
    | IWaits [] => Some (ETau t, go (set_queue s []) t (IRelA :: k))
    | IWaits (d :: l) =>
        match c_stat s d with
        | SDone => Some (ETau t, go s t (IWaits l :: k))
        | SDeferred x => Some (ETau t, go (set_stat s d (SActive KAsync)) t (consume_code body KAsync d x ++ IWaits (d :: l) :: k))
        | _ => None
        end
    (* disconnect_and_flush, consumer.impl.h:543-551 *)
    | IDisconnect => Some (ETau t, go s t (IDiscs (map fst (c_conns s)) :: k))
    | IDiscs (c :: l) => Some (ETau t, go (unhook s c) t (IDiscs l :: k))
    | IDiscs [] => Some (EErase t (map fst (c_conns s)), go (set_conns s []) t (IRelX :: IRelA :: k))
    (* disconnect slot, consumer.impl.h:474-494; x->second for x == end() is undefined *)
    | IContains p =>
        if existsb (fun cp => snd cp =? p) (c_conns s) then Some (ETau t, go s t k)
        else match b with Debug => crashed s t AssertionFailure | Release => Some (ETau t, go s t k) end
    | IFindErase p =>
        match find (fun cp => snd cp =? p) (c_conns s) with
        | None => crashed s t UndefinedBehaviour
        | Some (c, _) => Some (EErase t [c], go (set_conns (unhook s c) (filter (fun cp => negb (fst cp =? c)) (c_conns s))) t (IRelX :: IRelA :: k))
        end
    | IDestroy => Some (ETau t, go (set_dead s) t k)
    end
  end.

(** A schedule is a list of choices (thread, policy of std::async); choosing a thread that cannot move has no effect. *)
Fixpoint run (b : build) (pw : bool) (body : X -> list (op X)) (sched : list (nat * bool)) s : list (event X) * state X :=
  match sched with
  | [] => ([], s)
  | (t, im) :: r =>
    match step b pw body im t s with
    | None => run b pw body r s
    | Some (e, s') => let '(tr, s'') := run b pw body r s' in (e :: tr, s'')
    end
  end.

(** The consumer with the given connections (connection, producer, mode), and threads that are going to make the given calls. *)
Definition initial (conns : list (nat * nat * kind)) (qsize : nat) (programs : list (list (op X))) : state X :=
  {| c_conns := map fst conns;
     c_hooks := flat_map (fun cpm => map (fun g => {| hk_sig := g; hk_conn := fst (fst cpm); hk_prod := snd (fst cpm); hk_kind := snd cpm |})
                  [SigSample; SigFlush; SigDisconnect]) conns;
     c_alock := None; c_xlock := None; c_shared := fun _ => 0; c_queue := []; c_qsize := qsize; c_stat := fun _ => SFresh;
     c_next := 0; c_nextc := S (list_max (map (fun cpm => fst (fst cpm)) conns));
     c_threads := map (map ICall) programs; c_alive := true; c_crash := None |}.
End Model.
