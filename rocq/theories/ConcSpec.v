(** Specification vocabulary for traces of the concurrent model. *)
From Verif Require Import Prelude ConcModel.
Local Open Scope nat_scope.

Section S.
Context {X : Type}.
Implicit Types (e : event X) (tr : list (event X)).

(** How often something happens in a trace. *)
Definition times (P : event X -> bool) tr : nat := length (filter P tr).
Definition delivered (d : nat) e : bool := match e with EDeliver _ d' _ _ => d' =? d | _ => false end.
Definition accepted (d : nat) e : bool := match e with EAccept _ d' => d' =? d | _ => false end.
Definition dropped (d : nat) e : bool := match e with EDrop _ d' => d' =? d | _ => false end.
Definition started (d : nat) e : bool := match e with EStart _ d' _ => d' =? d | _ => false end.
Definition ended (d : nat) e : bool := match e with EEnd _ d' => d' =? d | _ => false end.
(** Events of any delivery. *)
Definition any_start e : bool := match e with EStart _ _ _ => true | _ => false end.
Definition any_end e : bool := match e with EEnd _ _ => true | _ => false end.
Definition any_drop e : bool := match e with EDrop _ _ => true | _ => false end.
Definition any_accept e : bool := match e with EAccept _ _ => true | _ => false end.
Definition any_insert e : bool := match e with EInsert _ _ _ => true | _ => false end.
Definition any_erase e : bool := match e with EErase _ _ => true | _ => false end.
Definition any_crash e : bool := match e with ECrash _ _ => true | _ => false end.
(** No event of this kind. *)
Definition none (P : event X -> bool) tr : Prop := forall e, In e tr -> P e = false.
(** A thread that has made all its calls. *)
Definition finished (s : state X) (t : nat) : Prop := nth_error (c_threads s) t = Some [].
(** ** Data races. The memory shared by the threads is the map of connections and the queue of background tasks. Which of them the next instruction of
    a thread reads or writes; assertions exist only in debug builds. *)
Inductive location := Connections | Queue.
Inductive access := Reads (v : location) | Writes (v : location).
Definition accesses (b : build) (i : instr X) : option access :=
  match i with
  | ISyncBody _ _ | IAsyncBody _ _ | IDisconnect => Some (Reads Connections)
  | IDiscs _ | IFindErase _ | IInsert _ _ => Some (Writes Connections)
  | IContains _ => match b with Debug => Some (Reads Connections) | Release => None end
  | IPush _ | ITrim | IWaits [] => Some (Writes Queue)
  | IFlush | IWaits (_ :: _) => Some (Reads Queue)
  | _ => None
  end.
Definition conflict (a c : access) : bool :=
  match a, c with
  | Writes Connections, (Reads Connections | Writes Connections) | Reads Connections, Writes Connections
  | Writes Queue, (Reads Queue | Writes Queue) | Reads Queue, Writes Queue => true
  | _, _ => false
  end.
(** Two different threads are about to access the same variable, at least one of them for writing. *)
Definition race_between (b : build) (s : state X) (t u : nat) (i j : instr X) : Prop :=
  t <> u /\ (exists k, nth_error (c_threads s) t = Some (i :: k)) /\ (exists k, nth_error (c_threads s) u = Some (j :: k)) /\
  exists a c, accesses b i = Some a /\ accesses b j = Some c /\ conflict a c = true.
(** No thread can move although not all have finished, and the program has not crashed. *)
Definition deadlocked (b : build) (pw : bool) (body : X -> list (op X)) (s : state X) : Prop :=
  c_crash s = None /\ (forall t im, step b pw body im t s = None) /\ exists t i k, nth_error (c_threads s) t = Some (i :: k).
(** Calls that do not destroy anything. *)
Definition destroys (o : op X) : bool := match o with ODestroyProducer _ | ODestroyConsumer => true | _ => false end.
Definition connects (o : op X) : bool := match o with OConnect _ _ => true | _ => false end.
Definition no_op (P : op X -> bool) (body : X -> list (op X)) (programs : list (list (op X))) : Prop :=
  (forall x o, In o (body x) -> P o = false) /\ (forall l o, In l programs -> In o l -> P o = false).

(** Calls that end with a flush(): flush() itself, disconnect_and_flush(), and the destructor of a consumer; the last two disconnect first. *)
Definition flushing (o : op X) : bool := match o with OFlush | ODisconnectFlush | ODestroyConsumer => true | _ => false end.
Definition disconnecting (o : op X) : bool := match o with ODisconnectFlush | ODestroyConsumer => true | _ => false end.
(** Calls that remove connections. *)
Definition removes (o : op X) : bool := disconnecting o || destroys o.
Definition any_removal e : bool := match e with ECall _ o => removes o | _ => false end.
(** Connections of mode [m] to producer [p]: those that exist at the beginning, calls of connect_to_producer() that begin, and those that have returned. *)
Definition kind_eqb (a c : kind) : bool := match a, c with KSync, KSync | KAsync, KAsync => true | _, _ => false end.
Definition existing (p : nat) (m : kind) (conns : list (nat * nat * kind)) : nat :=
  length (filter (fun cpm => (snd (fst cpm) =? p) && kind_eqb (snd cpm) m) conns).
Definition connect_called (p : nat) (m : kind) e : bool := match e with ECall _ (OConnect p' m') => (p' =? p) && kind_eqb m' m | _ => false end.
Definition connect_returned (p : nat) (m : kind) e : bool := match e with EReturn _ (OConnect p' m') => (p' =? p) && kind_eqb m' m | _ => false end.
(** Thread [t] hands a sample to a slot of mode [m]. *)
Definition given (t : nat) (m : kind) e : bool := match e with EDeliver u _ m' _ => (u =? t) && kind_eqb m' m | _ => false end.
(** Thread [t] neither makes a call nor returns from one. *)
Definition calls_or_returns (t : nat) e : bool := match e with ECall u _ | EReturn u _ => u =? t | _ => false end.
End S.
