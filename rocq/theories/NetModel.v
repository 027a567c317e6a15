(** Model of the signal/slot machinery that connects producers, filters and
    consumers: producer.impl.h, consumer.impl.h, filter.impl.h, for consumers
    in synchronous mode on a single thread (ConcModel treats threads).

    Objects are numbered.  An object can have a consumer side and a producer
    side (a filter has both).  All sample types are one type [X] (a sample
    together with its auxiliary data); the C++ typing of connections plays no
    role for what is modelled here. *)
From Verif Require Import Prelude.

Section Net.
  Context {X : Type}.          (* sample together with auxiliary data *)
  Context {St : Type}.         (* member variables of filters         *)

  (** [Filter::filter] of object [i]; [None] if object [i] is not a filter, i.e. a
      final consumer or a pure producer.  filter.impl.h:152-155. *)
  Variable filt : nat -> option (St -> X -> outcome (St * option X)).

  (** A slot registered with one [boost::signals2::signal] of a producer:
      connection object, producer that owns the signal, consumer whose lambda
      is called (producer.impl.h:229-237). *)
  Record slot := { s_conn : nat; s_prod : nat; s_cons : nat }.

  (** An entry of [Consumer::connections_to_producers] (a
      [std::multimap<const Producer*, tuple<connection,connection,connection>>],
      consumer.impl.h:228-234): the owning consumer, the key, the three
      connections (sample, flush, disconnect). *)
  Record entry := { e_cons : nat; e_prod : nat;
                    e_sample : nat; e_flush : nat; e_disc : nat }.

  (** Calls a user makes. *)
  Inductive op :=
  | OConnect (p c : nat)        (* c.connect_to_producer(p)                     *)
  | OIssue (p : nat) (x : X)    (* producer p triggers issue_sample(x)          *)
  | OFlush (p : nat)            (* producer p triggers flush_consumers()        *)
  | ODisconnect (c : nat)       (* c.disconnect_and_flush()                     *)
  | ODestroy (o : nat).         (* the destructor of object o runs              *)

  (** Observable events. *)
  Inductive event :=
  | EOp (o : op)                       (* a user call starts                     *)
  | EIssue (p : nat) (x : X)           (* the sample signal of p is triggered    *)
  | ERecv (k c : nat) (x : X)          (* consume(x) of c runs, over connection k*)
  | EFlush (c : nat).                  (* Consumer::flush() of c runs            *)

  (** The state of all objects.  The signals of all producers are kept in one
      list per signal kind, in the order of connection; the slots of one producer
      are the sublist with that [s_prod]. *)
  Record net := {
    n_next : nat;                 (* number of connect calls so far *)
    n_sample : list slot;         (* Producer::issue_sample,          producer.impl.h:129 *)
    n_flush : list slot;          (* Producer::flush_consumers,       producer.impl.h:177 *)
    n_disc : list slot;           (* Producer::disconnect_consumers,  producer.impl.h:186 *)
    n_map : list entry;           (* all connections_to_producers multimaps *)
    n_st : nat -> St;             (* member variables of filters *)
    n_dead : list nat;            (* destroyed objects *)
    n_log : list event
  }.

  Definition init (s0 : nat -> St) : net :=
    {| n_next := 0; n_sample := []; n_flush := []; n_disc := []; n_map := [];
       n_st := s0; n_dead := []; n_log := [] |}.

  Definition log (e : event) (n : net) : net :=
    {| n_next := n_next n; n_sample := n_sample n; n_flush := n_flush n;
       n_disc := n_disc n; n_map := n_map n; n_st := n_st n; n_dead := n_dead n;
       n_log := n_log n ++ [e] |}.

  Definition set_st (i : nat) (s : St) (n : net) : net :=
    {| n_next := n_next n; n_sample := n_sample n; n_flush := n_flush n;
       n_disc := n_disc n; n_map := n_map n;
       n_st := fun j => if j =? i then s else n_st n j;
       n_dead := n_dead n; n_log := n_log n |}.

  Definition dead (n : net) (i : nat) : bool := existsb (Nat.eqb i) (n_dead n).

  Definition slots_of (l : list slot) (p : nat) : list slot :=
    filter (fun s => s_prod s =? p) l.
  Definition entries_of (n : net) (c : nat) : list entry :=
    filter (fun e => e_cons e =? c) (n_map n).

  (** [connection.disconnect()]: the slot leaves its signal; no effect if it
      already has. *)
  Definition drop_slot (k : nat) (l : list slot) : list slot :=
    filter (fun s => negb (s_conn s =? k)) l.

  (** [Consumer::connect_to_producer], consumer.impl.h:337-501, with
      [Producer::connect_to_signals], producer.impl.h:219-238: one slot is added
      to each of the three signals, and an entry with the three connections to
      the multimap of the consumer. *)
  Definition connect (p c : nat) (n : net) : outcome net :=
    if dead n p || dead n c then UB
    else
      let k := n_next n in
      let s := {| s_conn := k; s_prod := p; s_cons := c |} in
      Ok {| n_next := S k;
            n_sample := n_sample n ++ [s];
            n_flush := n_flush n ++ [s];
            n_disc := n_disc n ++ [s];
            n_map := n_map n ++ [{| e_cons := c; e_prod := p;
                                    e_sample := k; e_flush := k; e_disc := k |}];
            n_st := n_st n; n_dead := n_dead n; n_log := n_log n |}.

  (** The lambda [sample_consumer] in synchronous mode, consumer.impl.h:382-397,
      then [Filter::consume], filter.impl.h:174-188 ([issue] is the recursive
      call of issue_sample; for a final consumer nothing else happens).  Calling
      a lambda that captured a destroyed object is undefined behaviour. *)
  Definition deliver (issue : net -> nat -> X -> outcome net)
             (n : net) (s : slot) (x : X) : outcome net :=
    let c := s_cons s in
    if dead n c then UB
    else match entries_of n c with
         | [] => Ok n
         | _ :: _ =>
           let n1 := log (ERecv (s_conn s) c x) n in
           match filt c with
           | None => Ok n1
           | Some f =>
             do (st', o) <- f (n_st n1 c) x;
             let n2 := set_st c st' n1 in
             match o with
             | None => Ok n2
             | Some y => issue n2 c y
             end
           end
         end.

  Fixpoint deliver_all (issue : net -> nat -> X -> outcome net)
           (n : net) (l : list slot) (x : X) : outcome net :=
    match l with
    | [] => Ok n
    | s :: l' => do n' <- deliver issue n s x; deliver_all issue n' l' x
    end.

  (** Triggering the signal [issue_sample] of producer [p]: every connected slot
      is called in the order of connection (boost::signals2).  The fuel bounds the
      recursion depth (call stack); running out of it stands for unbounded
      recursion, which is undefined behaviour. *)
  Fixpoint issue (fuel : nat) (n : net) (p : nat) (x : X) : outcome net :=
    match fuel with
    | O => UB
    | S fuel' =>
      let n1 := log (EIssue p x) n in
      deliver_all (issue fuel') n1 (slots_of (n_sample n1) p) x
    end.

  (** [Filter::flush], filter.impl.h:192-205, resp. [Consumer::flush]
      (consumer.impl.h:560-579: nothing is queued in synchronous mode), called
      through the lambda [flush_slot], consumer.impl.h:467-470. *)
  Definition flush_one (fl : net -> nat -> outcome net) (n : net) (c : nat) : outcome net :=
    let n1 := log (EFlush c) n in
    match filt c with
    | None => Ok n1
    | Some _ => fl n1 c
    end.

  Fixpoint flush_all (fl : net -> nat -> outcome net) (n : net) (l : list slot) : outcome net :=
    match l with
    | [] => Ok n
    | s :: l' =>
      if dead n (s_cons s) then UB
      else do n' <- flush_one fl n (s_cons s); flush_all fl n' l'
    end.

  (** Triggering [flush_consumers] of producer [p]. *)
  Fixpoint flush_sig (fuel : nat) (n : net) (p : nat) : outcome net :=
    match fuel with
    | O => UB
    | S fuel' => flush_all (flush_sig fuel') n (slots_of (n_flush n) p)
    end.

  Definition drop_entry (e : entry) (n : net) : net :=
    {| n_next := n_next n;
       n_sample := drop_slot (e_sample e) (n_sample n);
       n_flush := drop_slot (e_flush e) (n_flush n);
       n_disc := drop_slot (e_disc e) (n_disc n);
       n_map := n_map n; n_st := n_st n; n_dead := n_dead n; n_log := n_log n |}.

  Definition set_map (m : list entry) (n : net) : net :=
    {| n_next := n_next n; n_sample := n_sample n; n_flush := n_flush n;
       n_disc := n_disc n; n_map := m; n_st := n_st n; n_dead := n_dead n;
       n_log := n_log n |}.

  (** [Consumer::disconnect_and_flush], consumer.impl.h:523-556: disconnect the three
      connections of every entry, clear the multimap, [flush()] (virtual:
      Filter::flush for a filter). *)
  Definition disconnect_and_flush (fuel : nat) (c : nat) (n : net) : outcome net :=
    let n1 := fold_left (fun m e => drop_entry e m) (entries_of n c) n in
    let n2 := set_map (filter (fun e => negb (e_cons e =? c)) (n_map n1)) n1 in
    flush_one (flush_sig fuel) n2 c.

  (** Which of several entries with an equal key [multimap::find] returns is
      unspecified in C++; libstdc++ returns the first (oldest) one. *)
  Inductive find_policy := FindFirst | FindLast.

  Definition find_entry (pol : find_policy) (n : net) (c p : nat) : option entry :=
    let l := filter (fun e => e_prod e =? p) (entries_of n c) in
    match pol with
    | FindFirst => hd_error l
    | FindLast => hd_error (rev l)
    end.

  (** [connections_to_producers.erase(x)] for one entry *)
  Fixpoint erase_entry (e : entry) (l : list entry) : list entry :=
    match l with
    | [] => []
    | e' :: l' => if (e_cons e' =? e_cons e) && (e_prod e' =? e_prod e) && (e_sample e' =? e_sample e)
                  then l' else e' :: erase_entry e l'
    end.

  (** The lambda [disconnect_from_producer], consumer.impl.h:472-495. In a release
      build a failing [assert] is followed by dereferencing [end()]. *)
  Definition disconnect_slot (pol : find_policy) (b : build) (c p : nat) (n : net) : outcome net :=
    if dead n c then UB
    else match find_entry pol n c p with
         | None => match b with Debug => AssertFail | Release => UB end
         | Some e => let n1 := drop_entry e n in
                     Ok (set_map (erase_entry e (n_map n1)) n1)
         end.

  (** Triggering [disconnect_consumers] (producer.impl.h:214): all slots connected
      at the start are visited in order; one that has been disconnected in the
      meantime is skipped (boost::signals2). *)
  Fixpoint disc_all (pol : find_policy) (b : build) (p : nat) (l : list slot) (n : net) : outcome net :=
    match l with
    | [] => Ok n
    | s :: l' =>
      if existsb (fun s' => s_conn s' =? s_conn s) (n_disc n)
      then do n' <- disconnect_slot pol b (s_cons s) p n; disc_all pol b p l' n'
      else disc_all pol b p l' n
    end.

  (** The destructor of an object: the derived class calls disconnect_and_flush()
      (e.g. take_every_nth.impl.h:116-121), then [~Producer] (producer.impl.h:210-215)
      triggers [disconnect_consumers] and the signals die, then [~Consumer]
      (consumer.impl.h:326-333) asserts that no connections are left.  For an object
      that is only a producer or only a consumer the other part does nothing, since
      it then has no entries or no slots. *)
  Definition destroy (pol : find_policy) (b : build) (fuel : nat) (o : nat) (n : net) : outcome net :=
    if dead n o then UB
    else
      do n1 <- disconnect_and_flush fuel o n;
      do n2 <- disc_all pol b o (slots_of (n_disc n1) o) n1;
      let kill := filter (fun s => negb (s_prod s =? o)) in
      let n3 := {| n_next := n_next n2; n_sample := kill (n_sample n2);
                   n_flush := kill (n_flush n2); n_disc := kill (n_disc n2);
                   n_map := n_map n2; n_st := n_st n2;
                   n_dead := o :: n_dead n2; n_log := n_log n2 |} in
      assert_then b (match entries_of n3 o with [] => true | _ => false end) (Ok n3).

  Definition step (pol : find_policy) (b : build) (fuel : nat) (o : op) (n0 : net) : outcome net :=
    let n := log (EOp o) n0 in
    match o with
    | OConnect p c => connect p c n
    | OIssue p x => if dead n p then UB else issue fuel n p x
    | OFlush p => if dead n p then UB else flush_sig fuel n p
    | ODisconnect c => if dead n c then UB else disconnect_and_flush fuel c n
    | ODestroy o => destroy pol b fuel o n
    end.

  Fixpoint exec (pol : find_policy) (b : build) (fuel : nat) (ops : list op) (n : net) : outcome net :=
    match ops with
    | [] => Ok n
    | o :: ops' => do n' <- step pol b fuel o n; exec pol b fuel ops' n'
    end.
End Net.
Arguments op X : clear implicits.
Arguments event X : clear implicits.
Arguments net X St : clear implicits.
