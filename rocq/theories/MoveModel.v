(** Model of programs that build Chain objects, move objects and call member functions of Chains: the move constructors (consumer.impl.h:307-322, producer.impl.h:191-206, pass_through.impl.h:71, condition.impl.h:74,
    connections.impl.h:80, 231, 365, 489) and what class Chain inherits and overrides (connections.impl.h:44-156, 195-290, 329-413, 453-529). The network of signals and slots is that of NetModel; in it, a Chain is one more object, which
    stands for the Producer and Consumer base classes the Chain itself has. *)
From Verif Require Import Prelude NetModel ConsumerModel.

(** [left_object], [right_object] (connections.impl.h:137-140, 270-273, 394-397, 501-504): a reference, an object the Chain owns, or a unique_ptr that was moved from. *)
Inductive part := Ref (i : nat) | Own (i : nat) | Null.
(** An object is a producer, filter or consumer in its own right, or a Chain. *)
Inductive kind := Plain | Chain (l r : part).
(** [supported_parallel_modes], [parallel_mode], [queue_size] (consumer.impl.h:243-258). *)
Record modes := { md_supported : N; md_mode : N; md_queue : N }.

(** The operands of operator>>: a named object, or a temporary [i], which is moved to the heap object [j] (connections.impl.h:62-70); [g] is the state in which the temporary is left, which C++ does not specify. *)
Inductive operand (St : Type) := ByRef (i : nat) | ByMove (i j : nat) (g : St).
Arguments ByRef {St} i.
Arguments ByMove {St} i j g.

(** What a program does. New objects get names that were not used before. *)
Inductive call (X St : Type) :=
| KNew (i : nat) (s : St) (supp : N)       (* an object is constructed                              *)
| KChain (l r : operand St) (k : nat)      (* the Chain k is the result of l >> r                   *)
| KMove (i j : nat) (g : St)               (* j is move-constructed from i, which is left in state g *)
| KConnect (p c : nat)                     (* c.connect_to_producer (p)                             *)
| KSetMode (c : nat) (mode queue : N)      (* c.set_parallel_mode (mode, queue)                     *)
| KFlush (c : nat)                         (* c.flush ()                                            *)
| KDisconnect (c : nat)                    (* c.disconnect_and_flush ()                             *)
| KIssue (p : nat) (x : X)                 (* p triggers issue_sample                               *)
| KFlushConsumers (p : nat)                (* p triggers flush_consumers                            *)
| KDestroy (i : nat).                      (* the destructor of i runs                              *)
Arguments KNew {X St} i s supp.
Arguments KChain {X St} l r k.
Arguments KMove {X St} i j g.
Arguments KConnect {X St} p c.
Arguments KSetMode {X St} c mode queue.
Arguments KFlush {X St} c.
Arguments KDisconnect {X St} c.
Arguments KIssue {X St} p x.
Arguments KFlushConsumers {X St} p.
Arguments KDestroy {X St} i.

Definition upd {A} (f : nat -> A) (i : nat) (a : A) : nat -> A := fun j => if j =? i then a else f j.

Section Move.
  Context {X St : Type}.
  Variable filt : nat -> option (St -> X -> outcome (St * option X)).
  Variable b : build.
  Variable fuel : nat.      (* bounds the depth of the call stack *)

  (** The state of all objects; [w_conn_modes] are the modes in which the connections made so far process samples, which connect_to_producer() fixes for each of them (consumer.impl.h:349-352). *)
  Record world := { w_net : net X St; w_kind : nat -> kind; w_modes : nat -> modes; w_used : list nat; w_conn_modes : list N }.
  Definition start (s0 : nat -> St) : world :=
    {| w_net := init s0; w_kind := fun _ => Plain; w_modes := fun _ => {| md_supported := 0; md_mode := 0; md_queue := 0 |}; w_used := []; w_conn_modes := [] |}.
  Definition used (w : world) (i : nat) : bool := existsb (Nat.eqb i) (w_used w).
  Definition usable (w : world) (i : nat) : bool := used w i && negb (dead (w_net w) i).
  Definition set_net (n : net X St) (w : world) : world :=
    {| w_net := n; w_kind := w_kind w; w_modes := w_modes w; w_used := w_used w; w_conn_modes := w_conn_modes w |}.

  (** A new object: consumer.impl.h:297-304. *)
  Definition create (i : nat) (s : St) (k : kind) (supp : N) (w : world) : world :=
    {| w_net := set_st i s (w_net w); w_kind := upd (w_kind w) i k; w_modes := upd (w_modes w) i {| md_supported := supp; md_mode := synchronous; md_queue := 1 |};
       w_used := i :: w_used w; w_conn_modes := w_conn_modes w |}.

  (** The object on which connect_to_producer() of [i] ends up: that of the left object of a Chain (connections.impl.h:113-118, 246-251, with get_left_object 142-149). Using a destroyed object or an empty pointer is undefined. *)
  Fixpoint left_end (d : nat) (w : world) (i : nat) : option nat :=
    match d with
    | O => None
    | S d' => if usable w i then match w_kind w i with
                                 | Plain => Some i
                                 | Chain (Ref j) _ | Chain (Own j) _ => left_end d' w j
                                 | Chain Null _ => None
                                 end
              else None
    end.
  (** The object on which connect_to_signals() of [i] ends up: that of the right object of a Chain (connections.impl.h:96-104, 380-388). *)
  Fixpoint right_end (d : nat) (w : world) (i : nat) : option nat :=
    match d with
    | O => None
    | S d' => if usable w i then match w_kind w i with
                                 | Plain => Some i
                                 | Chain _ (Ref j) | Chain _ (Own j) => right_end d' w j
                                 | Chain _ Null => None
                                 end
              else None
    end.
  Definition do_connect (p c : nat) (w : world) : outcome world :=
    match right_end fuel w p, left_end fuel w c with
    | Some pe, Some ce =>
      do n <- NetModel.connect pe ce (log (EOp (OConnect pe ce)) (w_net w));
      Ok {| w_net := n; w_kind := w_kind w; w_modes := w_modes w; w_used := w_used w; w_conn_modes := w_conn_modes w ++ [md_mode (w_modes w ce)] |}
    | _, _ => UB
    end.

  (** Moving a std::variant of a reference and a unique_ptr leaves the pointer empty. *)
  Definition moved_from (p : part) : part := match p with Own _ => Null | _ => p end.
  Definition is_nil {A} (l : list A) : bool := match l with [] => true | _ => false end.
  (** Move construction. [Consumer (Consumer &&)], consumer.impl.h:307-322: the modes are copied, [queue_size] is value-initialised (C++20), and it is asserted that the moved-from object has no connection to a producer.
      [Producer (Producer &&)], producer.impl.h:191-206: fresh signals, and it is asserted that those of the moved-from object have no slots. The members of derived classes are moved ("= default"). *)
  Definition do_move (i j : nat) (g : St) (w : world) : outcome world :=
    if usable w i && negb (used w j) then
      let n := w_net w in
      assert_then b (is_nil (entries_of n i))
        (assert_then b (is_nil (slots_of (n_sample n) i) && is_nil (slots_of (n_flush n) i) && is_nil (slots_of (n_disc n) i))
           (Ok {| w_net := set_st i g (set_st j (n_st n i) n);
                  w_kind := match w_kind w i with
                            | Plain => upd (w_kind w) j Plain
                            | Chain l r => upd (upd (w_kind w) j (Chain l r)) i (Chain (moved_from l) (moved_from r))
                            end;
                  w_modes := upd (w_modes w) j {| md_supported := md_supported (w_modes w i); md_mode := md_mode (w_modes w i); md_queue := 0 |};
                  w_used := j :: w_used w; w_conn_modes := w_conn_modes w |}))
    else UB.

  (** connections.impl.h:62-70: what the Chain stores for an operand, and the object it then stands for. *)
  Definition take (o : operand St) (w : world) : outcome (world * (part * nat)) :=
    match o with
    | ByRef i => if usable w i then Ok (w, (Ref i, i)) else UB
    | ByMove i j g => do w1 <- do_move i j g w; Ok (w1, (Own j, j))
    end.

  (** The destructors. An object in its own right: NetModel.destroy. [~Chain] is defaulted (connections.impl.h:86, 237, 371, 495): the right object is destroyed if it is owned, then the left one, then the base classes of the Chain itself
      ([~Producer], producer.impl.h:210-215; [~Consumer], consumer.impl.h:326-333); unlike other filters and consumers it does not call disconnect_and_flush(). *)
  Definition destroy_base (o : nat) (n : net X St) : outcome (net X St) :=
    do n2 <- disc_all FindFirst b o (slots_of (n_disc n) o) n;
    let kill := filter (fun s => negb (s_prod s =? o)) in
    let n3 := {| n_next := n_next n2; n_sample := kill (n_sample n2); n_flush := kill (n_flush n2); n_disc := kill (n_disc n2);
                 n_map := n_map n2; n_st := n_st n2; n_dead := o :: n_dead n2; n_log := n_log n2 |} in
    assert_then b (is_nil (entries_of n3 o)) (Ok n3).
  Fixpoint do_destroy (d : nat) (i : nat) (w : world) : outcome world :=
    match d with
    | O => UB
    | S d' =>
      if usable w i then
        match w_kind w i with
        | Plain => do n <- destroy filt FindFirst b fuel i (log (EOp (ODestroy i)) (w_net w)); Ok (set_net n w)
        | Chain l r =>
          do w1 <- match r with Own j => do_destroy d' j w | _ => Ok w end;
          do w2 <- match l with Own j => do_destroy d' j w1 | _ => Ok w1 end;
          do n <- destroy_base i (w_net w2);
          Ok (set_net n w2)
        end
      else UB
    end.

  (** One call. Only connect_to_producer(), connect_to_signals() and the destructor know that an object is a Chain: set_parallel_mode() and disconnect_and_flush() are not virtual (consumer.impl.h:184-186, 214-215), and Chain does not
      override flush(). *)
  Definition perform (c : call X St) (w : world) : outcome world :=
    match c with
    | KNew i s supp => if used w i then UB else Ok (create i s Plain supp w)
    | KChain l r k =>
      do (w1, (pl, l')) <- take l w;
      do (w2, (pr, r')) <- take r w1;
      if used w2 k then UB else do_connect l' r' (create k (n_st (w_net w2) k) (Chain pl pr) synchronous w2)
    | KMove i j g => do_move i j g w
    | KConnect p c => do_connect p c w
    | KSetMode c m q =>
      if usable w c then
        do m' <- set_parallel_mode b (md_supported (w_modes w c)) (length (entries_of (w_net w) c)) m;
        Ok {| w_net := w_net w; w_kind := w_kind w; w_modes := upd (w_modes w) c {| md_supported := md_supported (w_modes w c); md_mode := m'; md_queue := q |};
              w_used := w_used w; w_conn_modes := w_conn_modes w |}
      else UB
    | KFlush c => if usable w c then do n <- flush_one filt (flush_sig filt fuel) (w_net w) c; Ok (set_net n w) else UB
    | KDisconnect c => if usable w c then do n <- disconnect_and_flush filt fuel c (log (EOp (ODisconnect c)) (w_net w)); Ok (set_net n w) else UB
    | KIssue p x => if usable w p then do n <- issue filt fuel (log (EOp (OIssue p x)) (w_net w)) p x; Ok (set_net n w) else UB
    | KFlushConsumers p => if usable w p then do n <- flush_sig filt fuel (log (EOp (OFlush p)) (w_net w)) p; Ok (set_net n w) else UB
    | KDestroy i => do_destroy fuel i w
    end.
  Fixpoint run (h : list (call X St)) (w : world) : outcome world :=
    match h with
    | [] => Ok w
    | c :: h' => do w' <- perform c w; run h' w'
    end.
End Move.
Arguments world X St : clear implicits.
