(** Specification for moves and Chains: what the user sees of a run. *)
From Verif Require Import Prelude NetModel MoveModel.

(** Every delivery of a sample: connection, consumer, sample. *)
Definition deliveries {X} (tr : list (event X)) : list (nat * nat * X) := flat_map (fun e => match e with ERecv k c x => [(k, c, x)] | _ => [] end) tr.
(** What can be observed of a run: whether it goes wrong, the deliveries, and the modes of the connections. *)
Definition observe {X St} (o : outcome (world X St)) : outcome (list (nat * nat * X) * list N) :=
  do w <- o; Ok (deliveries (n_log (w_net w)), w_conn_modes w).

(** The object [k] is a Chain that exists. *)
Definition is_chain {X St} (w : world X St) (k : nat) : Prop := usable w k = true /\ exists l r, w_kind w k = Chain l r.
(** A connection exists between [p] and [c]: the signal of [p] calls [c]. *)
Definition linked {X St} (w : world X St) (p c : nat) : Prop := exists k, In {| s_conn := k; s_prod := p; s_cons := c |} (n_sample (w_net w)).

(** Replacing the name [k] by [j] in a program, and the names that occur in one. *)
Definition ren (k j i : nat) : nat := if i =? k then j else i.
Definition ren_operand {St} (k j : nat) (o : operand St) : operand St := match o with ByRef i => ByRef (ren k j i) | ByMove i m g => ByMove (ren k j i) (ren k j m) g end.
Definition ren_call {X St} (k j : nat) (c : call X St) : call X St :=
  match c with
  | KNew i s supp => KNew (ren k j i) s supp
  | KChain l r m => KChain (ren_operand k j l) (ren_operand k j r) (ren k j m)
  | KMove i m g => KMove (ren k j i) (ren k j m) g
  | KConnect p c => KConnect (ren k j p) (ren k j c)
  | KSetMode c m q => KSetMode (ren k j c) m q
  | KFlush c => KFlush (ren k j c)
  | KDisconnect c => KDisconnect (ren k j c)
  | KIssue p x => KIssue (ren k j p) x
  | KFlushConsumers p => KFlushConsumers (ren k j p)
  | KDestroy i => KDestroy (ren k j i)
  end.
Definition operand_names {St} (o : operand St) : list nat := match o with ByRef i => [i] | ByMove i m _ => [i; m] end.
Definition names {X St} (c : call X St) : list nat :=
  match c with
  | KNew i _ _ | KSetMode i _ _ | KFlush i | KDisconnect i | KIssue i _ | KFlushConsumers i | KDestroy i => [i]
  | KChain l r m => operand_names l ++ operand_names r ++ [m]
  | KMove i m _ | KConnect i m => [i; m]
  end.
(** No Chain refers to the object [k]. *)
Definition unreferenced {X St} (w : world X St) (k : nat) : Prop :=
  forall i l r, used w i = true -> w_kind w i = Chain l r -> l <> Ref k /\ l <> Own k /\ r <> Ref k /\ r <> Own k.

(** flush(), disconnect_and_flush() and set_parallel_mode (m, q), called on the object [k]. The modes include the synchronous one, the only one that a Chain supports. *)
Definition idle_call {X St} (c : call X St) (k : nat) : Prop := c = KFlush k \/ c = KDisconnect k \/ exists m q, c = KSetMode k m q /\ N.land m ConsumerModel.synchronous <> 0%N.
