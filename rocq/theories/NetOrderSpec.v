(** A reference semantics of networks: the wires in the order in which they were made, and nothing else. It says in which order consumers see samples and are flushed. *)
From Verif Require Import Prelude NetModel.
Local Open Scope nat_scope.

Section Spec.
Context {X St : Type}.
Variable filt : nat -> option (St -> X -> outcome (St * option X)).

(** Number of the connect call, producer, consumer. *)
Definition wire := (nat * nat * nat)%type.
Definition w_from (w : wire) : nat := snd (fst w).
Definition w_to (w : wire) : nat := snd w.

(** The consumers flushed when producer [p] triggers flush_consumers(): along each wire, in the order of connection, the consumer, then (if it is a filter) those behind it. *)
Fixpoint flush_order (fuel : nat) (ws : list wire) (p : nat) : list nat :=
  match fuel with
  | 0 => []
  | S fuel' => flat_map (fun w => if w_from w =? p then w_to w :: (match filt (w_to w) with None => [] | Some _ => flush_order fuel' ws (w_to w) end) else []) ws
  end.
(** Consumer::flush() of [c] and what it causes. *)
Definition flush_from (fuel : nat) (ws : list wire) (c : nat) : list nat := c :: match filt c with None => [] | Some _ => flush_order fuel ws c end.

(** What happens when producer [p] issues [x], with members [st] of the filters: along each wire, in the order of connection, the consumer gets the sample; if it is a filter that passes something on, then
    everything behind it gets that before the next wire's turn. *)
Fixpoint send (fuel : nat) (ws : list wire) (st : nat -> St) (p : nat) (x : X) : (nat -> St) * list (event X) :=
  match fuel with
  | 0 => (st, [])
  | S fuel' =>
    let (st', D) := fold_left (fun '(st, D) (w : wire) =>
      if w_from w =? p then
        let c := w_to w in
        let D1 := D ++ [ERecv (fst (fst w)) c x] in
        match filt c with
        | None => (st, D1)
        | Some f =>
          match f (st c) x with
          | Ok (s', o) =>
            let st1 := fun j => if j =? c then s' else st j in
            match o with
            | None => (st1, D1)
            | Some y => let (st2, D2) := send fuel' ws st1 c y in (st2, D1 ++ D2)
            end
          | _ => (st, D1)
          end
        end
      else (st, D)) ws (st, []) in
    (st', EIssue p x :: D)
  end.

(** What a user call does to (number of connect calls, wires, members of filters), and the events. *)
Definition spec_step (fuel : nat) (o : op X) (s : nat * list wire * (nat -> St)) : nat * list wire * (nat -> St) * list (event X) :=
  let '(next, ws, st) := s in
  match o with
  | OConnect p c => (S next, ws ++ [(next, p, c)], st, [])
  | OIssue p x => let (st', D) := send fuel ws st p x in (next, ws, st', D)
  | OFlush p => (next, ws, st, map EFlush (flush_order fuel ws p))
  | ODisconnect c => let ws' := filter (fun w => negb (w_to w =? c)) ws in (next, ws', st, map EFlush (flush_from fuel ws' c))
  | ODestroy i => let ws' := filter (fun w => negb (w_to w =? i)) ws in (next, filter (fun w => negb (w_from w =? i)) ws', st, map EFlush (flush_from fuel ws' i))
  end.
Fixpoint spec_log (fuel : nat) (ops : list (op X)) (s : nat * list wire * (nat -> St)) : list (event X) :=
  match ops with
  | [] => []
  | o :: ops' => let '(s', D) := spec_step fuel o s in EOp o :: D ++ spec_log fuel ops' s'
  end.
End Spec.
