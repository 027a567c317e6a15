(** Model of operator>> and class Chain (connections.impl.h). *)
From Verif Require Import Prelude NetModel.

(** An expression with operator>>: a leaf is a producer, filter or consumer, either a
    variable (an lvalue, [temp = false]) or a temporary / moved object ([temp = true]; the
    number then stands for the heap copy made by std::make_unique(std::move(...)),
    connections.impl.h:65,70: the move happens before anything is connected).
    [EVar e] is a variable holding the Chain built earlier by [e], used by reference. *)
Inductive expr :=
| ELeaf (i : nat) (temp : bool)
| EChain (l r : expr)
| EVar (e : expr).

(** What [left_object]/[right_object] hold (connections.impl.h:137-140, 270-273, 394-397,
    501-504): a reference or a unique_ptr to a plain object or to another Chain. *)
Inductive value :=
| VObj (i : nat) (owned : bool)
| VChain (l r : value)         (* a Chain owned by the holder      *)
| VRef (v : value).            (* a reference_wrapper to a Chain   *)

(** The object on which a call of connect_to_producer() ends up: a plain object is
    connected itself, a Chain forwards to its left object (connections.impl.h:113-118, 246-251). *)
Fixpoint consumer_end (v : value) : nat :=
  match v with VObj i _ => i | VChain l _ => consumer_end l | VRef v' => consumer_end v' end.

(** The object on which a call of connect_to_signals() ends up: a Chain forwards to its right
    object (connections.impl.h:96-104, 380-388); the returned producer pointer is that
    of the end object (producer.impl.h:219-238). *)
Fixpoint producer_end (v : value) : nat :=
  match v with VObj i _ => i | VChain _ r => producer_end r | VRef v' => producer_end v' end.

(** Evaluation of an expression: operator>> (connections.impl.h:598-635) evaluates the left, then the right
    operand, and the Chain constructor (57-74, 208-225, 342-359, 466-483) calls
    [get_right_object().connect_to_producer (get_left_object())].  The result is the Chain and the
    sequence of connections that were made. *)
Fixpoint evaluate {X} (e : expr) : value * list (op X) :=
  match e with
  | ELeaf i t => (VObj i t, [])
  | EChain l r =>
    let (vl, ol) := evaluate l in
    let (vr, or) := evaluate r in
    (VChain vl vr, ol ++ or ++ [OConnect (producer_end vl) (consumer_end vr)])
  | EVar e' => let (v, o) := evaluate e' in (VRef v, o)
  end.

(** Destruction of a Chain ([~Chain] = default, connections.impl.h:86, 237, 371, 495): the members are
    destroyed in reverse order of declaration, so right before left; references own
    nothing.  The Chain's own base class never has connections of its own. *)
Fixpoint destruct_value {X} (v : value) : list (op X) :=
  match v with
  | VObj i true => [ODestroy i]
  | VObj _ false => []
  | VChain l r => destruct_value r ++ destruct_value l
  | VRef _ => []
  end.
