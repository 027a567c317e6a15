(** Specification of chaining: the objects in the order written, and neighbours. *)
From Verif Require Import Prelude ChainModel.

(** The objects of an expression from left to right, ignoring parentheses. *)
Fixpoint leaves (e : expr) : list nat :=
  match e with
  | ELeaf i _ => [i]
  | EChain l r => leaves l ++ leaves r
  | EVar e' => leaves e'
  end.

(** Pairs of neighbours in a list. *)
Fixpoint adjacent (l : list nat) : list (nat * nat) :=
  match l with
  | x :: (y :: _) as l' => (x, y) :: adjacent l'
  | _ => []
  end.

(** The temporaries written in an expression, which die with the resulting Chain. *)
Fixpoint temporaries (e : expr) : list nat :=
  match e with
  | ELeaf i t => if t then [i] else []
  | EChain l r => temporaries l ++ temporaries r
  | EVar _ => []
  end.
