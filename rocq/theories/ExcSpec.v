(** What the theorems about exceptions in the functions given to a sampler refer to (C76). *)
From Verif Require Import Prelude ProducerModel.
Local Open Scope list_scope.

Section Spec.
Context {X D : Type}.

(** Does the call [e] throw, if what has been called before is [t]? Drawing random numbers does not. *)
Definition throws (E : env X D) (t : trace X D) (e : event X D) : bool :=
  match e with
  | EEval x => match e_ll E t x with Some _ => false | None => true end
  | EPropose x rejected => match e_prop E t x rejected with Some _ => false | None => true end
  | ECross x a b => match e_cross E t x a b with Some _ => false | None => true end
  | EIssue x a => e_issue E t x a
  | EFlush => e_flush E t
  | EUnif | EUInt _ => false
  end.

(** In [E'], everything answers as it does in [E], but calls that throw in [E] may instead return something in [E']. (Random numbers are the same, and so is what flush_consumers() does.) *)
Record fewer_exceptions (E' E : env X D) : Prop := {
  fe_ll : forall t x, e_ll E t x <> None -> e_ll E' t x = e_ll E t x;
  fe_prop : forall t x r, e_prop E t x r <> None -> e_prop E' t x r = e_prop E t x r;
  fe_cross : forall t x a b, e_cross E t x a b <> None -> e_cross E' t x a b = e_cross E t x a b;
  fe_unif : forall t, e_unif E' t = e_unif E t;
  fe_uint : forall t hi, e_uint E' t hi = e_uint E t hi;
  fe_issue : forall t x a, e_issue E t x a = false -> e_issue E' t x a = false;
  fe_flush : forall t, e_flush E' t = e_flush E t }.

(** [t'] starts with [t]. *)
Definition starts_with (t' t : trace X D) : Prop := exists rest, t' = t ++ rest.

(** No evaluation of the log likelihood in [t] throws. *)
Definition no_evaluation_throws (E : env X D) (t : trace X D) : Prop := forall a x b, t = a ++ EEval x :: b -> e_ll E a x <> None.
(** The number of evaluations of the log likelihood *)
Definition number_of_evaluations (t : trace X D) : nat := List.length (filter (fun e => match e with EEval _ => true | _ => false end) t).
End Spec.
