(** Specification of what exceptions inside consume() may leave behind. *)
From Verif Require Import Prelude ConsumerModel StatsModel StatsSpec FaultModel.
Local Open Scope nat_scope.

(** The ending of a call in which nothing throws, in terms of the models of the other properties. (std::bad_any_cast leaves the object as it was.) *)
Definition as_ending {St} (s : St) (o : outcome St) : ending St := match o with Ok s' => Finished s' | Throw => Threw s | _ => Bad end.

(** [calls consume s h s']: calls of consume() turn the object from s into s'. The history h lists the samples, and whether the call for each of them returned (true) or threw an exception, at whatever point of consume(), which the user caught
    (false). *)
Inductive calls {St X : Type} (consume : X -> stmt St unit) : St -> list (X * bool) -> St -> Prop :=
| no_calls : forall s, calls consume s [] s
| call_returns : forall s x fault s' h s'', call consume s x fault = Finished s' -> calls consume s' h s'' -> calls consume s ((x, true) :: h) s''
| call_throws : forall s x fault s' h s'', call consume s x fault = Threw s' -> calls consume s' h s'' -> calls consume s ((x, false) :: h) s''.
(** The samples for which the call returned. *)
Definition consumed {X} (h : list (X * bool)) : list X := map fst (filter snd h).
(** A call that throws is as if it had not been made. *)
Definition strong_guarantee {St X} (stmts : X -> stmt St unit) (consume : St -> X -> outcome St) : Prop :=
  forall s h s', calls stmts s h s' -> run_consumer consume s (consumed h) = Ok s'.

(** The samples of a history in which every sample that could not be consumed is replaced by the mean of those before it (and of their replacements). *)
Fixpoint stand_ins {K} (F : kops K) (d : nat) (before : list (list K)) (h : list (list K * bool)) : list (list K) :=
  match h with
  | [] => before
  | (x, true) :: h' => stand_ins F d (before ++ [x]) h'
  | (_, false) :: h' => stand_ins F d (before ++ [map (the_mean F before) (seq 0 d)]) h'
  end.
