(** Continuing a run: several calls of sample(), each of which starts at the sample issued last. *)
From Verif Require Import Prelude ProducerModel ProducerSpec.
Import ListNotations.
Local Open Scope list_scope.
Local Notation length := List.length.

Section Continue.
Context {X D : Type}.

(** The last sample issued; x if there is none. *)
Definition last_sample (x : X) (t : trace X D) : X := last (map fst (issued t)) x.
(** sample(x, n1), then sample(y, n2) with the last sample y, and so on, as in a program that saves its state from time to time. An exception ends it.
    It is one object, whose random number generator goes on where it was. *)
Fixpoint sessions (sample : X -> nat -> trace X D -> trace X D * res unit) (x : X) (ns : list nat) (t : trace X D) : trace X D * res unit :=
  match ns with
  | [] => (t, RVal tt)
  | n :: ns' =>
    let (t1, r) := sample x n t in
    match r with
    | RVal _ => sessions sample (last_sample x t1) ns' t1
    | _ => (t1, r)
    end
  end.
(** What is left of the past when evaluations of the likelihood, and flushes, are ignored. *)
Definition without_evaluations (t : trace X D) : trace X D :=
  filter (fun e => match e with EEval _ | EFlush => false | _ => true end) t.
(** The log likelihood is a function. Proposals, random numbers and the consumers may depend on what was proposed, drawn and issued before, but not on
    the number of evaluations and flushes; they may throw exceptions. Flushing does not throw. *)
Record steady (E : env X D) (ll : X -> D) : Prop := {
  st_ll : forall t x, e_ll E t x = Some (ll x);
  st_prop : forall t t' x r, without_evaluations t = without_evaluations t' -> e_prop E t x r = e_prop E t' x r;
  st_unif : forall t t', without_evaluations t = without_evaluations t' -> e_unif E t = e_unif E t';
  st_issue : forall t t' x a, without_evaluations t = without_evaluations t' -> e_issue E t x a = e_issue E t' x a;
  st_flush : forall t, e_flush E t = false }.
End Continue.
