(** Model of an object with its own mutex whose member functions are called by several threads at the same time.

    A call of a member function consists of: optionally an unprotected look at the object (some functions look at members that never change before they
    take the lock and may return at once), then [std::lock_guard<std::mutex> lock(mutex);], then any number of indivisible accesses to
    the members, then the release of the lock at the end of the scope, then the return. How the protected part is divided into
    indivisible accesses is left open: [m_crit] is any list of functions of the members ([S]) and of the local variables ([L], which
    comprise the arguments and the value to be returned).

    Code of this form, with the line of the lock:
    consumers/acceptance_ratio.impl.h:195 and 233, auto_covariance_matrix.impl.h:374 and 484, auto_covariance_trace.impl.h:415 and 520, average_cosinus.impl.h:162 and 232,
    count_samples.impl.h:124 and 136, covariance_matrix.impl.h:161 and 207, last_sample.impl.h:104 and 116, mean_value.impl.h:179 and 210, stream_output.impl.h:185,
    filters/take_every_nth.impl.h:131, filters/discard_first_n.impl.h:124; with an unprotected look first:
    consumers/histogram.impl.h:339 (interval_points and the size of bins never change) and 365, pair_histogram.impl.h:422 and 454,
    maximum_probability_sample.impl.h:162 (the look at the auxiliary data does not involve the object) and 191.
    consumers/action.impl.h:174-186 takes the lock only if concurrent actions are not allowed (parameter [locked] of the step function).
    Exceptions: the lock_guard releases the lock then, too; a throwing access can be expressed by making the remaining accesses do nothing. *)
From Verif Require Import Prelude.
Local Open Scope nat_scope.

Record method (S L : Type) := {
  m_look : S -> L -> L;              (* unprotected *)
  m_done : L -> bool;                (* ... after which the function may return at once *)
  m_crit : list (S -> L -> S * L) }. (* protected *)
Arguments m_look {S L}. Arguments m_done {S L}. Arguments m_crit {S L}.

Inductive linstr (S L : Type) :=
| LBegin (m : method S L) (a : L)
| LLook (m : method S L)
| LLock | LUnlock
| LAccess (g : S -> L -> S * L)
| LReturn.
Arguments LBegin {S L}. Arguments LLook {S L}. Arguments LLock {S L}. Arguments LUnlock {S L}. Arguments LAccess {S L}. Arguments LReturn {S L}.

(** A thread: its local variables, what it still has to do, and how many calls it has completed. *)
Record lthread (S L : Type) := { th_local : L; th_code : list (linstr S L); th_n : nat }.
Arguments th_local {S L}. Arguments th_code {S L}. Arguments th_n {S L}.
Record lstate (S L : Type) := { l_obj : S; l_owner : option nat; l_threads : list (lthread S L) }.
Arguments l_obj {S L}. Arguments l_owner {S L}. Arguments l_threads {S L}.

(** Events; a call is identified by (thread, number of the call in that thread). *)
Inductive levent (L : Type) :=
| VBegin (t n : nat)
| VEnter (t n : nat) (l : L)     (* acquires the lock (or begins the body of an unlocked function), with these local variables *)
| VNothing (t n : nat)           (* decides to return at once *)
| VAccess (t n : nat)
| VLeave (t n : nat)             (* releases the lock (or ends that body) *)
| VReturn (t n : nat) (r : L)
| VTau (t : nat).
Arguments VBegin {L}. Arguments VEnter {L}. Arguments VNothing {L}. Arguments VAccess {L}. Arguments VLeave {L}. Arguments VReturn {L}. Arguments VTau {L}.

Section M.
Context {S L : Type}.

Definition body_code (m : method S L) : list (linstr S L) := LLock :: map LAccess (m_crit m) ++ [LUnlock].
Fixpoint lupd (l : list (lthread S L)) (t : nat) (a : lthread S L) : list (lthread S L) :=
  match l, t with
  | [], _ => []
  | _ :: l', 0 => a :: l'
  | b :: l', Datatypes.S t' => b :: lupd l' t' a
  end.

(** One step of thread [t]. The lock is only taken by functions that lock: [LLock] and [LUnlock] of an unlocked function just mark the beginning and end of its body; since all functions of an
    object are either locked or not in the uses below, [locked] is a parameter of the object. *)
Definition lstep (locked : bool) (t : nat) (s : lstate S L) : option (levent L * lstate S L) :=
  match nth_error (l_threads s) t with
  | None => None
  | Some th =>
    let l := th_local th in let n := th_n th in
    let upd obj owner l' k n' := {| l_obj := obj; l_owner := owner; l_threads := lupd (l_threads s) t {| th_local := l'; th_code := k; th_n := n' |} |} in
    match th_code th with
    | [] => None
    | LBegin m a :: k => Some (VBegin t n, upd (l_obj s) (l_owner s) a (LLook m :: k) n)
    | LLook m :: k =>
        let l' := m_look m (l_obj s) l in
        if m_done m l' then Some (VNothing t n, upd (l_obj s) (l_owner s) l' (LReturn :: k) n)
        else Some (VTau t, upd (l_obj s) (l_owner s) l' (body_code m ++ LReturn :: k) n)
    | LLock :: k =>
        if locked then
          match l_owner s with
          | None => Some (VEnter t n l, upd (l_obj s) (Some t) l k n)
          | Some _ => None
          end
        else Some (VEnter t n l, upd (l_obj s) (l_owner s) l k n)
    | LAccess g :: k => let '(obj', l') := g (l_obj s) l in Some (VAccess t n, upd obj' (l_owner s) l' k n)
    | LUnlock :: k => Some (VLeave t n, upd (l_obj s) (if locked then None else l_owner s) l k n)
    | LReturn :: k => Some (VReturn t n l, upd (l_obj s) (l_owner s) l k (Datatypes.S n))
    end
  end.
Fixpoint lrun (locked : bool) (sched : list nat) (s : lstate S L) : list (levent L) * lstate S L :=
  match sched with
  | [] => ([], s)
  | t :: r =>
    match lstep locked t s with
    | None => lrun locked r s
    | Some (e, s') => let '(tr, s'') := lrun locked r s' in (e :: tr, s'')
    end
  end.
(** Threads that are going to make the given calls (member function, arguments). *)
Definition linit (obj : S) (l0 : L) (programs : list (list (method S L * L))) : lstate S L :=
  {| l_obj := obj; l_owner := None;
     l_threads := map (fun p => {| th_local := l0; th_code := map (fun ma => LBegin (fst ma) (snd ma)) p; th_n := 0 |}) programs |}.
End M.
