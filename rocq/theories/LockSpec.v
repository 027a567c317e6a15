(** Specification for objects with a mutex: calls one after the other. *)
From Verif Require Import Prelude LockModel.
Local Open Scope nat_scope.

Section S.
Context {S L : Type}.
(** The accesses of a function, without anybody else in between. *)
Fixpoint accesses_alone (gs : list (S -> L -> S * L)) (s : S) (l : L) : S * L :=
  match gs with
  | [] => (s, l)
  | g :: r => let '(s', l') := g s l in accesses_alone r s' l'
  end.
(** A call made while nothing else is going on: new state of the object, and the result. *)
Definition call_alone (m : method S L) (a : L) (s : S) : S * L :=
  let l := m_look m s a in if m_done m l then (s, l) else accesses_alone (m_crit m) s l.
(** What the functions look at without protection never changes. *)
Definition look_fixed (ms : list (method S L)) : Prop :=
  forall m m' g, In m ms -> In m' ms -> In g (m_crit m') -> forall s l a, m_look m (fst (g s l)) a = m_look m s a.
(** All calls (t, n) in the order given, one after the other: final state, and the result of each. *)
Fixpoint one_by_one (programs : list (list (method S L * L))) (order : list (nat * nat)) (s : S) : S * list (nat * nat * L) :=
  match order with
  | [] => (s, [])
  | (t, n) :: r =>
    match nth_error (nth t programs []) n with
    | None => one_by_one programs r s
    | Some (m, a) => let '(s', l) := call_alone m a s in let '(s'', rs) := one_by_one programs r s' in (s'', (t, n, l) :: rs)
    end
  end.
(** The calls of thread [t], in program order. *)
Definition calls_of (programs : list (list (method S L * L))) (t : nat) : list (nat * nat) := map (fun n => (t, n)) (seq 0 (length (nth t programs []))).
Definition all_done (s : lstate S L) : Prop := forall t th, nth_error (l_threads s) t = Some th -> th_code th = [].
(** The list of the results that have been returned. *)
Definition ret_of (e : levent L) : list (nat * nat * L) := match e with VReturn t n r => [(t, n, r)] | _ => [] end.
Definition returns (tr : list (levent L)) : list (nat * nat * L) := flat_map ret_of tr.
(** The calls of one thread in an order of all calls. *)
Definition mine (t : nat) (c : nat * nat) : bool := fst c =? t.
(** [c] comes before [d]. *)
Definition before (o : list (nat * nat)) (c d : nat * nat) : Prop := exists x y z, o = x ++ c :: y ++ d :: z.
(** All member functions that are going to be called. *)
Definition methods (programs : list (list (method S L * L))) : list (method S L) := map fst (concat programs).
(** A call that, made while nothing else is going on, does what [consume] says for the sample in its arguments, however it is divided into accesses. *)
Definition carries_out {X} (consume : S -> X -> outcome S) (arg : L -> X) (c : method S L * L) : Prop :=
  forall s s', consume s (arg (snd c)) = Ok s' -> fst (call_alone (fst c) (snd c) s) = s'.
(** ... and the same for a function that returns something *)
Definition carries_out_filter {X Y A} (filter : S -> X * A -> outcome (S * option (Y * A))) (arg : L -> X * A) (res : L -> option (Y * A)) (c : method S L * L) : Prop :=
  forall s s' o, filter s (arg (snd c)) = Ok (s', o) -> fst (call_alone (fst c) (snd c) s) = s' /\ res (snd (call_alone (fst c) (snd c) s)) = o.
(** A call that does not change the object, such as get(). *)
Definition reads_only (c : method S L * L) : Prop := forall s, fst (call_alone (fst c) (snd c) s) = s.
(** A function that takes the lock at once. *)
Definition locks_first (m : method S L) : Prop := (forall s l, m_look m s l = l) /\ (forall l, m_done m l = false).
(** The events of one call. *)
Definition about (t n : nat) (e : levent L) : bool :=
  match e with
  | VBegin t' n' | VEnter t' n' _ | VNothing t' n' | VAccess t' n' | VLeave t' n' | VReturn t' n' _ => (t' =? t) && (n' =? n)
  | VTau _ => false
  end.
(** Thread [t] is between entering and leaving the protected part of its current call, according to the trace so far. *)
Definition entered (t : nat) (e : levent L) : bool := match e with VEnter t' _ _ => t' =? t | _ => false end.
Definition left_ (t : nat) (e : levent L) : bool := match e with VLeave t' _ => t' =? t | _ => false end.
Definition inside (tr : list (levent L)) (t : nat) : Prop := length (filter (left_ t) tr) < length (filter (entered t) tr).
Definition entered_call (t n : nat) (e : levent L) : bool := match e with VEnter t' n' _ => (t' =? t) && (n' =? n) | _ => false end.
Definition left_call (t n : nat) (e : levent L) : bool := match e with VLeave t' n' => (t' =? t) && (n' =? n) | _ => false end.
Definition access_of (t n : nat) (e : levent L) : bool := match e with VAccess t' n' => (t' =? t) && (n' =? n) | _ => false end.
End S.
