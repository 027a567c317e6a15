(** What the statements about asynchronous networks are written in: how a filter responds to a sequence of samples, and what a sample becomes on its way through a network. *)
From Verif Require Import Prelude ANetModel.
Local Open Scope nat_scope.

Section Spec.
Context {X St : Type}.
Implicit Types tr : list (event X).

(** ** Exceptions *)
Section Exceptions.
Variable edges : list edge.
(** All these connections are synchronous. *)
Definition synchronous (b : trail) := Forall (fun a => exists e, nth_error edges a = Some e /\ g_mode e = Sync) b.
(** The call of the slot that passes on the sample along the last connection of [b] was left by an exception: consume() was, if the connection is synchronous; or std::async has thrown. *)
Definition slot_threw tr (o : nat) (b : trail) :=
  match b with
  | [] => False
  | a :: _ => (synchronous [a] /\ exists t c, In (EAbort t (o, b) c) tr) \/ exists t c, In (ERefuse t (o, b) c) tr
  end.
(** An exception was thrown on behalf of call [o], by consume() or filter() or by std::async, when the sample had passed [b]. *)
Definition raised tr (o : nat) (b : trail) := (exists t c x, In (EFail t (o, b) c x) tr) \/ exists a t c, In (ERefuse t (o, a :: b) c) tr.
(** The sample with label [(o, b)] cannot be passed on along connection [a]: std::async has thrown, or the slot of an earlier connection has. *)
Definition hindered tr (o a : nat) (b : trail) := (exists t c, In (ERefuse t (o, a :: b) c) tr) \/ exists a', a' < a /\ slot_threw tr o (a' :: b).
(** Nothing has been thrown on behalf of call [o]. *)
Definition no_exception (o : nat) tr := forall b, ~ raised tr o b.
End Exceptions.

(** ** Counting *)
(** How often something happens in a history. *)
Definition times (P : event X -> bool) tr : nat := length (filter P tr).
Definition is_label (l : label) (l' : label) : bool := if list_eq_dec Nat.eq_dec (snd l) (snd l') then fst l =? fst l' else false.
(** consume() begins / ends for the sample with this label, in one way or other; a producer or filter issues it. *)
Definition starts (l : label) (e : event X) : bool := match e with EStart _ l' _ _ | EFail _ l' _ _ => is_label l l' | _ => false end.
Definition finishes (l : label) (e : event X) : bool := match e with EEnd _ l' _ | EAbort _ l' _ => is_label l l' | _ => false end.
Definition issues (l : label) (e : event X) : bool := match e with EIssue _ l' _ _ => is_label l l' | _ => false end.
(** The event concerns the sample with label [l] itself... *)
Definition about (l : label) (e : event X) : Prop := match e with EStart _ l' _ _ | EFail _ l' _ _ | EEnd _ l' _ | EAbort _ l' _ | EIssue _ l' _ _ => l' = l | _ => False end.
(** ... consumer or filter [c] is given [x]. *)
Definition given_to tr (l : label) (c : nat) (x : X) := exists t, In (EStart t l c x) tr \/ In (EFail t l c x) tr.

(** The call with number [o] is made by somebody: [issue_sample(x)] of [p]. *)
Definition sent tr (o p : nat) (x : X) := exists t, In (ECall t o (OSend p x)) tr.
(** The work on the sample with label [(o, b)] at its present place is over: the call of issue_sample() has returned or thrown, or the call of consume(). *)
Definition over tr (o : nat) (b : trail) (p : nat) :=
  match b with
  | [] => exists t x, In (EReturn t o (OSend p x)) tr \/ In (EThrew t o (OSend p x)) tr
  | _ => exists t, In (EEnd t (o, b) p) tr \/ In (EAbort t (o, b) p) tr
  end.

(** The flush call [f], made when [tr] has happened, has to wait for whatever has become of the sample with label [l]: it is a call of flush_consumers() of the producer
    or filter that has issued it, or a call of flush() of a consumer or filter it was issued to, and the call that did so is over. *)
Definition waits_for (edges : list edge) tr (f : op X) (l : label) :=
  match f with
  | OSend _ _ => False
  | OFlushConsumers q => over tr (fst l) (snd l) q
  | OFlush q => exists a b e t x, snd l = a :: b /\ nth_error edges a = Some e /\ g_to e = q /\ In (EIssue t (fst l, b) (g_from e) x) tr /\ over tr (fst l) b (g_from e)
  end.
(** What consumers and filters are given because of the call with number [o], with the connections it has passed. *)
Fixpoint consumed_from (o : nat) tr : list (trail * (nat * X)) :=
  match tr with
  | [] => []
  | EStart _ l c y :: r => if fst l =? o then (snd l, (c, y)) :: consumed_from o r else consumed_from o r
  | _ :: r => consumed_from o r
  end.

(** What a filter does with the samples it is given, one after the other: its new member variables, and what it gives to issue_sample(). *)
Fixpoint replay (f : St -> X -> St * option X) (c : nat) (v : St) tr : St * list (label * X) :=
  match tr with
  | [] => (v, [])
  | EStart _ l c' x :: r =>
    if c' =? c
    then let (v', o) := f v x in
         let (w, out) := replay f c v' r in
         (w, match o with Some y => (l, y) :: out | None => out end)
    else replay f c v r
  | _ :: r => replay f c v r
  end.

(** Networks of filters without member variables: what arrives after the connections [b], and what is issued there, if [p] issues [x]. *)
Variable edges : list edge.
Variable g : nat -> option (X -> option X).
Section From.
Variable p : nat.
Variable x : X.
Definition over_edge (a : nat) (issued : option (nat * X)) : option (nat * X) :=
  match issued, nth_error edges a with
  | Some (q, y), Some e => if g_from e =? q then Some (g_to e, y) else None
  | _, _ => None
  end.
Definition through (arrived : option (nat * X)) : option (nat * X) :=
  match arrived with
  | Some (c, y) => match g c with
                   | Some f => match f y with Some z => Some (c, z) | None => None end
                   | None => None
                   end
  | None => None
  end.
Fixpoint issued (b : trail) : option (nat * X) :=
  match b with
  | [] => Some (p, x)
  | a :: b' => through (over_edge a (issued b'))
  end.
Definition arrives (b : trail) : option (nat * X) :=
  match b with
  | [] => None
  | a :: b' => over_edge a (issued b')
  end.
End From.
End Spec.

(** Filters without member variables. *)
Definition stateless {X St : Type} (g : nat -> option (X -> option X)) (c : nat) : option (St -> X -> St * option X) :=
  match g c with Some f => Some (fun v x => (v, f x)) | None => None end.
(** The connections, not counting their modes. *)
Definition same_connections (E E' : list edge) := map (fun e => (g_from e, g_to e)) E = map (fun e => (g_from e, g_to e)) E'.
(** No sample can come back: the numbers [rank] increase along connections. *)
Definition acyclic (E : list edge) := exists rank : nat -> nat, forall e, In e E -> rank (g_from e) < rank (g_to e).
