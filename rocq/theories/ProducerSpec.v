(** Specification vocabulary for the producers: what can be read off a trace of events, and what a Markov chain with
    accepted and repeated samples looks like. Independent of the algorithms in ProducerModel. *)
From Coq Require Import String.
From Verif Require Import Prelude ProducerModel.
Local Open Scope string_scope.
Local Open Scope list_scope.
Local Notation length := List.length.

Section Spec.
Context {X D : Type}.
Variable E : env X D.

(** Go through a trace and collect something about each event; [f] sees what happened before it. *)
Fixpoint collect {A} (f : trace X D -> event X D -> option A) (before t : trace X D) : list A :=
  match t with
  | [] => []
  | e :: t' => match f before e with Some a => [a] | None => [] end ++ collect f (before ++ [e]) t'
  end.

(** The samples issued, with their auxiliary data. *)
Definition issued (t : trace X D) : list (X * paux D) :=
  collect (fun _ e => match e with EIssue x a => Some (x, a) | _ => None end) [] t.
(** The calls of the log likelihood which returned: argument and value. *)
Definition evaluations (t : trace X D) : list (X * D) :=
  collect (fun b e => match e with EEval x => option_map (pair x) (e_ll E b x) | _ => None end) [] t.
(** The calls of the proposal function which returned: arguments, and the sample and ratio returned. *)
Definition proposals (t : trace X D) : list (X * list X * (X * D)) :=
  collect (fun b e => match e with EPropose x rj => option_map (pair (x, rj)) (e_prop E b x rj) | _ => None end) [] t.
(** The calls of the crossover function which returned: arguments and the sample returned. *)
Definition crossovers (t : trace X D) : list (X * X * X * X) :=
  collect (fun b e => match e with ECross x p q => option_map (pair (x, p, q)) (e_cross E b x p q) | _ => None end) [] t.
(** The random numbers drawn from [0,1). *)
Definition draws (t : trace X D) : list D :=
  collect (fun b e => match e with EUnif => Some (e_unif E b) | _ => None end) [] t.
(** The number of calls of flush_consumers(). *)
Definition flushes (t : trace X D) : nat :=
  length (collect (fun _ e => match e with EFlush => Some tt | _ => None end) [] t).

(** The auxiliary data of a sample: its log likelihood, and whether it repeats the previous one. *)
Definition mh_aux (l : D) (repeated : bool) : paux D :=
  [("relative log likelihood", PDouble l); ("sample is repeated", PBool repeated)].

(** [out] is a chain which starts at [cur] (sample, log likelihood): each element is either the proposal made from
    its predecessor, or a repetition of the predecessor, and is labelled accordingly. [pr] and [ev] are the
    proposals made (from, sample) and the log likelihoods evaluated, in order; there may be unused ones at the end
    (the run may have been ended by an exception). *)
Fixpoint is_chain (cur : X * D) (pr : list (X * X)) (ev : list (X * D)) (out : list (X * paux D)) {struct out} : Prop :=
  match out with
  | [] => True
  | (z, a) :: out' =>
    match pr, ev with
    | (from, y) :: pr', (y', ly) :: ev' =>
      from = fst cur /\ y' = y /\
      (exists repeated : bool,
        z = (if repeated then fst cur else y) /\
        a = mh_aux (if repeated then snd cur else ly) repeated /\
        is_chain (if repeated then cur else (y, ly)) pr' ev' out')
    | _, _ => False
    end
  end.
End Spec.

(** Delayed rejection: one element of the chain uses a group of proposals made from the current sample. The i-th is
    made with knowledge of the i-1 before it; the last one is accepted, or all [max_delays + 1] of them are
    rejected. *)
Section DR.
Context {X D : Type}.
Definition group_ok (from : X) (pr : list (X * list X * X)) (ev : list (X * D)) : Prop :=
  map snd pr = map fst ev /\
  forall i p, nth_error pr i = Some p -> fst (fst p) = from /\ snd (fst p) = map snd (firstn i pr).
Fixpoint is_dr_chain (max_delays : nat) (cur : X * D) (pr : list (X * list X * X)) (ev : list (X * D))
    (out : list (X * paux D)) {struct out} : Prop :=
  match out with
  | [] => True
  | (z, a) :: out' =>
    exists prg pr' evg ev', pr = prg ++ pr' /\ ev = evg ++ ev' /\
      group_ok (fst cur) prg evg /\ 1 <= length prg <= max_delays + 1 /\
      exists (repeated : bool) new,
        z = fst new /\ a = mh_aux (snd new) repeated /\
        (if repeated then new = cur /\ length prg = max_delays + 1
         else nth_error evg (length evg - 1) = Some new) /\
        is_dr_chain max_delays new pr' ev' out'
  end.
End DR.

(** Differential evaluation: several chains which take turns. *)
Section DE.
Context {X D : Type}.
Definition de_aux (l : D) (repeated : bool) (chain : nat) : paux D :=
  [("relative log likelihood", PDouble l); ("sample is repeated", PBool repeated); ("chain number", PUInt chain)].

(** Crossover is due in generation [g]: not in the first one, and every [gap] generations (always if gap = 0). *)
Definition crossover_due (gap g : nat) : Prop := 0 < g /\ (gap = 0 \/ exists m, g = gap * m).

(** [inits]: starting points and their log likelihoods; [n] chains. The k-th issued sample belongs to chain [k mod n].
    With [states] the list of all states issued so far, [inits ++ states] contains at position [k] the state of that
    chain before the k-th sample and at position [n + k] the one after it. [pr]: proposals (from, (sample, ratio));
    [ev]: log likelihoods evaluated; [dw]: random numbers drawn; [cr]: crossovers computed (arguments and result).
    [accepts new_ll old_ll ratio u] is the acceptance test.
    The documentation says that the two partners come from "other chains", i.e., that c1, c2 and the chain are different:
    the code does not ensure that, see C31. *)
Definition de_elem_ok (accepts : D -> D -> D -> D -> bool) (gap n : nat) (pr : list (X * (X * D))) (ev : list (X * D))
    (dw : list D) (cr : list (X * X * X * X)) (hist : list (X * D)) (k : nat) (z : X) (a : paux D) : Prop :=
  exists from y q ly u prev new,
    nth_error pr k = Some (from, (y, q)) /\ nth_error ev k = Some (y, ly) /\ nth_error dw k = Some u /\
    nth_error hist k = Some prev /\ nth_error hist (n + k) = Some new /\
    new = (if accepts ly (snd prev) q u then (y, ly) else prev) /\
    z = fst new /\ a = de_aux (snd new) (negb (accepts ly (snd prev) q u)) (k mod n) /\
    (~ crossover_due gap (k / n) -> from = fst prev) /\
    (crossover_due gap (k / n) ->
       exists c1 c2 s1 s2, c1 < n /\ c2 < n /\ c1 <> k mod n /\ c2 <> Nat.min c1 (k mod n) /\
         nth_error hist (k / n * n + c1) = Some s1 /\ nth_error hist (k / n * n + c2) = Some s2 /\
         In (fst prev, fst s1, fst s2, from) cr).
Definition is_de_run (accepts : D -> D -> D -> D -> bool) (gap : nat) (inits : list (X * D)) (pr : list (X * (X * D)))
    (ev : list (X * D)) (dw : list D) (cr : list (X * X * X * X)) (out : list (X * paux D)) : Prop :=
  exists states : list (X * D), length states = length out /\
  forall k z a, nth_error out k = Some (z, a) ->
    de_elem_ok accepts gap (length inits) pr ev dw cr (inits ++ states) k z a.
End DE.
