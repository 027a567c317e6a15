(** Specification for asynchronous evaluation in DifferentialEvaluationMetropolisHastings. *)
From Verif Require Import Prelude ProducerModel DEConcModel.
Local Open Scope nat_scope.

Section S.
Context {X D : Type}.
Definition is_eval (e : event X D) : bool := match e with EEval _ => true | _ => false end.
(** Everything but the calls of log_likelihood: the samples issued and flushes, proposals, crossovers, random numbers, in their order. *)
Definition visible (t : trace X D) : trace X D := filter (fun e => negb (is_eval e)) t.
(** The arguments of the calls of log_likelihood. *)
Definition evals (t : trace X D) : list X := flat_map (fun e => match e with EEval x => [x] | _ => [] end) t.
(** The log likelihood is a function of the sample (it may throw for some samples), and nothing else in the environment depends on when it was called. *)
Definition pure_likelihood (E : env X D) (ll : X -> option D) : Prop :=
  (forall t x, e_ll E t x = ll x) /\
  forall t t', visible t = visible t' ->
    (forall x rj, e_prop E t x rj = e_prop E t' x rj) /\ (forall x a b, e_cross E t x a b = e_cross E t' x a b) /\ e_unif E t = e_unif E t' /\ (forall hi, e_uint E t hi = e_uint E t' hi) /\
    (forall x a, e_issue E t x a = e_issue E t' x a) /\ e_flush E t = e_flush E t'.

(** Accesses to the shared vectors: which one, which element ([None]: all), write? *)
Inductive vector := Current | Next | LogLikelihoods.
Definition access := (vector * option nat * bool)%type.
(** What the next step of the main thread accesses. *)
Definition main_access (p : prog X D unit) : list access :=
  match p with
  | PCur i _ => [(Current, Some (N.to_nat i), false)]
  | PNext i _ => [(Next, Some i, false)]
  | PLL i _ => [(LogLikelihoods, Some i, false)]
  | PCopy _ => [(Current, None, true); (Next, None, false)]
  | PStart _ _ => [(LogLikelihoods, None, true)]
  | _ => []
  end.
(** ... and that of a task. *)
Definition task_access (k : task X D) : list access :=
  match tk_ph k with
  | TCalled (Some _) => [(LogLikelihoods, Some (tk_chain k), false); (Current, Some (tk_chain k), false)]
  | TWriteNext _ _ _ => [(Next, Some (tk_chain k), true)]
  | TWriteLL _ (Some _) => [(LogLikelihoods, Some (tk_chain k), true)]
  | _ => []
  end.
Definition vector_eqb (a b : vector) : bool := match a, b with Current, Current | Next, Next | LogLikelihoods, LogLikelihoods => true | _, _ => false end.
Definition conflict (a b : access) : bool :=
  let '(v, i, w) := a in let '(v', i', w') := b in
  vector_eqb v v' && (match i, i' with Some j, Some j' => j =? j' | _, _ => true end) && (w || w').
(** Two steps that could be made next access the same element, and one of them writes. *)
Definition data_race (s : @cstate X D) : Prop :=
  (exists k a b, In k (c_tasks s) /\ In a (main_access (c_main s)) /\ In b (task_access k) /\ conflict a b = true) \/
  (exists i j k k' a b, i <> j /\ nth_error (c_tasks s) i = Some k /\ nth_error (c_tasks s) j = Some k' /\ In a (task_access k) /\ In b (task_access k') /\ conflict a b = true).
End S.
