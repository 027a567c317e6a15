(** Property theorems about asynchronous evaluation of the log likelihood in DifferentialEvaluationMetropolisHastings (C32). The model is DEConcModel: [crun] executes sample() (the
    main thread) and its tasks under a schedule, a list that says who moves next and, for calls of std::async, whether the task is started or deferred. [de_sample] (ProducerModel) is
    sample() with asynchronous_likelihood_execution = false. DEConcSpec defines [visible], [evals], [pure_likelihood] and [data_race]. *)
From Coq Require Import Permutation String.
From Verif Require Import Prelude ProducerModel ProducerSpec DETop DEConcModel DEConcSpec DEConcProofs DEConcDisc DEConcSim DEConcTop.
Local Open Scope string_scope.
Local Open Scope list_scope.
Local Open Scope nat_scope.
Local Notation length := List.length.

(** The examples: four chains, seven samples; the log likelihood throws for samples > [bad]. *)
Definition cx_env (bad : nat) : env nat nat := {|
  e_ll := fun _ x => if x <=? bad then Some (x mod 10) else None; e_prop := fun _ x _ => Some (x + 1, 1); e_cross := fun _ x a b => Some (x + a - b);
  e_unif := fun t => length (visible t) mod 3; e_uint := fun t hi => N.min 1 hi; e_issue := fun _ _ _ => false; e_flush := fun _ => false |}.
Definition cx_ops : dops nat := {| d_one := 1; d_nmax := 0; d_ninf := 0; d_sub := Nat.sub; d_mul := Nat.mul; d_div := Nat.div; d_exp := fun x => x; d_log := fun x => x;
  d_gt := fun a b => b <? a; d_ge := fun a b => b <=? a; d_eq := Nat.eqb |}.
(** The last task that can move does; some tasks are deferred. *)
Definition cx_round : list (option nat * bool) := [(Some 3, true); (Some 2, true); (Some 1, true); (Some 0, true); (None, true)].
Definition cx_sched (n : nat) : list (option nat * bool) := List.concat (List.repeat (List.repeat (None, true) 9 ++ [(None, false)] ++ cx_round ++ cx_round) n).
Lemma cx_pure bad : pure_likelihood (cx_env bad) (fun x => if x <=? bad then Some (x mod 10) else None).
Proof. split; [reflexivity|]. intros t t' H. cbn. rewrite H. auto 10. Qed.

(** C32: whatever the schedule, when sample() has ended: it ended in the way sequential evaluation does (returned, or threw, ...), and the samples issued with their auxiliary data, flushes,
    proposals, crossovers and random numbers are the same in the same order. The log likelihood was evaluated for the same samples, in another order perhaps; only if sample() throws
    and std::async had deferred tasks, some of these evaluations never happen. *)
Theorem C32_schedule_independent :
  forall (X D : Type) (O : dops D) (E : env X D) (ll : X -> option D) (b : build) (fuel : nat) (starting_points : list X) (crossover_gap n_samples : N) (sched : list (option nat * bool)) (r : res unit),
  pure_likelihood E ll ->
  let s := crun O E sched (cinit b fuel starting_points crossover_gap n_samples) in
  let '(t', r') := de_sample O E b fuel starting_points crossover_gap n_samples [] in
  c_main s = PRet r ->
  r = r' /\ visible (c_trace s) = visible t' /\
  exists lost, Permutation (evals t') (evals (c_trace s) ++ lost) /\ (r = RVal tt -> lost = []) /\ (forallb snd sched = true -> r = RExc -> lost = []).
Proof. exact @schedule_independent. Qed.
Print Assumptions C32_schedule_independent.
(** Here the order of evaluations really differs, and samples are rejected and accepted. *)
Example C32_example :
  let s := crun cx_ops (cx_env 1000) (cx_sched 12) (cinit Debug 100 [10; 24; 32; 47] 1 7) in
  let '(t', r') := de_sample cx_ops (cx_env 1000) Debug 100 [10; 24; 32; 47] 1 7 [] in
  (match c_main s with PRet (RVal tt) => true | _ => false end, r') = (true, RVal tt) /\
  evals t' = [10; 24; 32; 47; 11; 25; 33; 48; 12; 26; 26] /\ evals (c_trace s) = [10; 24; 32; 47; 11; 48; 33; 25; 26; 26; 12] /\
  map fst (issued (c_trace s)) = [11; 25; 32; 48; 12; 26; 26] /\ issued t' = issued (c_trace s).
Proof. vm_compute. repeat split; reflexivity. Qed.
(** An exception: with deferred tasks, an evaluation is lost. *)
Example C32_example_throw :
  let s := crun cx_ops (cx_env 30) (List.repeat (None, false) 30 ++ List.repeat (Some 0, true) 9 ++ List.repeat (None, true) 9) (cinit Debug 100 [30; 24; 12; 27] 1 7) in
  let '(t', r') := de_sample cx_ops (cx_env 30) Debug 100 [30; 24; 12; 27] 1 7 [] in
  (match c_main s with PRet RExc => true | _ => false end, r') = (true, RExc) /\
  evals t' = [30; 24; 12; 27; 31; 25; 13; 28] /\ evals (c_trace s) = [30; 24; 12; 27; 31] /\ visible (c_trace s) = visible t'.
Proof. vm_compute. repeat split; reflexivity. Qed.

(** C32: the tasks and the main thread never race for an element of the shared vectors, whatever the log likelihood and the other callbacks do. *)
Theorem C32_no_data_race :
  forall (X D : Type) (O : dops D) (E : env X D) (b : build) (fuel : nat) (starting_points : list X) (crossover_gap n_samples : N) (sched : list (option nat * bool)),
  ~ data_race (crun O E sched (cinit b fuel starting_points crossover_gap n_samples)).
Proof. intros. exact (sinv_no_race (length starting_points) _ (sinv_run O E _ sched _ (sinv_init _ b fuel starting_points crossover_gap n_samples eq_refl))). Qed.
Print Assumptions C32_no_data_race.
(** C32: when sample() has returned or thrown, none of its tasks exists any more (they hold references to its local variables). *)
Theorem C32_no_task_left :
  forall (X D : Type) (O : dops D) (E : env X D) (b : build) (fuel : nat) (starting_points : list X) (crossover_gap n_samples : N) (sched : list (option nat * bool)) (r : res unit),
  let s := crun O E sched (cinit b fuel starting_points crossover_gap n_samples) in
  c_main s = PRet r -> r = RVal tt \/ r = RExc -> c_tasks s = [].
Proof. intros X D O E b fuel sps gap ns sched r s. exact (sinv_no_task (length sps) _ r (sinv_run O E _ sched _ (sinv_init _ b fuel sps gap ns eq_refl))). Qed.
Print Assumptions C32_no_task_left.
(** In the middle of the execution there are several tasks in different phases, two of which access memory next. *)
Example C32_example_middle :
  let s := crun cx_ops (cx_env 1000) (List.repeat (None, true) 25 ++ [(Some 3, true); (Some 1, true); (Some 3, true); (Some 3, true); (Some 1, true)]) (cinit Debug 100 [10; 24; 32; 47] 1 7) in
  map (fun k => (tk_chain k, task_access k)) (c_tasks s) = [(0, []); (1, [(Next, Some 1, true)]); (2, []); (3, [(LogLikelihoods, Some 3, true)])].
Proof. vm_compute. reflexivity. Qed.
(** C32: sample() cannot get stuck: as long as it has not ended, the main thread or some task can make a step... *)
Theorem C32_progress :
  forall (X D : Type) (O : dops D) (E : env X D) (b : build) (fuel : nat) (starting_points : list X) (crossover_gap n_samples : N) (sched : list (option nat * bool)) (im : bool),
  let s := crun O E sched (cinit b fuel starting_points crossover_gap n_samples) in
  (exists r, c_main s = PRet r) \/ exists who s', cstep O E im who s = Some s'.
Proof. intros X D O E b fuel sps gap ns sched im s. exact (sinv_progress O E (length sps) im _ (sinv_run O E _ sched _ (sinv_init _ b fuel sps gap ns eq_refl))). Qed.
Print Assumptions C32_progress.
(** C32: ... and there is no infinite execution. *)
Theorem C32_terminates :
  forall (X D : Type) (O : dops D) (E : env X D), well_founded (fun s' s : @cstate X D => exists im who, cstep O E im who s = Some s').
Proof. exact @all_terminate. Qed.
Print Assumptions C32_terminates.
