(** Property theorems about exceptions in what a sampler calls (C76). ProducerModel: an environment [E] answers all calls, or they throw; ExcSpec: [throws], [fewer_exceptions]. *)
From Verif Require Import Prelude ProducerModel ProducerSpec ExcSpec ExcProofs ExcDE ExcCount ExcTop.
Import ListNotations.
Local Open Scope nat_scope.
Local Open Scope list_scope.

(** C76: an exception cuts a run short and changes nothing before it. Compare a run with the run in which some of the calls that throw return normally: it is the same run, or everything up to and including
    some call [e] which throws is the same, after that the consumers are flushed and nothing else happens, and the exception arrives at the caller of sample() (unless flushing throws, too). *)
Theorem C76_metropolis_hastings :
  forall (X D : Type) (O : dops D) (E' E : env X D), fewer_exceptions E' E -> forall x0 n t r t' r',
  mh_sample O E x0 n [] = (t, r) -> mh_sample O E' x0 n [] = (t', r') ->
  (t = t' /\ r = r') \/
  exists d e, t = d ++ [e; EFlush] /\ throws E d e = true /\ starts_with t' (d ++ [e]) /\ r = (if e_flush E (d ++ [e]) then RTerm else RExc).
Proof. exact (fun X D O E' E H => mh_cut E' E H O). Qed.
Print Assumptions C76_metropolis_hastings.
Theorem C76_delayed_rejection :
  forall (X D : Type) (O : dops D) (E' E : env X D), fewer_exceptions E' E -> forall strict x0 max_delays n t r t' r',
  dr_sample O E strict x0 max_delays n [] = (t, r) -> dr_sample O E' strict x0 max_delays n [] = (t', r') ->
  (t = t' /\ r = r') \/
  exists d e, t = d ++ [e; EFlush] /\ throws E d e = true /\ starts_with t' (d ++ [e]) /\ r = (if e_flush E (d ++ [e]) then RTerm else RExc).
Proof. exact (fun X D O E' E H => dr_cut E' E H O). Qed.
Print Assumptions C76_delayed_rejection.
Theorem C76_range :
  forall (X D : Type) (E' E : env X D), fewer_exceptions E' E -> forall xs t r t' r',
  range_sample E xs [] = (t, r) -> range_sample E' xs [] = (t', r') ->
  (t = t' /\ r = r') \/
  exists d e, t = d ++ [e; EFlush] /\ throws E d e = true /\ starts_with t' (d ++ [e]) /\ r = (if e_flush E (d ++ [e]) then RTerm else RExc).
Proof. exact (fun X D E' E H => range_cut E' E H). Qed.
Print Assumptions C76_range.
(** C76: in DifferentialEvaluationMetropolisHastings other calls may follow the one which throws, but they are those of the run without exceptions. *)
Theorem C76_differential_evaluation :
  forall (X D : Type) (O : dops D) (E' E : env X D), fewer_exceptions E' E -> forall b fuel starting_points gap n t r t' r',
  de_sample O E b fuel starting_points gap n [] = (t, r) -> de_sample O E' b fuel starting_points gap n [] = (t', r') ->
  (t = t' /\ r = r') \/
  exists d, t = d ++ [EFlush] /\ (exists before e after, d = before ++ e :: after /\ throws E before e = true) /\ starts_with t' d /\ r = (if e_flush E d then RTerm else RExc).
Proof. exact (fun X D O E' E H => de_cut E' E H O). Qed.
Print Assumptions C76_differential_evaluation.
(** C76: if only the log likelihood throws, then the samples issued are those whose trial samples were evaluated before the first evaluation that throws; the samples of this generation which come before it are
    not lost. (Evaluations of the starting points are not trials; natural subtraction gives 0.) *)
Theorem C76_differential_evaluation_issues_what_was_evaluated :
  forall (X D : Type) (E : env X D) (O : dops D),
  (forall t x rejected, e_prop E t x rejected <> None) -> (forall t x a b, e_cross E t x a b <> None) -> (forall t x a, e_issue E t x a = false) -> (forall t, e_flush E t = false) ->
  forall b fuel starting_points gap n t, de_sample O E b fuel starting_points gap n [] = (t, RExc) ->
  exists before x after, t = before ++ EEval x :: after /\ e_ll E before x = None /\ no_evaluation_throws E before /\
    List.length (issued t) = number_of_evaluations before - List.length starting_points.
Proof. exact (fun X D E O H1 H2 H3 H4 => de_count E O H1 H2 H3 H4). Qed.
Print Assumptions C76_differential_evaluation_issues_what_was_evaluated.
(** C76: hence what consumers have received when sample() has thrown are the first samples of the run that would not have thrown. *)
Theorem C76_samples_are_a_prefix :
  forall (X D : Type) (E' E : env X D), fewer_exceptions E' E -> forall (O : dops D),
  (forall xs, exists rest, issued (fst (range_sample E' xs [])) = issued (fst (range_sample E xs [])) ++ rest) /\
  (forall x0 n, exists rest, issued (fst (mh_sample O E' x0 n [])) = issued (fst (mh_sample O E x0 n [])) ++ rest) /\
  (forall strict x0 max_delays n, exists rest, issued (fst (dr_sample O E' strict x0 max_delays n [])) = issued (fst (dr_sample O E strict x0 max_delays n [])) ++ rest) /\
  (forall b fuel starting_points gap n, exists rest, issued (fst (de_sample O E' b fuel starting_points gap n [])) = issued (fst (de_sample O E b fuel starting_points gap n [])) ++ rest).
Proof. exact @samples_are_a_prefix. Qed.
Print Assumptions C76_samples_are_a_prefix.

(** Example: the log likelihood throws for samples of 13 and more. Four chains in which proposals add one: the second generation's chain 1 throws; the sample of its chain 0 still arrives, and the evaluations of the
    other chains have been made. *)
Definition all_accepted : dops nat := {|
  d_one := 1; d_nmax := 0; d_ninf := 0; d_sub := fun _ _ => 0; d_mul := fun _ _ => 0; d_div := fun _ _ => 0;
  d_exp := fun x => x; d_log := fun x => x; d_gt := fun _ _ => true; d_ge := fun _ _ => true; d_eq := Nat.eqb |}.
Definition limited (limit : nat) : env nat nat := {|
  e_ll := fun _ x => if x <? limit then Some 1 else None; e_prop := fun _ x _ => Some (S x, 1); e_cross := fun _ x _ _ => Some x;
  e_unif := fun _ => 0; e_uint := fun _ hi => N.min 1 hi; e_issue := fun _ _ _ => false; e_flush := fun _ => false |}.
Example C76_example_de :
  fewer_exceptions (limited 1000) (limited 13) /\
  let (t, r) := de_sample all_accepted (limited 13) Debug 100 [1; 11; 2; 3] 5 12 [] in
  let (t', r') := de_sample all_accepted (limited 1000) Debug 100 [1; 11; 2; 3] 5 12 [] in
  map fst (issued t) = [2; 12; 3; 4; 3] /\ map fst (issued t') = [2; 12; 3; 4; 3; 13; 4; 5; 4; 14; 5; 6] /\ r = RExc /\ r' = RVal tt /\
  number_of_evaluations t = 12 /\ number_of_evaluations t' = 16.
Proof.
  split.
  - constructor; try (simpl; intros; reflexivity); simpl; intros t x; destruct (Nat.ltb_spec x 13) as [H|H]; destruct (Nat.ltb_spec x 1000) as [H2|H2]; intros H3; try reflexivity; try (exfalso; lia); now destruct H3.
  - vm_compute. repeat split; reflexivity.
Qed.
Example C76_example_mh :
  let (t, r) := mh_sample all_accepted (limited 8) 5 6 [] in
  let (t', r') := mh_sample all_accepted (limited 1000) 5 6 [] in
  map fst (issued t) = [6; 7] /\ map fst (issued t') = [6; 7; 8; 9; 10; 11] /\ r = RExc /\ r' = RVal tt.
Proof. vm_compute. repeat split; reflexivity. Qed.
