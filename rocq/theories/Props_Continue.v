(** C67: a run can be continued. *)
From Coq Require Import Reals.
From Verif Require Import Prelude ProducerModel ProducerSpec XReal ContSpec ContProofs ContExample.
Import ListNotations.
Local Open Scope list_scope.
Local Notation length := List.length.

(** Many short calls of sample(), each starting at the last sample, issue the same samples with the same auxiliary data as one long call: in any
    arithmetic, and also if an exception ends the run. *)
Theorem C67_mh : forall {X D} (O : dops D) (E : env X D) (ll : X -> D), steady E ll -> forall x ns,
  issued (fst (sessions (mh_sample O E) x ns [])) = issued (fst (mh_sample O E x (list_sum ns) [])) /\
  snd (sessions (mh_sample O E) x ns []) = snd (mh_sample O E x (list_sum ns) []).
Proof. exact @mh_sessions. Qed.
Print Assumptions C67_mh.
Theorem C67_dr : forall {X D} (O : dops D) (E : env X D) (ll : X -> D), steady E ll -> forall strict max_delays x ns,
  issued (fst (sessions (fun x n => dr_sample O E strict x max_delays n) x ns [])) = issued (fst (dr_sample O E strict x max_delays (list_sum ns) [])) /\
  snd (sessions (fun x n => dr_sample O E strict x max_delays n) x ns []) = snd (dr_sample O E strict x max_delays (list_sum ns) []).
Proof. exact @dr_sessions. Qed.
Print Assumptions C67_dr.
(* an environment where the likelihood prefers odd numbers, proposals depend on how often something was proposed, and the sixth proposal throws *)
Definition is_proposal (e : event nat nat) : bool := match e with EPropose _ _ => true | _ => false end.
Definition proposed (t : trace nat nat) : nat := length (filter is_proposal t).
Definition ex_ops : dops nat := {|
  d_one := 1; d_nmax := 100; d_ninf := 101; d_sub := fun a b => a + 5 - b; d_mul := Nat.mul; d_div := Nat.div;
  d_exp := fun x => x - 4; d_log := fun x => 5; d_gt := fun a b => b <? a; d_ge := fun a b => b <=? a; d_eq := Nat.eqb |}.
Definition ex_env : env nat nat := {|
  e_ll := fun _ x => Some (if Nat.odd x then 3 else 2); e_prop := fun t x _ => if proposed t =? 5 then None else Some (x + 1 + proposed t, 1); e_cross := fun _ x _ _ => Some x;
  e_unif := fun _ => 1; e_uint := fun _ _ => 0%N; e_issue := fun _ _ _ => false; e_flush := fun _ => false |}.
Lemma proposed_same : forall t t', without_evaluations t = without_evaluations t' -> proposed t = proposed t'.
Proof.
  assert (G : forall t, proposed (without_evaluations t) = proposed t). { unfold proposed, without_evaluations. induction t as [|e t IH]; [reflexivity|]. destruct e; cbn; try exact IH; now f_equal. }
  intros t t' H. rewrite <- (G t), <- (G t'). now rewrite H.
Qed.
Example C67_example : steady ex_env (fun x => if Nat.odd x then 3 else 2) /\
  map fst (issued (fst (sessions (mh_sample ex_ops ex_env) 0 [1; 0; 2; 4] []))) = [1; 3; 3; 7; 7] /\
  snd (sessions (mh_sample ex_ops ex_env) 0 [1; 0; 2; 4] []) = RExc /\
  map fst (issued (fst (mh_sample ex_ops ex_env 0 7 []))) = [1; 3; 3; 7; 7] /\
  map fst (issued (fst (sessions (fun x n => dr_sample ex_ops ex_env false x 1 n) 0 [1; 0; 1] []))) = map fst (issued (fst (dr_sample ex_ops ex_env false 0 1 2 []))).
Proof.
  split; [|repeat split; vm_compute; reflexivity]. constructor; try reflexivity. intros t t' x r H. cbn. now rewrite (proposed_same t t' H).
Qed.

(** This is false if the likelihood is computed with noise: the first thing sample() does is to evaluate it again at the starting point. *)
Theorem C67_noisy_likelihood_refuted : exists E : env nat xr,
  (forall t t' x r, e_prop E t x r = e_prop E t' x r) /\ (forall t t', e_unif E t = e_unif E t') /\
  map fst (issued (fst (mh_sample xops E 0 2 []))) = [0; 1] /\ map fst (issued (fst (sessions (mh_sample xops E) 0 [1; 1] []))) = [0; 0].
Proof. exact (ex_intro _ noisy (conj (fun _ _ _ _ => eq_refl) (conj (fun _ _ => eq_refl) (conj noisy_once noisy_twice)))). Qed.
Print Assumptions C67_noisy_likelihood_refuted.
(** It is false if every call is made with a new object: its random numbers are the same again. Here one object moves in every step but the first, but new
    objects never move. *)
Theorem C67_new_objects_refuted : exists E : env nat xr, steady E (fun _ => XFin 0) /\
  (forall n, map fst (issued (fst (mh_sample xops E 0 (S n) []))) = seq 0 (S n)) /\ (forall k, new_objects (mh_sample xops E) 0 (repeat 1 k) = repeat 0 k).
Proof. exact (ex_intro _ half (conj half_steady (conj half_once half_stuck))). Qed.
Print Assumptions C67_new_objects_refuted.
(** It is false for DifferentialEvaluationMetropolisHastings: calls for one generation each never do crossover, whatever crossover_gap is. *)
Theorem C67_de_short_calls_never_cross : forall {X D} (O : dops D) (E : env X D) b fuel starting_points gap n_samples,
  (N.of_nat (length starting_points) < two64)%N -> (n_samples <= N.of_nat (length starting_points))%N ->
  forall x p q, ~ In (ECross x p q) (fst (de_sample O E b fuel starting_points gap n_samples [])).
Proof. exact @de_never_cross. Qed.
Print Assumptions C67_de_short_calls_never_cross.
Example C67_example_de : existsb crosses (fst (de_sample ex_ops ex_env Debug 5 [1; 2; 3] 1 3 [])) = false /\ issued (fst (de_sample ex_ops ex_env Debug 5 [1; 2; 3] 1 3 [])) <> [] /\
  existsb crosses (fst (de_sample ex_ops ex_env Debug 5 [1; 2; 3] 1 6 [])) = true.
Proof. vm_compute. repeat split; discriminate. Qed.
