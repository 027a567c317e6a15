(** Property theorems about the producers (C06, C25-C31, C42, C45, C46, C47). The model is in ProducerModel (an environment
    [E] provides the answers of all callbacks, the random numbers, and decides which calls throw); ProducerSpec
    defines what is read off a trace of events and what a chain is; XReal is the arithmetic; MHSpec is the textbook. *)
From Coq Require Import String Reals Lra.
From Coquelicot Require Import Coquelicot.
From Verif Require Import Prelude ProducerModel ProducerSpec ProducerProofs XReal MHSpec MHProofs DRProofs DRReal DRRun DRAlpha MHTop DEProofs DETop NoThrow.
Import ListNotations.
Local Open Scope string_scope.
Local Open Scope nat_scope.
Local Open Scope list_scope.
Local Notation length := List.length.

(** A small environment for the examples: proposals are x+1 with ratio 1, the log likelihood is l, random numbers are u. *)
Definition ex_env (l u : nat) : env nat nat := {|
  e_ll := fun _ _ => Some l; e_prop := fun b x rj => Some (S x, 1); e_cross := fun _ x _ _ => Some x;
  e_unif := fun b => u; e_uint := fun _ hi => N.min 1 hi; e_issue := fun _ _ _ => false; e_flush := fun _ => false |}.

(** C42: Range issues exactly the elements of the range, in order, with empty auxiliary data, then flushes once. *)
Theorem C42_range :
  forall (X D : Type) (E : env X D) (xs : list X) t r,
  range_sample E (map Some xs) [] = (t, r) ->
  (r = RVal tt -> t = map (fun x => EIssue x []) xs ++ [EFlush]) /\
  ((forall b x a, e_issue E b x a = false) -> (forall b, e_flush E b = false) -> r = RVal tt).
Proof. exact @range_ok. Qed.
Print Assumptions C42_range.
Example C42_example : range_sample (ex_env 0 0) (map Some [7; 8]) [] = ([EIssue 7 []; EIssue 8 []; EFlush], RVal tt).
Proof. reflexivity. Qed.

(** C06: Range flushes its consumers exactly once, at the very end, whatever happens: also if the range or a consumer
    throws. (If the flush itself throws, the program is terminated.) *)
Theorem C06_range_flushes :
  forall (X D : Type) (E : env X D) (range : list (option X)) t r,
  range_sample E range [] = (t, r) ->
  exists xs, t = map (fun x => EIssue x []) xs ++ [EFlush] /\
   (exists rest, range = map Some xs ++ rest) /\
   (r = RVal tt \/ r = RExc \/ (r = RTerm /\ e_flush E (map (fun x => EIssue x []) xs) = true)).
Proof. exact @range_flush. Qed.
Print Assumptions C06_range_flushes.
(** C06: MetropolisHastings flushes last thing, always; twice if the sampling loop ended normally. *)
Theorem C06_mh_flushes :
  forall (X D : Type) (O : dops D) (E : env X D) x0 n t r,
  mh_sample O E x0 n [] = (t, r) ->
  (r = RVal tt \/ r = RExc \/ r = RTerm) /\
  (exists t', t = t' ++ [EFlush]) /\
  (r = RVal tt -> exists d, t = d ++ [EFlush; EFlush] /\ flushes d = 0) /\
  (r = RExc -> exists d, (t = d ++ [EFlush] \/ (t = d ++ [EFlush; EFlush] /\ e_flush E d = true)) /\ flushes d = 0) /\
  (r = RTerm -> exists t', t = t' ++ [EFlush] /\ e_flush E t' = true).
Proof. exact @mh_flush. Qed.
Print Assumptions C06_mh_flushes.
(** C06: the same for DelayedRejectionMetropolisHastings, unless it runs into undefined behaviour (see C28). *)
Theorem C06_dr_flushes :
  forall (X D : Type) (O : dops D) (E : env X D) strict x0 m n t r,
  dr_sample O E strict x0 m n [] = (t, r) ->
  (r = RVal tt \/ r = RExc \/ r = RTerm \/ r = RUB) /\
  (r <> RUB -> exists t', t = t' ++ [EFlush]) /\
  (r = RVal tt -> exists d, t = d ++ [EFlush; EFlush] /\ flushes d = 0) /\
  (r = RExc -> exists d, (t = d ++ [EFlush] \/ (t = d ++ [EFlush; EFlush] /\ e_flush E d = true)) /\ flushes d = 0) /\
  (r = RTerm -> exists t', t = t' ++ [EFlush] /\ e_flush E t' = true).
Proof. exact @dr_flush. Qed.
Print Assumptions C06_dr_flushes.
(** C06: DifferentialEvaluationMetropolisHastings flushes exactly once, last. *)
Theorem C06_de_flushes :
  forall (X D : Type) (O : dops D) (E : env X D) (bd : build) fuel (xs : list X) gap N0 t r,
  (forall b hi, (e_uint E b hi <= hi)%N) ->
  3 <= length xs -> (N.of_nat (N0 + length xs) < two64)%N -> N0 < fuel ->
  de_sample O E bd fuel xs (N.of_nat gap) (N.of_nat N0) [] = (t, r) ->
  exists d, t = d ++ [EFlush] /\ flushes d = 0 /\
   (r = RVal tt \/ r = RExc \/ (r = RTerm /\ e_flush E d = true)).
Proof. exact @de_flush. Qed.
Print Assumptions C06_de_flushes.
Example C06_mh_example : flushes (fst (mh_sample yes_ops (ex_env 0 0) 5 3 [])) = 2 /\
  flushes (fst (dr_sample yes_ops (ex_env 0 0) true 5 1 3 [])) = 2 /\
  flushes (fst (de_sample yes_ops (ex_env 0 0) Debug 100 [5; 6; 7] 1 8 [])) = 1.
Proof. repeat split; vm_compute; reflexivity. Qed.
(** C06: an example with an exception: the log likelihood throws at the second evaluation *)
Example C06_mh_throw_example :
  let E := {| e_ll := fun b _ => match b with [] => Some 0 | _ => None end; e_prop := fun b x rj => Some (S x, 1);
              e_cross := fun _ x _ _ => Some x; e_unif := fun b => 0; e_uint := fun _ hi => N.min 1 hi;
              e_issue := fun _ _ _ => false; e_flush := fun _ => false |} in
  mh_sample yes_ops E 5 3 [] = ([EEval 5; EPropose 5 []; EEval 6; EFlush], RExc).
Proof. reflexivity. Qed.

(** C25: exactly n samples, which form a chain with matching auxiliary data; one evaluation per proposal plus one. *)
Theorem C25_mh_chain :
  forall (X D : Type) (O : dops D) (E : env X D) x0 n t r,
  mh_sample O E x0 n [] = (t, r) ->
  (length (issued t) <= n) /\
  (r = RVal tt -> length (issued t) = n /\ length (proposals E t) = n /\ length (evaluations E t) = n + 1) /\
  (forall p, In p (proposals E t) -> snd (fst p) = []) /\
  (issued t = [] \/
   exists l0 ev, e_ll E [] x0 = Some l0 /\ evaluations E t = (x0, l0) :: ev /\
   is_chain (x0, l0) (map (fun p => (fst (fst p), fst (snd p))) (proposals E t)) ev (issued t)).
Proof. exact @mh_chain_thm. Qed.
Print Assumptions C25_mh_chain.
(** C25: if nothing that is called throws, sample() returns normally. *)
Theorem C25_mh_returns :
  forall (X D : Type) (O : dops D) (E : env X D),
  (forall b x, e_ll E b x <> None) -> (forall b x rj, e_prop E b x rj <> None) ->
  (forall b x a, e_issue E b x a = false) -> (forall b, e_flush E b = false) ->
  forall x0 n t r, mh_sample O E x0 n [] = (t, r) -> r = RVal tt.
Proof. exact @mh_no_throw. Qed.
Print Assumptions C25_mh_returns.
Example C25_example : map fst (issued (fst (mh_sample yes_ops (ex_env 0 0) 5 3 []))) = [6; 7; 8].
Proof. reflexivity. Qed.

Local Open Scope R_scope.

(** C26: with finite log likelihoods, positive ratios and random numbers in [0,1), the samples are exactly those of the
    textbook algorithm. *)
Theorem C26_mh_is_textbook :
  forall (X : Type) (E : env X xr) (ll : X -> R), nice E ll -> forall x0 n t,
  mh_sample xops E x0 n [] = (t, RVal tt) ->
  map fst (issued t) =
  textbook_mh ll x0 (map (fun p => (fst (snd p), fin_val (snd (snd p)))) (proposals E t)) (map fin_val (draws E t)).
Proof. exact @mh_is_textbook. Qed.
Print Assumptions C26_mh_is_textbook.
(** C26: the probability (the measure of the random numbers u in [0,1)) with which the test succeeds. *)
Theorem C26_mh_acceptance_probability :
  forall X (E : env X xr) t tl cl q, nonzero tl -> nonzero cl -> 0 < q ->
  is_RInt (fun u => match snd (mh_accept xops (with_draw E u) (XFin tl) (XFin cl) (XFin q) t) with RVal true => 1 | _ => 0 end)
    0 1 (Rmin 1 (exp tl / (exp cl * q))).
Proof. exact mh_acceptance_probability. Qed.
Print Assumptions C26_mh_acceptance_probability.
(** C26: let proposals come from q(y|x) and the ratio be q(y|x)/q(x|y) as documented; let [A x y] be the probability with
    which the code's test accepts. Then detailed balance holds with respect to pi = exp(ll)... *)
Theorem C26_mh_detailed_balance :
  forall (X : Type) (E : env X xr) (ll : X -> R) (q : X -> X -> R),
  (forall x y, 0 <= q x y) -> (forall x y, q x y = 0 -> q y x = 0) -> (forall x, nonzero (ll x)) ->
  forall A : X -> X -> R,
  (forall t x y, 0 < q x y ->
    is_RInt (fun u => match snd (mh_accept xops (with_draw E u) (XFin (ll y)) (XFin (ll x)) (XFin (q x y / q y x)) t) with
                      | RVal true => 1 | _ => 0 end) 0 1 (A x y)) ->
  forall x y, exp (ll x) * (q x y * A x y) = exp (ll y) * (q y x * A y x).
Proof. exact @code_detailed_balance. Qed.
Print Assumptions C26_mh_detailed_balance.
(** ... and, on a finite state space, pi is stationary for the transition probabilities, which are probabilities. *)
Theorem C26_mh_stationary :
  forall (X : Type) (eqX : forall x y : X, {x = y} + {x <> y}) (E : env X xr) (ll : X -> R) (q : X -> X -> R),
  (forall x y, 0 <= q x y) -> (forall x y, q x y = 0 -> q y x = 0) -> (forall x, nonzero (ll x)) ->
  forall A : X -> X -> R,
  (forall t x y, 0 < q x y ->
    is_RInt (fun u => match snd (mh_accept xops (with_draw E u) (XFin (ll y)) (XFin (ll x)) (XFin (q x y / q y x)) t) with
                      | RVal true => 1 | _ => 0 end) 0 1 (A x y)) ->
  forall states y, NoDup states -> In y states ->
  sumR (fun x => exp (ll x) * kernel eqX states q A x y) states = exp (ll y).
Proof. exact @code_stationary. Qed.
Print Assumptions C26_mh_stationary.
Theorem C26_mh_transition_probabilities :
  forall (X : Type) (eqX : forall x y : X, {x = y} + {x <> y}) (E : env X xr) (ll : X -> R) (q : X -> X -> R),
  (forall x y, 0 <= q x y) -> (forall x y, q x y = 0 -> q y x = 0) -> (forall x, nonzero (ll x)) ->
  forall A : X -> X -> R,
  (forall t x y, 0 < q x y ->
    is_RInt (fun u => match snd (mh_accept xops (with_draw E u) (XFin (ll y)) (XFin (ll x)) (XFin (q x y / q y x)) t) with
                      | RVal true => 1 | _ => 0 end) 0 1 (A x y)) ->
  forall states x, NoDup states -> In x states -> sumR (q x) states = 1 ->
  sumR (fun y => kernel eqX states q A x y) states = 1 /\ forall y, 0 <= kernel eqX states q A x y.
Proof. exact @code_kernel. Qed.
Print Assumptions C26_mh_transition_probabilities.
(** the acceptance probabilities assumed there exist for every such E, ll and q *)
Example C26_acceptance_exists :
  forall X (E : env X xr) (ll : X -> R) (q : X -> X -> R),
  (forall x y, 0 <= q x y) -> (forall x y, q x y = 0 -> q y x = 0) -> (forall x, nonzero (ll x)) ->
  exists A, forall t x y, 0 < q x y ->
  is_RInt (fun u => match snd (mh_accept xops (with_draw E u) (XFin (ll y)) (XFin (ll x)) (XFin (q x y / q y x)) t) with
                    | RVal true => 1 | _ => 0 end) 0 1 (A x y).
Proof. exact A_exists. Qed.
(** C26: a zero-probability proposal is never accepted from a nonzero-probability state. *)
Theorem C26_zero_probability_proposal :
  forall (X : Type) (E : env X xr) tl cl q t,
  (tl = XNInf \/ tl = XFin (- dbl_max)) -> cl <> XNInf -> cl <> XFin (- dbl_max) ->
  mh_accept xops E tl cl q t = (t, RVal false).
Proof. exact @zero_trial_rejected. Qed.
Print Assumptions C26_zero_probability_proposal.
(** C26: from a zero-probability state, a nonzero-probability proposal is always accepted. *)
Theorem C26_leave_zero_probability :
  forall (X : Type) (E : env X xr) tl q t, nonzero tl -> 0 < q ->
  mh_accept xops E (XFin tl) XNInf (XFin q) t = (t, RVal true).
Proof. exact @leave_ninf. Qed.
Print Assumptions C26_leave_zero_probability.
(** (with -max as encoding of zero: unless the logarithm is hardly larger than -max and q > 1) *)
Theorem C26_leave_zero_probability_max :
  forall (X : Type) (E : env X xr) tl q t, nonzero tl -> 0 < q -> tl - ln q > - dbl_max ->
  mh_accept xops E (XFin tl) (XFin (- dbl_max)) (XFin q) t = (t, RVal true).
Proof. exact @leave_nmax. Qed.
Print Assumptions C26_leave_zero_probability_max.
Example C26_nice_example : nice (const_env (XFin 0) (XFin 2) (XFin (1/2))) (fun _ => 0).
Proof.
  split; cbn.
  - intros _ _. split; [reflexivity|]. unfold nonzero. pose proof dbl_max_pos. lra.
  - intros _ x _ y q H. inversion H. exists 2. split; [reflexivity|lra].
  - intros _. exists (1/2). split; [reflexivity|lra].
Qed.

(** C27: both states have zero probability. The documentation asks for acceptance with the proposal ratio alone. With
    -max the code draws twice and accepts if either number is small enough... *)
Theorem C27_zero_to_zero_refuted :
  forall (X : Type) (E : env X xr) q u1 u2 t, 1 < q ->
  e_unif E t = XFin u1 -> e_unif E (t ++ [EUnif]) = XFin u2 ->
  mh_accept xops E (XFin (- dbl_max)) (XFin (- dbl_max)) (XFin q) t =
  if Rle_dec u1 (1 / q) then (t ++ [EUnif], RVal true)
  else (t ++ [EUnif; EUnif], RVal (if Rle_dec u2 (1 / q) then true else false)).
Proof. exact @zero_zero_nmax. Qed.
Print Assumptions C27_zero_to_zero_refuted.
(** ... with -inf it does what the documentation says... *)
Theorem C27_zero_to_zero_inf :
  forall (X : Type) (E : env X xr) q u1 t, 0 < q -> e_unif E t = XFin u1 ->
  exists k, mh_accept xops E XNInf XNInf (XFin q) t = (t ++ repeat EUnif k, RVal (if Rle_dec u1 (1 / q) then true else false)).
Proof. exact @zero_zero_ninf. Qed.
Print Assumptions C27_zero_to_zero_inf.
(** ... and from -inf to -max it always accepts, whatever the ratio. *)
Theorem C27_mixed_zeros_refuted :
  forall (X : Type) (E : env X xr) q t, 0 < q ->
  exists k, mh_accept xops E (XFin (- dbl_max)) XNInf (XFin q) t = (t ++ repeat EUnif k, RVal true).
Proof. exact @ninf_to_nmax. Qed.
Print Assumptions C27_mixed_zeros_refuted.
Example C27_example : forall t, snd (mh_accept xops
   {| e_ll := fun _ (_ : nat) => None; e_prop := fun _ _ _ => None; e_cross := fun _ _ _ _ => None;
      e_unif := fun b => XFin (if Nat.even (length b) then 3/4 else 1/4); e_uint := fun _ _ => 0%N;
      e_issue := fun _ _ _ => false; e_flush := fun _ => false |}
   (XFin (- dbl_max)) (XFin (- dbl_max)) (XFin 2) (t ++ t)) = RVal true.
Proof.
  intros t. rewrite (zero_zero_nmax _ 2 (3/4) (1/4)); [..|].
  - destruct (Rle_dec (3/4) (1/2)); [lra|]. destruct (Rle_dec (1/4) (1/2)); [reflexivity|lra].
  - lra.
  - cbn. rewrite app_length, Nat.even_add. now destruct (Nat.even _).
  - cbn. rewrite !app_length, !Nat.even_add. cbn. now destruct (Nat.even _).
Qed.

(** C45: a NaN log likelihood: a NaN proposal is never accepted... *)
Theorem C45_nan_proposal_rejected :
  forall (X : Type) (E : env X xr) cl q t, exists t', mh_accept xops E XNaN cl q t = (t', RVal false).
Proof. exact @nan_trial. Qed.
Print Assumptions C45_nan_proposal_rejected.
(** ... and a chain whose current state is NaN (the starting point) never moves. *)
Theorem C45_nan_start_never_moves :
  forall (X : Type) (E : env X xr) n x t t' r, mh_loop xops E n x XNaN t = (t', r) ->
  exists d, t' = t ++ d /\ forall z a, In (z, a) (issued d) -> z = x.
Proof. exact @nan_stuck_loop. Qed.
Print Assumptions C45_nan_start_never_moves.
Example C45_example : map fst (issued (fst (mh_sample xops
   {| e_ll := fun b (x : nat) => Some XNaN; e_prop := fun _ x _ => Some (S x, XFin 1);
      e_cross := fun _ x _ _ => Some x; e_unif := fun b => XFin 0; e_uint := fun _ _ => 0%N;
      e_issue := fun _ _ _ => false; e_flush := fun _ => false |} 0%nat 3%nat []))) = [0; 0; 0]%nat.
Proof. reflexivity. Qed.

Local Open Scope nat_scope.

(** C28: DelayedRejection issues exactly n samples, each obtained from its predecessor by the rules of delayed
    rejection. ([strict]: whether forming an out-of-range iterator is counted as undefined behaviour.) *)
Theorem C28_dr_chain :
  forall (X D : Type) (O : dops D) (E : env X D) strict x0 m n t r,
  dr_sample O E strict x0 m n [] = (t, r) ->
  (length (issued t) <= n) /\
  (r = RVal tt -> length (issued t) = n) /\
  (issued t = [] \/
   exists l0 ev, e_ll E [] x0 = Some l0 /\ evaluations E t = (x0, l0) :: ev /\
   is_dr_chain m (x0, l0) (map (fun p => (fst p, fst (snd p))) (proposals E t)) ev (issued t)).
Proof. exact @dr_chain_thm. Qed.
Print Assumptions C28_dr_chain.
(** C28: if nothing throws, and the iterators are not counted, sample() returns normally. *)
Theorem C28_dr_returns :
  forall (X D : Type) (O : dops D) (E : env X D),
  (forall b x, e_ll E b x <> None) -> (forall b x rj, e_prop E b x rj <> None) ->
  (forall b x a, e_issue E b x a = false) -> (forall b, e_flush E b = false) ->
  forall x0 m n t r, dr_sample O E false x0 m n [] = (t, r) -> r = RVal tt.
Proof. exact @dr_no_throw. Qed.
Print Assumptions C28_dr_returns.
(** C28: by the letter of the standard, every delayed stage has undefined behaviour: ... *)
Theorem C28_second_stage_undefined_refuted :
  forall (X D : Type) (O : dops D) (E : env X D) m n x0 l y q ly y2 q2 ly2,
  e_ll E [] x0 = Some l -> e_prop E [EEval x0] x0 [] = Some (y, q) ->
  e_ll E [EEval x0; EPropose x0 []] y = Some ly ->
  d_gt O (d_exp O (d_sub O ly l)) (d_one O) = false ->
  d_ge O (d_exp O (d_sub O ly l)) (e_unif E [EEval x0; EPropose x0 []; EEval y]) = false ->
  let h := [EEval x0; EPropose x0 []; EEval y; EUnif] in
  e_prop E h x0 [y] = Some (y2, q2) -> e_ll E (h ++ [EPropose x0 [y]]) y2 = Some ly2 ->
  1 <= m -> 1 <= n ->
  snd (dr_sample O E true x0 m n []) = RUB.
Proof. exact @dr_ub_happens. Qed.
Print Assumptions C28_second_stage_undefined_refuted.
(** ... so a run without it never repeats a sample. *)
Theorem C28_no_repetition_without_undefined_behaviour :
  forall (X D : Type) (O : dops D) (E : env X D) x0 m n t r, 1 <= m ->
  dr_sample O E true x0 m n [] = (t, r) -> r = RVal tt ->
  forall z a, In (z, a) (issued t) -> In ("sample is repeated", PBool false) a.
Proof. exact @dr_ub. Qed.
Print Assumptions C28_no_repetition_without_undefined_behaviour.
(** an example in which everything is rejected (d_gt and d_ge always false) *)
Definition no_ops : dops nat := {|
  d_one := 1; d_nmax := 0; d_ninf := 0; d_sub := fun _ _ => 0; d_mul := fun _ _ => 0; d_div := fun _ _ => 0;
  d_exp := fun x => x; d_log := fun x => x; d_gt := fun _ _ => false; d_ge := fun _ _ => false; d_eq := Nat.eqb |}.
Example C28_example :
  map fst (issued (fst (dr_sample no_ops (ex_env 0 0) false 5 2 3 []))) = [5; 5; 5] /\
  snd (dr_sample no_ops (ex_env 0 0) true 5 2 3 []) = RUB /\
  map fst (issued (fst (dr_sample yes_ops (ex_env 0 0) true 5 2 3 []))) = [6; 7; 8].
Proof. repeat split; vm_compute; reflexivity. Qed.

Local Open Scope R_scope.

(** C29: with max_delays = 0, finite log likelihoods and proposal ratios equal to one, DelayedRejection does exactly (event
    by event) what MetropolisHastings does. *)
Theorem C29_no_delays_is_mh :
  forall (X : Type) (E : env X xr),
  (forall t x rj y q, e_prop E t x rj = Some (y, q) -> q = XFin 1) ->
  forall ll, nice E ll -> forall strict x0 n,
  dr_sample xops E strict x0 0 n [] = mh_sample xops E x0 n [].
Proof. exact @dr0_is_mh. Qed.
Print Assumptions C29_no_delays_is_mh.
(** C29: not so when log likelihoods are -inf ... *)
Theorem C29_zero_probability_refuted :
  forall strict u n, 0 <= u < 1 ->
  let E := const_env XNInf (XFin 1) (XFin u) in
  map fst (issued (fst (mh_sample xops E 0%nat n []))) = seq 1 n /\
  map fst (issued (fst (dr_sample xops E strict 0%nat 0 n []))) = repeat 0%nat n.
Proof. exact dr0_zero_differs. Qed.
Print Assumptions C29_zero_probability_refuted.
(** ... or when the proposal distribution is not symmetric: the ratio is ignored. *)
Theorem C29_asymmetric_proposals_refuted :
  forall strict q u n, 1 < q -> 1 / q < u < 1 ->
  let E := const_env (XFin 0) (XFin q) (XFin u) in
  map fst (issued (fst (mh_sample xops E 0%nat n []))) = repeat 0%nat n /\
  map fst (issued (fst (dr_sample xops E strict 0%nat 0 n []))) = seq 1 n.
Proof. exact dr0_ratio_ignored. Qed.
Print Assumptions C29_asymmetric_proposals_refuted.
Example C29_example : nice (const_env (XFin 0) (XFin 1) (XFin (1/2))) (fun _ => 0) /\
  forall t x rj y q, e_prop (const_env (XFin 0) (XFin 1) (XFin (1/2))) t x rj = Some (y, q) -> q = XFin 1.
Proof.
  split; [split; cbn|].
  - intros _ _. split; [reflexivity|]. unfold nonzero. pose proof dbl_max_pos. lra.
  - intros _ x _ y q H. inversion H. exists 1. split; [reflexivity|lra].
  - intros _. exists (1/2). split; [reflexivity|lra].
  - intros t x rj y q H. inversion H. reflexivity.
Qed.

(** C46: the second stage. [px], [p1], [p2] are the density at the current sample, at the first, rejected, and at the second
    proposal: the code accepts exactly when u <= the published probability ... *)
Theorem C46_second_stage :
  forall X (E : env X xr) (x y1 y2 : X) px p1 p2 u t,
  0 < p1 -> p1 < px -> 0 < p2 -> 0 < u < 1 -> e_unif E t = XFin u ->
  exists a d, alpha_fn xops false 2 (x, XFin (ln px)) [(y1, XFin (ln p1)); (y2, XFin (ln p2))] = Some a /\
    dr_accept xops E a t = (t ++ d, RVal (if Rle_dec u (alpha2 px p1 p2) then true else false)).
Proof. exact stage2. Qed.
Print Assumptions C46_second_stage.
(** ... which balances the two-stage moves x -> (y1 rejected) -> y2 and y2 -> (y1 rejected) -> x ... *)
Theorem C46_two_stage_balance :
  forall px p1 p2, 0 < px -> 0 < p1 -> 0 < p2 ->
  px * (1 - alpha1 px p1) * alpha2 px p1 p2 = p2 * (1 - alpha1 p2 p1) * alpha2 p2 p1 px.
Proof. exact alpha2_balance. Qed.
Print Assumptions C46_two_stage_balance.
(** C46: so whole runs with at most one delay produce exactly the samples of the published algorithm (log likelihoods
    finite, random numbers in (0,1)). *)
Theorem C46_whole_run :
  forall (X : Type) (E : env X xr) (ll : X -> R), (forall t x, e_ll E t x = Some (XFin (ll x))) ->
  (forall t, exists u, e_unif E t = XFin u /\ 0 < u < 1) ->
  forall m, (m <= 1)%nat -> forall x0 n t,
  dr_sample xops E false x0 m n [] = (t, RVal tt) ->
  map fst (issued t) =
  textbook_dr (dr_ratio ll) m n x0 (map (fun p => fst (snd p)) (proposals E t)) (map fin_val (draws E t)).
Proof. exact @dr_run. Qed.
Print Assumptions C46_whole_run.
(** C46: at every stage the code computes this: the ratio [A x (ys ++ [y])] for accepting y from x after the samples ys were
    rejected is the likelihood ratio times, for each number j of rejected samples, (1 - A(y; the last j of ys, in the order
    in which they were proposed)) / (1 - A(x; the first j of ys)). *)
Theorem C46_every_stage :
  forall (X D : Type) (O : dops D), exists A : X * D -> list (X * D) -> D,
  (forall fuel x ys, (1 <= length ys <= fuel)%nat -> alpha_fn O false fuel x ys = Some (A x ys)) /\
  (forall x ys y, A x (ys ++ [y]) =
    fold_left (fun a j => d_mul O a (d_div O (d_sub O (d_one O) (A y (skipn (length ys - j) ys)))
                                             (d_sub O (d_one O) (A x (firstn j ys)))))
              (seq 1 (length ys)) (d_exp O (d_sub O (snd y) (snd x)))).
Proof. exact @alpha_spec. Qed.
Print Assumptions C46_every_stage.
(** ... but the published rule has the last j of ys in reversed order, and from the third stage on this matters. *)
Theorem C46_third_stage_refuted :
  forall X (E : env X xr) (x y1 y2 y3 : X) u t,
  4 / 9 < u < 2 / 3 -> e_unif E t = XFin u ->
  exists a d, alpha_fn xops false 3 (x, XFin (ln 1)) [(y1, XFin (ln (1/5))); (y2, XFin (ln (2/5))); (y3, XFin (ln (4/5)))] = Some a /\
    dr_accept xops E a t = (t ++ d, RVal false) /\ u < alpha3 1 (1/5) (2/5) (4/5).
Proof. exact stage3. Qed.
Print Assumptions C46_third_stage_refuted.
Example C46_example : exists a d, dr_accept xops (const_env (XFin 0) (XFin 1) (XFin (1/2))) a [] = (d, RVal true) /\
  alpha_fn xops false 2 (0%nat, XFin (ln 1)) [(1%nat, XFin (ln (1/4))); (2%nat, XFin (ln 2))] = Some a.
Proof.
  destruct (stage2 nat (const_env (XFin 0) (XFin 1) (XFin (1/2))) 0%nat 1%nat 2%nat 1 (1/4) 2 (1/2) []) as (a & d & H1 & H2); try lra; [reflexivity|].
  exists a, d. split; [|exact H1]. cbn [app] in H2. rewrite H2. destruct (Rle_dec _ _) as [|n]; [reflexivity|].
  exfalso. apply n. unfold alpha2, alpha1. rewrite (Rmin_right 1 (1/4/2)), (Rmin_right 1 (1/4/1)) by lra. apply Rmin_glb; lra.
Qed.

Local Open Scope nat_scope.

(** C30: DifferentialEvaluationMetropolisHastings (with at least three chains, the random number generator within its
    range, and n_samples + n_chains < 2^64) issues n samples; the k-th is a new state of chain k mod n. *)
Theorem C30_de_chains :
  forall (X D : Type) (O : dops D) (E : env X D) (bd : build) fuel (xs : list X) gap N0 t r,
  (forall b hi, (e_uint E b hi <= hi)%N) ->
  3 <= length xs -> (N.of_nat (N0 + length xs) < two64)%N -> N0 < fuel ->
  de_sample O E bd fuel xs (N.of_nat gap) (N.of_nat N0) [] = (t, r) ->
  length (issued t) <= N0 /\
  (r = RVal tt -> length (issued t) = N0 /\ length (proposals E t) = N0) /\
  (issued t = [] \/
   exists inits ev, map fst inits = xs /\ evaluations E t = inits ++ ev /\
   is_de_run (fun tl cl q u => d_ge O (d_div O (d_exp O (d_sub O tl cl)) q) u) gap inits
     (map (fun p => (fst (fst p), snd p)) (proposals E t)) ev (draws E t) (crossovers E t) (issued t)).
Proof. exact @de_chains. Qed.
Print Assumptions C30_de_chains.
(** C30: if nothing throws it returns normally (so it terminates, after at most n_samples + 1 generations). *)
Theorem C30_de_returns :
  forall (X D : Type) (O : dops D) (E : env X D),
  (forall b x, e_ll E b x <> None) -> (forall b x rj, e_prop E b x rj <> None) -> (forall b x y z, e_cross E b x y z <> None) ->
  (forall b x a, e_issue E b x a = false) -> (forall b, e_flush E b = false) ->
  forall (bd : build) fuel (xs : list X) gap N0 t r,
  (forall b hi, (e_uint E b hi <= hi)%N) ->
  3 <= length xs -> (N.of_nat (N0 + length xs) < two64)%N -> N0 < fuel ->
  de_sample O E bd fuel xs (N.of_nat gap) (N.of_nat N0) [] = (t, r) -> r = RVal tt.
Proof. exact @de_no_throw. Qed.
Print Assumptions C30_de_returns.
(** C30: fewer than three chains: an assertion without NDEBUG; with NDEBUG and no chain at all, an endless loop. *)
Theorem C30_too_few_chains_debug :
  forall (X D : Type) (O : dops D) (E : env X D) fuel (xs : list X) gap N0, length xs < 3 ->
  de_sample O E Debug fuel xs gap N0 [] = ([], RAssert).
Proof. exact @de_few_chains_debug. Qed.
Print Assumptions C30_too_few_chains_debug.
Theorem C30_no_chains_release :
  forall (X D : Type) (O : dops D) (E : env X D) fuel gap N0, (0 < N0)%N ->
  de_sample O E Release fuel [] gap N0 [] = ([], RLoop).
Proof. exact @de_no_chains. Qed.
Print Assumptions C30_no_chains_release.
Example C30_example :
  map fst (issued (fst (de_sample yes_ops (ex_env 0 0) Debug 100 [10; 20; 30] 2 7 []))) = [11; 21; 31; 12; 22; 32; 13].
Proof. vm_compute. reflexivity. Qed.

(** C31: the first partner is another chain, each for exactly one of the n-1 equally likely draws. *)
Theorem C31_first_partner :
  forall n chain a, (3 <= n < two64)%N -> (chain < n)%N -> (a < n)%N -> a <> chain ->
  exists! d, (d <= n - 2)%N /\ partner_a chain d = a.
Proof. exact partner_a_bijective. Qed.
Print Assumptions C31_first_partner.
(** C31: the second partner should be each of the n-2 others for exactly one of the n-2 draws; this is the case if the
    larger one of a and the chain is the last chain... *)
Theorem C31_second_partner_last_chain :
  forall n chain a b, (3 <= n < two64)%N -> (chain < n)%N -> (a < n)%N -> a <> chain ->
  N.max a chain = (n - 1)%N -> (b < n)%N -> b <> a -> b <> chain ->
  exists! d, (d <= n - 3)%N /\ partner_b chain a d = b.
Proof. exact partner_b_bijective. Qed.
Print Assumptions C31_second_partner_last_chain.
(** ... but in all other cases one draw gives the larger one of a and the chain itself, and no draw gives the chain after it. *)
Theorem C31_second_partner_refuted :
  forall n chain a, (3 <= n < two64)%N -> (chain < n)%N -> (a < n)%N -> a <> chain ->
  (N.max a chain < n - 1)%N ->
  (exists d, (d <= n - 3)%N /\ partner_b chain a d = N.max a chain) /\
  (forall d, (d <= n - 3)%N -> partner_b chain a d <> N.max a chain + 1)%N.
Proof. exact partner_b_wrong. Qed.
Print Assumptions C31_second_partner_refuted.
(** C31: a whole run with three chains at 10, 20, 30: crossover is called with both partners from chain 1, and with the
    chain's own sample as "other" sample. *)
Theorem C31_run_refuted :
  forall bd gap, gap <= 1 ->
  let t := fst (de_sample yes_ops (still_env 0) bd 100 [10; 20; 30]%Z (N.of_nat gap) 6 []) in
  In (10, 20, 20, 10)%Z (crossovers (still_env 0) t) /\
  In (20, 10, 20, 10)%Z (crossovers (still_env 0) t).
Proof. exact de_same_partner. Qed.
Print Assumptions C31_run_refuted.
(** C31: in every run the generations with crossover are those of [crossover_due], and the partners are in range
    (part of C30's [is_de_run]). *)
Example C31_example : partner_b 0 1 0 = 1%N /\ partner_b 1 0 0 = 1%N /\ partner_b 0 2 0 = 1%N.
Proof. repeat split. Qed.

Local Open Scope R_scope.

(** C47: the acceptance test of the differential evaluation sampler, for one chain. *)
Theorem C47_de_accepts :
  forall X (y x : X) tl cl q u, 0 < q ->
  de_decide xops y (XFin q) (XFin u) (XFin tl) x (XFin cl) =
  if Rle_dec u (exp tl / (exp cl * q)) then (true, y, XFin tl) else (false, x, XFin cl).
Proof. exact de_accept_finite. Qed.
Print Assumptions C47_de_accepts.
Theorem C47_de_acceptance_probability :
  forall X (y x : X) tl cl q, 0 < q ->
  is_RInt (fun u => if fst (fst (de_decide xops y (XFin q) (XFin u) (XFin tl) x (XFin cl))) then 1 else 0)
    0 1 (Rmin 1 (exp tl / (exp cl * q))).
Proof. exact de_acceptance_probability. Qed.
Print Assumptions C47_de_acceptance_probability.
(** C47: in a whole run with finite log likelihoods, positive ratios and finite random numbers, sample number k is the k-th
    proposal if the k-th random number does not exceed pi(y)/(pi(x) ratio), and otherwise the previous sample x of the same
    chain (the starting point, or sample number k - n_chains). *)
Theorem C47_de_run :
  forall X (E : env X xr) (ll : X -> R), (forall t x, e_ll E t x = Some (XFin (ll x))) ->
  (forall t x rj y q, e_prop E t x rj = Some (y, q) -> exists r, q = XFin r /\ 0 < r) ->
  (forall t, exists u, e_unif E t = XFin u) ->
  forall (bd : build) fuel (xs : list X) gap N0 t r,
  (forall b hi, (e_uint E b hi <= hi)%N) ->
  (3 <= length xs)%nat -> (N.of_nat (N0 + length xs) < two64)%N -> (N0 < fuel)%nat ->
  de_sample xops E bd fuel xs (N.of_nat gap) (N.of_nat N0) [] = (t, r) ->
  forall k z, nth_error (map fst (issued t)) k = Some z ->
  exists prev y q u,
    nth_error (xs ++ map fst (issued t)) k = Some prev /\
    nth_error (map snd (proposals E t)) k = Some (y, XFin q) /\
    nth_error (draws E t) k = Some (XFin u) /\
    z = if Rle_dec u (mh_ratio ll prev y q) then y else prev.
Proof. exact de_run_real. Qed.
Print Assumptions C47_de_run.
(** C47: unlike MetropolisHastings there is no special treatment of zero probabilities: from -inf to -inf it never moves. *)
Theorem C47_zero_to_zero :
  forall X (y x : X) q u, 0 < q -> 0 <= u < 1 ->
  de_decide xops y (XFin q) (XFin u) XNInf x XNInf = (false, x, XNInf) /\
  (q <= 1 -> de_decide xops y (XFin q) (XFin u) (XFin (- dbl_max)) x (XFin (- dbl_max)) = (true, y, XFin (- dbl_max))).
Proof. exact de_zero_zero. Qed.
Print Assumptions C47_zero_to_zero.
Example C47_example : fst (fst (de_decide xops 1%nat (XFin 1) (XFin (1/2)) (XFin 0) 2%nat (XFin 0))) = true.
Proof. rewrite de_accept_finite by lra. rewrite exp_0. destruct (Rle_dec (1/2) (1 / (1*1))); [reflexivity|lra]. Qed.
(** environments as assumed in the theorems about whole runs exist: constant ones, for which sample() returns *)
Example C46_C47_example : let E := const_env (XFin 0) (XFin 1) (XFin (1/2)) in
  (forall t x, e_ll E t x = Some (XFin ((fun _ => 0) x))) /\
  (forall t x rj y q, e_prop E t x rj = Some (y, q) -> exists r, q = XFin r /\ 0 < r) /\
  (forall t, exists u, e_unif E t = XFin u /\ 0 < u < 1) /\
  (forall b hi, (e_uint E b hi <= hi)%N) /\
  (forall m n, snd (dr_sample xops E false 0%nat m n []) = RVal tt) /\
  textbook_dr (dr_ratio (fun _ => 0)) 1 2 0%nat [1; 2]%nat [1/2; 1/2] = [1; 2]%nat.
Proof.
  cbn zeta. split; [reflexivity|]. split; [intros t x rj y q H; inversion H; exists 1; split; [reflexivity|lra]|].
  split; [intros t; exists (1/2); split; [reflexivity|lra]|]. split; [intros b hi; cbn; lia|].
  split.
  - intros m n. destruct (dr_sample _ _ _ _ _ _ _) as [t r] eqn:H. cbn. eapply dr_no_throw; [..|exact H]; try reflexivity; intros; discriminate.
  - cbn. rewrite exp_0. replace (1/1) with 1 by field.
    destruct (Rlt_dec 1 1); [lra|]. destruct (Rle_dec (1/2) 1) as [H|H]; [|lra]. destruct (Rle_dec (1/2) 1); [reflexivity|lra].
Qed.
