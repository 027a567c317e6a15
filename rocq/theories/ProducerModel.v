(** Model of the sampling producers: Range, MetropolisHastings, DelayedRejectionMetropolisHastings and
    DifferentialEvaluationMetropolisHastings (sequential evaluation; see DEConcModel for the concurrent one).

    Everything the algorithms call is an oracle which may depend on the whole history of calls: the user's
    callbacks (so they may be stateful or throw), the random number generator, and the downstream network
    (issue_sample and flush_consumers may throw because a consumer does). *)
From Coq Require Import String.
From Verif Require Import Prelude.
Local Open Scope string_scope.
Local Open Scope list_scope.
Local Notation length := List.length.

(** How a call ends: normally, by an exception, in undefined behaviour, in a failed assertion (abort), in
    std::terminate, or not within the given number of loop iterations. *)
Inductive res (A : Type) := RVal (a : A) | RExc | RUB | RAssert | RTerm | RLoop.
Arguments RVal {A} a. Arguments RExc {A}. Arguments RUB {A}. Arguments RAssert {A}. Arguments RTerm {A}. Arguments RLoop {A}.

(** Auxiliary data (std::map<std::string, std::any>, auxiliary_data.impl.h:53) as far as the producers use it. *)
Inductive pany (D : Type) := PDouble (d : D) | PBool (b : bool) | PUInt (n : nat).
Arguments PDouble {D} d. Arguments PBool {D} b. Arguments PUInt {D} n.
Definition paux (D : Type) := list (string * pany D).

(** What an observer outside the producer sees, in order. *)
Inductive event (X D : Type) :=
| EIssue (x : X) (a : paux D)        (* issue_sample(x, a)                      *)
| EFlush                             (* flush_consumers()                       *)
| EEval (x : X)                      (* log_likelihood(x)                       *)
| EPropose (x : X) (rejected : list X) (* propose_sample(x [, rejected])        *)
| ECross (x a b : X)                 (* crossover(x, a, b)                      *)
| EUnif                              (* a draw from uniform_real_distribution(0,1) *)
| EUInt (hi : N).                    (* a draw from uniform_int_distribution(0,hi) *)
Arguments EIssue {X D} x a. Arguments EFlush {X D}. Arguments EEval {X D} x. Arguments EPropose {X D} x rejected.
Arguments ECross {X D} x a b. Arguments EUnif {X D}. Arguments EUInt {X D} hi.
Definition trace (X D : Type) := list (event X D).

(** The environment: each answer may depend on everything that happened before ([None]/[false]: the call throws). *)
Record env (X D : Type) := {
  e_ll : trace X D -> X -> option D;
  e_prop : trace X D -> X -> list X -> option (X * D);
  e_cross : trace X D -> X -> X -> X -> option X;
  e_unif : trace X D -> D;
  e_uint : trace X D -> N -> N;
  e_issue : trace X D -> X -> paux D -> bool;
  e_flush : trace X D -> bool }.
Arguments e_ll {X D}. Arguments e_prop {X D}. Arguments e_cross {X D}. Arguments e_unif {X D}.
Arguments e_uint {X D}. Arguments e_issue {X D}. Arguments e_flush {X D}.

(** The operations on [double] used by the algorithms. *)
Record dops (D : Type) := {
  d_one : D; d_nmax : D; d_ninf : D;            (* 1., -numeric_limits::max(), -numeric_limits::infinity() *)
  d_sub : D -> D -> D; d_mul : D -> D -> D; d_div : D -> D -> D;
  d_exp : D -> D; d_log : D -> D;
  d_gt : D -> D -> bool; d_ge : D -> D -> bool; d_eq : D -> D -> bool }.
Arguments d_one {D}. Arguments d_nmax {D}. Arguments d_ninf {D}. Arguments d_sub {D}. Arguments d_mul {D}.
Arguments d_div {D}. Arguments d_exp {D}. Arguments d_log {D}. Arguments d_gt {D}. Arguments d_ge {D}. Arguments d_eq {D}.

Section Producers.
Context {X D : Type}.
Variable (O : dops D).
Variable (E : env X D).

Definition M (A : Type) := trace X D -> trace X D * res A.
Definition ret {A} (a : A) : M A := fun t => (t, RVal a).
Definition fail {A} (r : res A) : M A := fun t => (t, r).
Definition mbind {A B} (m : M A) (k : A -> M B) : M B := fun t =>
  let (t1, r) := m t in
  match r with
  | RVal a => k a t1
  | RExc => (t1, RExc) | RUB => (t1, RUB) | RAssert => (t1, RAssert) | RTerm => (t1, RTerm) | RLoop => (t1, RLoop)
  end.
Notation "'let!' x := e 'in' k" := (mbind e (fun x => k)) (at level 200, x pattern, k at level 200).

(** A call of something outside: it is recorded, then answers or throws. *)
Definition call {A} (e : event X D) (answer : trace X D -> option A) : M A :=
  fun t => (t ++ [e], match answer t with Some a => RVal a | None => RExc end).
Definition log_likelihood (x : X) : M D := call (EEval x) (fun t => e_ll E t x).
Definition propose_sample (x : X) (rejected : list X) : M (X * D) := call (EPropose x rejected) (fun t => e_prop E t x rejected).
Definition crossover (x a b : X) : M X := call (ECross x a b) (fun t => e_cross E t x a b).
Definition uniform : M D := call EUnif (fun t => Some (e_unif E t)).
Definition uniform_int (hi : N) : M N := call (EUInt hi) (fun t => Some (e_uint E t hi)).
(** [Producer::issue_sample] / [Producer::flush_consumers] (the signals declared in producer.impl.h:129, 177) seen from outside; what they do to
    the network is modelled in NetModel. *)
Definition issue_sample (x : X) (a : paux D) : M unit := call (EIssue x a) (fun t => if e_issue E t x a then None else Some tt).
Definition flush_consumers : M unit := call EFlush (fun t => if e_flush E t then None else Some tt).

(** [Utilities::ScopeExit] (scope_exit.impl.h:78-91) declared at the start of a function with the action
    flush_consumers(): the action runs when the function returns and when an exception passes through; it does not
    run after abort(). An exception leaving the destructor (implicitly noexcept) calls std::terminate. *)
Definition with_scope_exit {A} (body : M A) : M A := fun t =>
  let (t1, r) := body t in
  match r with
  | RVal _ | RExc =>
    let (t2, f) := flush_consumers t1 in
    (t2, match f with RExc => RTerm | _ => r end)
  | _ => (t1, r)
  end.

(** ** Range *)

(** The loop of [Range::sample], range.impl.h:121-122; an element [None] stands for an exception thrown by the iterator
    or the conversion to OutputType. *)
Fixpoint range_loop (range : list (option X)) : M unit :=
  match range with
  | [] => ret tt
  | None :: _ => fail RExc
  | Some x :: range' => let! _ := issue_sample x [] in range_loop range'
  end.
(** [Range::sample], range.impl.h:104-123. *)
Definition range_sample (range : list (option X)) : M unit := with_scope_exit (range_loop range).

(** ** MetropolisHastings *)

Definition ll_key := "relative log likelihood".
Definition rep_key := "sample is repeated".
Definition chain_key := "chain number".

(** metropolis_hastings.impl.h:653-660 *)
Definition has_zero_probability (l : D) : bool := (d_eq O l (d_nmax O) || d_eq O l (d_ninf O))%bool.

(** The condition of the [if] in metropolis_hastings.impl.h:663-670, with C++'s short-circuit evaluation: random numbers
    are drawn only when the operand is evaluated. *)
Definition mh_accept (trial_ll cur_ll ratio : D) : M bool :=
  let tz := has_zero_probability trial_ll in
  let cz := has_zero_probability cur_ll in
  if (tz && negb cz)%bool then ret false else
  let! first := (if (tz && cz)%bool
                 then let! u := uniform in ret (d_ge O (d_div O (d_one O) ratio) u)
                 else ret false) in
  if (first : bool) then ret true else
  if d_gt O (d_sub O trial_ll (d_log O ratio)) cur_ll then ret true else
  let! u := uniform in ret (d_ge O (d_div O (d_exp O (d_sub O trial_ll cur_ll)) ratio) u).

(** The loop of [MetropolisHastings::sample], metropolis_hastings.impl.h:624-686. *)
Fixpoint mh_loop (n : nat) (current : X) (current_ll : D) : M unit :=
  match n with
  | 0 => ret tt
  | S n' =>
    let! (trial, ratio) := propose_sample current [] in
    let! trial_ll := log_likelihood trial in
    let! accepted := mh_accept trial_ll current_ll ratio in
    let current' := if (accepted : bool) then trial else current in
    let current_ll' := if accepted then trial_ll else current_ll in
    let! _ := issue_sample current' [(ll_key, PDouble current_ll'); (rep_key, PBool (negb accepted))] in
    mh_loop n' current' current_ll'
  end.
(** [MetropolisHastings::sample], metropolis_hastings.impl.h:603-689: with the ScopeExit object of line 613 and the
    explicit flush in line 688. *)
Definition mh_sample (starting_point : X) (n_samples : nat) : M unit :=
  with_scope_exit (
    let! l := log_likelihood starting_point in
    let! _ := mh_loop n_samples starting_point l in
    flush_consumers).

(** ** DelayedRejectionMetropolisHastings *)

(** The vector [num_yvec(num_yvec_rev.rbegin(), num_yvec_rev.rend() + 1)] of delayed_rejection_mh.impl.h:183. The range
    has one element more than the vector: after all elements, the one before the first is read. Reading it (and even
    forming the iterator) is undefined behaviour. [strict = false] describes what a compiler without checks does if
    the stray read is harmless: the vector is never used, so nothing happens. *)
Definition num_yvec (strict : bool) (num_yvec_rev : list (X * D)) : option unit :=
  let indices_read := map (fun k => (Z.of_nat (length num_yvec_rev) - 1 - Z.of_nat k)%Z) (seq 0 (length num_yvec_rev + 1)) in
  if (strict && negb (forallb (fun i => (0 <=? i)%Z && (i <? Z.of_nat (length num_yvec_rev))%Z) indices_read))%bool
  then None else Some tt.

(** [alpha_fn], delayed_rejection_mh.impl.h:156-189. [None] is undefined behaviour. The recursion is on vectors which
    become shorter; [fuel] bounds their length. y[y.size()-1] of an empty vector is undefined behaviour. *)
Fixpoint alpha_fn (strict : bool) (fuel : nat) (x : X * D) (y : list (X * D)) : option D :=
  match fuel with
  | 0 => None
  | S fuel' =>
    match length y, nth_error y (length y - 1) with
    | S num_rejected, Some yi =>
      let likelihood_ratio := d_exp O (d_sub O (snd yi) (snd x)) in
      if Nat.eqb num_rejected 0 then Some likelihood_ratio else
      fold_left (fun (acc : option D) (j : nat) =>
        match acc with
        | None => None
        | Some alpha =>
          let num_yvec_rev := firstn j (skipn (num_rejected - j) y) in
          match num_yvec strict num_yvec_rev with
          | None => None
          | Some _ =>
            let den_yvec := firstn j y in
            match alpha_fn strict fuel' yi num_yvec_rev, alpha_fn strict fuel' x den_yvec with
            | Some a1, Some a2 =>
              Some (d_mul O alpha (d_div O (d_sub O (d_one O) a1) (d_sub O (d_one O) a2)))
            | _, _ => None
            end
          end
        end) (seq 1 num_rejected) (Some likelihood_ratio)
    | _, _ => None
    end
  end.

(** The test in delayed_rejection_mh.impl.h:256: a random number is drawn only if the ratio is not > 1. *)
Definition dr_accept (acceptance_ratio : D) : M bool :=
  if d_gt O acceptance_ratio (d_one O) then ret true
  else let! u := uniform in ret (d_ge O acceptance_ratio u).

(** The delayed rejection loop, delayed_rejection_mh.impl.h:230-264, with [stages] iterations left
    (max_delays + 1 at the start, for max_delays < 2^32 - 1); returns the accepted sample, if any. *)
Fixpoint dr_stages (strict : bool) (stages : nat) (current : X * D) (proposed : list (X * D)) : M (option (X * D)) :=
  match stages with
  | 0 => ret None
  | S stages' =>
    let! (trial, _) := propose_sample (fst current) (map fst proposed) in
    let! trial_ll := log_likelihood trial in
    let proposed' := proposed ++ [(trial, trial_ll)] in
    match alpha_fn strict (length proposed') current proposed' with
    | None => fail RUB
    | Some ratio =>
      let! accepted := dr_accept ratio in
      if (accepted : bool) then ret (Some (trial, trial_ll))
      else dr_stages strict stages' current proposed'
    end
  end.
(** The main loop, delayed_rejection_mh.impl.h:226-272. *)
Fixpoint dr_loop (strict : bool) (max_delays : nat) (n : nat) (current : X * D) : M unit :=
  match n with
  | 0 => ret tt
  | S n' =>
    let! accepted := dr_stages strict (max_delays + 1) current [] in
    let current' := match accepted with Some y => y | None => current end in
    let repeated := match accepted with Some _ => false | None => true end in
    let! _ := issue_sample (fst current') [(ll_key, PDouble (snd current')); (rep_key, PBool repeated)] in
    dr_loop strict max_delays n' current'
  end.
(** [DelayedRejectionMetropolisHastings::sample], delayed_rejection_mh.impl.h:204-275. *)
Definition dr_sample (strict : bool) (starting_point : X) (max_delays n_samples : nat) : M unit :=
  with_scope_exit (
    let! l := log_likelihood starting_point in
    let! _ := dr_loop strict max_delays n_samples (starting_point, l) in
    flush_consumers).

(** ** DifferentialEvaluationMetropolisHastings *)

Definition upd {T} (l : list T) (i : nat) (v : T) : list T := firstn i l ++ match skipn i l with [] => [] | _ :: r => v :: r end.
(** v[i] *)
Definition at_ {T} (l : list T) (i : N) : M T :=
  match nth_error l (N.to_nat i) with Some x => ret x | None => fail RUB end.

(** differential_evaluation_mh.impl.h:218-220: the first partner, from the number drawn. *)
Definition partner_a (chain d : N) : N := (if chain <=? d then wrap64 (d + 1) else d)%N.
(** Lines 227-231: the second partner. *)
Definition partner_b (chain a d : N) : N :=
  (if N.max a chain <=? d then wrap64 (d + 2) else if N.min a chain <=? d then wrap64 (d + 1) else d)%N.
(** n_chains - k on std::size_t. *)
Definition minus64 (a b : N) : N := wrap64 (a + (two64 - b)).

(** The condition in lines 208-212. *)
Definition do_crossover (crossover_gap generation : N) : bool :=
  (((crossover_gap =? 0) || (generation mod crossover_gap =? 0)) && (0 <? generation))%N%bool.

(** Lines 205-239: the trial sample and ratio for one chain. *)
Definition de_trial (crossover_gap generation n_chains : N) (chain : nat) (current : list X) : M (X * D) :=
  if do_crossover crossover_gap generation then
    let! da := uniform_int (minus64 n_chains 2) in
    let a := partner_a (N.of_nat chain) da in
    let! xa := at_ current a in
    let! db := uniform_int (minus64 n_chains 3) in
    let b := partner_b (N.of_nat chain) a db in
    let! xb := at_ current b in
    let! xc := at_ current (N.of_nat chain) in
    let! c := crossover xc xa xb in
    propose_sample c []
  else
    let! xc := at_ current (N.of_nat chain) in
    propose_sample xc [].

(** What one task (the lambda function in lines 248-276) does to its chain's entries once the log likelihood is known:
    (accepted, new entry of next_samples, new entry of current_log_likelihoods). *)
Definition de_decide (trial : X) (ratio u trial_ll : D) (cur : X) (cur_ll : D) : bool * X * D :=
  if d_ge O (d_div O (d_exp O (d_sub O trial_ll cur_ll)) ratio) u
  then (true, trial, trial_ll) else (false, cur, cur_ll).

(** The state of a generation: next_samples, current_log_likelihoods and the futures ([None]: the task threw). *)
Record gstate := { g_next : list X; g_ll : list D; g_fut : list (option bool) }.

(** Synchronous execution of the task (lines 286-291): std::packaged_task stores an exception in the future. *)
Definition de_task (chain : nat) (trial : X) (ratio u : D) (current : list X) (s : gstate) : M gstate := fun t =>
  match log_likelihood trial t with
  | (t1, RVal trial_ll) =>
    match nth_error current chain, nth_error (g_ll s) chain with
    | Some cur, Some cur_ll =>
      let '(acc, nx, nl) := de_decide trial ratio u trial_ll cur cur_ll in
      (t1, RVal {| g_next := upd (g_next s) chain nx; g_ll := upd (g_ll s) chain nl; g_fut := g_fut s ++ [Some acc] |})
    | _, _ => (t1, RUB)
    end
  | (t1, RExc) => (t1, RVal {| g_next := g_next s; g_ll := g_ll s; g_fut := g_fut s ++ [None] |})
  | (t1, _) => (t1, RUB)
  end.

(** The first inner loop, lines 197-292 ([k] chains left, starting with [chain]). *)
Fixpoint de_launch (crossover_gap generation n_chains n_samples : N) (current : list X) (k chain : nat) (s : gstate) : M gstate :=
  match k with
  | 0 => ret s
  | S k' =>
    if (n_samples <=? wrap64 (generation * n_chains + N.of_nat chain))%N then ret s else
    let! (trial, ratio) := de_trial crossover_gap generation n_chains chain current in
    let! u := uniform in
    let! s' := de_task chain trial ratio u current s in
    de_launch crossover_gap generation n_chains n_samples current k' (S chain) s'
  end.
(** The second inner loop, lines 304-321. *)
Fixpoint de_issue (b : build) (generation n_chains n_samples : N) (k chain : nat) (s : gstate) : M unit :=
  match k with
  | 0 => ret tt
  | S k' =>
    if (n_samples <=? wrap64 (generation * n_chains + N.of_nat chain))%N then ret tt else
    match nth_error (g_fut s) chain with
    | None => fail (match b with Debug => RAssert | Release => RUB end)
    | Some None => fail RExc                     (* future::get() rethrows *)
    | Some (Some accepted) =>
      let! x := at_ (g_next s) (N.of_nat chain) in
      let! l := at_ (g_ll s) (N.of_nat chain) in
      let! _ := issue_sample x [(ll_key, PDouble l); (rep_key, PBool (negb accepted)); (chain_key, PUInt chain)] in
      de_issue b generation n_chains n_samples k' (S chain) s
    end
  end.
(** The loop over generations, lines 187-324; at most [fuel] iterations. *)
Fixpoint de_loop (b : build) (fuel : nat) (crossover_gap n_chains n_samples generation : N)
    (current next : list X) (lls : list D) : M unit :=
  match fuel with
  | 0 => fail RLoop
  | S fuel' =>
    if (wrap64 (generation * n_chains) <? n_samples)%N then
      let! s := de_launch crossover_gap generation n_chains n_samples current (N.to_nat n_chains) 0
                          {| g_next := next; g_ll := lls; g_fut := [] |} in
      let! _ := de_issue b generation n_chains n_samples (N.to_nat n_chains) 0 s in
      de_loop b fuel' crossover_gap n_chains n_samples (wrap64 (generation + 1)) (g_next s) (g_next s) (g_ll s)
    else ret tt
  end.
(** Lines 176-177: the initial log likelihoods. *)
Fixpoint de_init (starting_points : list X) : M (list D) :=
  match starting_points with
  | [] => ret []
  | x :: xs => let! l := log_likelihood x in let! ls := de_init xs in ret (l :: ls)
  end.
(** [DifferentialEvaluationMetropolisHastings::sample], differential_evaluation_mh.impl.h:146-325, with
    asynchronous_likelihood_execution = false. *)
Definition de_sample (b : build) (fuel : nat) (starting_points : list X) (crossover_gap n_samples : N) : M unit :=
  let n_chains := N.of_nat (length starting_points) in
  if (match b with Debug => negb (3 <=? n_chains)%N | Release => false end) then fail RAssert else
  with_scope_exit (
    let! lls := de_init starting_points in
    de_loop b fuel crossover_gap n_chains n_samples 0 starting_points starting_points lls).

End Producers.
