(** Model of DifferentialEvaluationMetropolisHastings::sample with asynchronous_likelihood_execution = true: the thread that runs sample() and one task per chain and generation.

    The program of the main thread is a tree ([prog]) of the actions it takes: calls of something outside (as in ProducerModel), accesses to the three vectors it shares with the
    tasks, std::async, std::future::get(), and the destruction of the vector of futures, which waits for all tasks (not deferred ones) because the futures come from
    std::async. A task is a list of phases, each of them one step: the call of log_likelihood, and the accesses to the shared vectors. A schedule picks who makes the next step; when
    std::async is called it also says whether the task is deferred (run by the main thread when it calls get()), which the default launch policy leaves open.

    Memory is sequentially consistent; data races are treated separately (DEConcSpec). The answers of the outside world may depend on the trace (all calls made so far). *)
From Verif Require Import Prelude ProducerModel.
Local Open Scope nat_scope.

(** The type of the answer of each call; [None]: it throws. *)
Definition ansT {X D : Type} (e : event X D) : Type :=
  match e with
  | EIssue _ _ => unit | EFlush => unit | EEval _ => D | EPropose _ _ => (X * D)%type | ECross _ _ _ => X | EUnif => D | EUInt _ => N
  end.
Definition answer {X D} (E : env X D) (t : trace X D) (e : event X D) : option (ansT e) :=
  match e with
  | EIssue x a => if e_issue E t x a then None else Some tt
  | EFlush => if e_flush E t then None else Some tt
  | EEval x => e_ll E t x
  | EPropose x rj => e_prop E t x rj
  | ECross x a b => e_cross E t x a b
  | EUnif => Some (e_unif E t)
  | EUInt hi => Some (e_uint E t hi)
  end.

Inductive prog (X D A : Type) :=
| PRet (r : res A)
| PAsk (e : event X D) (k : option (ansT e) -> prog X D A)
| PCur (i : N) (k : option X -> prog X D A)               (* read current_samples[i] *)
| PNext (i : nat) (k : option X -> prog X D A)            (* read next_samples[i] *)
| PLL (i : nat) (k : option D -> prog X D A)              (* read current_log_likelihoods[i] *)
| PSpawn (chain : nat) (trial : X) (ratio u : D) (k : prog X D A) (* chain_evaluation_results.emplace_back (std::async(task)) *)
| PGet (i : nat) (k : option (option bool) -> prog X D A) (* chain_evaluation_results[i].get() *)
| PCopy (k : prog X D A)                                  (* current_samples = next_samples *)
| PStart (l : list D) (k : prog X D A)                    (* the initial current_log_likelihoods *)
| PJoin (k : prog X D A).                                 (* chain_evaluation_results is destroyed *)
Arguments PRet {X D A}. Arguments PAsk {X D A}. Arguments PCur {X D A}. Arguments PNext {X D A}. Arguments PLL {X D A}. Arguments PSpawn {X D A}.
Arguments PGet {X D A}. Arguments PCopy {X D A}. Arguments PStart {X D A}. Arguments PJoin {X D A}.

(** The phases of a task (lambda function, differential_evaluation_mh.impl.h:248-276). *)
Inductive tphase (X D : Type) :=
| TDeferred                                   (* will be run by get() *)
| TReady                                      (* about to call log_likelihood (line 258) *)
| TCalled (a : option D)                      (* it has answered or thrown; about to read current_log_likelihoods[chain] (261-265) and perhaps current_samples[chain] (273) *)
| TWriteNext (acc : bool) (x : X) (l : option D) (* about to write next_samples[chain] (269 or 273) *)
| TWriteLL (acc : bool) (l : option D)        (* about to write current_log_likelihoods[chain] (270), if accepted *)
| TDone (r : option bool).                    (* the future is ready; [None]: it holds an exception *)
Arguments TDeferred {X D}. Arguments TReady {X D}. Arguments TCalled {X D}. Arguments TWriteNext {X D}. Arguments TWriteLL {X D}. Arguments TDone {X D}.
Record task (X D : Type) := { tk_chain : nat; tk_trial : X; tk_ratio : D; tk_u : D; tk_ph : tphase X D }.
Arguments tk_chain {X D}. Arguments tk_trial {X D}. Arguments tk_ratio {X D}. Arguments tk_u {X D}. Arguments tk_ph {X D}.

Section Model.
Context {X D : Type}.
Variable (O : dops D).
Variable (E : env X D).

(** ** The program of the main thread *)
Section Prog.
Context {A B : Type}.
Fixpoint pthen (p : prog X D A) (k : res A -> prog X D B) : prog X D B :=
  match p with
  | PRet r => k r
  | PAsk e f => PAsk e (fun a => pthen (f a) k)
  | PCur i f => PCur i (fun a => pthen (f a) k)
  | PNext i f => PNext i (fun a => pthen (f a) k)
  | PLL i f => PLL i (fun a => pthen (f a) k)
  | PSpawn c x r u f => PSpawn c x r u (pthen f k)
  | PGet i f => PGet i (fun a => pthen (f a) k)
  | PCopy f => PCopy (pthen f k)
  | PStart l f => PStart l (pthen f k)
  | PJoin f => PJoin (pthen f k)
  end.
Definition pbind (p : prog X D A) (k : A -> prog X D B) : prog X D B :=
  pthen p (fun r => match r with RVal a => k a | RExc => PRet RExc | RUB => PRet RUB | RAssert => PRet RAssert | RTerm => PRet RTerm | RLoop => PRet RLoop end).
End Prog.
Notation "'let!' x := e 'in' k" := (pbind e (fun x => k)) (at level 200, x pattern, k at level 200).
Definition pask (e : event X D) : prog X D (ansT e) := PAsk e (fun a => PRet (match a with Some v => RVal v | None => RExc end)).
Definition pval {A} (o : option A) : prog X D A := PRet (match o with Some x => RVal x | None => RUB end).
Definition pcur (i : N) : prog X D X := PCur i pval.
Definition pnext (i : nat) : prog X D X := PNext i pval.
Definition pll (i : nat) : prog X D D := PLL i pval.

(** Lines 205-239 (see de_trial in ProducerModel). *)
Definition pde_trial (crossover_gap generation n_chains : N) (chain : nat) : prog X D (X * D) :=
  if do_crossover crossover_gap generation then
    let! da := pask (EUInt (minus64 n_chains 2)) in
    let a := partner_a (N.of_nat chain) da in
    let! xa := pcur a in
    let! db := pask (EUInt (minus64 n_chains 3)) in
    let b := partner_b (N.of_nat chain) a db in
    let! xb := pcur b in
    let! xc := pcur (N.of_nat chain) in
    let! c := pask (ECross xc xa xb) in
    pask (EPropose c [])
  else
    let! xc := pcur (N.of_nat chain) in
    pask (EPropose xc []).
(** Lines 197-292, with line 285. *)
Fixpoint pde_launch (crossover_gap generation n_chains n_samples : N) (k chain : nat) : prog X D unit :=
  match k with
  | 0 => PRet (RVal tt)
  | S k' =>
    if (n_samples <=? wrap64 (generation * n_chains + N.of_nat chain))%N then PRet (RVal tt) else
    let! (trial, ratio) := pde_trial crossover_gap generation n_chains chain in
    let! u := pask EUnif in
    PSpawn chain trial ratio u (pde_launch crossover_gap generation n_chains n_samples k' (S chain))
  end.
(** Lines 304-321. *)
Fixpoint pde_issue (b : build) (generation n_chains n_samples : N) (k chain : nat) : prog X D unit :=
  match k with
  | 0 => PRet (RVal tt)
  | S k' =>
    if (n_samples <=? wrap64 (generation * n_chains + N.of_nat chain))%N then PRet (RVal tt) else
    PGet chain (fun o =>
      match o with
      | None => PRet (match b with Debug => RAssert | Release => RUB end)
      | Some None => PRet RExc
      | Some (Some accepted) =>
        let! x := pnext chain in
        let! l := pll chain in
        let! _ := pask (EIssue x [(ll_key, PDouble l); (rep_key, PBool (negb accepted)); (chain_key, PUInt chain)]) in
        pde_issue b generation n_chains n_samples k' (S chain)
      end)
  end.
(** A block at whose end chain_evaluation_results is destroyed, also if an exception passes through (the declaration is in line 192, the end of the block in 324). *)
Definition pscoped {A} (p : prog X D A) : prog X D A :=
  pthen p (fun r => match r with RVal _ | RExc => PJoin (PRet r) | _ => PRet r end).
(** Lines 187-324. *)
Fixpoint pde_loop (b : build) (fuel : nat) (crossover_gap n_chains n_samples generation : N) : prog X D unit :=
  match fuel with
  | 0 => PRet RLoop
  | S fuel' =>
    if (wrap64 (generation * n_chains) <? n_samples)%N then
      let! _ := pscoped (
        let! _ := pde_launch crossover_gap generation n_chains n_samples (N.to_nat n_chains) 0 in
        let! _ := pde_issue b generation n_chains n_samples (N.to_nat n_chains) 0 in
        PCopy (PRet (RVal tt))) in
      pde_loop b fuel' crossover_gap n_chains n_samples (wrap64 (generation + 1))
    else PRet (RVal tt)
  end.
(** Lines 176-177. *)
Fixpoint pde_init (starting_points : list X) : prog X D (list D) :=
  match starting_points with
  | [] => PRet (RVal [])
  | x :: xs => let! l := pask (EEval x) in let! ls := pde_init xs in PRet (RVal (l :: ls))
  end.
(** Utilities::ScopeExit, scope_exit.impl.h:78-91, as in ProducerModel.with_scope_exit. *)
Definition pwith_scope_exit {A} (p : prog X D A) : prog X D A :=
  pthen p (fun r => match r with RVal _ | RExc => PAsk EFlush (fun a => PRet (match a with None => RTerm | Some _ => r end)) | _ => PRet r end).
(** sample(), differential_evaluation_mh.impl.h:146-325. *)
Definition pde_sample (b : build) (fuel : nat) (starting_points : list X) (crossover_gap n_samples : N) : prog X D unit :=
  let n_chains := N.of_nat (length starting_points) in
  if (match b with Debug => negb (3 <=? n_chains)%N | Release => false end) then PRet RAssert else
  pwith_scope_exit (
    let! lls := pde_init starting_points in
    PStart lls (pde_loop b fuel crossover_gap n_chains n_samples 0)).

(** ** Execution *)
(** The shared vectors: current_samples, next_samples, current_log_likelihoods. *)
Record mem := { m_cur : list X; m_next : list X; m_ll : list D }.
Record cstate := { c_mem : mem; c_tasks : list (task X D); c_main : prog X D unit; c_trace : trace X D }.
Definition with_ph (k : task X D) (p : tphase X D) : task X D := {| tk_chain := tk_chain k; tk_trial := tk_trial k; tk_ratio := tk_ratio k; tk_u := tk_u k; tk_ph := p |}.

(** One step of a task. *)
Definition tstep (k : task X D) (m : mem) (t : trace X D) : option (task X D * mem * trace X D) :=
  let c := tk_chain k in
  match tk_ph k with
  | TDeferred | TDone _ => None
  | TReady => Some (with_ph k (TCalled (e_ll E t (tk_trial k))), m, t ++ [EEval (tk_trial k)])
  | TCalled None => Some (with_ph k (TDone None), m, t)
  | TCalled (Some l) =>
    match nth_error (m_cur m) c, nth_error (m_ll m) c with
    | Some cur, Some cur_ll =>
      let '(acc, nx, nl) := de_decide O (tk_trial k) (tk_ratio k) (tk_u k) l cur cur_ll in
      Some (with_ph k (TWriteNext acc nx (if acc then Some nl else None)), m, t)
    | _, _ => None (* out of range; not reachable, as the theorems show *)
    end
  | TWriteNext acc x l => Some (with_ph k (TWriteLL acc l), {| m_cur := m_cur m; m_next := upd (m_next m) c x; m_ll := m_ll m |}, t)
  | TWriteLL acc l =>
    Some (with_ph k (TDone (Some acc)), {| m_cur := m_cur m; m_next := m_next m; m_ll := match l with Some v => upd (m_ll m) c v | None => m_ll m end |}, t)
  end.
(** The destructor of the vector of futures can return. *)
Definition settled (k : task X D) : bool := match tk_ph k with TDone _ | TDeferred => true | _ => false end.
(** One step of the main thread; [im]: std::async starts a thread now. *)
Definition mstep (im : bool) (s : cstate) : option cstate :=
  let go p := {| c_mem := c_mem s; c_tasks := c_tasks s; c_main := p; c_trace := c_trace s |} in
  match c_main s with
  | PRet _ => None
  | PAsk e k => Some {| c_mem := c_mem s; c_tasks := c_tasks s; c_main := k (answer E (c_trace s) e); c_trace := c_trace s ++ [e] |}
  | PCur i k => Some (go (k (nth_error (m_cur (c_mem s)) (N.to_nat i))))
  | PNext i k => Some (go (k (nth_error (m_next (c_mem s)) i)))
  | PLL i k => Some (go (k (nth_error (m_ll (c_mem s)) i)))
  | PSpawn c x r u k => Some {| c_mem := c_mem s; c_tasks := c_tasks s ++ [{| tk_chain := c; tk_trial := x; tk_ratio := r; tk_u := u; tk_ph := if im then TReady else TDeferred |}];
                                c_main := k; c_trace := c_trace s |}
  | PGet i k =>
    match nth_error (c_tasks s) i with
    | None => Some (go (k None))
    | Some tk =>
      match tk_ph tk with
      | TDone r => Some (go (k (Some r)))
      | TDeferred => Some {| c_mem := c_mem s; c_tasks := upd (c_tasks s) i (with_ph tk TReady); c_main := c_main s; c_trace := c_trace s |}
      | _ => None
      end
    end
  | PCopy k => Some {| c_mem := {| m_cur := m_next (c_mem s); m_next := m_next (c_mem s); m_ll := m_ll (c_mem s) |}; c_tasks := c_tasks s; c_main := k; c_trace := c_trace s |}
  | PStart l k => Some {| c_mem := {| m_cur := m_cur (c_mem s); m_next := m_next (c_mem s); m_ll := l |}; c_tasks := c_tasks s; c_main := k; c_trace := c_trace s |}
  | PJoin k => if forallb settled (c_tasks s) then Some {| c_mem := c_mem s; c_tasks := []; c_main := k; c_trace := c_trace s |} else None
  end.
(** [None]: the main thread, [Some i]: task i. *)
Definition cstep (im : bool) (who : option nat) (s : cstate) : option cstate :=
  match who with
  | None => mstep im s
  | Some i =>
    match nth_error (c_tasks s) i with
    | None => None
    | Some k =>
      match tstep k (c_mem s) (c_trace s) with
      | None => None
      | Some (k', m', t') => Some {| c_mem := m'; c_tasks := upd (c_tasks s) i k'; c_main := c_main s; c_trace := t' |}
      end
    end
  end.
Fixpoint crun (sched : list (option nat * bool)) (s : cstate) : cstate :=
  match sched with
  | [] => s
  | (who, im) :: r => match cstep im who s with None => crun r s | Some s' => crun r s' end
  end.
Definition cinit (b : build) (fuel : nat) (starting_points : list X) (crossover_gap n_samples : N) : cstate :=
  {| c_mem := {| m_cur := starting_points; m_next := starting_points; m_ll := [] |}; c_tasks := []; c_main := pde_sample b fuel starting_points crossover_gap n_samples; c_trace := [] |}.
End Model.
Arguments m_cur {X D}. Arguments m_next {X D}. Arguments m_ll {X D}. Arguments c_mem {X D}. Arguments c_tasks {X D}. Arguments c_main {X D}. Arguments c_trace {X D}.
