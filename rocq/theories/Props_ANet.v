(** Properties C53, C54 and C62: whole networks of filters and consumers in synchronous and asynchronous mode, and exceptions in them. *)
From Coq Require Import Permutation.
From Verif Require Import Prelude ANetModel ANetSpec ANetTop ANetTerm.
Local Open Scope nat_scope.

(** The network of the examples: producer 0 with filter 1 in asynchronous mode and consumer 2 in synchronous mode; the filter has consumer 2 in asynchronous and consumer 3 in synchronous mode. The filter
    lets even numbers pass and adds 10. [exA]: tasks are run on threads of their own, [exB]: tasks are deferred until somebody waits for them. *)
Definition net : list edge :=
  [{| g_from := 0; g_to := 1; g_mode := Async |}; {| g_from := 1; g_to := 2; g_mode := Async |}; {| g_from := 0; g_to := 2; g_mode := Sync |}; {| g_from := 1; g_to := 3; g_mode := Sync |}].
Definition net_sync : list edge := map (fun e => {| g_from := g_from e; g_to := g_to e; g_mode := Sync |}) net.
Definition add10 (c : nat) : option (nat -> option nat) := if c =? 1 then Some (fun x => if Nat.even x then Some (x + 10) else None) else None.
Definition go (im : bool) : choice := {| immediately := im; throws := false |}.
Definition boom : choice := {| immediately := true; throws := true |}.
Definition rr (n m : nat) (im : bool) : list (nat * choice) := concat (repeat (map (fun t => (t, go im)) (seq 0 m)) n).
Definition prog : list (list (op nat)) := [[OSend 0 4; OSend 0 3; OFlushConsumers 0]].
Definition exA := run net (@stateless nat unit add10) (rr 80 7 true) (initial (fun _ => tt) prog).
Definition exB := run net (@stateless nat unit add10) (rr 80 7 false) (initial (fun _ => tt) prog).
Definition exS := run net_sync (@stateless nat unit add10) (rr 80 1 false) (initial (fun _ => tt) prog).
(** Two threads that send, one that flushes the filter, and a filter with a member variable: it lets every second sample pass. *)
Definition every2nd (c : nat) : option (nat -> nat -> nat * option nat) := if c =? 1 then Some (fun v x => (S v, if Nat.even v then Some x else None)) else None.
Definition exC := run net every2nd (repeat (0, go false) 20 ++ rr 80 8 true) (initial (fun _ => 0) [[OSend 0 4]; [OSend 0 5]; [OFlush 1]]).

(** C53: let a call of flush_consumers() of a producer or filter, or of flush() of a filter or consumer, be made after [tr1] and return after [tr2] more events. Take a sample for whatever
    became of which that call has to wait ([waits_for]: the call of issue_sample() or of consume() that sent it off was over in [tr1]). Then whatever it has become after passing any further connections [r], all calls of
    consume() begun for it have ended at that time, and nothing is issued, begun or ended for it afterwards. *)
Theorem C53_completely_consumed :
  forall (X St : Type) (edges : list edge) (filt : nat -> option (St -> X -> St * option X)) (s0 : nat -> St) (programs : list (list (op X)))
    (sched : list (nat * choice)) (tr : list (event X)) (s : state X St) (tr1 : list (event X)) (t n : nat) (f : op X) (tr2 : list (event X)) (t' : nat) (f' : op X) (tr3 : list (event X)) (o : nat) (b : list nat),
  run edges filt sched (initial s0 programs) = (tr, s) -> tr = tr1 ++ ECall t n f :: tr2 ++ EReturn t' n f' :: tr3 -> waits_for edges tr1 f (o, b) ->
  forall r, times (starts (o, r ++ b)) (tr1 ++ ECall t n f :: tr2) = times (finishes (o, r ++ b)) (tr1 ++ ECall t n f :: tr2) /\ forall e, In e tr3 -> ~ about (o, r ++ b) e.
Proof. exact (@completely_consumed). Qed.
Print Assumptions C53_completely_consumed.
(** C53: in particular, what a thread has sent before it calls flush_consumers() of the same producer, as all sample() functions do at the end, has been completely processed by the whole network. *)
Theorem C53_own_samples :
  forall (X St : Type) (edges : list edge) (filt : nat -> option (St -> X -> St * option X)) (s0 : nat -> St) (programs : list (list (op X)))
    (sched : list (nat * choice)) (tr : list (event X)) (s : state X St) (tr1 : list (event X)) (t n p : nat) (tr2 tr3 : list (event X)) (o : nat) (x : X),
  run edges filt sched (initial s0 programs) = (tr, s) -> tr = tr1 ++ ECall t n (OFlushConsumers p) :: tr2 ++ EReturn t n (OFlushConsumers p) :: tr3 -> In (ECall t o (OSend p x)) tr1 ->
  forall r, times (starts (o, r)) (tr1 ++ ECall t n (OFlushConsumers p) :: tr2) = times (finishes (o, r)) (tr1 ++ ECall t n (OFlushConsumers p) :: tr2) /\ forall e, In e tr3 -> ~ about (o, r) e.
Proof. exact (@own_samples). Qed.
Print Assumptions C53_own_samples.
(** C53: and what any producer or filter issued on the way has by then been given, exactly once and unchanged, to each consumer connected to it, if nothing has been thrown on behalf of this sample (see C62 otherwise). *)
Theorem C53_delivered_over_every_connection :
  forall (X St : Type) (edges : list edge) (filt : nat -> option (St -> X -> St * option X)) (s0 : nat -> St) (programs : list (list (op X)))
    (sched : list (nat * choice)) (tr : list (event X)) (s : state X St) (tr1 : list (event X)) (t n : nat) (f : op X) (tr2 : list (event X)) (t' : nat) (f' : op X) (tr3 : list (event X)) (o : nat) (b : list nat),
  run edges filt sched (initial s0 programs) = (tr, s) -> tr = tr1 ++ ECall t n f :: tr2 ++ EReturn t' n f' :: tr3 -> waits_for edges tr1 f (o, b) -> no_exception o (tr1 ++ ECall t n f :: tr2) ->
  forall r t0 p y a e, In (EIssue t0 (o, r ++ b) p y) tr -> nth_error edges a = Some e -> g_from e = p ->
  times (starts (o, a :: r ++ b)) (tr1 ++ ECall t n f :: tr2) = 1 /\ exists t1, In (EStart t1 (o, a :: r ++ b) (g_to e) y) (tr1 ++ ECall t n f :: tr2).
Proof. exact (@delivered). Qed.
Print Assumptions C53_delivered_over_every_connection.
(** C53: and every filter has issued by then exactly what its filter() function, applied to the samples it was given in the order it was given them, returned. *)
Theorem C53_filters_respond :
  forall (X St : Type) (edges : list edge) (filt : nat -> option (St -> X -> St * option X)) (s0 : nat -> St) (programs : list (list (op X)))
    (sched : list (nat * choice)) (tr : list (event X)) (s : state X St) (tr1 : list (event X)) (t n : nat) (f : op X) (tr2 : list (event X)) (t' : nat) (f' : op X) (tr3 : list (event X)) (o : nat) (b : list nat),
  run edges filt sched (initial s0 programs) = (tr, s) -> tr = tr1 ++ ECall t n f :: tr2 ++ EReturn t' n f' :: tr3 -> waits_for edges tr1 f (o, b) ->
  forall r c g y, r ++ b <> [] -> filt c = Some g ->
  ((exists t0, In (EIssue t0 (o, r ++ b) c y) (tr1 ++ ECall t n f :: tr2)) <-> In ((o, r ++ b), y) (snd (replay g c (s0 c) (tr1 ++ ECall t n f :: tr2)))).
Proof. exact (@filtered). Qed.
Print Assumptions C53_filters_respond.
(** C53: at all times, flushed or not, nothing is given to anybody or issued twice over the same connections. *)
Theorem C53_at_most_once :
  forall (X St : Type) (edges : list edge) (filt : nat -> option (St -> X -> St * option X)) (s0 : nat -> St) (programs : list (list (op X)))
    (sched : list (nat * choice)) (tr : list (event X)) (s : state X St) (l : nat * list nat),
  run edges filt sched (initial s0 programs) = (tr, s) -> times (starts l) tr <= 1 /\ times (issues l) tr <= 1 /\ times (finishes l) tr <= times (starts l) tr.
Proof. exact (@at_most_once). Qed.
Print Assumptions C53_at_most_once.
(** C53: if filters have no member variables, then when flush_consumers() returns the sample has reached exactly those places that [arrives] computes from the connections and the filters, once each and with the value computed there. *)
Theorem C53_every_trail_once :
  forall (X : Type) (edges : list edge) (g : nat -> option (X -> option X)) (programs : list (list (op X)))
    (sched : list (nat * choice)) (tr : list (event X)) (s : state X unit) (tr1 : list (event X)) (t n p : nat) (tr2 : list (event X)) (t' : nat) (f' : op X) (tr3 : list (event X)) (o : nat) (x : X),
  run edges (stateless g) sched (initial (fun _ => tt) programs) = (tr, s) -> tr = tr1 ++ ECall t n (OFlushConsumers p) :: tr2 ++ EReturn t' n f' :: tr3 -> sent tr1 o p x -> over tr1 o [] p -> no_exception o (tr1 ++ ECall t n (OFlushConsumers p) :: tr2) ->
  forall r, times (starts (o, r)) (tr1 ++ ECall t n (OFlushConsumers p) :: tr2) = match arrives edges g p x r with Some _ => 1 | None => 0 end /\
    forall c y, (exists t0, In (EStart t0 (o, r) c y) (tr1 ++ ECall t n (OFlushConsumers p) :: tr2)) <-> arrives edges g p x r = Some (c, y).
Proof. exact (@every_trail_once). Qed.
Print Assumptions C53_every_trail_once.
(** C53: so the same sample sent into two networks that differ in the modes of their connections only (whatever else the threads do, and in whatever order) reaches the same consumers with the same values, as often. *)
Theorem C53_mode_irrelevant :
  forall (X : Type) (edges edges' : list edge) (g : nat -> option (X -> option X)) (programs programs' : list (list (op X)))
    (sched sched' : list (nat * choice)) (tr : list (event X)) (s : state X unit) (tr' : list (event X)) (s' : state X unit)
    (tr1 : list (event X)) (t n p : nat) (tr2 : list (event X)) (t1 : nat) (f1 : op X) (tr3 : list (event X)) (o : nat) (x : X)
    (tr1' : list (event X)) (t' n' : nat) (tr2' : list (event X)) (t1' : nat) (f1' : op X) (tr3' : list (event X)) (o' : nat),
  same_connections edges edges' ->
  run edges (stateless g) sched (initial (fun _ => tt) programs) = (tr, s) -> tr = tr1 ++ ECall t n (OFlushConsumers p) :: tr2 ++ EReturn t1 n f1 :: tr3 -> sent tr1 o p x -> over tr1 o [] p -> no_exception o (tr1 ++ ECall t n (OFlushConsumers p) :: tr2) ->
  run edges' (stateless g) sched' (initial (fun _ => tt) programs') = (tr', s') -> tr' = tr1' ++ ECall t' n' (OFlushConsumers p) :: tr2' ++ EReturn t1' n' f1' :: tr3' -> sent tr1' o' p x -> over tr1' o' [] p -> no_exception o' (tr1' ++ ECall t' n' (OFlushConsumers p) :: tr2') ->
  Permutation (consumed_from o tr) (consumed_from o' tr').
Proof. exact (@mode_irrelevant). Qed.
Print Assumptions C53_mode_irrelevant.

(** Nothing at all has been thrown. *)
Definition calm (tr : list (event nat)) : bool := forallb (fun e => match e with EFail _ _ _ _ | ERefuse _ _ _ => false | _ => true end) tr.
Lemma quiet_example : forall o tr, calm tr = true -> no_exception o tr.
Proof. intros o tr H b [(t & c & x & HI)|(a & t & c & HI)]; unfold calm in H; rewrite forallb_forall in H; specialize (H _ HI); discriminate. Qed.
Example C53_example : exists before during after, fst exB = before ++ ECall 0 2 (OFlushConsumers 0) :: during ++ EReturn 0 2 (OFlushConsumers 0) :: after /\
  In (ECall 0 0 (OSend 0 4)) before /\ sent before 0 0 4 /\ over before 0 [] 0 /\ waits_for net before (OFlushConsumers 0) (0, []) /\ no_exception 0 (before ++ ECall 0 2 (OFlushConsumers 0) :: during) /\
  times (starts (0, [1; 0])) before = 0 /\ times (finishes (0, [1; 0])) during = 1 /\ times (finishes (0, [0])) during = 1 /\ times (starts (1, [0])) during = 1 /\ times (issues (1, [0])) during = 0 /\
  arrives net add10 0 4 [1; 0] = Some (2, 14) /\ arrives net add10 0 4 [2] = Some (2, 4) /\ arrives net add10 0 4 [3; 0] = Some (3, 14) /\ arrives net add10 0 3 [1; 0] = None.
Proof.
  exists (firstn 24 (fst exB)), (firstn (length (fst exB) - 26) (skipn 25 (fst exB))), [].
  split; [vm_compute; reflexivity|]. split; [vm_compute; auto|]. split; [exists 0; vm_compute; auto|]. split; [exists 0, 4; vm_compute; auto 30|]. split; [exists 0, 4; vm_compute; auto 30|].
  split; [apply quiet_example; vm_compute; reflexivity|].
  vm_compute; repeat split; reflexivity.
Qed.
Example C53_modes_example : same_connections net net_sync /\ consumed_from 0 (fst exA) = [([0], (1, 4)); ([1; 0], (2, 14)); ([2], (2, 4)); ([3; 0], (3, 14))] /\
  consumed_from 0 (fst exS) = [([0], (1, 4)); ([1; 0], (2, 14)); ([3; 0], (3, 14)); ([2], (2, 4))] /\ In (EReturn 0 2 (OFlushConsumers 0)) (fst exA) /\ In (EReturn 0 2 (OFlushConsumers 0)) (fst exS).
Proof. split; [reflexivity|]. split; [vm_compute; reflexivity|]. split; [vm_compute; reflexivity|]. split; vm_compute; auto 200. Qed.
(** flush() of the filter, called by another thread while the second sample is on its way to it: the first one is waited for, all the way to the consumers. *)
Example C53_filter_example : exists before during after, fst exC = before ++ ECall 2 2 (OFlush 1) :: during ++ EReturn 2 2 (OFlush 1) :: after /\
  waits_for net before (OFlush 1) (0, [0]) /\ times (finishes (0, [1; 0])) during = 1 /\ In (EIssue 3 (0, [0]) 1 4) during /\
  snd (replay (fun v x => (S v, if Nat.even v then Some x else None)) 1 0 (before ++ ECall 2 2 (OFlush 1) :: during)) = [((0, [0]), 4)] /\ times (starts (1, [0])) during = 1.
Proof.
  exists (firstn 13 (fst exC)), (firstn (length (fst exC) - 16) (skipn 14 (fst exC))), (skipn (length (fst exC) - 1) (fst exC)).
  split; [vm_compute; reflexivity|]. split.
  - exists 0, [], {| g_from := 0; g_to := 1; g_mode := Async |}, 0, 4. split; [reflexivity|]. split; [reflexivity|]. split; [reflexivity|]. split; [vm_compute; auto|exists 0, 4; vm_compute; auto 30].
  - vm_compute; repeat split; auto 50.
Qed.

(** C54: in a network without cycles some thread can always take a step, unless all calls have returned or thrown; whatever has thrown so far, and whatever std::async, consume() and filter() do next. *)
Theorem C54_no_deadlock :
  forall (X St : Type) (edges : list edge) (filt : nat -> option (St -> X -> St * option X)) (s0 : nat -> St) (programs : list (list (op X))), acyclic edges ->
  forall (sched : list (nat * choice)) (tr : list (event X)) (s : state X St) (im : choice), run edges filt sched (initial s0 programs) = (tr, s) ->
  (exists t, step edges filt im t s <> None) \/ forall t, t < length programs -> nth_error (a_threads s) t = Some [].
Proof. exact (@no_deadlock). Qed.
Print Assumptions C54_no_deadlock.
(** C54: there is a bound on the number of steps that does not depend on the schedule: nobody spins or passes samples around forever. *)
Theorem C54_bounded :
  forall (X St : Type) (edges : list edge) (filt : nat -> option (St -> X -> St * option X)) (s0 : nat -> St) (programs : list (list (op X))), acyclic edges ->
  exists N, forall (sched : list (nat * choice)) (tr : list (event X)) (s : state X St), run edges filt sched (initial s0 programs) = (tr, s) -> length tr <= N.
Proof. exact (@bounded). Qed.
Print Assumptions C54_bounded.
(** C54: so whatever has happened, the threads can be brought to the end of all their calls. *)
Theorem C54_can_be_completed :
  forall (X St : Type) (edges : list edge) (filt : nat -> option (St -> X -> St * option X)) (s0 : nat -> St) (programs : list (list (op X))), acyclic edges ->
  forall (sched : list (nat * choice)) (tr : list (event X)) (s : state X St) (im : choice), run edges filt sched (initial s0 programs) = (tr, s) ->
  exists sched' tr' s', run edges filt (map (fun t => (t, im)) sched') s = (tr', s') /\ forall t, t < length programs -> nth_error (a_threads s') t = Some [].
Proof. exact (@can_be_completed). Qed.
Print Assumptions C54_can_be_completed.
Example C54_example : acyclic net /\ a_threads (snd exA) = [[]; []; []; []] /\ a_threads (snd exC) = [[]; []; []; []; []; []] /\ length (fst exB) = 69.
Proof.
  split; [|vm_compute; repeat split; reflexivity]. exists (fun c => c). intros e [<-|[<-|[<-|[<-|[]]]]]; cbn; lia.
Qed.

(** C62: a call of issue_sample() that has ended has thrown if and only if consume() or filter() or std::async threw on its behalf at a place that the sample had reached over synchronous connections only. Calls of flush_consumers()
    and flush() never throw. *)
Theorem C62_issue_sample_throws :
  forall (X St : Type) (edges : list edge) (filt : nat -> option (St -> X -> St * option X)) (s0 : nat -> St) (programs : list (list (op X)))
    (sched : list (nat * choice)) (tr : list (event X)) (s : state X St) (t n : nat) (o : op X),
  run edges filt sched (initial s0 programs) = (tr, s) -> In (EReturn t n o) tr \/ In (EThrew t n o) tr ->
  (In (EThrew t n o) tr <-> exists b, synchronous edges b /\ raised tr n b) /\ (In (EThrew t n o) tr -> exists p x, o = OSend p x).
Proof. exact (@call_throws). Qed.
Print Assumptions C62_issue_sample_throws.
(** C62: in the same way a call of consume(), on the thread of the caller or in a task, is left by an exception if and only if the exception was thrown by itself, or by something it called through synchronous connections only. What is thrown in a task
    goes nowhere else. *)
Theorem C62_consume_throws :
  forall (X St : Type) (edges : list edge) (filt : nat -> option (St -> X -> St * option X)) (s0 : nat -> St) (programs : list (list (op X)))
    (sched : list (nat * choice)) (tr : list (event X)) (s : state X St) (t o a : nat) (b : list nat) (q : nat),
  run edges filt sched (initial s0 programs) = (tr, s) -> In (EEnd t (o, a :: b) q) tr \/ In (EAbort t (o, a :: b) q) tr ->
  (In (EAbort t (o, a :: b) q) tr <-> exists c, synchronous edges c /\ raised tr o (c ++ a :: b)).
Proof. exact (@consume_throws). Qed.
Print Assumptions C62_consume_throws.
(** C62: when the flush call of C53 returns, whatever a producer or filter has issued has been given exactly once to each consumer connected to it, except for those that it cannot reach because of an exception ([hindered]: std::async has thrown
    for this connection, or the slot of a connection made earlier was left by an exception): these are never given it. *)
Theorem C62_exceptions_hinder_later_connections_only :
  forall (X St : Type) (edges : list edge) (filt : nat -> option (St -> X -> St * option X)) (s0 : nat -> St) (programs : list (list (op X)))
    (sched : list (nat * choice)) (tr : list (event X)) (s : state X St) (tr1 : list (event X)) (t n : nat) (f : op X) (tr2 : list (event X)) (t' : nat) (f' : op X) (tr3 : list (event X)) (o : nat) (b : list nat),
  run edges filt sched (initial s0 programs) = (tr, s) -> tr = tr1 ++ ECall t n f :: tr2 ++ EReturn t' n f' :: tr3 -> waits_for edges tr1 f (o, b) ->
  forall r t0 p y a e, In (EIssue t0 (o, r ++ b) p y) tr -> nth_error edges a = Some e -> g_from e = p ->
  (~ hindered edges (tr1 ++ ECall t n f :: tr2) o a (r ++ b) /\ times (starts (o, a :: r ++ b)) (tr1 ++ ECall t n f :: tr2) = 1 /\ given_to (tr1 ++ ECall t n f :: tr2) (o, a :: r ++ b) (g_to e) y) \/
  (hindered edges (tr1 ++ ECall t n f :: tr2) o a (r ++ b) /\ times (starts (o, a :: r ++ b)) tr = 0).
Proof. exact (@served). Qed.
Print Assumptions C62_exceptions_hinder_later_connections_only.
(** Producer 0 with filter 1, consumer 2 (both synchronous) and consumer 4 (asynchronous); the filter has consumer 3 (synchronous). Consumer 3 throws for the first sample, consumer 4, in its task, for the second one. *)
Definition net2 : list edge :=
  [{| g_from := 0; g_to := 1; g_mode := Sync |}; {| g_from := 0; g_to := 4; g_mode := Async |}; {| g_from := 1; g_to := 3; g_mode := Sync |}; {| g_from := 0; g_to := 2; g_mode := Sync |}].
Definition exT := run net2 (@stateless nat unit add10) (repeat (0, go true) 6 ++ [(0, boom)] ++ repeat (0, go true) 30 ++ [(1, boom)] ++ rr 40 3 true) (initial (fun _ => tt) [[OSend 0 4; OSend 0 6; OFlushConsumers 0]]).
Example C62_example : exists before during after, fst exT = before ++ ECall 0 2 (OFlushConsumers 0) :: during ++ EReturn 0 2 (OFlushConsumers 0) :: after /\
  waits_for net2 before (OFlushConsumers 0) (0, []) /\ waits_for net2 before (OFlushConsumers 0) (1, []) /\
  In (EFail 0 (0, [2; 0]) 3 14) before /\ In (EAbort 0 (0, [2; 0]) 3) before /\ In (EAbort 0 (0, [0]) 1) before /\ In (EThrew 0 0 (OSend 0 4)) before /\ In (EIssue 0 (0, []) 0 4) before /\
  hindered net2 (before ++ ECall 0 2 (OFlushConsumers 0) :: during) 0 1 [] /\ hindered net2 (before ++ ECall 0 2 (OFlushConsumers 0) :: during) 0 3 [] /\
  times (starts (0, [1])) (fst exT) = 0 /\ times (starts (0, [3])) (fst exT) = 0 /\
  In (EFail 1 (1, [1]) 4 6) during /\ In (EAbort 1 (1, [1]) 4) during /\ In (EReturn 0 1 (OSend 0 6)) before /\ times (starts (1, [2; 0])) before = 1 /\ times (starts (1, [3])) before = 1.
Proof.
  exists (firstn 31 (fst exT)), (firstn (length (fst exT) - 33) (skipn 32 (fst exT))), [].
  split; [vm_compute; reflexivity|]. split; [exists 0, 4; vm_compute; auto 60|]. split; [exists 0, 6; vm_compute; auto 60|].
  assert (SY : synchronous net2 [0]) by (constructor; [eexists; split; [reflexivity|reflexivity]|constructor]).
  split; [vm_compute; auto 60|]. split; [vm_compute; auto 60|]. split; [vm_compute; auto 60|]. split; [vm_compute; auto 60|]. split; [vm_compute; auto 60|].
  split; [right; exists 0; split; [lia|left; split; [exact SY|exists 0, 1; vm_compute; auto 60]]|].
  split; [right; exists 0; split; [lia|left; split; [exact SY|exists 0, 1; vm_compute; auto 60]]|].
  split; [vm_compute; reflexivity|]. split; [vm_compute; reflexivity|]. split; [vm_compute; auto 60|]. split; [vm_compute; auto 60|]. split; [vm_compute; auto 60|]. split; vm_compute; reflexivity.
Qed.
