(** Property theorems about a consumer used by several threads (C33 - C37, C44, C49 - C51). Every theorem is about [run], that is about all schedules: any number of
    threads, each making any calls, interleaved in any way, with std::async free to start a thread or to defer, and with both treatments of waiting
    writers of std::shared_mutex ([pw]). *)
From Verif Require Import Prelude ConcModel ConcSpec ConcTop ConcBad ConcWitness ConcSafe ConcServe.
Local Open Scope nat_scope.

(** Round robin over [m] threads, used in the examples. *)
Definition rr (n m : nat) : list (nat * bool) := concat (repeat (map (fun t => (t, true)) (seq 0 m)) n).
Definition ex1 := run Debug false (fun _ : nat => []) (repeat (0, true) 12 ++ rr 40 3) (initial [(0, 0, KAsync)] 1 [[OSend 0 7; OSend 0 8]; [ODisconnectFlush]]).
Definition ex2 := run Debug true (fun _ : nat => []) (rr 30 3) (initial [(0, 0, KSync)] 1 [[OSend 0 7]; [OSend 0 8]; [OFlush]]).
Definition ex3 := run Release false (fun _ : nat => []) (repeat (0, false) 14 ++ repeat (1, false) 30 ++ repeat (0, false) 20)
  (initial [(0, 0, KAsync)] 1 [[OSend 0 7; OSend 0 8]; [OFlush]]).

(** C33: between a call of disconnect_and_flush() (or of a consumer's destructor, which starts with it) and its return, no other connection being made from then on:
    after the return no call of consume() starts, and every call that has ever been started has ended before the return. *)
Theorem C33_silent_after_disconnect :
  forall (X : Type) (b : build) (pw : bool) (body : X -> list (op X)) (conns : list (nat * nat * kind)) (q : nat) (programs : list (list (op X)))
    (sched : list (nat * bool)) (before during after : list (event X)) (s : state X) (t : nat) (o : op X),
  run b pw body sched (initial conns q programs) = (before ++ ECall t o :: during ++ EReturn t o :: after, s) ->
  disconnecting o = true -> none any_insert (during ++ after) ->
  none any_start after /\ forall d, times (started d) (before ++ during) = times (ended d) (before ++ during).
Proof. exact (@top_silent). Qed.
Print Assumptions C33_silent_after_disconnect.
Example C33_example : exists before during after, fst ex1 = before ++ ECall 1 ODisconnectFlush :: during ++ EReturn 1 ODisconnectFlush :: after /\
  none any_insert (during ++ after) /\ times any_start during = 1 /\ times any_drop during = 1.
Proof.
  exists (firstn 13 (fst ex1)), (firstn 19 (skipn 14 (fst ex1))), (skipn 34 (fst ex1)). split; [vm_compute; reflexivity|].
  split; [apply none_intro|split]; vm_compute; reflexivity.
Qed.

(** C34: what has been accepted in asynchronous mode before flush() was called, or even before it acquired its lock, has been consumed when flush() returns. *)
Theorem C34_flush_waits :
  forall (X : Type) (b : build) (pw : bool) (body : X -> list (op X)) (conns : list (nat * nat * kind)) (q : nat) (programs : list (list (op X)))
    (sched : list (nat * bool)) (before during after : list (event X)) (s : state X) (t : nat) (o : op X) (d : nat),
  run b pw body sched (initial conns q programs) = (before ++ ECall t o :: during ++ EReturn t o :: after, s) ->
  flushing o = true -> (exists u x, In (EDeliver u d KAsync x) before) -> (exists u, In (EAccept u d) before) ->
  exists u, In (EEnd u d) (before ++ during).
Proof. exact (@top_flush). Qed.
Print Assumptions C34_flush_waits.
Theorem C34_flush_waits_lock :
  forall (X : Type) (b : build) (pw : bool) (body : X -> list (op X)) (conns : list (nat * nat * kind)) (q : nat) (programs : list (list (op X)))
    (sched : list (nat * bool)) (before during after : list (event X)) (s : state X) (t : nat) (o : op X) (d : nat),
  run b pw body sched (initial conns q programs) = (before ++ EFlushLocked t :: during ++ EReturn t o :: after, s) ->
  flushing o = true -> (exists u x, In (EDeliver u d KAsync x) before) -> (exists u, In (EAccept u d) before) ->
  exists u, In (EEnd u d) (before ++ during).
Proof. exact (@top_flush_locked). Qed.
Print Assumptions C34_flush_waits_lock.
(** C34: flush_consumers() of a producer to which the consumer is connected does the same. *)
Theorem C34_flush_consumers_waits :
  forall (X : Type) (b : build) (pw : bool) (body : X -> list (op X)) (conns : list (nat * nat * kind)) (q : nat) (programs : list (list (op X)))
    (sched : list (nat * bool)) (before during after : list (event X)) (s : state X) (t p d : nat) (m : kind),
  run b pw body sched (initial conns q programs) = (before ++ ECall t (OFlushConsumers p) :: during ++ EReturn t (OFlushConsumers p) :: after, s) ->
  none any_removal (before ++ during) -> none (calls_or_returns t) during ->
  1 <= existing p m conns + times (connect_returned p m) before ->
  (exists u x, In (EDeliver u d KAsync x) before) -> (exists u, In (EAccept u d) before) -> exists u, In (EEnd u d) (before ++ during).
Proof. exact (@top_flush_consumers). Qed.
Print Assumptions C34_flush_consumers_waits.
Definition ex5 := run Release false (fun _ : nat => []) (repeat (0, false) 19 ++ repeat (1, false) 30 ++ repeat (0, false) 20)
  (initial [] 1 [[OConnect 5 KAsync; OSend 5 7; OSend 5 8]; [OFlushConsumers 5]]).
Example C34_flush_consumers_example : exists before during after, fst ex5 = before ++ ECall 1 (OFlushConsumers 5) :: during ++ EReturn 1 (OFlushConsumers 5) :: after /\
  times any_removal (before ++ during) = 0 /\ times (calls_or_returns 1) during = 0 /\ times (connect_returned 5 KAsync) before = 1 /\
  In (EDeliver 0 0 KAsync 7) before /\ In (EAccept 0 0) before /\ In (EEnd 1 0) during.
Proof.
  exists (firstn 19 (fst ex5)), (firstn 10 (skipn 20 (fst ex5))), (skipn 31 (fst ex5)). split; [vm_compute; reflexivity|]. vm_compute. auto 30.
Qed.
(** ... here with a deferred task, run by flush() itself; the second sample, accepted only after flush() has returned, is not waited for. *)
Example C34_example : exists before during after, fst ex3 = before ++ ECall 1 OFlush :: during ++ EReturn 1 OFlush :: after /\
  In (EDeliver 0 0 KAsync 7) before /\ In (EAccept 0 0) before /\ In (EEnd 1 0) during /\ In (EDeliver 0 1 KAsync 8) before /\ In (EAccept 0 1) after.
Proof.
  exists (firstn 14 (fst ex3)), (firstn 8 (skipn 15 (fst ex3))), (skipn 24 (fst ex3)). split; [vm_compute; reflexivity|]. vm_compute. auto 30.
Qed.

(** C35: every delivery is consumed or dropped, at most once altogether, and consume() ends at most once. *)
Theorem C35_at_most_once :
  forall (X : Type) (b : build) (pw : bool) (body : X -> list (op X)) (conns : list (nat * nat * kind)) (q : nat) (programs : list (list (op X)))
    (sched : list (nat * bool)) (tr : list (event X)) (s : state X) (d : nat),
  run b pw body sched (initial conns q programs) = (tr, s) ->
  times (delivered d) tr <= 1 /\ times (started d) tr + times (dropped d) tr <= times (delivered d) tr /\ times (ended d) tr <= times (started d) tr.
Proof. exact (@top_once). Qed.
Print Assumptions C35_at_most_once.
(** C35: consume() is given the sample (and auxiliary data) that was delivered, in synchronous mode on the thread that sent it. *)
Theorem C35_own_sample :
  forall (X : Type) (b : build) (pw : bool) (body : X -> list (op X)) (conns : list (nat * nat * kind)) (q : nat) (programs : list (list (op X)))
    (sched : list (nat * bool)) (tr : list (event X)) (s : state X) (u d : nat) (y : X),
  run b pw body sched (initial conns q programs) = (tr, s) -> In (EStart u d y) tr ->
  exists t m, In (EDeliver t d m y) tr /\ (m = KSync -> u = t) /\ forall t' m' x, In (EDeliver t' d m' x) tr -> x = y.
Proof. exact (@top_same). Qed.
Print Assumptions C35_own_sample.
(** C35: nothing is dropped by a consumer that stays connected. *)
Theorem C35_connected_drops_nothing :
  forall (X : Type) (b : build) (pw : bool) (body : X -> list (op X)) (conns : list (nat * nat * kind)) (q : nat) (programs : list (list (op X)))
    (sched : list (nat * bool)) (tr : list (event X)) (s : state X),
  run b pw body sched (initial conns q programs) = (tr, s) -> conns <> [] -> none any_erase tr -> none any_drop tr.
Proof. exact (@top_no_drop). Qed.
Print Assumptions C35_connected_drops_nothing.
(** C35: a call that sends a sample hands it to every connection to that producer made before the call, once each and in the mode of that connection, to no other connection than
    those and the ones being made during the call, and hands out no other sample (as long as nothing is disconnected or destroyed and consume() makes no calls). *)
Theorem C35_every_connection :
  forall (X : Type) (b : build) (pw : bool) (body : X -> list (op X)) (conns : list (nat * nat * kind)) (q : nat) (programs : list (list (op X)))
    (sched : list (nat * bool)) (before during after : list (event X)) (s : state X) (t p : nat) (x : X),
  run b pw body sched (initial conns q programs) = (before ++ ECall t (OSend p x) :: during ++ EReturn t (OSend p x) :: after, s) ->
  none any_removal (before ++ during) -> none (calls_or_returns t) during ->
  (forall m, existing p m conns + times (connect_returned p m) before <= times (given t m) during <= existing p m conns + times (connect_called p m) (before ++ during)) /\
  (forall d m y, In (EDeliver t d m y) during -> y = x).
Proof. exact (@top_serves). Qed.
Print Assumptions C35_every_connection.
Definition ex6 := run Release false (fun _ : nat => []) (repeat (0, true) 11 ++ repeat (1, true) 50 ++ rr 30 5)
  (initial [(0, 5, KSync); (1, 4, KSync); (2, 5, KAsync)] 1 [[OConnect 5 KAsync; OConnect 5 KSync; OConnect 4 KSync]; [OSend 5 7]]).
Example C35_every_connection_example : exists before during after, fst ex6 = before ++ ECall 1 (OSend 5 7) :: during ++ EReturn 1 (OSend 5 7) :: after /\
  times any_removal (before ++ during) = 0 /\ times (calls_or_returns 1) during = 0 /\
  times (connect_returned 5 KAsync) before = 1 /\ times (given 1 KAsync) during = 2 /\ times (connect_called 5 KSync) before = 1 /\ times (given 1 KSync) during = 2.
Proof.
  exists (firstn 11 (fst ex6)), (firstn 29 (skipn 12 (fst ex6))), (skipn 42 (fst ex6)). split; vm_compute; auto 30.
Qed.
(** C35: when all threads have finished, every delivery has been consumed exactly once or dropped exactly once (if tasks are not deferred: those wait for the next flush). *)
Theorem C35_exactly_once_at_the_end :
  forall (X : Type) (b : build) (pw : bool) (body : X -> list (op X)) (conns : list (nat * nat * kind)) (q : nat) (programs : list (list (op X)))
    (sched : list (nat * bool)) (tr : list (event X)) (s : state X) (t d : nat) (m : kind) (x : X),
  run b pw body sched (initial conns q programs) = (tr, s) -> (forall u, u < length (c_threads s) -> finished s u) ->
  In (EDeliver t d m x) tr -> (m = KAsync -> forallb snd sched = true) ->
  (times (started d) tr = 1 /\ times (ended d) tr = 1 /\ times (dropped d) tr = 0) \/
  (times (started d) tr = 0 /\ times (ended d) tr = 0 /\ times (dropped d) tr = 1).
Proof. exact (@top_finished). Qed.
Print Assumptions C35_exactly_once_at_the_end.
(** C35: ... or as soon as a flush() called after its acceptance has returned, deferred or not. *)
Theorem C35_exactly_once_when_flushed :
  forall (X : Type) (b : build) (pw : bool) (body : X -> list (op X)) (conns : list (nat * nat * kind)) (q : nat) (programs : list (list (op X)))
    (sched : list (nat * bool)) (before during after : list (event X)) (s : state X) (t : nat) (o : op X) (d : nat),
  run b pw body sched (initial conns q programs) = (before ++ ECall t o :: during ++ EReturn t o :: after, s) ->
  flushing o = true -> (exists u x, In (EDeliver u d KAsync x) before) -> (exists u, In (EAccept u d) before) ->
  times (started d) (before ++ during) = 1 /\ times (ended d) (before ++ during) = 1.
Proof. exact (@top_flushed). Qed.
Print Assumptions C35_exactly_once_when_flushed.
(** C35: in synchronous mode it is settled when the sending thread is done. *)
Theorem C35_synchronous :
  forall (X : Type) (b : build) (pw : bool) (body : X -> list (op X)) (conns : list (nat * nat * kind)) (q : nat) (programs : list (list (op X)))
    (sched : list (nat * bool)) (tr : list (event X)) (s : state X) (d t : nat) (x : X),
  run b pw body sched (initial conns q programs) = (tr, s) -> finished s t -> In (EDeliver t d KSync x) tr ->
  (times (started d) tr = 1 /\ times (ended d) tr = 1 /\ times (dropped d) tr = 0) \/ (times (started d) tr = 0 /\ times (dropped d) tr = 1).
Proof. exact (@top_sync). Qed.
Print Assumptions C35_synchronous.
Example C35_example :
  (c_threads (snd ex1) = [[]; []; []] /\ In (EDeliver 0 0 KAsync 7) (fst ex1) /\ In (EStart 2 0 7) (fst ex1) /\ In (EDrop 0 1) (fst ex1)) /\
  (c_threads (snd ex2) = [[]; []; []] /\ In (EDeliver 1 1 KSync 8) (fst ex2) /\ In (EStart 1 1 8) (fst ex2) /\ times any_erase (fst ex2) = 0).
Proof. vm_compute. auto 50. Qed.

(** C36: if consume() does not call back into its own consumer, no execution ever deadlocks, whatever calls the threads make; all executions are finite,
    with a bound that depends only on the connections and the calls; and every execution can be completed. *)
Theorem C36_no_deadlock :
  forall (X : Type) (b : build) (pw : bool) (conns : list (nat * nat * kind)) (q : nat) (programs : list (list (op X)))
    (sched : list (nat * bool)) (tr : list (event X)) (s : state X),
  run b pw (fun _ => []) sched (initial conns q programs) = (tr, s) -> ~ deadlocked b pw (fun _ => []) s.
Proof. exact (@top_progress). Qed.
Print Assumptions C36_no_deadlock.
Theorem C36_bounded :
  forall (X : Type) (conns : list (nat * nat * kind)) (programs : list (list (op X))),
  exists N : nat, forall b pw q sched, length (fst (run b pw (fun _ => []) sched (initial conns q programs))) <= N.
Proof. exact (@top_terminates). Qed.
Print Assumptions C36_bounded.
Theorem C36_can_be_completed :
  forall (X : Type) (b : build) (pw : bool) (conns : list (nat * nat * kind)) (q : nat) (programs : list (list (op X)))
    (sched : list (nat * bool)) (tr : list (event X)) (s : state X),
  run b pw (fun _ => []) sched (initial conns q programs) = (tr, s) ->
  exists sched' tr' s', run b pw (fun _ => []) (sched ++ sched') (initial conns q programs) = (tr ++ tr', s') /\
    (c_crash s' <> None \/ forall t, t < length (c_threads s') -> finished s' t).
Proof. exact (@top_completes). Qed.
Print Assumptions C36_can_be_completed.
Example C36_example : exists tr s, run Debug true (fun _ : nat => []) (rr 5 2) (initial [(0, 0, KSync); (1, 1, KAsync)] 4 [[OSend 0 1; OSend 1 2; OFlush]; [ODisconnectFlush]]) = (tr, s) /\
  c_xlock s = Some 1 /\ nth_error (c_threads s) 0 = Some [IAcqS; ISyncBody 0 1; IReturn (OSend 0 1); ICall (OSend 1 2); ICall OFlush] /\
  step Debug true (fun _ => []) true 0 s = None.
Proof. eexists. eexists. split; [vm_compute; reflexivity|]. repeat split. Qed.
(** C36: a call of disconnect_and_flush() waits for every consume() that has started: if one made from inside consume() returned, consume() would have ended before. *)
Theorem C36_disconnect_waits_for_consume :
  forall (X : Type) (b : build) (pw : bool) (body : X -> list (op X)) (conns : list (nat * nat * kind)) (q : nat) (programs : list (list (op X)))
    (sched : list (nat * bool)) (t1 t2 t3 t4 : list (event X)) (s : state X) (t u d : nat) (x : X) (o : op X),
  run b pw body sched (initial conns q programs) = (t1 ++ EStart u d x :: t2 ++ ECall t o :: t3 ++ EReturn t o :: t4, s) ->
  disconnecting o = true -> none any_insert (t3 ++ t4) -> exists v, In (EEnd v d) (t2 ++ t3).
Proof. exact (@top_callback_stuck). Qed.
Print Assumptions C36_disconnect_waits_for_consume.
Definition ex4 := run Debug false (fun _ : nat => []) (repeat (0, true) 11 ++ [(2, true)] ++ repeat (1, true) 10 ++ rr 40 3) (initial [(0, 0, KAsync)] 1 [[OSend 0 7; OSend 0 8]; [ODisconnectFlush]]).
Example C36_waits_example : exists t1 t2 t3 t4, fst ex4 = t1 ++ EStart 2 0 7 :: t2 ++ ECall 1 ODisconnectFlush :: t3 ++ EReturn 1 ODisconnectFlush :: t4 /\
  times any_insert (t3 ++ t4) = 0 /\ In (EEnd 2 0) t3.
Proof.
  exists (firstn 11 (fst ex4)), [], (firstn 16 (skipn 13 (fst ex4))), (skipn 30 (fst ex4)). vm_compute. auto 30.
Qed.
(** C36: consume() calling disconnect_and_flush() of its own consumer (synchronous mode), flush() or disconnect_and_flush() (asynchronous mode, both for tasks on
    their own threads and for deferred ones): a deadlock is reached with a single sample. *)
Theorem C36_callback_deadlock_synchronous :
  forall (X : Type) (b : build) (pw : bool) (q : nat) (x : X), exists sched tr s,
  run b pw (fun _ => [ODisconnectFlush]) sched (initial [(0, 0, KSync)] q [[OSend 0 x]]) = (tr, s) /\ deadlocked b pw (fun _ => [ODisconnectFlush]) s.
Proof. exact (@sync_self_deadlock). Qed.
Print Assumptions C36_callback_deadlock_synchronous.
Theorem C36_callback_deadlock_asynchronous :
  forall (X : Type) (b : build) (pw : bool) (q : nat) (x : X) (immediate : bool) (o : op X), o = OFlush \/ o = ODisconnectFlush ->
  exists sched tr s, forallb (fun c => Bool.eqb (snd c) immediate) sched = true /\
    run b pw (fun _ => [o]) sched (initial [(0, 0, KAsync)] q [[OSend 0 x; OFlush]]) = (tr, s) /\ deadlocked b pw (fun _ => [o]) s.
Proof. exact (@async_self_deadlock). Qed.
Print Assumptions C36_callback_deadlock_asynchronous.
Example C36_callback_example : let o := ODisconnectFlush (X := nat) in o = OFlush \/ o = ODisconnectFlush. Proof. now right. Qed.

(** C37: the queue_size given to set_parallel_mode() has no influence on anything; in particular it does not bound the number of outstanding tasks: for every queue size and
    every n, n samples can be accepted in a row without a single one having been consumed, even with one thread per task. *)
Theorem C37_queue_size_irrelevant :
  forall (X : Type) (b : build) (pw : bool) (body : X -> list (op X)) (sched : list (nat * bool)) (conns : list (nat * nat * kind)) (programs : list (list (op X))) (q1 q2 : nat),
  fst (run b pw body sched (initial conns q1 programs)) = fst (run b pw body sched (initial conns q2 programs)).
Proof. exact (@qsize_irrelevant). Qed.
Print Assumptions C37_queue_size_irrelevant.
Theorem C37_bounded_queue_refuted :
  forall (X : Type) (b : build) (pw : bool) (body : X -> list (op X)) (q n : nat) (x : X), exists sched tr s,
  run b pw body sched (initial [(0, 0, KAsync)] q [repeat (OSend 0 x) n]) = (tr, s) /\ times any_accept tr = n /\ times any_end tr = 0.
Proof. exact (@unbounded). Qed.
Print Assumptions C37_bounded_queue_refuted.
Example C37_example : length (c_queue (snd (run Debug false (fun _ : nat => []) (repeat (0, true) 33) (initial [(0, 0, KAsync)] 1 [repeat (OSend 0 5) 3])))) = 3.
Proof. vm_compute. reflexivity. Qed.

(** C44: a sample issued after connect_to_producer() has returned is never dropped (unless a connection is removed later), in any interleaving ... *)
Theorem C44_usable_after_connect :
  forall (X : Type) (b : build) (pw : bool) (body : X -> list (op X)) (conns : list (nat * nat * kind)) (q : nat) (programs : list (list (op X)))
    (sched : list (nat * bool)) (before after : list (event X)) (t p : nat) (m : kind) (s : state X),
  run b pw body sched (initial conns q programs) = (before ++ EReturn t (OConnect p m) :: after, s) -> none any_erase (before ++ after) -> none any_drop after.
Proof. exact (@top_connected). Qed.
Print Assumptions C44_usable_after_connect.
Example C44_example : exists before after s,
  run Debug false (fun _ : nat => []) (repeat (0, true) 8 ++ rr 20 2) (initial [] 1 [[OConnect 3 KSync]; [OSend 3 9]]) = (before ++ EReturn 0 (OConnect 3 KSync) :: after, s) /\
  In (EStart 1 0 9) after /\ times any_erase (before ++ after) = 0.
Proof.
  set (r := run Debug false (fun _ : nat => []) (repeat (0, true) 8 ++ rr 20 2) (initial [] 1 [[OConnect 3 KSync]; [OSend 3 9]])).
  exists (firstn 6 (fst r)), (skipn 7 (fst r)), (snd r). split; [vm_compute; reflexivity|]. vm_compute. auto 20.
Qed.
(** C44: ... but one issued while it is running can be dropped, although no connection is ever removed and all calls return. *)
Theorem C44_dropped_while_connecting_refuted :
  forall (X : Type) (b : build) (pw : bool) (body : X -> list (op X)) (q : nat) (m : kind) (x : X), exists sched tr s,
  run b pw body sched (initial [] q [[OConnect 0 m]; [OSend 0 x]]) = (tr, s) /\
  In (EDrop 1 0) tr /\ none any_erase tr /\ In (EReturn 0 (OConnect 0 m)) tr /\ In (EReturn 1 (OSend 0 x)) tr /\ (forall t k, nth_error (c_threads s) t = Some k -> k = []).
Proof. exact (@connect_drops). Qed.
Print Assumptions C44_dropped_while_connecting_refuted.

(** C49: producers can be destroyed at any time while other threads send, flush and consume, provided nobody disconnects or destroys the consumer or connects it again at the
    same time (and each producer is destroyed once): the assertion never fails and find() never returns end(). *)
Theorem C49_destroying_producers_safe :
  forall (X : Type) (b : build) (pw : bool) (body : X -> list (op X)) (conns : list (nat * nat * kind)) (q : nat) (programs : list (list (op X)))
    (sched : list (nat * bool)) (tr : list (event X)) (s : state X),
  run b pw body sched (initial conns q programs) = (tr, s) ->
  NoDup (map (fun cpm : nat * nat * kind => fst (fst cpm)) conns) -> no_op connects body programs -> no_op disconnecting body programs ->
  (forall x o, In o (body x) -> destroys o = false) -> (forall p, destructions p programs <= 1) -> none any_crash tr.
Proof. exact (@top_producers). Qed.
Print Assumptions C49_destroying_producers_safe.
Example C49_example : let programs := [[OSend 0 7; ODestroyProducer 0]; [ODestroyProducer 1; OFlush]; [OSend 2 8]] in
  NoDup (map (fun cpm : nat * nat * kind => fst (fst cpm)) [(0, 0, KSync); (1, 1, KAsync); (2, 1, KSync); (3, 2, KAsync)]) /\
  no_op connects (fun _ : nat => []) programs /\ no_op disconnecting (fun _ => []) programs /\ (forall p, destructions p programs <= 1) /\
  times any_erase (fst (run Debug false (fun _ => []) (rr 60 4) (initial [(0, 0, KSync); (1, 1, KAsync); (2, 1, KSync); (3, 2, KAsync)] 1 programs))) = 3.
Proof.
  cbn zeta. split; [repeat constructor; cbn; lia|].
  assert (HN : forall P : op nat -> bool, (forall l o, In l [[OSend 0 7; ODestroyProducer 0]; [ODestroyProducer 1; OFlush]; [OSend 2 8]] -> In o l -> P o = false) ->
    no_op P (fun _ => []) [[OSend 0 7; ODestroyProducer 0]; [ODestroyProducer 1; OFlush]; [OSend 2 8]]) by (intros P H; split; [intros _ o []|exact H]).
  split; [apply HN|split; [apply HN|split]].
  - intros l o Hl Ho. cbn in Hl. repeat (destruct Hl as [<-|Hl]; [cbn in Ho; repeat (destruct Ho as [<-|Ho]; [reflexivity|]); destruct Ho|]). destruct Hl.
  - intros l o Hl Ho. cbn in Hl. repeat (destruct Hl as [<-|Hl]; [cbn in Ho; repeat (destruct Ho as [<-|Ho]; [reflexivity|]); destruct Ho|]). destruct Hl.
  - intros [|[|p]]; cbn; lia.
  - vm_compute. reflexivity.
Qed.
(** C49: nothing crashes if nothing is destroyed. *)
Theorem C49_no_crash :
  forall (X : Type) (b : build) (pw : bool) (body : X -> list (op X)) (conns : list (nat * nat * kind)) (q : nat) (programs : list (list (op X)))
    (sched : list (nat * bool)) (tr : list (event X)) (s : state X),
  run b pw body sched (initial conns q programs) = (tr, s) -> no_op destroys body programs -> none any_crash tr.
Proof. exact (@top_no_crash). Qed.
Print Assumptions C49_no_crash.
Example C49_no_crash_example : no_op destroys (fun _ : nat => [OFlush]) [[OSend 0 1]; [ODisconnectFlush; OConnect 0 KSync]].
Proof.
  split; [intros x o [<-|[]]; reflexivity|]. intros l o Hl Ho. cbn in Hl. repeat (destruct Hl as [<-|Hl]; [cbn in Ho; repeat (destruct Ho as [<-|Ho]; [reflexivity|]); destruct Ho|]). destruct Hl.
Qed.
(** C49: but if the destructor of the producer and disconnect_and_flush() of the consumer run at the same time, the assertion can fail in a debug build, and in a release build
    the disconnect slot dereferences end(): undefined behaviour. *)
Theorem C49_producer_destructor_against_disconnect_refuted :
  forall (X : Type) (b : build) (pw : bool) (body : X -> list (op X)) (q : nat) (m : kind), exists sched tr s,
  run b pw body sched (initial [(0, 0, m)] q [[ODestroyProducer 0]; [ODisconnectFlush]]) = (tr, s) /\
  In (ECrash 0 match b with Debug => AssertionFailure | Release => UndefinedBehaviour end) tr.
Proof. exact (@destroy_producer_crash). Qed.
Print Assumptions C49_producer_destructor_against_disconnect_refuted.

(** C50: if all other threads of the user have finished when a consumer's destructor is called as the last thing, then background tasks never use the destroyed object. *)
Theorem C50_destructor_waits_for_tasks :
  forall (X : Type) (b : build) (pw : bool) (conns : list (nat * nat * kind)) (q : nat) (programs : list (list (op X)))
    (sched1 sched2 : list (nat * bool)) (t1 t2 : list (event X)) (t : nat) (s1 s2 : state X),
  run b pw (fun _ => []) sched1 (initial conns q programs) = (t1, s1) -> c_alive s1 = true ->
  nth_error (c_threads s1) t = Some [ICall ODestroyConsumer] -> t < length programs -> (forall u, u < length programs -> u <> t -> finished s1 u) ->
  run b pw (fun _ => []) sched2 s1 = (t2, s2) -> none any_crash t2.
Proof. exact (@top_consumer). Qed.
Print Assumptions C50_destructor_waits_for_tasks.
Example C50_example : let r := run Debug false (fun _ : nat => []) (repeat (0, true) 11 ++ repeat (0, false) 11) (initial [(0, 0, KAsync)] 1 [[OSend 0 7; OSend 0 8; ODestroyConsumer]]) in
  c_alive (snd r) = true /\ nth_error (c_threads (snd r)) 0 = Some [ICall ODestroyConsumer] /\ c_stat (snd r) 0 = SActive KAsync /\ c_stat (snd r) 1 = SDeferred 8 /\
  c_alive (snd (run Debug false (fun _ : nat => []) (rr 60 2) (snd r))) = false.
Proof. vm_compute. auto 10. Qed.
(** C50: but a sample on its way from another thread, or the destructor of its producer, can use the consumer after it has been destroyed. *)
Theorem C50_late_sample_refuted :
  forall (X : Type) (b : build) (pw : bool) (body : X -> list (op X)) (q : nat) (m : kind) (x : X), exists sched tr s,
  run b pw body sched (initial [(0, 0, m)] q [[OSend 0 x]; [ODestroyConsumer]]) = (tr, s) /\ In (EReturn 1 ODestroyConsumer) tr /\ In (ECrash 0 UseAfterFree) tr.
Proof. exact (@destroy_consumer_crash). Qed.
Print Assumptions C50_late_sample_refuted.
Theorem C50_two_destructors_refuted :
  forall (X : Type) (b : build) (pw : bool) (body : X -> list (op X)) (q : nat) (m : kind), exists sched tr s,
  run b pw body sched (initial [(0, 0, m)] q [[ODestroyProducer 0]; [ODestroyConsumer]]) = (tr, s) /\ In (EReturn 1 ODestroyConsumer) tr /\ In (ECrash 0 UseAfterFree) tr.
Proof. exact (@destroy_both_crash). Qed.
Print Assumptions C50_two_destructors_refuted.

(** C51: no data race on the list of connections and the queue of tasks, as long as no connection is made and (in a debug build) no producer destroyed concurrently. *)
Theorem C51_no_data_race :
  forall (X : Type) (b : build) (pw : bool) (body : X -> list (op X)) (conns : list (nat * nat * kind)) (q : nat) (programs : list (list (op X)))
    (sched : list (nat * bool)) (tr : list (event X)) (s : state X) (t u : nat) (i j : instr X),
  run b pw body sched (initial conns q programs) = (tr, s) -> no_op connects body programs -> no_op destroys body programs \/ b = Release -> ~ race_between b s t u i j.
Proof. exact (@top_race). Qed.
Print Assumptions C51_no_data_race.
Example C51_example : no_op connects (fun _ : nat => []) [[OSend 0 1; ODestroyProducer 0]; [ODisconnectFlush]].
Proof.
  split; [intros _ o []|]. intros l o Hl Ho. cbn in Hl. repeat (destruct Hl as [<-|Hl]; [cbn in Ho; repeat (destruct Ho as [<-|Ho]; [reflexivity|]); destruct Ho|]). destruct Hl.
Qed.
(** C51: in general the only unprotected accesses are the recording of a new connection and the assertion in the disconnect slot. *)
Theorem C51_only_unprotected_accesses :
  forall (X : Type) (b : build) (pw : bool) (body : X -> list (op X)) (conns : list (nat * nat * kind)) (q : nat) (programs : list (list (op X)))
    (sched : list (nat * bool)) (tr : list (event X)) (s : state X) (t u : nat) (i j : instr X),
  run b pw body sched (initial conns q programs) = (tr, s) -> race_between b s t u i j ->
  (exists c p, i = IInsert c p) \/ (exists c p, j = IInsert c p) \/ (b = Debug /\ ((exists p, i = IContains p) \/ (exists p, j = IContains p))).
Proof. exact (@top_races_only). Qed.
Print Assumptions C51_only_unprotected_accesses.
(** C51: both of them do race: connecting against a sample, and (debug build) destroying a producer against disconnect_and_flush(). *)
Theorem C51_connecting_races_refuted :
  forall (X : Type) (b : build) (pw : bool) (body : X -> list (op X)) (q : nat) (m : kind) (x : X), exists sched tr s i j,
  run b pw body sched (initial [] q [[OConnect 0 m]; [OSend 0 x]]) = (tr, s) /\ race_between b s 0 1 i j.
Proof. exact (@connect_races). Qed.
Print Assumptions C51_connecting_races_refuted.
Theorem C51_assertion_races_refuted :
  forall (X : Type) (pw : bool) (body : X -> list (op X)) (q : nat) (m : kind), exists sched tr s i j,
  run Debug pw body sched (initial [(0, 0, m)] q [[ODestroyProducer 0]; [ODisconnectFlush]]) = (tr, s) /\ race_between Debug s 0 1 i j.
Proof. exact (@destroy_producer_races). Qed.
Print Assumptions C51_assertion_races_refuted.
