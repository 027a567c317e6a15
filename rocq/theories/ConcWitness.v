(** Executions that show what can go wrong. *)
From Verif Require Import Prelude ConcModel ConcSpec ConcBad.
Local Open Scope nat_scope.

Section W.
Context {X : Type}.

Lemma stuck_cond : forall b pw (body : X -> list (op X)) s, c_crash s = None ->
  forallb (fun t => is_none (step b pw body true t s) && is_none (step b pw body false t s)) (seq 0 (length (c_threads s))) = true ->
  (exists t i k, nth_error (c_threads s) t = Some (i :: k)) -> deadlocked b pw body s.
Proof.
  intros b pw body s H1 H2 H3. split; [exact H1|]. split; [|exact H3]. intros t im. destruct (Nat.lt_ge_cases t (length (c_threads s))).
  - rewrite forallb_forall in H2. specialize (H2 t ltac:(apply in_seq; lia)). apply andb_prop in H2. destruct H2 as [A B].
    destruct im; [destruct (step b pw body true t s)|destruct (step b pw body false t s)]; discriminate || reflexivity.
  - unfold step. apply nth_error_None in H. rewrite H. now destruct (negb (is_none (c_crash s))).
Qed.
Ltac dead := apply stuck_cond; [reflexivity|vm_compute; reflexivity|first [exists 0; do 2 eexists; vm_compute; reflexivity|exists 1; do 2 eexists; vm_compute; reflexivity]].
(** consume() calls disconnect_and_flush() on its own consumer, synchronous mode. *)
Lemma sync_self_deadlock : forall b pw q (x : X), exists sched tr s',
  run b pw (fun _ => [ODisconnectFlush]) sched (initial [(0, 0, KSync)] q [[OSend 0 x]]) = (tr, s') /\ deadlocked b pw (fun _ => [ODisconnectFlush]) s'.
Proof.
  intros b pw q x. exists (repeat (0, true) 20). destruct b, pw; (eexists; eexists; split; [vm_compute; reflexivity|dead]).
Qed.
(** consume() calls flush() or disconnect_and_flush() on its own consumer, asynchronous mode; task on its own thread ([true]) or deferred ([false]). *)
Lemma async_self_deadlock : forall b pw q (x : X) im o, o = OFlush \/ o = ODisconnectFlush -> exists sched tr s',
  forallb (fun c => eqb (snd c) im) sched = true /\
  run b pw (fun _ => [o]) sched (initial [(0, 0, KAsync)] q [[OSend 0 x; OFlush]]) = (tr, s') /\ deadlocked b pw (fun _ => [o]) s'.
Proof.
  intros b pw q x im o Ho. exists (repeat (0, im) 12 ++ repeat (1, im) 20 ++ repeat (0, im) 20). destruct Ho as [-> | ->], b, pw, im;
  (eexists; eexists; split; [reflexivity|split; [vm_compute; reflexivity|dead]]).
Qed.
(** A sample sent while the connection is being made: dropped, and a data race. *)
Lemma connect_drops : forall b pw (body : X -> list (op X)) q m (x : X), exists sched tr s',
  run b pw body sched (initial [] q [[OConnect 0 m]; [OSend 0 x]]) = (tr, s') /\
  In (EDrop 1 0) tr /\ none any_erase tr /\ In (EReturn 0 (OConnect 0 m)) tr /\ In (EReturn 1 (OSend 0 x)) tr /\ (forall t k, nth_error (c_threads s') t = Some k -> k = []).
Proof.
  intros b pw body q m x. exists (repeat (0, true) 3 ++ repeat (1, true) 20 ++ repeat (0, true) 10).
  destruct b, pw, m; (eexists; eexists; split; [vm_compute; reflexivity|]; cbn; repeat split; auto 30;
   [intros e He; cbn in He; repeat (destruct He as [<-|He]; [reflexivity|]); destruct He
   |intros [|[|t]] k; cbn; intros H; [congruence|congruence|destruct t; discriminate]]).
Qed.
Lemma connect_races : forall b pw (body : X -> list (op X)) q m (x : X), exists sched tr s' i j,
  run b pw body sched (initial [] q [[OConnect 0 m]; [OSend 0 x]]) = (tr, s') /\ race_between b s' 0 1 i j.
Proof.
  intros b pw body q m x. exists (repeat (0, true) 5 ++ repeat (1, true) 4).
  destruct b, pw, m; (eexists; eexists; eexists; eexists; split; [vm_compute; reflexivity|]; split; [discriminate|];
    split; [eexists; reflexivity|]; split; [eexists; reflexivity|]; eexists; eexists; repeat split; reflexivity).
Qed.
(** The destructor of a producer against disconnect_and_flush() of its consumer. *)
Lemma destroy_producer_crash : forall b pw (body : X -> list (op X)) q m, exists sched tr s',
  run b pw body sched (initial [(0, 0, m)] q [[ODestroyProducer 0]; [ODisconnectFlush]]) = (tr, s') /\
  In (ECrash 0 match b with Debug => AssertionFailure | Release => UndefinedBehaviour end) tr.
Proof.
  intros b pw body q m. exists (repeat (0, true) 3 ++ repeat (1, true) 20 ++ repeat (0, true) 10).
  destruct b, pw, m; (eexists; eexists; split; [vm_compute; reflexivity|cbn; auto 40]).
Qed.
Lemma destroy_producer_races : forall pw (body : X -> list (op X)) q m, exists sched tr s' i j,
  run Debug pw body sched (initial [(0, 0, m)] q [[ODestroyProducer 0]; [ODisconnectFlush]]) = (tr, s') /\ race_between Debug s' 0 1 i j.
Proof.
  intros pw body q m. exists (repeat (0, true) 3 ++ repeat (1, true) 5).
  destruct pw, m; (eexists; eexists; eexists; eexists; split; [vm_compute; reflexivity|]; split; [discriminate|];
    split; [eexists; reflexivity|]; split; [eexists; reflexivity|]; eexists; eexists; repeat split; reflexivity).
Qed.
(** The destructor of a consumer against a sample on its way. *)
Lemma destroy_consumer_crash : forall b pw (body : X -> list (op X)) q m (x : X), exists sched tr s',
  run b pw body sched (initial [(0, 0, m)] q [[OSend 0 x]; [ODestroyConsumer]]) = (tr, s') /\
  In (EReturn 1 ODestroyConsumer) tr /\ In (ECrash 0 UseAfterFree) tr.
Proof.
  intros b pw body q m x. exists (repeat (0, true) 3 ++ repeat (1, true) 20 ++ repeat (0, true) 10).
  destruct b, pw, m; (eexists; eexists; split; [vm_compute; reflexivity|cbn; auto 40]).
Qed.
(** Two destructors at the same time. *)
Lemma destroy_both_crash : forall b pw (body : X -> list (op X)) q m, exists sched tr s',
  run b pw body sched (initial [(0, 0, m)] q [[ODestroyProducer 0]; [ODestroyConsumer]]) = (tr, s') /\
  In (EReturn 1 ODestroyConsumer) tr /\ In (ECrash 0 UseAfterFree) tr.
Proof.
  intros b pw body q m. exists (repeat (0, true) 3 ++ repeat (1, true) 20 ++ repeat (0, true) 10).
  destruct b, pw, m; (eexists; eexists; split; [vm_compute; reflexivity|cbn; auto 40]).
Qed.
End W.
