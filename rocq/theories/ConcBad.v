(** What can go wrong, and the queue size. *)
From Verif Require Import Prelude ConcModel ConcSpec ConcInv ConcLocks ConcDeliv ConcInvs ConcSilent ConcMode ConcFlush ConcOnce ConcLive ConcRace.
Local Open Scope nat_scope.

Section P.
Context {X : Type}.
Implicit Types (s : state X) (k e : list (instr X)) (i j : instr X) (tr : list (event X)).

Ltac unst := cbn [go spawn set_threads set_conns set_hooks set_alock set_xlock set_shared set_queue set_stat new_delivery new_conn set_dead set_crash unhook
       c_threads c_queue c_stat c_next c_conns c_hooks c_alock c_xlock c_shared c_alive c_crash c_nextc] in *.

(** ** queue_size is never looked at *)
Definition set_qsize s q : state X := {| c_conns := c_conns s; c_hooks := c_hooks s; c_alock := c_alock s; c_xlock := c_xlock s; c_shared := c_shared s; c_queue := c_queue s;
  c_qsize := q; c_stat := c_stat s; c_next := c_next s; c_nextc := c_nextc s; c_threads := c_threads s; c_alive := c_alive s; c_crash := c_crash s |}.
Lemma qsize_step : forall b pw body im t s q, step b pw body im t (set_qsize s q) =
  match step b pw body im t s with Some (ev, s') => Some (ev, set_qsize s' q) | None => None end.
Proof.
  intros b pw body im t s q. unfold step, crashed. cbn [set_qsize c_crash c_threads c_alive].
  destruct (negb (is_none (c_crash s))); [reflexivity|]. destruct (nth_error (c_threads s) t) as [[|i k]|]; try reflexivity.
  destruct (touches i && negb (c_alive s)); [reflexivity|].
  destruct i; try reflexivity; cbn [set_qsize c_conns c_hooks c_alock c_xlock c_shared c_queue c_stat c_next c_nextc c_threads].
  - change (connected (set_qsize s q) SigSample c) with (connected s SigSample c). destruct (connected s SigSample c); reflexivity.
  - destruct (is_none (c_alock s)); reflexivity.
  - change (no_readers (set_qsize s q)) with (no_readers s). destruct (is_none (c_xlock s) && no_readers s); reflexivity.
  - change (writer_waiting (set_qsize s q)) with (writer_waiting s). destruct (is_none (c_xlock s) && negb (pw && writer_waiting s)); reflexivity.
  - destruct (length (c_conns s) =? 0); reflexivity.
  - destruct (length (c_conns s) =? 0); [reflexivity|destruct im; reflexivity].
  - destruct (c_queue s); [reflexivity|]. destruct (c_stat s n); reflexivity.
  - destruct l; [reflexivity|]. destruct (c_stat s n); reflexivity.
  - destruct l; reflexivity.
  - destruct (existsb _ (c_conns s)); [reflexivity|destruct b; reflexivity].
  - destruct (find _ (c_conns s)) as [[c r]|]; reflexivity.
Qed.
Lemma qsize_run : forall b pw body sched s q, run b pw body sched (set_qsize s q) = let '(tr, s') := run b pw body sched s in (tr, set_qsize s' q).
Proof.
  intros b pw body. induction sched as [|[t im] r IH]; intros s q; cbn [run]; [reflexivity|]. rewrite qsize_step.
  destruct (step b pw body im t s) as [[ev s1]|]; [|apply IH]. rewrite IH. destruct (run b pw body r s1). reflexivity.
Qed.
Lemma qsize_irrelevant : forall b pw (body : X -> list (op X)) sched conns (programs : list (list (op X))) q1 q2,
  fst (run b pw body sched (initial conns q1 programs)) = fst (run b pw body sched (initial conns q2 programs)).
Proof.
  intros b pw body sched conns programs q1 q2. change (initial conns q1 programs) with (set_qsize (initial conns q2 programs) q1). rewrite qsize_run.
  destruct (run b pw body sched (initial conns q2 programs)). reflexivity.
Qed.

(** ** Any number of outstanding tasks *)
Definition sender s p c x n rest : Prop :=
  c_crash s = None /\ c_alive s = true /\ c_alock s = None /\ c_conns s <> [] /\ c_threads s = map ICall (repeat (OSend p x) n) :: rest /\
  hooks_of s SigSample p = [{| hk_sig := SigSample; hk_conn := c; hk_prod := p; hk_kind := KAsync |}] /\ connected s SigSample c = true /\
  (forall d, In d (c_queue s) -> c_stat s d = SActive KAsync).
Lemma run_app : forall b pw (body : X -> list (op X)) sc1 sc2 s, run b pw body (sc1 ++ sc2) s =
  let '(t1, s1) := run b pw body sc1 s in let '(t2, s2) := run b pw body sc2 s1 in (t1 ++ t2, s2).
Proof.
  intros b pw body. induction sc1 as [|[t im] r IH]; intros sc2 s; cbn [app run].
  - destruct (run b pw body sc2 s). reflexivity.
  - destruct (step b pw body im t s) as [[ev s1]|]; [|apply IH]. rewrite IH. destruct (run b pw body r s1) as [t1 s2]. destruct (run b pw body sc2 s2). reflexivity.
Qed.
Ltac one H := cbn [run]; unfold step at 1; unst; rewrite ?H; cbn [nth_error].
Lemma one_send : forall b pw body s p c x n rest, sender s p c x (S n) rest ->
  exists tr s' rest', run b pw body (repeat (0, true) 11) s = (tr, s') /\ sender s' p c x n rest' /\ times any_accept tr = 1 /\ times any_end tr = 0.
Proof.
  intros b pw body s p c x n rest (H1 & H2 & H3 & H4 & H5 & H6 & H7 & H8).
  assert (HC : length (c_conns s) =? 0 = false) by (destruct (c_conns s); [congruence|reflexivity]).
  destruct s as [conns hooks al xl sh q qs st nx nc th alv cr]. unst. subst cr alv al th.
  cbn [repeat]. unfold hooks_of, connected in H6, H7. unst.
  set (s1 := {| c_conns := conns; c_hooks := hooks; c_alock := None; c_xlock := xl; c_shared := sh; c_queue := q ++ [nx]; c_qsize := qs;
                c_stat := fun d' => if d' =? nx then SActive KAsync else st d'; c_next := S nx; c_nextc := nc;
                c_threads := map ICall (repeat (OSend p x) n) :: rest ++ [consume_code body KAsync nx x]; c_alive := true; c_crash := None |}).
  exists [ECall 0 (OSend p x); ETau 0; EDeliver 0 nx KAsync x; ETau 0; EAccept 0 nx; ETau 0; ETau 0; ETau 0; ETau 0; ETau 0; EReturn 0 (OSend p x)].
  exists s1, (rest ++ [consume_code body KAsync nx x]).
  split; [|split; [|split; reflexivity]].
  - cbn [run]. 
    unfold step at 1. unst. cbn [is_none negb map repeat nth_error touches andb code app go set_threads upd c_threads c_crash].
    unfold step at 1. unst. cbn [is_none negb nth_error touches andb go set_threads upd]. unfold hooks_of. unst. rewrite H6. cbn [map app hk_conn hk_kind].
    unfold step at 1. unst. cbn [is_none negb nth_error touches andb go set_threads upd]. unfold connected. unst. rewrite H7. cbn [slot_code app].
    unfold step at 1. unst. cbn [is_none negb nth_error touches andb go set_threads upd set_alock].
    unfold step at 1. unst. cbn [is_none negb nth_error touches andb go set_threads upd]. rewrite HC. 
    unfold step at 1. unst. cbn [is_none negb nth_error touches andb go set_threads upd app].
    unfold step at 1. unst. cbn [is_none negb nth_error touches andb go set_threads upd app].
    unfold step at 1. unst. cbn [is_none negb nth_error touches andb go set_threads upd app].
    unfold step at 1. unst. cbn [is_none negb nth_error touches andb go set_threads upd app].
    assert (HT : exists d q', q ++ [nx] = d :: q' /\ (if d =? nx then SActive KAsync else st d) = SActive KAsync).
    { destruct q as [|d q']; cbn [app]; eexists; eexists; (split; [reflexivity|]); [now rewrite Nat.eqb_refl|]. destruct (d =? nx); [reflexivity|]. apply H8. now left. }
    destruct HT as (d & q' & HQ & HD). rewrite HQ, HD.
    unfold step at 1. unst. cbn [is_none negb nth_error touches andb go set_threads upd app].
    unfold step at 1. unst. cbn [is_none negb nth_error touches andb go set_threads upd app].
    rewrite <- HQ. reflexivity.
  - unfold sender. unfold s1, hooks_of, connected. unst. repeat split; auto.
    intros d Hd. apply in_app_or in Hd. destruct (Nat.eqb_spec d nx); [reflexivity|]. destruct Hd as [Hd|[Hd|[]]]; [auto|congruence].
Qed.
Lemma many_sends : forall b pw body n s p c x rest, sender s p c x n rest ->
  exists sched tr s', run b pw body sched s = (tr, s') /\ times any_accept tr = n /\ times any_end tr = 0.
Proof.
  intros b pw body. induction n as [|n IH]; intros s p c x rest HS.
  - exists [], [], s. repeat split; reflexivity.
  - destruct (one_send b pw body _ _ _ _ _ _ HS) as (t1 & s1 & rest' & R1 & S1 & A1 & A2). destruct (IH _ _ _ _ _ S1) as (sc & t2 & s2 & R2 & B1 & B2).
    exists (repeat (0, true) 11 ++ sc), (t1 ++ t2), s2. rewrite run_app, R1, R2. split; [reflexivity|]. unfold times in *. rewrite !filter_app, !app_length. lia.
Qed.
Lemma unbounded : forall b pw (body : X -> list (op X)) q n (x : X), exists sched tr s',
  run b pw body sched (initial [(0, 0, KAsync)] q [repeat (OSend 0 x) n]) = (tr, s') /\ times any_accept tr = n /\ times any_end tr = 0.
Proof.
  intros b pw body q n x. apply (many_sends b pw body n _ 0 0 x []). unfold sender. cbn. repeat split; try reflexivity; try discriminate. intros d [].
Qed.
End P.
