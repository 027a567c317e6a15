(** The theorems about the concurrent model, for runs from the initial state under any schedule. *)
From Verif Require Import Prelude ConcModel ConcSpec ConcInv ConcLocks ConcDeliv ConcInvs ConcSilent ConcMode ConcFlush ConcOnce ConcLive ConcTerm ConcRace ConcBad ConcWitness ConcSafe.
Local Open Scope nat_scope.

Section T.
Context {X : Type}.
Implicit Types (body : X -> list (op X)) (programs : list (list (op X))) (tr : list (event X)) (s : state X).

Lemma none_intro : forall P tr, existsb P tr = false -> none P tr.
Proof. intros P tr H e He. destruct (P e) eqn:E; [|reflexivity]. rewrite <- H. symmetry. apply existsb_exists. eauto. Qed.
Lemma top_silent : forall b pw body conns q programs sched t1 t2 t3 s' t o, run b pw body sched (initial conns q programs) = (t1 ++ ECall t o :: t2 ++ EReturn t o :: t3, s') ->
  disconnecting o = true -> none any_insert (t2 ++ t3) ->
  none any_start t3 /\ forall d, times (started d) (t1 ++ t2) = times (ended d) (t1 ++ t2).
Proof.
  intros b pw body conns q programs sched t1 t2 t3 s' t o H Ho HN. apply run_exec in H. eapply silent_after; eauto. destruct o; try discriminate; reflexivity.
Qed.
Lemma top_flush : forall b pw body conns q programs sched t1 t2 t3 s' t o d, run b pw body sched (initial conns q programs) = (t1 ++ ECall t o :: t2 ++ EReturn t o :: t3, s') ->
  flushing o = true -> (exists u x, In (EDeliver u d KAsync x) t1) -> (exists u, In (EAccept u d) t1) -> exists u, In (EEnd u d) (t1 ++ t2).
Proof. intros b pw body conns q programs sched t1 t2 t3 s' t o d H Ho H1 H2. apply run_exec in H. eapply (flush_waits_called b pw body conns q programs); eauto. Qed.
Lemma top_flush_locked : forall b pw body conns q programs sched t1 t2 t3 s' t o d, run b pw body sched (initial conns q programs) = (t1 ++ EFlushLocked t :: t2 ++ EReturn t o :: t3, s') ->
  flushing o = true -> (exists u x, In (EDeliver u d KAsync x) t1) -> (exists u, In (EAccept u d) t1) -> exists u, In (EEnd u d) (t1 ++ t2).
Proof. intros b pw body conns q programs sched t1 t2 t3 s' t o d H Ho H1 H2. apply run_exec in H. eapply (flush_waits_locked b pw body conns q programs); eauto. Qed.
Lemma top_once : forall b pw body conns q programs sched tr s' d, run b pw body sched (initial conns q programs) = (tr, s') ->
  times (delivered d) tr <= 1 /\ times (started d) tr + times (dropped d) tr <= times (delivered d) tr /\ times (ended d) tr <= times (started d) tr.
Proof. intros b pw body conns q programs sched tr s' d H. apply run_exec in H. destruct (once _ _ _ _ _ _ _ _ d H) as (H1 & H2 & H3 & H4). auto. Qed.
Lemma top_same : forall b pw body conns q programs sched tr s' u d y, run b pw body sched (initial conns q programs) = (tr, s') -> In (EStart u d y) tr ->
  exists t m, In (EDeliver t d m y) tr /\ (m = KSync -> u = t) /\ forall t' m' x, In (EDeliver t' d m' x) tr -> x = y.
Proof.
  intros b pw body conns q programs sched tr s' u d y H HI. apply run_exec in H. destruct (started_delivered _ _ _ _ _ _ _ _ _ _ _ H HI) as (t & m & HD).
  exists t, m. destruct (same_sample _ _ _ _ _ _ _ _ _ _ _ _ _ _ H HD HI) as [_ HS]. repeat split; auto.
  intros t' m' x HD'. destruct (same_sample _ _ _ _ _ _ _ _ _ _ _ _ _ _ H HD' HI) as [E _]. congruence.
Qed.
Lemma top_no_drop : forall b pw body conns q programs sched tr s', run b pw body sched (initial conns q programs) = (tr, s') ->
  conns <> [] -> none any_erase tr -> none any_drop tr.
Proof.
  intros b pw body conns q programs sched tr s' H HC HN. apply run_exec in H. eapply connected_no_drop; eauto. cbn. intros E. apply map_eq_nil in E. congruence.
Qed.
Lemma top_finished : forall b pw body conns q programs sched tr s' t d m x, run b pw body sched (initial conns q programs) = (tr, s') ->
  (forall u, u < length (c_threads s') -> finished s' u) -> In (EDeliver t d m x) tr -> (m = KAsync -> forallb snd sched = true) ->
  (times (started d) tr = 1 /\ times (ended d) tr = 1 /\ times (dropped d) tr = 0) \/ (times (started d) tr = 0 /\ times (ended d) tr = 0 /\ times (dropped d) tr = 1).
Proof.
  intros b pw body conns q programs sched tr s' t d m x H HF HI HM. pose proof (run_exec _ _ _ _ _ _ _ H) as HE.
  assert (HF' : all_finished s'). { intros u k Hn. assert (u < length (c_threads s')) by (apply nth_error_Some; congruence). specialize (HF _ H0). unfold finished in HF. congruence. }
  destruct (once _ _ _ _ _ _ _ _ d HE) as (_ & _ & HO & _).
  destruct (finished_once _ _ _ _ _ _ _ _ _ _ _ _ HE HF' HI) as [HA|[HA|(_ & _ & Hm & y & Hy)]]; [auto|right; lia|].
  exfalso. refine (no_deferred _ _ _ _ _ _ _ H (HM Hm) _ d y Hy). intros. cbn. discriminate.
Qed.
Lemma top_flushed : forall b pw body conns q programs sched t1 t2 t3 s' t o d, run b pw body sched (initial conns q programs) = (t1 ++ ECall t o :: t2 ++ EReturn t o :: t3, s') ->
  flushing o = true -> (exists u x, In (EDeliver u d KAsync x) t1) -> (exists u, In (EAccept u d) t1) ->
  times (started d) (t1 ++ t2) = 1 /\ times (ended d) (t1 ++ t2) = 1.
Proof.
  intros b pw body conns q programs sched t1 t2 t3 s' t o d H Ho H1 H2. destruct (top_flush _ _ _ _ _ _ _ _ _ _ _ _ _ _ H Ho H1 H2) as (u & Hu).
  apply run_exec in H. replace (t1 ++ ECall t o :: t2 ++ EReturn t o :: t3) with ((t1 ++ [ECall t o] ++ t2) ++ (EReturn t o :: t3)) in H by (rewrite <- !app_assoc; reflexivity).
  apply exec_app in H. destruct H as (s1 & H & _). destruct (once _ _ _ _ _ _ _ _ d H) as (HA & HB & HC & _).
  assert (HT : forall P : event X -> bool, P (ECall t o) = false -> times P (t1 ++ [ECall t o] ++ t2) = times P (t1 ++ t2)).
  { intros P HP. unfold times. rewrite !filter_app. cbn [filter]. rewrite HP. reflexivity. }
  rewrite !HT in * by reflexivity. assert (HE : 1 <= times (ended d) (t1 ++ t2)).
  { unfold times. assert (HX : In (EEnd u d) (filter (ended d) (t1 ++ t2))) by (apply filter_In; split; [exact Hu|apply Nat.eqb_refl]).
    destruct (filter (ended d) (t1 ++ t2)); [destruct HX|cbn; lia]. }
  lia.
Qed.
Lemma top_sync : forall b pw body conns q programs sched tr s' d t x, run b pw body sched (initial conns q programs) = (tr, s') -> finished s' t -> In (EDeliver t d KSync x) tr ->
  (times (started d) tr = 1 /\ times (ended d) tr = 1 /\ times (dropped d) tr = 0) \/ (times (started d) tr = 0 /\ times (dropped d) tr = 1).
Proof. intros b pw body conns q programs sched tr s' d t x H. apply run_exec in H. eapply sync_here; eauto. Qed.
Lemma top_progress : forall b pw conns q programs sched tr s', run b pw (fun _ => []) sched (initial conns q programs) = (tr, s') -> ~ deadlocked b pw (fun _ => []) s'.
Proof.
  intros b pw conns q programs sched tr s' H (HC & HS & t & i & k & Hn). apply run_exec in H.
  destruct (no_deadlock _ _ _ _ _ _ _ H HC) as [(u & _ & HU)|HU]; [apply HU, HS|]. specialize (HU _ _ Hn). discriminate.
Qed.
Lemma top_terminates : forall conns programs, exists N : nat, forall b pw q sched, length (fst (run b pw (fun _ => []) sched (initial conns q programs))) <= N.
Proof.
  intros conns programs. destruct (terminates conns programs) as [N HN]. exists N. intros b pw q sched. destruct (run b pw (fun _ => []) sched (initial conns q programs)) as [tr s'] eqn:E.
  apply run_exec in E. exact (HN _ _ _ _ _ E).
Qed.
Lemma top_completes : forall b pw conns q programs sched tr s', run b pw (fun _ => []) sched (initial conns q programs) = (tr, s') ->
  exists sched' tr' s'', run b pw (fun _ => []) (sched ++ sched') (initial conns q programs) = (tr ++ tr', s'') /\
    (c_crash s'' <> None \/ forall t, t < length (c_threads s'') -> finished s'' t).
Proof.
  intros b pw conns q programs sched tr s' H. pose proof (run_exec _ _ _ _ _ _ _ H) as HE. destruct (completes _ _ _ _ _ _ _ HE) as (tr' & s'' & HX & HF).
  apply exec_run in HX. destruct HX as (sched' & HX). unfold no_calls in HX. exists sched', tr', s''. rewrite run_app, H, HX. split; [reflexivity|].
  destruct HF as [HF|HF]; [auto|right]. intros t Ht. unfold finished. destruct (nth_error (c_threads s'') t) as [k|] eqn:E; [now rewrite (HF _ _ E)|].
  apply nth_error_None in E. lia.
Qed.
Lemma top_callback_stuck : forall b pw body conns q programs sched t1 t2 t3 t4 s' t u d x o,
  run b pw body sched (initial conns q programs) = (t1 ++ EStart u d x :: t2 ++ ECall t o :: t3 ++ EReturn t o :: t4, s') ->
  disconnecting o = true -> none any_insert (t3 ++ t4) -> exists v, In (EEnd v d) (t2 ++ t3).
Proof.
  intros b pw body conns q programs sched t1 t2 t3 t4 s' t u d x o H Ho HN.
  replace (t1 ++ EStart u d x :: t2 ++ ECall t o :: t3 ++ EReturn t o :: t4) with ((t1 ++ EStart u d x :: t2) ++ ECall t o :: t3 ++ EReturn t o :: t4) in H
    by (rewrite <- app_assoc; reflexivity).
  pose proof (run_exec _ _ _ _ _ _ _ H) as HE. destruct (top_silent _ _ _ _ _ _ _ _ _ _ _ _ _ H Ho HN) as [_ HT]. specialize (HT d).
  apply exec_app in HE. destruct HE as (s1 & H1 & _). apply exec_app in H1. destruct H1 as (s2 & H1 & _). destruct (once _ _ _ _ _ _ _ _ d H1) as (_ & _ & HC & _).
  assert (E0 : times (ended d) t1 = 0 \/ exists v, In (EEnd v d) t1).
  { unfold times. destruct (filter (ended d) t1) as [|e l] eqn:E; [now left|right]. assert (HX : In e (filter (ended d) t1)) by (rewrite E; now left).
    apply filter_In in HX. destruct HX as [HX HY]. destruct e; try discriminate. cbn in HY. apply Nat.eqb_eq in HY. subst. eauto. }
  assert (E1 : times (ended d) (t2 ++ t3) = 0 \/ exists v, In (EEnd v d) (t2 ++ t3)).
  { unfold times. destruct (filter (ended d) (t2 ++ t3)) as [|e l] eqn:E; [now left|right]. assert (HX : In e (filter (ended d) (t2 ++ t3))) by (rewrite E; now left).
    apply filter_In in HX. destruct HX as [HX HY]. destruct e; try discriminate. cbn in HY. apply Nat.eqb_eq in HY. subst. eauto. }
  destruct E1 as [E1|E1]; [|exact E1]. exfalso. unfold times in *. rewrite !filter_app, !app_length in *. cbn [filter started ended] in HT. rewrite Nat.eqb_refl in HT. cbn [length] in HT. lia.
Qed.
Lemma top_no_crash : forall b pw body conns q programs sched tr s', run b pw body sched (initial conns q programs) = (tr, s') -> no_op destroys body programs -> none any_crash tr.
Proof. intros b pw body conns q programs sched tr s' H. apply run_exec in H. eapply no_crash; eauto. Qed.
Lemma top_producers : forall b pw body conns q programs sched tr s', run b pw body sched (initial conns q programs) = (tr, s') ->
  NoDup (map (fun cpm : nat * nat * kind => fst (fst cpm)) conns) -> no_op connects body programs -> no_op disconnecting body programs ->
  (forall x o, In o (body x) -> destroys o = false) -> (forall p, destructions p programs <= 1) -> none any_crash tr.
Proof. intros b pw body conns q programs sched tr s' H. apply run_exec in H. eapply destroy_producers_safe; eauto. Qed.
Lemma top_consumer : forall b pw conns q programs sched1 sched2 t1 t2 t s1 s2, run b pw (fun _ => []) sched1 (initial conns q programs) = (t1, s1) ->
  c_alive s1 = true ->
  nth_error (c_threads s1) t = Some [ICall ODestroyConsumer] -> t < length programs -> (forall u, u < length programs -> u <> t -> finished s1 u) ->
  run b pw (fun _ => []) sched2 s1 = (t2, s2) -> none any_crash t2.
Proof. intros b pw conns q programs sched1 sched2 t1 t2 t s1 s2 H1 HA Hn Ht HF H2. apply run_exec in H1, H2. eapply destroy_safe; eauto. Qed.
Lemma top_race : forall b pw body conns q programs sched tr s' t u i j, run b pw body sched (initial conns q programs) = (tr, s') -> no_op connects body programs ->
  no_op destroys body programs \/ b = Release -> ~ race_between b s' t u i j.
Proof. intros b pw body conns q programs sched tr s' t u i j H. apply run_exec in H. eapply no_race; eauto. Qed.
Lemma top_races_only : forall b pw body conns q programs sched tr s' t u i j, run b pw body sched (initial conns q programs) = (tr, s') -> race_between b s' t u i j ->
  (exists c p, i = IInsert c p) \/ (exists c p, j = IInsert c p) \/ (b = Debug /\ ((exists p, i = IContains p) \/ (exists p, j = IContains p))).
Proof. intros b pw body conns q programs sched tr s' t u i j H. apply run_exec in H. eapply races_only; eauto. Qed.
Lemma top_connected : forall b pw body conns q programs sched t1 t2 t p m s', run b pw body sched (initial conns q programs) = (t1 ++ EReturn t (OConnect p m) :: t2, s') ->
  none any_erase (t1 ++ t2) -> none any_drop t2.
Proof. intros b pw body conns q programs sched t1 t2 t p m s' H. apply run_exec in H. eapply connected_after_return; eauto. Qed.
End T.
