(** flush() waits for everything accepted before it; after disconnect_and_flush() the consumer is silent. *)
From Verif Require Import Prelude ConcModel ConcSpec ConcInv ConcLocks ConcDeliv ConcInvs ConcSilent ConcMode.
Local Open Scope nat_scope.

Section P.
Context {X : Type}.
Implicit Types (s : state X) (k : list (instr X)) (i : instr X) (tr : list (event X)).

Ltac unst := cbn [go spawn set_threads set_conns set_hooks set_alock set_xlock set_shared set_queue set_stat new_delivery new_conn set_dead set_crash unhook
       c_threads c_queue c_stat c_next c_conns c_hooks c_alock c_xlock c_shared c_alive c_crash c_nextc] in *.

(** thread [t] still has to execute [i] *)
Definition pending s t i : Prop := exists k, nth_error (c_threads s) t = Some k /\ In i k.
Lemma pending_step : forall b pw body im u s s' ev t i, step b pw body im u s = Some (ev, s') -> pending s t i ->
  pending s' t i \/ (u = t /\ exists k0, nth_error (c_threads s) t = Some (i :: k0)).
Proof.
  intros b pw body im u s s' ev t i H (k & Hn & Hi).
  destruct (step_moved _ _ _ _ _ _ _ _ H) as (j & k0 & Hj & [(w & _ & ->)|(_ & e & _ & HT)]); [left; exists k; auto|].
  assert (HL : u < length (c_threads s)) by (apply nth_error_Some; congruence).
  assert (HLt : t < length (c_threads s)) by (apply nth_error_Some; congruence).
  assert (HE : nth_error (c_threads s') t = nth_error (upd (c_threads s) u (e ++ k0)) t).
  { destruct HT as [->|(d & x & ->)]; [reflexivity|]. apply nth_error_app1. rewrite upd_length. exact HLt. }
  destruct (Nat.eq_dec t u) as [->|N].
  - rewrite upd_same in HE by exact HL. rewrite Hj in Hn. injection Hn as <-. destruct Hi as [->|Hi]; [right; eauto|].
    left. exists (e ++ k0). split; [exact HE|apply in_or_app; auto].
  - left. rewrite upd_other in HE by exact N. exists k. split; [congruence|exact Hi].
Qed.
Lemma step_return : forall b pw body im u s s' t o, step b pw body im u s = Some (EReturn t o, s') -> u = t /\ exists k0, nth_error (c_threads s) t = Some (IReturn o :: k0).
Proof. intros b pw body im u s s' t o H. step_cases H; inversion H; subst; eauto. Qed.
Lemma step_call : forall b pw body im u s s' t o, step b pw body im u s = Some (ECall t o, s') ->
  u = t /\ exists k0, nth_error (c_threads s) t = Some (ICall o :: k0) /\ s' = go s t (code o ++ IReturn o :: k0).
Proof. intros b pw body im u s s' t o H. step_cases H; inversion H; subst; eauto. Qed.
Lemma step_locked : forall b pw body im u s s' t, step b pw body im u s = Some (EFlushLocked t, s') ->
  u = t /\ exists k0, nth_error (c_threads s) t = Some (IFlush :: k0) /\ s' = go s t (IWaits (c_queue s) :: k0).
Proof. intros b pw body im u s s' t H. step_cases H; inversion H; subst; eauto. Qed.
Lemma go_thread : forall s t k k', nth_error (c_threads s) t = Some k -> nth_error (c_threads (go s t k')) t = Some k'.
Proof. intros. cbn. apply upd_same, nth_error_Some. congruence. Qed.

(** No instruction [IReturn] comes to the top while [IFlush] is pending, and no return from a flushing call while [IWaits] is. *)
Lemma no_return_flush : forall s t o k0, flush_top s -> nth_error (c_threads s) t = Some (IReturn o :: k0) -> ~ pending s t IFlush.
Proof.
  intros s t o k0 HF Hn (k & Hk & Hi). rewrite Hn in Hk. injection Hk as <-. destruct Hi as [Hi|Hi]; [discriminate|]. destruct (HF _ _ Hn) as [H _]. specialize (H Hi). discriminate.
Qed.
Lemma no_return_waits : forall s t o k0 l, ret_top s -> flushing o = true -> nth_error (c_threads s) t = Some (IReturn o :: k0) -> ~ pending s t (IWaits l).
Proof.
  intros s t o k0 l HF Ho Hn (k & Hk & Hi). rewrite Hn in Hk. injection Hk as <-. destruct Hi as [Hi|Hi]; [discriminate|]. destruct (HF _ _ Hn) as [H _].
  cbn [fret] in H. specialize (H Ho). assert (HB : existsb is_waits k0 = true) by (apply existsb_exists; exists (IWaits l); auto). specialize (H HB). discriminate.
Qed.

(** ** flush() *)
Definition taken (a : stat X) : Prop := match a with SDeferred _ | SActive KAsync | SDone => True | _ => False end.
Lemma taken_step : forall b pw body im t s s' ev tr d, (forall d, deliv_ok s tr d) -> step b pw body im t s = Some (ev, s') -> taken (c_stat s d) -> taken (c_stat s' d).
Proof.
  intros b pw body im t s s' ev tr d HD H HT. destruct (stat_step _ _ _ _ _ _ _ _ _ d HD H) as [->|HN]; [exact HT|].
  destruct (c_stat s d) as [| |[]| |], (c_stat s' d) as [| |[]| |]; cbn in *; tauto.
Qed.
(** A task that has been accepted is in the queue as soon as the lock is free for a flush. *)
Lemma taken_queued : forall s tr t k0 d, inv s tr -> nth_error (c_threads s) t = Some (IFlush :: k0) -> taken (c_stat s d) -> c_stat s d = SDone \/ In d (c_queue s).
Proof.
  intros s tr t k0 d HI Hn HT. pose proof (i_locks _ _ HI) as HL. destruct (head_A _ _ _ _ HL Hn eq_refl) as [HA HZ].
  pose proof (i_deliv _ _ HI d) as HD. unfold deliv_ok in HD.
  assert (HP : tot (isP d) (c_threads s) = 0%Z).
  { pose proof (tot_nonneg (isP d) (c_threads s) (isP_nn d)) as H0. destruct (Z.ltb_spec 0 (tot (isP d) (c_threads s))) as [C|C]; [|lia]. exfalso.
    destruct (tot_pos _ _ (isP_nn d) C) as (u & k & Hu & Hk).
    assert (HX : exists i, In i k /\ (0 < isP d i)%Z).
    { clear - Hk. induction k as [|i k IH]; cbn in Hk; [lia|]. destruct (Z.ltb_spec 0 (isP d i)); [exists i; split; [now left|assumption]|].
      destruct IH as (j & Hj & Hp); [lia|]. exists j. split; [now right|exact Hp]. }
    destruct HX as (i & Hi & Hp). destruct i; cbn in Hp; try lia.
    pose proof (holds_A _ _ _ _ HL Hu Hi eq_refl) as HB. assert (u = t) by congruence. subst u. rewrite Hn in Hu. injection Hu as <-.
    destruct Hi as [Hi|Hi]; [discriminate|]. pose proof (wt_in dA _ _ dA_nn Hi) as HW. cbn in HW. lia. }
  destruct (c_stat s d) as [| |[]| |]; cbn in HT; try tauto; right; apply nq_pos; lia.
Qed.
(** Either done, or a flush of thread [t] is still waiting for it. *)
Definition waited s t d : Prop := c_stat s d = SDone \/ exists l, pending s t (IWaits l) /\ In d l.
Lemma waited_step : forall b pw body im u s s' ev tr t d, inv s tr -> step b pw body im u s = Some (ev, s') -> waited s t d -> waited s' t d.
Proof.
  intros b pw body im u s s' ev tr t d HI H [HW|(l & HP & Hd)].
  - left. rewrite (stat_final _ _ _ _ _ _ _ _ _ d (i_deliv _ _ HI) H); auto.
  - destruct (pending_step _ _ _ _ _ _ _ _ _ _ H HP) as [HP'|(-> & k0 & Hn)]; [right; eauto|].
    unfold step in H. rewrite Hn in H. destruct (negb (is_none (c_crash s))); [discriminate|].
    destruct (touches (IWaits l) && negb (c_alive s)).
    { unfold crashed in H. injection H as <- <-. right. exists l. split; [exact HP|exact Hd]. }
    destruct l as [|d' l]; [destruct Hd|].
    destruct (c_stat s d') eqn:Es; try discriminate; injection H as <- <-.
    + right. exists (d' :: l). split; [|exact Hd]. exists (consume_code body KAsync d' x ++ IWaits (d' :: l) :: k0).
      split; [unst; apply upd_same, nth_error_Some; congruence|]. apply in_or_app. right. now left.
    + destruct Hd as [->|Hd]; [left; exact Es|]. right. exists l. split; [|exact Hd]. exists (IWaits l :: k0). split; [unst; apply upd_same, nth_error_Some; congruence|now left].
Qed.
Lemma flush_waits_locked : forall b pw body conns q programs tr s' t1 t2 t3 t o d,
  exec b pw body (initial conns q programs) tr s' -> tr = t1 ++ EFlushLocked t :: t2 ++ EReturn t o :: t3 -> flushing o = true ->
  (exists u, In (EAccept u d) t1) -> (exists u x, In (EDeliver u d KAsync x) t1) -> exists u, In (EEnd u d) (t1 ++ t2).
Proof.
  intros b pw body conns q programs tr s' t1 t2 t3 t o d HE -> Ho (u & Ha) (u' & x & Hd).
  apply exec_app in HE. destruct HE as (s1 & E1 & HE). inversion HE as [|? im u0 ev s2 ? ? Hst E2]; subst.
  apply exec_app in E2. destruct E2 as (s3 & E2 & E3). inversion E3 as [|? im3 u3 ev3 s4 ? ? Hst3 E4]; subst.
  pose proof (reach_inv3 _ _ _ _ _ _ _ _ E1) as I1.
  assert (HT : taken (c_stat s1 d)).
  { destruct I1 as [[I1 _] M1]. pose proof (i_deliv _ _ I1 d) as HD. destruct (M1 _ _ _ _ Hd) as (_ & M2 & _). unfold deliv_ok in HD.
    pose proof (in_zt (accepted d) _ _ Ha (Nat.eqb_refl _)). destruct (c_stat s1 d) as [|y|m| |] eqn:Es; cbn; auto; try lia.
    destruct m; [|exact I]. specialize (M2 KSync eq_refl). discriminate. }
  destruct (step_locked _ _ _ _ _ _ _ _ Hst) as (-> & k0 & Hn & ->).
  assert (HW : waited (go s1 t (IWaits (c_queue s1) :: k0)) t d).
  { destruct I1 as [[I1 _] _]. destruct (taken_queued _ _ _ _ _ I1 Hn HT) as [HC|HC]; [left; exact HC|].
    right. exists (c_queue s1). split; [|exact HC]. exists (IWaits (c_queue s1) :: k0). split; [eapply go_thread; eauto|now left]. }
  pose proof (inv3_step _ _ _ _ _ _ _ _ _ I1 Hst) as I2.
  assert (W3 : waited s3 t d).
  { pose proof (exec_keep3 b pw body (fun s _ => waited s t d) (fun _ => True)) as HK. cbv beta in HK. refine (HK _ _ _ _ _ E2 I2 HW _); [|auto].
    intros im' t' s s'' ev tr0 [[HI _] _] HP _ HS. eapply waited_step; eauto. }
  pose proof (exec_inv3 _ _ _ _ _ _ _ E2 I2) as I3.
  destruct (step_return _ _ _ _ _ _ _ _ _ Hst3) as (-> & k3 & Hn3).
  destruct I3 as [[I3 (F3 & R3)] _].
  destruct W3 as [W3|(l & W3 & _)]; [|now destruct (no_return_waits _ _ _ _ _ R3 Ho Hn3 W3)].
  pose proof (i_deliv _ _ I3 d) as HD. unfold deliv_ok in HD. rewrite W3 in HD. destruct HD as (_ & _ & _ & _ & _ & HN & _).
  unfold zt, times in HN. destruct (filter (ended d) ((t1 ++ [EFlushLocked t]) ++ t2)) as [|e l] eqn:Ef; [cbn in HN; lia|].
  assert (HI : In e (filter (ended d) ((t1 ++ [EFlushLocked t]) ++ t2))) by (rewrite Ef; now left). apply filter_In in HI. destruct HI as [HI He].
  destruct e; try discriminate. cbn in He. apply Nat.eqb_eq in He. subst d0. exists t0. apply in_app_or in HI. apply in_or_app. destruct HI as [HI|HI]; [|auto].
  apply in_app_or in HI. destruct HI as [HI|[HI|[]]]; [auto|discriminate].
Qed.
(** Between the call and the return the flush acquires its lock. *)
Lemma pending_flush_locked : forall b pw body t s tr s', exec b pw body s tr s' -> pending s t IFlush ->
  pending s' t IFlush \/ exists t1 t2, tr = t1 ++ EFlushLocked t :: t2.
Proof.
  intros b pw body t s tr s' H. induction H as [s|s im u ev s1 tr s' H H1 IH]; intros HP; [auto|].
  destruct (pending_step _ _ _ _ _ _ _ _ _ _ H HP) as [HP'|(-> & k0 & Hn)].
  - destruct (IH HP') as [HQ|(t1 & t2 & ->)]; [auto|]. right. exists (ev :: t1), t2. reflexivity.
  - assert (HC : ev = EFlushLocked t \/ (c_crash s1 <> None /\ c_threads s1 = c_threads s)).
    { unfold step in H. rewrite Hn in H. destruct (negb (is_none (c_crash s))); [discriminate|].
      destruct (touches IFlush && negb (c_alive s)); [unfold crashed in H|]; injection H as <- <-; [right; split; [discriminate|reflexivity]|auto]. }
    destruct HC as [->|[HC HT]]; [right; exists [], tr; reflexivity|]. left.
    assert (s' = s1). { inversion H1 as [|? ? ? ? ? ? ? HS]; subst; [reflexivity|]. unfold step in HS. destruct (c_crash s1); [discriminate|congruence]. }
    subst s'. unfold pending. rewrite HT. exact HP.
Qed.
Lemma code_flush : forall (o : op X), flushing o = true -> In IFlush (code o).
Proof. intros [] H; try discriminate; cbn; auto 10. Qed.
Lemma flush_waits_called : forall b pw body conns q programs tr s' t1 t2 t3 t o o' d,
  exec b pw body (initial conns q programs) tr s' -> tr = t1 ++ ECall t o :: t2 ++ EReturn t o' :: t3 -> flushing o = true -> flushing o' = true ->
  (exists u, In (EAccept u d) t1) -> (exists u x, In (EDeliver u d KAsync x) t1) -> exists u, In (EEnd u d) (t1 ++ t2).
Proof.
  intros b pw body conns q programs tr s' t1 t2 t3 t o o' d HE -> Ho Ho' Ha Hd.
  pose proof HE as HE0.
  apply exec_app in HE. destruct HE as (s1 & E1 & HE). inversion HE as [|? im u0 ev s2 ? ? Hst E2]; subst.
  apply exec_app in E2. destruct E2 as (s3 & E2 & E3). inversion E3 as [|? im3 u3 ev3 s4 ? ? Hst3 E4]; subst.
  destruct (step_call _ _ _ _ _ _ _ _ _ Hst) as (-> & k0 & Hn & Hs2).
  assert (HP : pending s2 t IFlush).
  { subst s2. exists (code o ++ IReturn o :: k0). split; [eapply go_thread; eauto|]. apply in_or_app. left. now apply code_flush. }
  assert (HI : inv3 s3 ((t1 ++ [ECall t o]) ++ t2)).
  { apply (reach_inv3 b pw body conns q programs). apply exec_app. exists s2. split; [|exact E2]. apply exec_app. exists s1. split; [exact E1|]. econstructor; [exact Hst|constructor]. }
  destruct (step_return _ _ _ _ _ _ _ _ _ Hst3) as (-> & k3 & Hn3). destruct HI as [[_ (F3 & _)] _].
  destruct (pending_flush_locked _ _ _ _ _ _ _ E2 HP) as [HQ|(t21 & t22 & ->)]; [now destruct (no_return_flush _ _ _ _ F3 Hn3)|].
  destruct (flush_waits_locked b pw body conns q programs _ s' (t1 ++ ECall t o :: t21) t22 t3 t o' d HE0) as (u & HU).
  - rewrite <- ?app_assoc. cbn [app]. rewrite <- ?app_assoc. reflexivity.
  - exact Ho'.
  - destruct Ha as [u Ha]. exists u. apply in_or_app. auto.
  - destruct Hd as (u & x & Hd). exists u, x. apply in_or_app. auto.
  - exists u. apply in_app_or in HU. apply in_or_app. rewrite in_app_iff. destruct HU as [HU|HU]; [|right; right; now right].
    apply in_app_or in HU. destruct HU as [HU|[HU|HU]]; [auto|discriminate|auto].
Qed.

(** ** disconnect_and_flush() *)
Definition disc i : bool := match i with IDisconnect | IDiscs _ => true | _ => false end.
Definition lead2 i : bool := match i with IAcqA | IAcqX => true | _ => false end.
Fixpoint fd k : Prop := match k with [] => True | i :: k' => (existsb disc k' = true -> lead2 i = true) /\ fd k' end.
Lemma fd_none : forall k, existsb disc k = false -> fd k.
Proof. induction k as [|i k IH]; intros H; cbn [fd existsb] in *; [exact I|]. apply orb_false_elim in H. destruct H as [_ H]. split; [congruence|auto]. Qed.
Lemma fd_app : forall e k, fd e -> fd k -> existsb disc k = false -> fd (e ++ k).
Proof.
  induction e as [|i e IH]; intros k He Hk HC; cbn [app fd] in *; [exact Hk|]. destruct He as [H1 H2]. split; [|auto].
  rewrite existsb_app, HC, orb_false_r. exact H1.
Qed.
Lemma disc_map : forall A (g : A -> instr X) l, (forall a, disc (g a) = false) -> existsb disc (map g l) = false.
Proof. intros A g l H. induction l as [|a l IH]; cbn; [reflexivity|]. now rewrite H, IH. Qed.
Lemma disc_consume : forall body m d (x : X), existsb disc (consume_code body m d x) = false.
Proof. intros. unfold consume_code. cbn [existsb disc orb]. rewrite existsb_app, disc_map by reflexivity. reflexivity. Qed.
Lemma expand_fd : forall body i e, expand body i e -> fd e /\ (lead2 i = true -> e = []).
Proof.
  intros body i e H. destruct i; cbn [expand] in H; try (subst e; cbn; intuition discriminate).
  - subst e. split; [|discriminate]. destruct o; cbn; intuition discriminate.
  - destruct H as [l ->]. split; [apply fd_none; now apply disc_map|discriminate].
  - destruct H as [l ->]. split; [apply fd_none; now apply disc_map|discriminate].
  - destruct H as [l ->]. split; [apply fd_none; now apply disc_map|discriminate].
  - destruct H as [->|[d ->]]; [cbn; auto|]. destruct m; cbn; intuition discriminate.
  - destruct H as [->| ->]; cbn; intuition discriminate.
  - destruct H as [->| ->]; cbn; intuition discriminate.
  - destruct H as (h1 & h2 & h3 & c & ->). cbn. intuition discriminate.
  - destruct H as [->| ->]; [cbn; intuition discriminate|]. split; [apply fd_none, disc_consume|discriminate].
  - destruct H as [->| ->]; cbn; intuition discriminate.
  - destruct H as [->| ->]; cbn; intuition discriminate.
  - subst e. destruct sy; cbn; intuition discriminate.
  - destruct H as [l ->]. cbn. intuition discriminate.
  - destruct l as [|d l]; [subst; cbn; intuition discriminate|]. destruct H as [->|[x ->]]; [cbn; intuition discriminate|]. split; [|discriminate].
    apply fd_none. rewrite existsb_app, disc_consume. reflexivity.
  - destruct H as [l ->]. cbn. intuition discriminate.
  - destruct l; subst; cbn; intuition discriminate.
Qed.
Definition disc_top s : Prop := forall t k, nth_error (c_threads s) t = Some k -> fd k.
Lemma disc_top_step : forall b pw body im t s s' ev, disc_top s -> step b pw body im t s = Some (ev, s') -> disc_top s'.
Proof.
  intros b pw body im t s s' ev HF H. refine (local_step fd b pw body im t s s' ev H HF _ _).
  - intros d x. apply fd_none, disc_consume.
  - intros i k0 e _ _ He [H1 H2]. destruct (expand_fd _ _ _ He) as [H3 H4]. destruct (existsb disc k0) eqn:E.
    + rewrite (H4 (H1 eq_refl)). exact H2.
    + now apply fd_app.
Qed.
Lemma disc_top_initial : forall conns q (programs : list (list (op X))), disc_top (initial conns q programs).
Proof.
  intros conns q programs t k Hn. cbn [initial c_threads] in Hn. rewrite nth_error_map in Hn. destruct (nth_error programs t); [|discriminate]. injection Hn as <-.
  apply fd_none. now apply disc_map.
Qed.
Lemma disc_top_exec : forall b pw body s tr s', exec b pw body s tr s' -> disc_top s -> disc_top s'.
Proof. intros b pw body s tr s' H. induction H; intros HD; auto. apply IHexec. eapply disc_top_step; eauto. Qed.

(** Without a connection nothing new is accepted. *)
Lemma empty_stat : forall b pw body im t s s' ev tr d, (forall d, deliv_ok s tr d) -> c_conns s = [] -> step b pw body im t s = Some (ev, s') ->
  c_stat s' d = c_stat s d \/
  match c_stat s d, c_stat s' d with SFresh, SDropped | SDeferred _, SActive KAsync | SActive _, SDone => True | _, _ => False end.
Proof.
  intros b pw body im t s s' ev tr d HD HC H. pose proof (stat_step _ _ _ _ _ _ _ _ _ d HD H) as HS.
  assert (HN : forall m, (c_stat s' d = SActive m -> c_stat s d <> SFresh)).
  { intros m Hm Hf. clear HS. step_cases H; injection H as <- <-; try subst; unst; try congruence;
    match goal with H : context [if ?a =? ?c then _ else _] |- _ => destruct (Nat.eqb_spec a c); [subst|congruence] end; try discriminate;
    try rewrite HC in *; try discriminate; congruence. }
  assert (HN' : forall x, (c_stat s' d = SDeferred x -> c_stat s d <> SFresh)).
  { intros m Hm Hf. clear HS. step_cases H; injection H as <- <-; try subst; unst; try congruence;
    match goal with H : context [if ?a =? ?c then _ else _] |- _ => destruct (Nat.eqb_spec a c); [subst|congruence] end; try discriminate;
    try rewrite HC in *; try discriminate; congruence. }
  destruct HS as [HS|HS]; [auto|]. right. destruct (c_stat s d) as [| |m1| |] eqn:E1, (c_stat s' d) as [| |m2| |] eqn:E2; cbn in HS; try tauto.
  - exact (HN' _ eq_refl eq_refl).
  - exact (HN _ eq_refl eq_refl).
Qed.
Lemma conns_step : forall b pw body im t s s' ev, c_conns s = [] -> any_insert ev = false -> step b pw body im t s = Some (ev, s') -> c_conns s' = [].
Proof.
  intros b pw body im t s s' ev HC HE H. step_cases H; injection H as <- <-; try subst; unst; auto; try discriminate.
  rewrite HC in *. discriminate.
Qed.
Definition calm (a : stat X) : Prop := match a with SFresh | SDone | SDropped => True | _ => False end.
Definition phaseA s t : Prop := (exists i, disc i = true /\ pending s t i) /\ pending s t IFlush.
Definition phaseB s t : Prop := c_conns s = [] /\ (forall d, c_stat s d <> SActive KSync) /\ pending s t IFlush.
Definition phaseC s t : Prop := c_conns s = [] /\ forall d, calm (c_stat s d) \/ exists l, pending s t (IWaits l) /\ In d l.
Lemma calm_step : forall b pw body im t s s' ev tr d, (forall d, deliv_ok s tr d) -> c_conns s = [] -> step b pw body im t s = Some (ev, s') -> calm (c_stat s d) -> calm (c_stat s' d).
Proof.
  intros b pw body im t s s' ev tr d HD HC H HK. destruct (empty_stat _ _ _ _ _ _ _ _ _ d HD HC H) as [->|HN]; [exact HK|].
  destruct (c_stat s d) as [| |[]| |], (c_stat s' d) as [| |[]| |]; cbn in *; tauto.
Qed.
Lemma no_sync_active : forall s tr t, inv s tr -> c_xlock s = Some t -> forall d, c_stat s d <> SActive KSync.
Proof.
  intros s tr t HI Hx d Hs. pose proof (i_deliv _ _ HI d) as HD. unfold deliv_ok in HD. rewrite Hs in HD.
  destruct (tot_pos (isE d) (c_threads s) (isE_nn d)) as (u & k & Hu & Hk); [lia|].
  assert (HX : exists i, In i k /\ (0 < isE d i)%Z).
  { clear - Hk. induction k as [|i k IH]; cbn in Hk; [lia|]. destruct (Z.ltb_spec 0 (isE d i)); [exists i; split; [now left|assumption]|].
    destruct IH as (j & Hj & Hp); [lia|]. exists j. split; [now right|exact Hp]. }
  destruct HX as (i & Hi & Hp). destruct i; cbn in Hp; try lia. unfold hit in Hp. destruct (Nat.eqb_spec d0 d); [subst d0|lia].
  pose proof (i_kind _ _ HI _ _ _ _ Hu Hi) as HK. pose proof (no_sync _ _ _ _ _ (i_locks _ _ HI) Hx Hu _ Hi). subst. congruence.
Qed.
Lemma phase_step : forall b pw body im u s s' ev tr t, inv3 s tr -> disc_top s -> any_insert ev = false -> step b pw body im u s = Some (ev, s') ->
  phaseA s t \/ phaseB s t \/ phaseC s t -> phaseA s' t \/ phaseB s' t \/ phaseC s' t.
Proof.
  intros b pw body im u s s' ev tr t [[HI (HF & HR)] HM] HDT HE H HP.
  pose proof (i_deliv _ _ HI) as HD. pose proof (i_locks _ _ HI) as HL.
  destruct (is_none (c_crash s)) eqn:Ecr; [|unfold step in H; rewrite Ecr in H; discriminate].
  destruct HP as [((i & Hdi & Hpi) & Hpf)|[(HC & HS & Hpf)|(HC & HS)]].
  - destruct (pending_step _ _ _ _ _ _ _ _ _ _ H Hpi) as [Hpi'|(-> & k0 & Hn)].
    + destruct (pending_step _ _ _ _ _ _ _ _ _ _ H Hpf) as [Hpf'|(-> & k0 & Hn)]; [left; split; eauto|]. exfalso.
      destruct Hpi as (k & Hk & Hi). rewrite Hn in Hk. injection Hk as <-. destruct (HDT _ _ Hn) as [HX _]. destruct Hi as [<-|Hi]; [discriminate|].
      assert (HB : existsb disc k0 = true) by (apply existsb_exists; eauto). specialize (HX HB). discriminate.
    + assert (HL' : t < length (c_threads s)) by (apply nth_error_Some; congruence).
      unfold step in H. rewrite Ecr, Hn in H. cbn [negb] in H.
      destruct (touches i && negb (c_alive s)).
      { unfold crashed in H. injection H as <- <-. left. split; [exists i|]; auto. }
      assert (Hpf0 : In IFlush k0). { destruct Hpf as (k & Hk & Hi). rewrite Hn in Hk. injection Hk as <-. destruct Hi as [Hi|Hi]; [rewrite Hi in Hdi; discriminate Hdi|exact Hi]. }
      destruct i; try discriminate.
      * injection H as <- <-. left. split; [eexists; split; [|eexists; split; [unst; now apply upd_same|now left]]; reflexivity|].
        eexists. split; [unst; now apply upd_same|now right].
      * destruct l as [|c l]; injection H as <- <-.
        -- right. left. split; [reflexivity|]. split; [|eexists; split; [unst; now apply upd_same|right; now right]].
           pose proof (head_X _ _ _ _ HL Hn eq_refl) as HX. exact (no_sync_active _ _ _ HI HX).
        -- left. split; [eexists; split; [|eexists; split; [unst; now apply upd_same|now left]]; reflexivity|].
           eexists. split; [unst; now apply upd_same|now right].
  - pose proof (conns_step _ _ _ _ _ _ _ _ HC HE H) as HC'.
    destruct (pending_step _ _ _ _ _ _ _ _ _ _ H Hpf) as [Hpf'|(-> & k0 & Hn)].
    + right. left. split; [exact HC'|]. split; [|exact Hpf']. intros d Hd. destruct (empty_stat _ _ _ _ _ _ _ _ _ d HD HC H) as [Hs|Hs]; [exact (HS d (eq_trans (eq_sym Hs) Hd))|].
      rewrite Hd in Hs. destruct (c_stat s d); exact Hs.
    + unfold step in H. rewrite Ecr, Hn in H. cbn [negb] in H.
      destruct (touches IFlush && negb (c_alive s)).
      { unfold crashed in H. injection H as <- <-. right. left. split; [exact HC|split; [exact HS|exact Hpf]]. }
      injection H as <- <-. right. right. split; [exact HC'|].
      assert (HQ : forall d, calm (c_stat s d) \/ In d (c_queue s)).
      { intros d. destruct (c_stat s d) as [| |[]| |] eqn:Es; cbn; auto.
        - destruct (taken_queued _ _ _ _ d HI Hn) as [HX|HX]; [rewrite Es; exact I|congruence|auto].
        - now destruct (HS d).
        - destruct (taken_queued _ _ _ _ d HI Hn) as [HX|HX]; [rewrite Es; exact I|congruence|auto]. }
      intros d. destruct (HQ d) as [HX|HX]; [auto|]. right. exists (c_queue s). split; [|exact HX].
      eexists. split; [unst; apply upd_same, nth_error_Some; congruence|now left].
  - right. right. split; [exact (conns_step _ _ _ _ _ _ _ _ HC HE H)|]. intros d. destruct (HS d) as [HK|(l & HPl & Hd)]; [left; eapply calm_step; eauto|].
    destruct (waited_step _ _ _ _ _ _ _ _ _ t d HI H) as [HW|HW]; [right; eauto|rewrite HW; left; exact I|auto].
Qed.
(** At the return of a flushing call nothing is going on any more, and nothing will. *)
Definition silent s : Prop := c_conns s = [] /\ forall d, calm (c_stat s d).
Lemma silent_step : forall b pw body im t s s' ev tr, inv s tr -> any_insert ev = false -> step b pw body im t s = Some (ev, s') -> silent s -> silent s' /\ any_start ev = false.
Proof.
  intros b pw body im t s s' ev tr HI HE H [HC HS]. split; [split|].
  - eapply conns_step; eauto.
  - intros d. eapply calm_step; eauto. apply HI.
  - destruct ev; try reflexivity. exfalso. destruct (step_start _ _ _ _ _ _ _ _ _ _ H) as (-> & m & k0 & Hn).
    pose proof (i_deliv _ _ HI d) as HD. specialize (HS d). unfold deliv_ok in HD.
    pose proof (tot_le (isS d) _ _ _ (isS_nn d) Hn) as LS. cbn [wt isS] in LS. unfold hit in LS. rewrite Nat.eqb_refl in LS. pose proof (wt_nonneg (isS d) k0 (isS_nn d)).
    destruct (c_stat s d) as [| |[]| |]; cbn in HS; try tauto; lia.
Qed.
Lemma silent_exec : forall b pw body s tr s', exec b pw body s tr s' -> forall tr0, inv3 s tr0 -> none any_insert tr -> silent s -> none any_start tr.
Proof.
  intros b pw body s tr s' H. induction H as [s|s im t ev s1 tr s' H H1 IH]; intros tr0 HI HN HS e He; [destruct He|].
  destruct (silent_step _ _ _ _ _ _ _ _ tr0 ltac:(apply HI) (HN ev (or_introl eq_refl)) H HS) as [HS' HV].
  destruct He as [<-|He]; [exact HV|]. eapply (IH (tr0 ++ [ev])); eauto; [eapply inv3_step; eauto|intros e' He'; apply HN; now right].
Qed.
Lemma code_disc : forall (o : op X), disconnecting o = true -> In IDisconnect (code o).
Proof. intros [] H; try discriminate; cbn; auto 10. Qed.
Lemma silent_after : forall b pw body conns q programs tr s' t1 t2 t3 t o o',
  exec b pw body (initial conns q programs) tr s' -> tr = t1 ++ ECall t o :: t2 ++ EReturn t o' :: t3 ->
  disconnecting o = true -> flushing o' = true -> none any_insert (t2 ++ t3) ->
  none any_start t3 /\ forall d, times (started d) (t1 ++ t2) = times (ended d) (t1 ++ t2).
Proof.
  intros b pw body conns q programs tr s' t1 t2 t3 t o o' HE -> Ho Ho' HN.
  apply exec_app in HE. destruct HE as (s1 & E1 & HE). inversion HE as [|? im u0 ev s2 ? ? Hst E2]; subst.
  apply exec_app in E2. destruct E2 as (s3 & E2 & E3). inversion E3 as [|? im3 u3 ev3 s4 ? ? Hst3 E4]; subst.
  pose proof (reach_inv3 _ _ _ _ _ _ _ _ E1) as I1. pose proof (inv3_step _ _ _ _ _ _ _ _ _ I1 Hst) as I2. pose proof (exec_inv3 _ _ _ _ _ _ _ E2 I2) as I3.
  pose proof (inv3_step _ _ _ _ _ _ _ _ _ I3 Hst3) as I4.
  pose proof (disc_top_step _ _ _ _ _ _ _ _ (disc_top_exec _ _ _ _ _ _ E1 (disc_top_initial _ _ _)) Hst) as D2.
  destruct (step_call _ _ _ _ _ _ _ _ _ Hst) as (-> & k0 & Hn & Hs2).
  assert (Hof : flushing o = true) by (destruct o; try discriminate; reflexivity).
  assert (PA : phaseA s2 t).
  { subst s2. split; [exists IDisconnect; split; [reflexivity|]|]; exists (code o ++ IReturn o :: k0); (split; [eapply go_thread; eauto|]); apply in_or_app; left; [now apply code_disc|now apply code_flush]. }
  assert (P3 : disc_top s3 /\ (phaseA s3 t \/ phaseB s3 t \/ phaseC s3 t)).
  { pose proof (exec_keep3 b pw body (fun s _ => disc_top s /\ (phaseA s t \/ phaseB s t \/ phaseC s t)) (fun e => any_insert e = false)) as HK. cbv beta in HK.
    refine (HK _ _ _ _ _ E2 I2 (conj D2 (or_introl PA)) _).
    - intros im' u s s'' ev tr0 HI [HD HP] HQ HS. split; [eapply disc_top_step; eauto|eapply phase_step; eauto].
    - intros e He. apply HN. apply in_or_app. auto. }
  destruct (step_return _ _ _ _ _ _ _ _ _ Hst3) as (-> & k3 & Hn3). pose proof I3 as [[I3' (F3 & R3)] _].
  assert (S3 : silent s3).
  { destruct P3 as [_ [[_ HP]|[(_ & _ & HP)|(HC & HS)]]]; [now destruct (no_return_flush _ _ _ _ F3 Hn3)..|]. split; [exact HC|].
    intros d. destruct (HS d) as [HK|(l & HP & _)]; [exact HK|]. now destruct (no_return_waits _ _ _ _ _ R3 Ho' Hn3 HP). }
  split.
  - eapply silent_exec; [exact E4|exact I4| |].
    + intros e He. apply HN. apply in_or_app. auto.
    + refine (proj1 (silent_step _ _ _ _ _ _ _ _ _ I3' _ Hst3 S3)). reflexivity.
  - intros d. pose proof (i_deliv _ _ I3' d) as HD. destruct S3 as [_ S3]. specialize (S3 d). unfold deliv_ok, zt in HD.
    assert (HT : forall P : event X -> bool, P (ECall t o) = false -> times P ((t1 ++ [ECall t o]) ++ t2) = times P (t1 ++ t2)).
    { intros P HP. unfold times. rewrite !filter_app. cbn [filter]. rewrite HP, app_nil_r. reflexivity. }
    rewrite !HT in HD by reflexivity. destruct (c_stat s3 d) as [| |[]| |]; cbn in S3; try tauto; lia.
Qed.

End P.
