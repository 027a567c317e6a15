(** Data races and crashes. *)
From Verif Require Import Prelude ConcModel ConcSpec ConcInv ConcLocks ConcDeliv ConcInvs ConcSilent ConcMode.
Local Open Scope nat_scope.

Section P.
Context {X : Type}.
Implicit Types (s : state X) (k e : list (instr X)) (i j : instr X) (tr : list (event X)).

Ltac unst := cbn [go spawn set_threads set_conns set_hooks set_alock set_xlock set_shared set_queue set_stat new_delivery new_conn set_dead set_crash unhook
       c_threads c_queue c_stat c_next c_conns c_hooks c_alock c_xlock c_shared c_alive c_crash c_nextc] in *.

Lemma head_S : forall s t i k, locks s -> nth_error (c_threads s) t = Some (i :: k) -> wS i = 1%Z -> 1 <= c_shared s t.
Proof.
  intros s t i k (HL & _) Hn Hw. destruct (HL _ _ Hn) as (_ & _ & L3 & _ & _ & L6). cbn [suf] in L6. destruct L6 as [_ L6].
  cbn [wt] in L3. rewrite Hw, wS_split in L3. pose proof (suf_nonneg _ _ L6). pose proof (wt_nonneg dS k dS_nn). lia.
Qed.
(** unlocked accesses *)
Definition unlocked i : bool := match i with IInsert _ _ | IContains _ => true | _ => false end.
Lemma locked_no_race : forall b s t u i j, locks s -> race_between b s t u i j -> unlocked i = true \/ unlocked j = true.
Proof.
  intros b s t u i j HL (N & (k1 & H1) & (k2 & H2) & a & c & A1 & A2 & HC).
  assert (HA : wA i = 1%Z -> wA j = 1%Z -> False).
  { intros W1 W2. destruct (head_A _ _ _ _ HL H1 W1). destruct (head_A _ _ _ _ HL H2 W2). congruence. }
  assert (HXS : wX i = 1%Z -> wS j = 1%Z -> False).
  { intros W1 W2. pose proof (head_X _ _ _ _ HL H1 W1) as HX. pose proof (head_S _ _ _ _ HL H2 W2) as HS. destruct HL as (_ & _ & _ & _ & L5).
    rewrite (L5 ltac:(congruence)) in HS. lia. }
  assert (HSX : wX j = 1%Z -> wS i = 1%Z -> False).
  { intros W1 W2. pose proof (head_X _ _ _ _ HL H2 W1) as HX. pose proof (head_S _ _ _ _ HL H1 W2) as HS. destruct HL as (_ & _ & _ & _ & L5).
    rewrite (L5 ltac:(congruence)) in HS. lia. }
  destruct i; try discriminate; auto; destruct j; try discriminate; auto; exfalso; auto;
  cbn in A1, A2; repeat match goal with H : match ?l with [] => _ | _ => _ end = Some _ |- _ => destruct l end; injection A1 as <-; injection A2 as <-; discriminate.
Qed.

(** ** Instructions that come from calls not made *)
Section NoOp.
Variable (bad : instr X -> bool) (body : X -> list (op X)).
Hypothesis Hbody : forall x o, In o (body x) -> bad (ICall o) = false.
Hypothesis Hexp : forall i e, expand body i e -> bad i = false -> forall j, In j e -> bad j = false.
Hypothesis Hcons : forall m d x, bad (IStart m d x) = false /\ bad (IEnd m d) = false.
Lemma absent_step : forall b pw im t s s' ev, step b pw body im t s = Some (ev, s') ->
  (forall u k i, nth_error (c_threads s) u = Some k -> In i k -> bad i = false) -> forall u k i, nth_error (c_threads s') u = Some k -> In i k -> bad i = false.
Proof.
  intros b pw im t s s' ev H HP u k i Hu Hi. revert u k Hu i Hi.
  refine (local_step (fun k => forall i, In i k -> bad i = false) b pw body im t s s' ev H _ _ _).
  - intros u k Hu i Hi. eauto.
  - intros d x i Hi. unfold consume_code in Hi. destruct Hi as [<-|Hi]; [apply (Hcons _ d x)|]. apply in_app_or in Hi. destruct Hi as [Hi|[<-|[]]]; [|apply (Hcons _ d x)].
    apply in_map_iff in Hi. destruct Hi as (o & <- & Ho). eauto.
  - intros i k0 e _ _ He HA j Hj. apply in_app_or in Hj. destruct Hj as [Hj|Hj]; [|apply HA; now right]. eapply Hexp; eauto. apply HA. now left.
Qed.
Lemma absent_exec : forall b pw s tr s', exec b pw body s tr s' ->
  (forall u k i, nth_error (c_threads s) u = Some k -> In i k -> bad i = false) -> forall u k i, nth_error (c_threads s') u = Some k -> In i k -> bad i = false.
Proof. intros b pw s tr s' H. induction H as [|s im t ev s1 tr s' HS HX IH]; intros HP; [exact HP|]. apply IH. eapply absent_step; eauto. Qed.
End NoOp.
Lemma absent_initial : forall (bad : instr X -> bool) conns q programs, (forall l o, In l programs -> In o l -> bad (ICall o) = false) ->
  forall u k i, nth_error (c_threads (initial conns q programs)) u = Some k -> In i k -> bad i = false.
Proof.
  intros bad conns q programs HP u k i Hn Hi. cbn [initial c_threads] in Hn. rewrite nth_error_map in Hn. destruct (nth_error programs u) as [l|] eqn:E; [|discriminate].
  injection Hn as <-. apply in_map_iff in Hi. destruct Hi as (o & <- & Ho). eapply HP; eauto. eapply nth_error_In; eauto.
Qed.

(** Without destruction: no destructor code anywhere. *)
Definition destr i : bool :=
  match i with
  | ICall o => destroys o | IEmitDisconnect _ | ITryDisconnect _ _ | IDestroySignals _ | IContains _ | IFindErase _ | IDestroy => true | _ => false end.
Definition conn i : bool := match i with ICall o => connects o | IConnect _ _ | IHook _ | IInsert _ _ => true | _ => false end.
Ltac inlist HI := cbn in HI; repeat (destruct HI as [<-|HI]; [try reflexivity; try discriminate|]); try destruct HI.
Lemma destr_expand : forall body, (forall x o, In o (body x) -> destroys o = false) -> forall i e, expand body i e -> destr i = false -> forall j, In j e -> destr j = false.
Proof.
  intros body HB i e H Hi j HI.
  assert (HCn : forall m d x, In j (consume_code body m d x) -> destr j = false).
  { intros m d x HJ. unfold consume_code in HJ. destruct HJ as [<-|HJ]; [reflexivity|]. apply in_app_or in HJ. destruct HJ as [HJ|[<-|[]]]; [|reflexivity].
    apply in_map_iff in HJ. destruct HJ as (o & <- & Ho). exact (HB _ _ Ho). }
  destruct i; try discriminate; cbn [expand] in H; try (subst e; inlist HI; fail).
  - subst e. destruct o; try discriminate; inlist HI.
  - destruct H as [l ->]. apply in_map_iff in HI. destruct HI as (h & <- & _). reflexivity.
  - destruct H as [l ->]. apply in_map_iff in HI. destruct HI as (h & <- & _). reflexivity.
  - destruct H as [->|[d ->]]; [destruct HI|]. destruct m; inlist HI.
  - destruct H as [->| ->]; inlist HI.
  - destruct H as (h1 & h2 & h3 & c & ->). inlist HI.
  - destruct H as [->| ->]; [inlist HI|eauto].
  - destruct H as [->| ->]; inlist HI.
  - destruct H as [->| ->]; inlist HI.
  - subst e. destruct sy; inlist HI.
  - destruct H as [l ->]. inlist HI.
  - destruct l as [|d l]; [subst; inlist HI|]. destruct H as [->|[x ->]]; [inlist HI|]. apply in_app_or in HI. destruct HI as [HI|[<-|[]]]; [eauto|reflexivity].
  - destruct H as [l ->]. inlist HI.
  - destruct l; subst; inlist HI.
Qed.
Lemma conn_expand : forall body, (forall x o, In o (body x) -> connects o = false) -> forall i e, expand body i e -> conn i = false -> forall j, In j e -> conn j = false.
Proof.
  intros body HB i e H Hi j HI.
  assert (HCn : forall m d x, In j (consume_code body m d x) -> conn j = false).
  { intros m d x HJ. unfold consume_code in HJ. destruct HJ as [<-|HJ]; [reflexivity|]. apply in_app_or in HJ. destruct HJ as [HJ|[<-|[]]]; [|reflexivity].
    apply in_map_iff in HJ. destruct HJ as (o & <- & Ho). exact (HB _ _ Ho). }
  destruct i; try discriminate; cbn [expand] in H; try (subst e; inlist HI; fail).
  - subst e. destruct o; try discriminate; inlist HI.
  - destruct H as [l ->]. apply in_map_iff in HI. destruct HI as (h & <- & _). reflexivity.
  - destruct H as [l ->]. apply in_map_iff in HI. destruct HI as (h & <- & _). reflexivity.
  - destruct H as [l ->]. apply in_map_iff in HI. destruct HI as (h & <- & _). reflexivity.
  - destruct H as [->|[d ->]]; [destruct HI|]. destruct m; inlist HI.
  - destruct H as [->| ->]; inlist HI.
  - destruct H as [->| ->]; inlist HI.
  - destruct H as [->| ->]; [inlist HI|eauto].
  - destruct H as [->| ->]; inlist HI.
  - destruct H as [->| ->]; inlist HI.
  - subst e. destruct sy; inlist HI.
  - destruct H as [l ->]. inlist HI.
  - destruct l as [|d l]; [subst; inlist HI|]. destruct H as [->|[x ->]]; [inlist HI|]. apply in_app_or in HI. destruct HI as [HI|[<-|[]]]; [eauto|reflexivity].
  - destruct H as [l ->]. inlist HI.
  - destruct l; subst; inlist HI.
Qed.
Lemma no_destr : forall b pw body conns q programs tr s', exec b pw body (initial conns q programs) tr s' -> no_op destroys body programs ->
  forall u k i, nth_error (c_threads s') u = Some k -> In i k -> destr i = false.
Proof.
  intros b pw body conns q programs tr s' HE [H1 H2]. refine (absent_exec destr body H1 (destr_expand body H1) _ b pw _ _ _ HE _); [now split|].
  apply absent_initial. exact H2.
Qed.
Lemma no_conn : forall b pw body conns q programs tr s', exec b pw body (initial conns q programs) tr s' -> no_op connects body programs ->
  forall u k i, nth_error (c_threads s') u = Some k -> In i k -> conn i = false.
Proof.
  intros b pw body conns q programs tr s' HE [H1 H2]. refine (absent_exec conn body H1 (conn_expand body H1) _ b pw _ _ _ HE _); [now split|].
  apply absent_initial. exact H2.
Qed.
(** ... and no crash. *)
Lemma crash_step : forall b pw body im t s s' ev, c_alive s = true -> step b pw body im t s = Some (ev, s') -> (forall i k, nth_error (c_threads s) t = Some (i :: k) -> destr i = false) ->
  c_alive s' = true /\ any_crash ev = false.
Proof.
  intros b pw body im t s s' ev HA H HD. step_cases H; injection H as <- <-; try subst; unst; try discriminate; auto;
  try (specialize (HD _ _ eq_refl); discriminate);
  try (rewrite HA in *; cbn in *; try rewrite andb_false_r in *; discriminate).
Qed.
Lemma no_crash : forall b pw body conns q programs tr s', exec b pw body (initial conns q programs) tr s' -> no_op destroys body programs -> none any_crash tr.
Proof.
  intros b pw body conns q programs tr s' HE HN.
  assert (HG : forall s tr0 tr1 s1, exec b pw body (initial conns q programs) tr0 s -> c_alive s = true -> exec b pw body s tr1 s1 -> none any_crash tr1).
  { intros s tr0 tr1 s1 HE0 HA HX. revert tr0 HE0 HA. induction HX as [s|s im t ev s2 tr1 s1 HS HX IH]; intros tr0 HE0 HA e He; [destruct He|].
    destruct (crash_step _ _ _ _ _ _ _ _ HA HS) as [HA' HC].
    { intros i k Hn. eapply no_destr; [exact HE0|exact HN|exact Hn|now left]. }
    destruct He as [<-|He]; [exact HC|]. apply (IH (tr0 ++ [ev])); auto. apply exec_app. exists s. split; [exact HE0|]. econstructor; [exact HS|constructor]. }
  exact (HG _ [] _ _ (exec_nil _ _ _ _) eq_refl HE).
Qed.
Lemma no_race : forall b pw body conns q programs tr s' t u i j, exec b pw body (initial conns q programs) tr s' -> no_op connects body programs ->
  no_op destroys body programs \/ b = Release -> ~ race_between b s' t u i j.
Proof.
  intros b pw body conns q programs tr s' t u i j HE HN HD HR. destruct (reach_inv3 _ _ _ _ _ _ _ _ HE) as [[HI _] _].
  pose proof (locked_no_race _ _ _ _ _ _ (i_locks _ _ HI) HR) as HU. destruct HR as (N & (k1 & H1) & (k2 & H2) & a & c & A1 & A2 & HC).
  assert (HX : forall t i k a, nth_error (c_threads s') t = Some (i :: k) -> accesses b i = Some a -> unlocked i = false).
  { intros t0 i0 k a0 Hn Ha. destruct i0; try reflexivity.
    - pose proof (no_conn _ _ _ _ _ _ _ _ HE HN _ _ _ Hn (or_introl eq_refl)). discriminate.
    - destruct HD as [HD| ->]; [|discriminate]. pose proof (no_destr _ _ _ _ _ _ _ _ HE HD _ _ _ Hn (or_introl eq_refl)). discriminate. }
  rewrite (HX _ _ _ _ H1 A1), (HX _ _ _ _ H2 A2) in HU. destruct HU; discriminate.
Qed.
Lemma races_only : forall b pw body conns q programs tr s' t u i j, exec b pw body (initial conns q programs) tr s' -> race_between b s' t u i j ->
  (exists c p, i = IInsert c p) \/ (exists c p, j = IInsert c p) \/ (b = Debug /\ ((exists p, i = IContains p) \/ (exists p, j = IContains p))).
Proof.
  intros b pw body conns q programs tr s' t u i j HE HR. destruct (reach_inv3 _ _ _ _ _ _ _ _ HE) as [[HI _] _].
  pose proof (locked_no_race _ _ _ _ _ _ (i_locks _ _ HI) HR) as HU. destruct HR as (N & (k1 & H1) & (k2 & H2) & a & c & A1 & A2 & HC).
  destruct b.
  - destruct HU as [HU|HU]; [destruct i|destruct j]; try discriminate; eauto 10.
  - destruct HU as [HU|HU]; [destruct i|destruct j]; try discriminate; eauto 10.
Qed.
End P.
