(** What holds when flush() or disconnect_and_flush() returns. *)
From Verif Require Import Prelude ConcModel ConcSpec ConcInv ConcLocks ConcDeliv ConcInvs.
Local Open Scope nat_scope.

Section P.
Context {X : Type}.
Implicit Types (s : state X) (k : list (instr X)) (i : instr X) (tr : list (event X)).

Ltac unst := cbn [go spawn set_threads set_conns set_hooks set_alock set_xlock set_shared set_queue set_stat new_delivery new_conn set_dead set_crash unhook
       c_threads c_queue c_stat c_next c_conns c_hooks c_alock c_xlock c_shared c_alive c_crash c_nextc] in *.

(** What may replace an instruction when it is executed. *)
Definition expand (body : X -> list (op X)) i (e : list (instr X)) : Prop :=
  match i with
  | ICall o => e = code o ++ [IReturn o]
  | IEmitSample p x => exists l, e = map (fun h => ITrySample (hk_conn h) (hk_kind h) x) l
  | IEmitFlush p => exists l, e = map (fun h => ITryFlush (hk_conn h)) l
  | IEmitDisconnect p => exists l, e = map (fun h => ITryDisconnect (hk_conn h) p) l
  | ITrySample c m x => e = [] \/ exists d, e = slot_code m d x
  | ITryFlush c => e = [] \/ e = flush_code
  | ITryDisconnect c p => e = [] \/ e = disconnect_slot_code p
  | IConnect p m => exists h1 h2 h3 c, e = [IHook h1; IHook h2; IHook h3; IInsert c p]
  | ISyncBody d x => e = [IRelS] \/ e = consume_code body KSync d x
  | IAsyncBody d x => e = [IRelA] \/ e = [IPush d]
  | IEnd m d => e = match m with KSync => [IRelS] | KAsync => [] end
  | IPush d => e = [IRelA; IAcqA; ITrim]
  | ITrim => e = [ITrim] \/ e = [IRelA]
  | IFlush => exists l, e = [IWaits l]
  | IWaits [] => e = [IRelA]
  | IWaits (d :: l) => e = [IWaits l] \/ exists x, e = consume_code body KAsync d x ++ [IWaits (d :: l)]
  | IDisconnect => exists l, e = [IDiscs l]
  | IDiscs [] => e = [IRelX; IRelA]
  | IDiscs (c :: l) => e = [IDiscs l]
  | IFindErase p => e = [IRelX; IRelA]
  | _ => e = []
  end.
Definition moved body s t i k0 s' : Prop :=
  (i = IAcqA -> c_alock s = None) /\
  exists e, expand body i e /\ (c_threads s' = upd (c_threads s) t (e ++ k0) \/
                                exists d x, c_threads s' = upd (c_threads s) t (e ++ k0) ++ [consume_code body KAsync d x]).
Lemma step_moved : forall b pw body im t s s' ev, step b pw body im t s = Some (ev, s') ->
  exists i k0, nth_error (c_threads s) t = Some (i :: k0) /\ ((exists w, ev = ECrash t w /\ s' = set_crash s w) \/ moved body s t i k0 s').
Proof.
  intros b pw body im t s s' ev H.
  step_cases H; injection H as <- <-; try subst; unst; eexists; eexists; (split; [reflexivity|]);
  try (left; eexists; split; reflexivity); right; unfold moved; cbn [expand]; unst;
  (split; [first [discriminate|intros _; now destruct (c_alock s)]|]).
  all: first [ eexists []; split; [reflexivity|left; reflexivity]
             | eexists []; split; [left; reflexivity|left; reflexivity]
             | eexists [_]; split; [reflexivity|left; reflexivity]
             | eexists [_]; split; [left; reflexivity|left; reflexivity]
             | eexists [_]; split; [right; reflexivity|left; reflexivity]
             | eexists [_]; split; [right; reflexivity|right; do 2 eexists; reflexivity]
             | eexists [_]; split; [eexists; reflexivity|left; reflexivity]
             | eexists [_; _]; split; [reflexivity|left; reflexivity]
             | eexists [_; _; _]; split; [reflexivity|left; reflexivity]
             | eexists (map _ _); split; [eexists; reflexivity|left; reflexivity]
             | eexists (slot_code _ _ _); split; [right; eexists; reflexivity|left; reflexivity]
             | eexists flush_code; split; [right; reflexivity|left; reflexivity]
             | eexists (disconnect_slot_code _); split; [right; reflexivity|left; reflexivity]
             | eexists (consume_code _ _ _ _); split; [right; reflexivity|left; reflexivity]
             | eexists (code _ ++ [IReturn _]); split; [reflexivity|left; rewrite <- app_assoc; reflexivity]
             | eexists [_; _; _; _]; split; [do 4 eexists; reflexivity|left; reflexivity]
             | eexists (consume_code _ _ _ _ ++ [IWaits _]); split; [right; eexists; reflexivity|left; rewrite <- app_assoc; reflexivity]
             | idtac ].
  exists (consume_code body KAsync n x ++ [IWaits (n :: l2)]). split; [right; eexists; reflexivity|left]. unfold consume_code. cbn [app]. rewrite <- !app_assoc. reflexivity.
Qed.
Lemma step_owner : forall b pw body im t s s' ev, step b pw body im t s = Some (ev, s') -> t < length (c_threads s).
Proof. intros. destruct (step_moved _ _ _ _ _ _ _ _ H) as (i & k0 & Hn & _). apply nth_error_Some. congruence. Qed.

(** An invariant of the form "every thread satisfies [P]". *)
Lemma local_step : forall (P : list (instr X) -> Prop) b pw body im t s s' ev, step b pw body im t s = Some (ev, s') ->
  (forall u k, nth_error (c_threads s) u = Some k -> P k) -> (forall d x, P (consume_code body KAsync d x)) ->
  (forall i k0 e, nth_error (c_threads s) t = Some (i :: k0) -> (i = IAcqA -> c_alock s = None) -> expand body i e -> P (i :: k0) -> P (e ++ k0)) ->
  forall u k, nth_error (c_threads s') u = Some k -> P k.
Proof.
  intros P b pw body im t s s' ev H HP HC HE u k Hu. destruct (step_moved _ _ _ _ _ _ _ _ H) as (i & k0 & Hn & [(w & Hev & ->)|(HA & e & He & HT)]).
  - eapply HP. exact Hu.
  - destruct HT as [HT|(d & x & HT)]; rewrite HT in Hu; [|apply nth_snoc in Hu; destruct Hu as [Hu|[_ ->]]; [|apply HC]];
    (apply nth_upd in Hu; destruct Hu as [[-> ->]|[_ Hu]]; [|eauto]); eapply HE; eauto.
Qed.

(** ** A flush() that has not acquired its lock yet is at the top of the stack of its thread *)
Definition lead i : bool := match i with IAcqA | IAcqX | IDisconnect | IDiscs _ | IRelX | IRelA => true | _ => false end.
Definition flush_lead k : Prop := forall pre post, k = pre ++ IFlush :: post -> forallb lead pre = true.
Lemma no_flush_lead : forall k, ~ In IFlush k -> flush_lead k.
Proof. intros k H pre post ->. destruct H. apply in_or_app. right. now left. Qed.
Lemma consume_no_flush : forall body m d (x : X), ~ In IFlush (consume_code body m d x).
Proof.
  intros body m d x H. unfold consume_code in H. cbn in H. destruct H as [H|H]; [discriminate|]. apply in_app_or in H. destruct H as [H|[H|[]]]; [|discriminate].
  apply in_map_iff in H. destruct H as (o & H & _). discriminate.
Qed.
Lemma map_no_flush : forall A (g : A -> instr X) l, (forall a, g a <> IFlush) -> ~ In IFlush (map g l).
Proof. intros A g l H HI. apply in_map_iff in HI. destruct HI as (a & E & _). now destruct (H a). Qed.
Lemma split_app : forall A (e k pre post : list A) a, e ++ k = pre ++ a :: post -> In a e \/ exists pre', pre = e ++ pre' /\ k = pre' ++ a :: post.
Proof.
  induction e as [|b e IH]; intros k pre post a H; cbn [app] in *.
  - right. exists pre. auto.
  - destruct pre as [|c pre]; cbn in H; [left; left; congruence|]. injection H as -> H. destruct (IH _ _ _ _ H) as [HI|(pre' & -> & ->)]; [left; now right|].
    right. exists pre'. auto.
Qed.
(** a list whose instructions before the last [IFlush] are all allowed *)
Fixpoint fl k : Prop := match k with [] => True | i :: k' => (In IFlush k' -> lead i = true) /\ fl k' end.
Lemma fl_spec : forall k, fl k -> flush_lead k.
Proof.
  induction k as [|i k IH]; intros H pre post E; [destruct pre; discriminate|]. destruct H as [H1 H2]. destruct pre as [|j pre]; [reflexivity|].
  cbn in E. injection E as <- E. cbn [forallb]. rewrite H1, (IH H2 pre post E); [reflexivity|]. rewrite E. apply in_or_app. right. now left.
Qed.
Lemma fl_none : forall k, ~ In IFlush k -> fl k.
Proof. induction k as [|i k IH]; intros H; cbn; [exact I|]. split; [intros HI; destruct H; now right|]. apply IH. intros HI. apply H. now right. Qed.
Lemma fl_app : forall e k, fl e -> fl k -> (~ In IFlush k \/ forallb lead e = true) -> fl (e ++ k).
Proof.
  induction e as [|i e IH]; intros k He Hk HC; cbn [app fl] in *; [exact Hk|]. destruct He as [H1 H2]. split.
  - intros HI. apply in_app_or in HI. destruct HI as [HI|HI]; [auto|]. destruct HC as [HC|HC]; [tauto|]. cbn in HC. apply andb_prop in HC. tauto.
  - apply IH; auto. destruct HC as [HC|HC]; [auto|]. right. cbn in HC. apply andb_prop in HC. tauto.
Qed.
Lemma expand_fl : forall body i e, expand body i e -> fl e /\ (lead i = true -> forallb lead e = true).
Proof.
  intros body i e H. destruct i; cbn [expand] in H; try (subst e; cbn; intuition discriminate).
  - subst e. split; [|discriminate]. destruct o; cbn; intuition discriminate.
  - destruct H as [l ->]. split; [apply fl_none, map_no_flush; discriminate|discriminate].
  - destruct H as [l ->]. split; [apply fl_none, map_no_flush; discriminate|discriminate].
  - destruct H as [l ->]. split; [apply fl_none, map_no_flush; discriminate|discriminate].
  - destruct H as [->|[d ->]]; [cbn; auto|]. destruct m; cbn; intuition discriminate.
  - destruct H as [->| ->]; cbn; intuition discriminate.
  - destruct H as [->| ->]; cbn; intuition discriminate.
  - destruct H as (h1 & h2 & h3 & c & ->). cbn. intuition discriminate.
  - destruct H as [->| ->]; [cbn; intuition discriminate|]. split; [apply fl_none, consume_no_flush|discriminate].
  - destruct H as [->| ->]; cbn; intuition discriminate.
  - destruct H as [->| ->]; cbn; intuition discriminate.
  - subst e. destruct sy; cbn; intuition discriminate.
  - destruct H as [l ->]. cbn. intuition discriminate.
  - destruct l as [|d l]; [subst; cbn; intuition discriminate|]. destruct H as [->|[x ->]]; [cbn; intuition discriminate|]. split; [|discriminate].
    apply fl_none. intros HI. apply in_app_or in HI. destruct HI as [HI|HI]; [exact (consume_no_flush _ _ _ _ HI)|]. cbn in HI. intuition discriminate.
  - destruct H as [l ->]. cbn. intuition discriminate.
  - destruct l; subst; cbn; intuition discriminate.
Qed.
Definition flush_top s : Prop := forall t k, nth_error (c_threads s) t = Some k -> fl k.
Lemma flush_top_step : forall b pw body im t s s' ev, flush_top s -> step b pw body im t s = Some (ev, s') -> flush_top s'.
Proof.
  intros b pw body im t s s' ev HF H. refine (local_step fl b pw body im t s s' ev H HF _ _).
  - intros d x. apply fl_none, consume_no_flush.
  - intros i k0 e _ _ He [H1 H2]. destruct (expand_fl _ _ _ He) as [H3 H4]. apply fl_app; auto.
    destruct (lead i) eqn:E; [right; auto|left; intros HI; specialize (H1 HI); discriminate].
Qed.

(** ** No call that flushes can return while a flush of the same thread is waiting *)
Definition is_waits i : bool := match i with IWaits _ => true | _ => false end.
Definition fret i : bool := match i with IReturn o => flushing o | _ => false end.
Definition acqA i : bool := match i with IAcqA => true | _ => false end.
Fixpoint gr (g : bool) k : Prop := match k with [] => True | i :: k' => (fret i = true -> existsb is_waits k' = true -> g = true) /\ gr (g || acqA i) k' end.
Lemma gr_mono : forall k g, gr g k -> forall g', gr (g' || g) k.
Proof.
  induction k as [|i k IH]; intros g H g'; cbn [gr] in *; [exact I|]. destruct H as [H1 H2]. split.
  - intros Ha Hb. rewrite (H1 Ha Hb). apply orb_true_r.
  - rewrite <- orb_assoc. now apply IH.
Qed.
Lemma gr_nowaits : forall k g, existsb is_waits k = false -> gr g k.
Proof.
  induction k as [|i k IH]; intros g H; cbn [gr existsb] in *; [exact I|]. apply orb_false_elim in H. destruct H as [_ H]. split; [|auto]. intros _ Hb. congruence.
Qed.
Lemma gr_noret : forall e k g, existsb fret e = false -> gr false k -> gr g (e ++ k).
Proof.
  induction e as [|i e IH]; intros k g H Hk; cbn [gr app existsb] in *.
  - pose proof (gr_mono _ _ Hk g) as HM. now rewrite orb_false_r in HM.
  - apply orb_false_elim in H. destruct H as [H1 H2]. split; [congruence|]. now apply IH.
Qed.
Lemma fret_map : forall A (g : A -> instr X) l, (forall a, fret (g a) = false) -> existsb fret (map g l) = false.
Proof. intros A g l H. induction l as [|a l IH]; cbn; [reflexivity|]. now rewrite H, IH. Qed.
Lemma fret_consume : forall body m d (x : X), existsb fret (consume_code body m d x) = false.
Proof. intros. unfold consume_code. cbn [existsb fret orb]. rewrite existsb_app, fret_map by reflexivity. reflexivity. Qed.
Lemma expand_fret : forall body i e, expand body i e -> (forall o, i <> ICall o) -> existsb fret e = false.
Proof.
  intros body i e H HC. destruct i; cbn [expand] in H; try (subst e; reflexivity).
  - now destruct (HC o).
  - destruct H as [l ->]. now apply fret_map.
  - destruct H as [l ->]. now apply fret_map.
  - destruct H as [l ->]. now apply fret_map.
  - destruct H as [->|[d ->]]; [reflexivity|]. destruct m; reflexivity.
  - destruct H as [->| ->]; reflexivity.
  - destruct H as [->| ->]; reflexivity.
  - destruct H as (h1 & h2 & h3 & c & ->). reflexivity.
  - destruct H as [->| ->]; [reflexivity|]. apply fret_consume.
  - destruct H as [->| ->]; reflexivity.
  - destruct H as [->| ->]; reflexivity.
  - subst e. destruct sy; reflexivity.
  - destruct H as [l ->]. reflexivity.
  - destruct l as [|d l]; [subst; reflexivity|]. destruct H as [->|[x ->]]; [reflexivity|]. rewrite existsb_app, fret_consume. reflexivity.
  - destruct H as [l ->]. reflexivity.
  - destruct l; subst; reflexivity.
Qed.
Definition ret_top s : Prop := forall t k, nth_error (c_threads s) t = Some k -> gr false k.
Lemma ret_top_step : forall b pw body im t s s' ev, locks s -> ret_top s -> step b pw body im t s = Some (ev, s') -> ret_top s'.
Proof.
  intros b pw body im t s s' ev HL HF H. refine (local_step (gr false) b pw body im t s s' ev H HF _ _).
  - intros d x. rewrite <- (app_nil_r (consume_code _ _ _ _)). apply gr_noret; [apply fret_consume|exact I].
  - intros i k0 e Hn HA He [H1 H2]. cbn [orb] in H2. 
    assert (H2' : gr false k0).
    { destruct (acqA i) eqn:Ei; [|exact H2]. destruct i; try discriminate. specialize (HA eq_refl). apply gr_nowaits.
      destruct (existsb is_waits k0) eqn:Ew; [|reflexivity]. exfalso. apply existsb_exists in Ew. destruct Ew as (j & Hj & Hw). destruct j; try discriminate.
      pose proof (holds_A _ _ _ _ HL Hn (or_intror Hj) eq_refl). congruence. }
    destruct i; try (apply gr_noret; [eapply expand_fret; [exact He|discriminate]|exact H2']).
    cbn [expand] in He. subst e. rewrite <- app_assoc. cbn [app].
    pose proof (gr_mono _ _ H2' true) as HT. cbn [orb] in HT.
    destruct o; cbn; repeat split; auto; try discriminate.
Qed.

(** All invariants so far. *)
Definition inv2 s tr : Prop := inv s tr /\ flush_top s /\ ret_top s.
Lemma inv2_step : forall b pw body im t s s' ev tr, inv2 s tr -> step b pw body im t s = Some (ev, s') -> inv2 s' (tr ++ [ev]).
Proof.
  intros b pw body im t s s' ev tr (H1 & H2 & H3) H. split; [eapply inv_step; eauto|split; [eapply flush_top_step; eauto|eapply ret_top_step; eauto]]. apply H1.
Qed.
Lemma inv2_initial : forall conns q (programs : list (list (op X))), inv2 (initial conns q programs) [].
Proof.
  intros conns q programs. split; [apply inv_initial|].
  assert (HT : forall t k, nth_error (c_threads (initial conns q programs)) t = Some k -> exists l, k = map ICall l).
  { intros t k Hn. cbn [initial c_threads] in Hn. rewrite nth_error_map in Hn. destruct (nth_error programs t); [|discriminate]. injection Hn as <-. eauto. }
  split; intros t k Hn; destruct (HT _ _ Hn) as [l ->].
  - apply fl_none, map_no_flush. discriminate.
  - rewrite <- (app_nil_r (map _ _)). apply gr_noret; [now apply fret_map|exact I].
Qed.

(** ** Executions as sequences of effective steps *)
Inductive exec (b : build) (pw : bool) (body : X -> list (op X)) : state X -> list (event X) -> state X -> Prop :=
| exec_nil : forall s, exec b pw body s [] s
| exec_cons : forall s im t ev s1 tr s', step b pw body im t s = Some (ev, s1) -> exec b pw body s1 tr s' -> exec b pw body s (ev :: tr) s'.
Lemma run_exec : forall b pw body sched s tr s', run b pw body sched s = (tr, s') -> exec b pw body s tr s'.
Proof.
  intros b pw body. induction sched as [|[t im] r IH]; intros s tr s' H; cbn [run] in H; [injection H as <- <-; constructor|].
  destruct (step b pw body im t s) as [[ev s1]|] eqn:E; [|auto].
  destruct (run b pw body r s1) as [tr1 s2] eqn:E2. injection H as <- <-. econstructor; eauto.
Qed.
Lemma exec_run : forall b pw body s tr s', exec b pw body s tr s' -> exists sched, run b pw body sched s = (tr, s').
Proof.
  intros b pw body s tr s' H. induction H as [s|s im t ev s1 tr s' H H1 [sched IH]]; [exists []; reflexivity|].
  exists ((t, im) :: sched). cbn [run]. rewrite H, IH. reflexivity.
Qed.
Lemma exec_app : forall b pw body t1 s t2 s', exec b pw body s (t1 ++ t2) s' <-> exists s1, exec b pw body s t1 s1 /\ exec b pw body s1 t2 s'.
Proof.
  intros b pw body. induction t1 as [|e t1 IH]; intros s t2 s'; cbn [app].
  - split; [intros H; exists s; split; [constructor|exact H]|]. intros (s1 & H1 & H2). inversion H1; subst. exact H2.
  - split.
    + intros H. inversion H; subst. apply IH in H5. destruct H5 as (s2 & Ha & Hb). exists s2. split; [econstructor; eauto|exact Hb].
    + intros (s1 & H1 & H2). inversion H1; subst. econstructor; [eassumption|]. apply IH. eauto.
Qed.
Lemma exec_inv : forall b pw body s tr s' tr0, exec b pw body s tr s' -> inv2 s tr0 -> inv2 s' (tr0 ++ tr).
Proof.
  intros b pw body s tr s' tr0 H. revert tr0. induction H; intros tr0 HI; [now rewrite app_nil_r|].
  replace (tr0 ++ ev :: tr) with ((tr0 ++ [ev]) ++ tr) by (rewrite <- app_assoc; reflexivity). apply IHexec. eapply inv2_step; eauto.
Qed.
(** A property of states that every step preserves, as long as [Q] holds of the events. *)
Lemma exec_keep : forall b pw body (P : state X -> list (event X) -> Prop) (Q : event X -> Prop),
  (forall im t s s' ev tr0, inv2 s tr0 -> P s tr0 -> Q ev -> step b pw body im t s = Some (ev, s') -> P s' (tr0 ++ [ev])) ->
  forall s tr s' tr0, exec b pw body s tr s' -> inv2 s tr0 -> P s tr0 -> (forall e, In e tr -> Q e) -> P s' (tr0 ++ tr).
Proof.
  intros b pw body P Q HS s tr s' tr0 H. revert tr0. induction H; intros tr0 HI HP HQ; [now rewrite app_nil_r|].
  replace (tr0 ++ ev :: tr) with ((tr0 ++ [ev]) ++ tr) by (rewrite <- app_assoc; reflexivity). apply IHexec.
  - eapply inv2_step; eauto.
  - eapply HS; eauto. apply HQ. now left.
  - intros e He. apply HQ. now right.
Qed.
End P.
