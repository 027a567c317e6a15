(** Every delivery is consumed at most once, exactly once if it is not dropped, and dropped only when there is no connection. *)
From Verif Require Import Prelude ConcModel ConcSpec ConcInv ConcLocks ConcDeliv ConcInvs ConcSilent ConcMode ConcFlush.
Local Open Scope nat_scope.

Section P.
Context {X : Type}.
Implicit Types (s : state X) (k : list (instr X)) (i : instr X) (tr : list (event X)).

Ltac unst := cbn [go spawn set_threads set_conns set_hooks set_alock set_xlock set_shared set_queue set_stat new_delivery new_conn set_dead set_crash unhook
       c_threads c_queue c_stat c_next c_conns c_hooks c_alock c_xlock c_shared c_alive c_crash c_nextc] in *.

Lemma times_in : forall (P : event X -> bool) tr, 1 <= times P tr -> exists e, In e tr /\ P e = true.
Proof.
  intros P tr H. unfold times in H. destruct (filter P tr) as [|e l] eqn:E; [cbn in H; lia|]. exists e.
  apply filter_In. rewrite E. now left.
Qed.
Lemma in_times : forall (P : event X -> bool) tr e, In e tr -> P e = true -> 1 <= times P tr.
Proof. intros P tr e HI HP. pose proof (in_zt P tr e HI HP) as H. unfold zt in H. lia. Qed.

(** Two events of the same kind that happen at most once are the same event. *)
Lemma times_unique : forall (P : event X -> bool) tr e e', times P tr <= 1 -> In e tr -> In e' tr -> P e = true -> P e' = true -> e = e'.
Proof.
  intros P tr e e' HT H1 H2 P1 P2. unfold times in HT.
  assert (A1 : In e (filter P tr)) by (apply filter_In; auto). assert (A2 : In e' (filter P tr)) by (apply filter_In; auto).
  destruct (filter P tr) as [|a [|c l]]; cbn in *; [destruct A1| |lia]. destruct A1 as [<-|[]], A2 as [<-|[]]. reflexivity.
Qed.

Lemma once : forall b pw body conns q programs tr s' d, exec b pw body (initial conns q programs) tr s' ->
  times (delivered d) tr <= 1 /\ times (started d) tr + times (dropped d) tr <= times (delivered d) tr /\ times (ended d) tr <= times (started d) tr /\
  times (started d) tr <= times (accepted d) tr <= times (delivered d) tr.
Proof.
  intros b pw body conns q programs tr s' d HE. destruct (reach_inv3 _ _ _ _ _ _ _ _ HE) as [[HI _] _].
  pose proof (i_deliv _ _ HI d) as HD. pose proof (order_tot d (c_threads s') (fun t k H => i_order _ _ HI t k d H)) as HO.
  pose proof (tot_nonneg (isS d) (c_threads s') (isS_nn d)). unfold deliv_ok, zt in HD.
  destruct (c_stat s' d) as [| |[]| |]; try lia. destruct (d <? c_next s'); lia.
Qed.
Lemma same_sample : forall b pw body conns q programs tr s' d t m x u y, exec b pw body (initial conns q programs) tr s' ->
  In (EDeliver t d m x) tr -> In (EStart u d y) tr -> y = x /\ (m = KSync -> u = t).
Proof.
  intros b pw body conns q programs tr s' d t m x u y HE H1 H2. destruct (once _ _ _ _ _ _ _ _ d HE) as (H0 & _).
  destruct (reach_inv3 _ _ _ _ _ _ _ _ HE) as [[HI _] HM]. destruct (i_pay _ _ HI) as (_ & _ & H3). destruct (H3 _ _ _ H2) as (t' & m' & H4).
  pose proof (times_unique (delivered d) tr _ _ H0 H1 H4 (Nat.eqb_refl _) (Nat.eqb_refl _)) as E. injection E as <- <- <-.
  split; [reflexivity|]. destruct (HM _ _ _ _ H1) as (_ & _ & H5). intros Hm. exact (H5 _ _ H2 Hm).
Qed.
Lemma started_delivered : forall b pw body conns q programs tr s' d u y, exec b pw body (initial conns q programs) tr s' ->
  In (EStart u d y) tr -> exists t m, In (EDeliver t d m y) tr.
Proof.
  intros b pw body conns q programs tr s' d u y HE H2. destruct (reach_inv3 _ _ _ _ _ _ _ _ HE) as [[HI _] HM]. destruct (i_pay _ _ HI) as (_ & _ & H3). exact (H3 _ _ _ H2).
Qed.

(** ** Nothing is dropped as long as there is a connection *)
Lemma conn_step : forall b pw body im t s s' ev, c_conns s <> [] -> any_erase ev = false -> step b pw body im t s = Some (ev, s') -> c_conns s' <> [] /\ any_drop ev = false.
Proof.
  intros b pw body im t s s' ev HC HE H. step_cases H; injection H as <- <-; try subst; unst; auto; try discriminate.
  - split; [|reflexivity]. intros E'. apply app_eq_nil in E'. tauto.
  - destruct (c_conns s); [congruence|discriminate].
  - destruct (c_conns s); [congruence|discriminate].
Qed.
Lemma connected_no_drop : forall b pw body s tr s', exec b pw body s tr s' -> c_conns s <> [] -> none any_erase tr -> none any_drop tr.
Proof.
  intros b pw body s tr s' H. induction H as [s|s im t ev s1 tr s' H H1 IH]; intros HC HN e He; [destruct He|].
  destruct (conn_step _ _ _ _ _ _ _ _ HC (HN ev (or_introl eq_refl)) H) as [HC' HD].
  destruct He as [<-|He]; [exact HD|]. apply IH; auto. intros e' He'. apply HN. now right.
Qed.
Lemma inserted : forall b pw body im t s s' u c p, step b pw body im t s = Some (EInsert u c p, s') -> c_conns s' <> [].
Proof. intros b pw body im t s s' u c p H. step_cases H; inversion H; subst; unst. intros E'. apply app_eq_nil in E'. destruct E'. discriminate. Qed.
Lemma inserted_no_drop : forall b pw body s s' t1 t c p t2, exec b pw body s (t1 ++ EInsert t c p :: t2) s' -> none any_erase t2 -> none any_drop t2.
Proof.
  intros b pw body s s' t1 t c p t2 H HN. apply exec_app in H. destruct H as (s1 & _ & H). inversion H as [|? im u ev s2 ? ? Hst E2]; subst.
  eapply connected_no_drop; eauto. eapply inserted; eauto.
Qed.

(** ** When all threads have finished *)
Definition all_finished s : Prop := forall t k, nth_error (c_threads s) t = Some k -> k = [].
Lemma finished_tot : forall f s, all_finished s -> tot f (c_threads s) = 0%Z.
Proof.
  intros f s H. unfold all_finished in H. induction (c_threads s) as [|k l IH]; cbn [tot]; [reflexivity|].
  rewrite IH; [|intros t k' Hn; exact (H (S t) k' Hn)]. rewrite (H 0 k eq_refl). reflexivity.
Qed.
Lemma finished_once : forall b pw body conns q programs tr s' d t m x, exec b pw body (initial conns q programs) tr s' -> all_finished s' -> In (EDeliver t d m x) tr ->
  (times (started d) tr = 1 /\ times (ended d) tr = 1 /\ times (dropped d) tr = 0) \/
  (times (started d) tr = 0 /\ times (dropped d) tr = 1) \/
  (times (started d) tr = 0 /\ times (accepted d) tr = 1 /\ m = KAsync /\ exists y, c_stat s' d = SDeferred y).
Proof.
  intros b pw body conns q programs tr s' d t m x HE HF HI. destruct (reach_inv3 _ _ _ _ _ _ _ _ HE) as [[HJ _] HM].
  pose proof (i_deliv _ _ HJ d) as HD. pose proof (delivered_lt _ _ _ _ _ _ (i_deliv _ _ HJ) HI) as HL. unfold deliv_ok in HD. rewrite !finished_tot in HD by exact HF.
  unfold zt in HD. destruct (HM _ _ _ _ HI) as (_ & M2 & _).
  destruct (c_stat s' d) as [|y|[]| |] eqn:Es; try lia.
  - destruct (Nat.ltb_spec d (c_next s')); lia.
  - right. right. specialize (M2 KAsync eq_refl). repeat split; try lia; eauto.
Qed.
(** If the implementation of std::async never defers, no task is left over. *)
Lemma no_deferred : forall b pw body sched s tr s', run b pw body sched s = (tr, s') -> forallb snd sched = true ->
  (forall d y, c_stat s d <> SDeferred y) -> forall d y, c_stat s' d <> SDeferred y.
Proof.
  intros b pw body. induction sched as [|[t im] r IH]; intros s tr s' H HF HS; cbn [run] in H; [injection H as <- <-; exact HS|].
  cbn [forallb snd] in HF. apply andb_prop in HF. destruct HF as [-> HF].
  destruct (step b pw body true t s) as [[ev s1]|] eqn:E; [|eauto].
  destruct (run b pw body r s1) as [tr1 s2] eqn:E2. injection H as <- <-. apply (IH s1 tr1); [exact E2|exact HF|].
  intros d y Hd. clear - E Hd HS. step_cases E; injection E as <- <-; try subst; unst; try (now apply (HS d y));
  match goal with H : context [if ?a =? ?c then _ else _] |- _ => destruct (Nat.eqb_spec a c); [subst|now apply (HS d y)] end; discriminate.
Qed.
(** A thread that has finished has no unresolved synchronous delivery. *)
Lemma sync_here : forall b pw body conns q programs tr s' d t x, exec b pw body (initial conns q programs) tr s' -> finished s' t -> In (EDeliver t d KSync x) tr ->
  (times (started d) tr = 1 /\ times (ended d) tr = 1 /\ times (dropped d) tr = 0) \/ (times (started d) tr = 0 /\ times (dropped d) tr = 1).
Proof.
  intros b pw body conns q programs tr s' d t x HE HF HI. destruct (reach_inv3 _ _ _ _ _ _ _ _ HE) as [[HJ _] HM].
  pose proof (i_deliv _ _ HJ d) as HD. pose proof (delivered_lt _ _ _ _ _ _ (i_deliv _ _ HJ) HI) as HL. unfold deliv_ok, zt in HD.
  destruct (HM _ _ _ _ HI) as (M1 & M2 & _).
  assert (HZ : forall f, (f = isB d \/ f = isE d) -> (0 < tot f (c_threads s'))%Z -> False).
  { intros f Hf HP. assert (Hnn : forall i, (0 <= f i)%Z) by (destruct Hf; subst f; [apply isB_nn|apply isE_nn]).
    destruct (tot_pos f _ Hnn HP) as (u & k & Hu & Hk).
    assert (HX : exists i, In i k /\ (0 < f i)%Z).
    { clear - Hk. induction k as [|i k IH]; cbn in Hk; [lia|]. destruct (Z.ltb_spec 0 (f i)); [exists i; split; [now left|assumption]|].
      destruct IH as (j & Hj & Hp); [lia|]. exists j. split; [now right|exact Hp]. }
    destruct HX as (i & Hi & Hp).
    assert (HXm : exists m, mode_of i = Some (m, d)).
    { destruct Hf; subst f; destruct i; cbn in Hp; try lia; unfold hit in Hp; destruct (Nat.eqb_spec d0 d); try lia; subst; cbn; eauto. }
    destruct HXm as [m Hm]. destruct (M1 _ _ _ _ Hu Hi Hm) as [_ HT]. specialize (HT eq_refl). subst u. unfold finished in HF. rewrite HF in Hu. injection Hu as <-. destruct Hi. }
  destruct (c_stat s' d) as [|y|[]| |] eqn:Es; try lia.
  - exfalso. apply (HZ (isB d)); [auto|]. destruct (Nat.ltb_spec d (c_next s')); lia.
  - specialize (M2 KAsync eq_refl). discriminate.
  - exfalso. apply (HZ (isE d)); [auto|]. lia.
  - specialize (M2 KAsync eq_refl). discriminate.
Qed.
End P.
