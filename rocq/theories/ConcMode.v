(** A delivery keeps the mode, and in synchronous mode the thread, with which it arrived. *)
From Verif Require Import Prelude ConcModel ConcSpec ConcInv ConcLocks ConcDeliv ConcInvs ConcSilent.
Local Open Scope nat_scope.

Section P.
Context {X : Type}.
Implicit Types (s : state X) (k : list (instr X)) (i : instr X) (tr : list (event X)).

Ltac unst := cbn [go spawn set_threads set_conns set_hooks set_alock set_xlock set_shared set_queue set_stat new_delivery new_conn set_dead set_crash unhook
       c_threads c_queue c_stat c_next c_conns c_hooks c_alock c_xlock c_shared c_alive c_crash c_nextc] in *.

Definition mode_of i : option (kind * nat) :=
  match i with ISyncBody d _ => Some (KSync, d) | IAsyncBody d _ => Some (KAsync, d) | IStart m d _ | IEnd m d => Some (m, d) | _ => None end.
Definition smode (a : stat X) : option kind := match a with SDeferred _ => Some KAsync | SActive m => Some m | _ => None end.
Definition mode_ok s tr : Prop := forall t d m x, In (EDeliver t d m x) tr ->
  (forall u k i m', nth_error (c_threads s) u = Some k -> In i k -> mode_of i = Some (m', d) -> m' = m /\ (m = KSync -> u = t)) /\
  (forall m', smode (c_stat s d) = Some m' -> m' = m) /\
  (forall u y, In (EStart u d y) tr -> m = KSync -> u = t).

Lemma delivered_lt : forall s tr t d m x, (forall d, deliv_ok s tr d) -> In (EDeliver t d m x) tr -> d < c_next s.
Proof.
  intros s tr t d m x HD HI. specialize (HD d). unfold deliv_ok in HD.
  assert (HZ : (1 <= zt (delivered d) tr)%Z).
  { unfold zt, times. assert (HF : In (EDeliver t d m x) (filter (delivered d) tr)) by (apply filter_In; split; [exact HI|cbn; apply Nat.eqb_refl]).
    destruct (filter (delivered d) tr); [destruct HF|cbn [length]; lia]. }
  destruct (c_stat s d) as [| |[]| |]; try lia. destruct (Nat.ltb_spec d (c_next s)); [assumption|lia].
Qed.
Lemma mode_lt : forall s tr u k i m d, (forall d, deliv_ok s tr d) -> order_ok s -> nth_error (c_threads s) u = Some k -> In i k -> mode_of i = Some (m, d) -> d < c_next s.
Proof.
  intros s tr u k i m d HD HO Hn Hi Hm. pose proof (HD d) as H. unfold deliv_ok in H.
  pose proof (tot_le (isB d) _ _ _ (isB_nn d) Hn) as LB. pose proof (tot_le (isE d) _ _ _ (isE_nn d) Hn) as LE.
  pose proof (tot_le (isS d) _ _ _ (isS_nn d) Hn) as LS.
  pose proof (wt_in (isB d) _ _ (isB_nn d) Hi) as WB. pose proof (wt_in (isE d) _ _ (isE_nn d) Hi) as WE. pose proof (wt_in (isS d) _ _ (isS_nn d) Hi) as WS.
  assert (HZ : (1 <= isB d i + isE d i + isS d i)%Z).
  { destruct i; try discriminate; cbn in Hm; injection Hm as <- <- || injection Hm as <-; cbn; unfold hit; rewrite Nat.eqb_refl; lia. }
  pose proof (isB_nn d i). pose proof (isE_nn d i). pose proof (isS_nn d i).
  destruct (c_stat s d) as [| |[]| |]; try lia. destruct (Nat.ltb_spec d (c_next s)); [assumption|lia].
Qed.
Lemma mode_map0 : forall A (g : A -> instr X) l i p, (forall a, mode_of (g a) = None) -> In i (map g l) -> mode_of i <> Some p.
Proof. intros A g l i p H HI. apply in_map_iff in HI. destruct HI as (a & <- & _). rewrite H. discriminate. Qed.
Lemma mode_consume : forall body m d (x : X) i m' d', In i (consume_code body m d x) -> mode_of i = Some (m', d') -> m' = m /\ d' = d.
Proof.
  intros body m d x i m' d' H Hm. unfold consume_code in H. cbn in H. destruct H as [<-|H]; [cbn in Hm; injection Hm as <- <-; auto|].
  apply in_app_or in H. destruct H as [H|[<-|[]]]; [exfalso; revert Hm; eapply mode_map0; [|exact H]; reflexivity|]. cbn in Hm. injection Hm as <- <-. auto.
Qed.
Lemma expand_mode : forall body i e j m d, expand body i e -> In j e -> mode_of j = Some (m, d) ->
  mode_of i = Some (m, d) \/ (exists c x, i = ITrySample c m x) \/ (exists l, i = IWaits (d :: l) /\ m = KAsync).
Proof.
  intros body i e j m d H HI HM. destruct i; cbn [expand] in H; try (subst e; cbn in HI; repeat (destruct HI as [<-|HI]; [discriminate|]); destruct HI; fail).
  - exfalso. subst e. destruct o; cbn in HI; repeat (destruct HI as [<-|HI]; [discriminate|]); destruct HI.
  - destruct H as [l ->]. exfalso. revert HM. eapply mode_map0; [|exact HI]; reflexivity.
  - destruct H as [l ->]. exfalso. revert HM. eapply mode_map0; [|exact HI]; reflexivity.
  - destruct H as [l ->]. exfalso. revert HM. eapply mode_map0; [|exact HI]; reflexivity.
  - destruct H as [->|[d' ->]]; [destruct HI|]. right. left. destruct m0; cbn in HI; destruct HI as [<-|[<-|[]]]; try discriminate; cbn in HM; injection HM as <- <-; eauto.
  - destruct H as [->| ->]; cbn in HI; repeat (destruct HI as [<-|HI]; [discriminate|]); destruct HI.
  - destruct H as [->| ->]; cbn in HI; repeat (destruct HI as [<-|HI]; [discriminate|]); destruct HI.
  - destruct H as (h1 & h2 & h3 & c & ->). cbn in HI; repeat (destruct HI as [<-|HI]; [discriminate|]); destruct HI.
  - destruct H as [->| ->]; [destruct HI as [<-|[]]; discriminate|]. left. destruct (mode_consume _ _ _ _ _ _ _ HI HM) as [-> ->]. reflexivity.
  - destruct H as [->| ->]; destruct HI as [<-|[]]; discriminate.
  - destruct H as [->| ->]; destruct HI as [<-|[]]; discriminate.
  - subst e. destruct sy; cbn in HI; repeat (destruct HI as [<-|HI]; [discriminate|]); destruct HI.
  - destruct H as [l ->]. destruct HI as [<-|[]]; discriminate.
  - destruct l as [|d' l]; [subst; destruct HI as [<-|[]]; discriminate|]. destruct H as [->|[x ->]]; [destruct HI as [<-|[]]; discriminate|].
    apply in_app_or in HI. destruct HI as [HI|[<-|[]]]; [|discriminate]. destruct (mode_consume _ _ _ _ _ _ _ HI HM) as [-> ->]. right. right. eauto.
  - destruct H as [l ->]. destruct HI as [<-|[]]; discriminate.
  - destruct l; subst; cbn in HI; repeat (destruct HI as [<-|HI]; [discriminate|]); destruct HI.
Qed.
(** The instructions that carry a delivery, after a step: they were there before, belong to the new delivery, or to a deferred task that starts. *)
Lemma step_mode : forall b pw body im t s s' ev u k i m d, step b pw body im t s = Some (ev, s') -> nth_error (c_threads s') u = Some k -> In i k -> mode_of i = Some (m, d) ->
  (exists k0 i0, nth_error (c_threads s) u = Some k0 /\ In i0 k0 /\ mode_of i0 = Some (m, d)) \/
  (m = KAsync /\ exists k0 i0, nth_error (c_threads s) t = Some k0 /\ In i0 k0 /\ mode_of i0 = Some (m, d)) \/
  (u = t /\ exists x, ev = EDeliver t d m x /\ d = c_next s) \/
  (m = KAsync /\ exists x, c_stat s d = SDeferred x).
Proof.
  intros b pw body im t s s' ev u k i m d H Hn Hi Hm.
  destruct (step_moved _ _ _ _ _ _ _ _ H) as (j & k0 & Hj & [(w & -> & ->)|(_ & e & He & HT)]); [left; eauto|].
  assert (HC : u = t /\ k = e ++ k0 \/ nth_error (c_threads s) u = Some k \/ exists d' x, j = IAsyncBody d' x /\ k = consume_code body KAsync d' x).
  { destruct HT as [HT|(d' & x & HT)].
    - rewrite HT in Hn. apply nth_upd in Hn. destruct Hn as [[-> ->]|[_ Hn]]; auto.
    - assert (Hb : j = IAsyncBody d' x).
      { assert (HX : length (c_threads s') = S (length (c_threads s))) by (rewrite HT, app_length, upd_length; cbn; lia).
        clear - H HT HX Hj. step_cases H; injection H as <- <-; try subst; unst; rewrite ?app_length, ?upd_length in HX; cbn [length] in HX; try lia;
        injection Hj as <- <-; apply app_inj_tail in HT; destruct HT as [_ HT]; unfold consume_code in HT; injection HT as -> -> _; reflexivity. }
      rewrite HT in Hn. apply nth_snoc in Hn. destruct Hn as [Hn|[_ ->]]; [|right; right; eauto]. apply nth_upd in Hn. destruct Hn as [[-> ->]|[_ Hn]]; auto. }
  destruct HC as [[-> ->]|[HC|(d' & x & -> & ->)]].
  - apply in_app_or in Hi. destruct Hi as [Hi|Hi]; [|left; exists (j :: k0), i; split; [assumption|split; [now right|assumption]]].
    destruct (expand_mode _ _ _ _ _ _ He Hi Hm) as [HM|[(c & x & ->)|(l & -> & ->)]].
    + left. exists (j :: k0), j. split; [assumption|split; [now left|assumption]].
    + right. right. left. split; [reflexivity|]. exists x.
      assert (HL : t < length (c_threads s)) by (apply nth_error_Some; congruence). clear Hn.
      unfold step in H. rewrite Hj in H. destruct (negb (is_none (c_crash s))); try discriminate. cbn [touches andb] in H.
      assert (HK : nth_error (c_threads s') t = Some (e ++ k0)).
      { destruct HT as [HT|(d' & x' & HT)]; rewrite HT; rewrite ?nth_error_app1 by (rewrite upd_length; exact HL); now apply upd_same. }
      destruct (connected s SigSample c); injection H as <- <-; unst; rewrite upd_same in HK by exact HL; injection HK as HK.
      * apply app_inv_tail in HK. subst e. destruct m; cbn in Hi; destruct Hi as [<-|[<-|[]]]; try discriminate; cbn in Hm; injection Hm as <-; auto.
      * apply (f_equal (@length _)) in HK. rewrite app_length in HK. destruct e; [destruct Hi|cbn in HK; lia].
    + right. right. right. split; [reflexivity|].
      destruct (c_stat s d) eqn:Es; eauto; exfalso; clear Hn;
      (assert (HL : t < length (c_threads s)) by (apply nth_error_Some; congruence));
      unfold step in H; rewrite Hj in H; destruct (negb (is_none (c_crash s))); try discriminate;
      (destruct (touches (IWaits (d :: l)) && negb (c_alive s)); [unfold crashed in H; injection H as <- <-; unst|rewrite Es in H; try discriminate; injection H as <- <-; unst]);
      (destruct HT as [HT|(d' & x' & HT)]; [|apply (f_equal (@length _)) in HT; rewrite app_length, ?upd_length in HT; cbn in HT; lia]);
      apply (f_equal (fun l => nth_error l t)) in HT; rewrite ?upd_same in HT by exact HL; try rewrite Hj in HT; injection HT as HT;
      apply (f_equal (@length _)) in HT; rewrite app_length in HT; cbn [length] in HT;
      (destruct He as [->|[x' ->]]; [destruct Hi as [<-|[]]; discriminate|]); unfold consume_code in HT; rewrite !app_length in HT; cbn [length] in HT; rewrite ?app_length in HT; cbn [length] in HT; lia.
  - left. eauto.
  - destruct (mode_consume _ _ _ _ _ _ _ Hi Hm) as [-> ->]. right. left. split; [reflexivity|]. eexists. eexists. split; [exact Hj|]. split; [now left|reflexivity].
Qed.
Lemma in_zt : forall (P : event X -> bool) tr e, In e tr -> P e = true -> (1 <= zt P tr)%Z.
Proof.
  intros P tr e HI HP. unfold zt, times. assert (HF : In e (filter P tr)) by (apply filter_In; auto). destruct (filter P tr); [destruct HF|cbn [length]; lia].
Qed.
Lemma fresh_above : forall s tr d, (forall d, deliv_ok s tr d) -> c_next s <= d -> c_stat s d = SFresh.
Proof. intros s tr d HD H. specialize (HD d). unfold deliv_ok in HD. destruct (c_stat s d) as [| |[]| |]; try reflexivity; lia. Qed.
Lemma step_deliver : forall b pw body im t s s' t0 d m x, step b pw body im t s = Some (EDeliver t0 d m x, s') -> t0 = t /\ d = c_next s /\ c_stat s' = c_stat s.
Proof. intros b pw body im t s s' t0 d m x H. step_cases H; inversion H; subst; auto. Qed.
Lemma step_start : forall b pw body im t s s' u d x, step b pw body im t s = Some (EStart u d x, s') -> u = t /\ exists m k0, nth_error (c_threads s) t = Some (IStart m d x :: k0).
Proof. intros b pw body im t s s' u d x H. step_cases H; inversion H; subst; eauto. Qed.
Lemma stat_mode : forall b pw body im t s s' ev d m, step b pw body im t s = Some (ev, s') -> smode (c_stat s' d) = Some m ->
  smode (c_stat s d) = Some m \/ exists k i, nth_error (c_threads s) t = Some k /\ In i k /\ mode_of i = Some (m, d).
Proof.
  intros b pw body im t s s' ev d m H Hm. step_cases H; injection H as <- <-; try subst; unst; auto;
  match goal with H : context [if ?a =? ?c then _ else _] |- _ => destruct (Nat.eqb_spec a c); [subst a|auto] end; cbn in Hm; try discriminate; injection Hm as <-.
  all: try (right; eexists; eexists; split; [reflexivity|split; [left; reflexivity|reflexivity]]).
  left. match goal with E : c_stat s _ = SDeferred _ |- _ => rewrite E end. reflexivity.
Qed.
Lemma mode_step : forall b pw body im t s s' ev tr, inv s tr -> mode_ok s tr -> step b pw body im t s = Some (ev, s') -> mode_ok s' (tr ++ [ev]).
Proof.
  intros b pw body im t s s' ev tr HI HM H t0 d m x HD.
  pose proof (i_deliv _ _ HI) as HV. pose proof (i_order _ _ HI) as HO.
  apply in_app_or in HD. destruct HD as [HD|[->|[]]].
  - destruct (HM _ _ _ _ HD) as (M1 & M2 & M3). pose proof (delivered_lt _ _ _ _ _ _ HV HD) as HLT. split; [|split].
    + intros u k i m' Hn Hi Hm. destruct (step_mode _ _ _ _ _ _ _ _ _ _ _ _ _ H Hn Hi Hm) as [(k0 & i0 & A1 & A2 & A3)|[(-> & k0 & i0 & A1 & A2 & A3)|[(-> & y & _ & A)|(-> & y & A)]]].
      * eapply M1; eauto.
      * destruct (M1 _ _ _ _ A1 A2 A3) as [<- _]. split; [reflexivity|discriminate].
      * lia.
      * assert (KAsync = m) by (apply M2; rewrite A; reflexivity). subst m. split; [reflexivity|discriminate].
    + intros m' Hm. destruct (stat_mode _ _ _ _ _ _ _ _ _ _ H Hm) as [Hs|(k & i & A1 & A2 & A3)]; [auto|]. destruct (M1 _ _ _ _ A1 A2 A3). assumption.
    + intros u y Hu Hm. apply in_app_or in Hu. destruct Hu as [Hu|[->|[]]]; [eapply M3; eauto|].
      destruct (step_start _ _ _ _ _ _ _ _ _ _ H) as (-> & m' & k0 & Hn). destruct (M1 _ _ _ _ Hn (or_introl eq_refl) eq_refl) as [-> HT]. auto.
  - destruct (step_deliver _ _ _ _ _ _ _ _ _ _ _ H) as (-> & -> & Hs). pose proof (fresh_above _ _ (c_next s) HV (Nat.le_refl _)) as HF. split; [|split].
    + intros u k i m' Hn Hi Hm. destruct (step_mode _ _ _ _ _ _ _ _ _ _ _ _ _ H Hn Hi Hm) as [(k0 & i0 & A1 & A2 & A3)|[(-> & k0 & i0 & A1 & A2 & A3)|[(-> & y & A & _)|(-> & y & A)]]].
      * pose proof (mode_lt _ _ _ _ _ _ _ HV HO A1 A2 A3). lia.
      * pose proof (mode_lt _ _ _ _ _ _ _ HV HO A1 A2 A3). lia.
      * injection A as <- _. auto.
      * congruence.
    + intros m' Hm. rewrite Hs, HF in Hm. discriminate.
    + intros u y Hu _. exfalso. apply in_app_or in Hu. destruct Hu as [Hu|[Hu|[]]]; [|discriminate]. specialize (HV (c_next s)). unfold deliv_ok in HV. rewrite HF in HV.
      pose proof (in_zt (started (c_next s)) _ _ Hu (Nat.eqb_refl _)). lia.
Qed.

(** ** All invariants *)
Definition inv3 s tr : Prop := inv2 s tr /\ mode_ok s tr.
Lemma inv3_step : forall b pw body im t s s' ev tr, inv3 s tr -> step b pw body im t s = Some (ev, s') -> inv3 s' (tr ++ [ev]).
Proof. intros b pw body im t s s' ev tr (H1 & H2) H. split; [eapply inv2_step; eauto|eapply mode_step; eauto]. apply H1. Qed.
Lemma inv3_initial : forall conns q (programs : list (list (op X))), inv3 (initial conns q programs) [].
Proof. intros. split; [apply inv2_initial|]. intros t d m x []. Qed.
Lemma exec_inv3 : forall b pw body s tr s' tr0, exec b pw body s tr s' -> inv3 s tr0 -> inv3 s' (tr0 ++ tr).
Proof.
  intros b pw body s tr s' tr0 H. revert tr0. induction H; intros tr0 HI; [now rewrite app_nil_r|].
  replace (tr0 ++ ev :: tr) with ((tr0 ++ [ev]) ++ tr) by (rewrite <- app_assoc; reflexivity). apply IHexec. eapply inv3_step; eauto.
Qed.
Lemma reach_inv3 : forall b pw body conns q programs tr s', exec b pw body (initial conns q programs) tr s' -> inv3 s' tr.
Proof. intros. apply (exec_inv3 _ _ _ _ _ _ [] H). apply inv3_initial. Qed.
(** A property of states that every step preserves, as long as [Q] holds of the events. *)
Lemma exec_keep3 : forall b pw body (P : state X -> list (event X) -> Prop) (Q : event X -> Prop),
  (forall im t s s' ev tr0, inv3 s tr0 -> P s tr0 -> Q ev -> step b pw body im t s = Some (ev, s') -> P s' (tr0 ++ [ev])) ->
  forall s tr s' tr0, exec b pw body s tr s' -> inv3 s tr0 -> P s tr0 -> (forall e, In e tr -> Q e) -> P s' (tr0 ++ tr).
Proof.
  intros b pw body P Q HS s tr s' tr0 H. revert tr0. induction H; intros tr0 HI HP HQ; [now rewrite app_nil_r|].
  replace (tr0 ++ ev :: tr) with ((tr0 ++ [ev]) ++ tr) by (rewrite <- app_assoc; reflexivity). apply IHexec.
  - eapply inv3_step; eauto.
  - eapply HS; eauto. apply HQ. now left.
  - intros e He. apply HQ. now right.
Qed.
End P.
