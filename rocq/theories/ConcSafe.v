(** Usage that is safe: connecting before sending, destroying things at the right time. *)
From Verif Require Import Prelude ConcModel ConcSpec ConcInv ConcLocks ConcDeliv ConcInvs ConcSilent ConcMode ConcFlush ConcOnce ConcLive ConcRace.
Local Open Scope nat_scope.

Section P.
Context {X : Type}.
Implicit Types (s : state X) (k e : list (instr X)) (i j : instr X) (tr : list (event X)).

Ltac unst := cbn [go spawn set_threads set_conns set_hooks set_alock set_xlock set_shared set_queue set_stat new_delivery new_conn set_dead set_crash unhook
       c_threads c_queue c_stat c_next c_conns c_hooks c_alock c_xlock c_shared c_alive c_crash c_nextc] in *.

(** ** Once connect_to_producer() has returned, nothing is dropped (until the next disconnection) *)
Definition returns i : bool := match i with IReturn (OConnect _ _) => true | _ => false end.
Definition inserts i : bool := match i with ICall (OConnect _ _) | IConnect _ _ | IInsert _ _ => true | _ => false end.
Fixpoint good k : Prop := match k with [] => True | i :: k' => inserts i = true \/ (returns i = false /\ good k') end.
Lemma good_app : forall e k, (forall i, In i e -> returns i = false) -> good k -> good (e ++ k).
Proof. induction e as [|i e IH]; intros k HE HK; cbn [app good]; [exact HK|]. right. split; [apply HE; now left|apply IH; auto]. intros j Hj. apply HE. now right. Qed.
Lemma good_cons : forall e k, good e -> existsb inserts e = true -> good (e ++ k).
Proof.
  induction e as [|i e IH]; intros k H1 H2; cbn in H2; [discriminate|]. cbn [app good] in *. destruct H1 as [H1|[H1 H3]]; [now left|].
  destruct (inserts i) eqn:E; [now left|right]. split; [exact H1|]. now apply IH.
Qed.
Ltac inlist HI := cbn in HI; repeat (destruct HI as [<-|HI]; [try reflexivity; try discriminate|]); try destruct HI.
Lemma returns_consume : forall body m d (x : X) i, In i (consume_code body m d x) -> returns i = false.
Proof.
  intros body m d x i HI. unfold consume_code in HI. destruct HI as [<-|HI]; [reflexivity|]. apply in_app_or in HI. destruct HI as [HI|[<-|[]]]; [|reflexivity].
  apply in_map_iff in HI. destruct HI as (o & <- & _). reflexivity.
Qed.
Lemma expand_good : forall body i e, expand body i e -> (good e /\ existsb inserts e = true) \/ (inserts i = false /\ forall j, In j e -> returns j = false) \/ (exists c p, i = IInsert c p).
Proof.
  intros body i e H.
  assert (HM : forall A (g : A -> instr X) l j, (forall a, returns (g a) = false) -> In j (map g l) -> returns j = false).
  { intros A g l j Hg Hj. apply in_map_iff in Hj. destruct Hj as (a & <- & _). auto. }
  destruct i; cbn [expand] in H; try (right; left; split; [reflexivity|]; intros j HI; subst e; inlist HI; fail); eauto.
  - subst e. destruct o; try (right; left; split; [reflexivity|]; intros j HI; inlist HI; fail). left. cbn. split; [auto|reflexivity].
  - destruct H as [l ->]. right; left; split; [reflexivity|]; intros j HI. eapply HM; [|exact HI]; reflexivity.
  - destruct H as [l ->]. right; left; split; [reflexivity|]; intros j HI. eapply HM; [|exact HI]; reflexivity.
  - destruct H as [l ->]. right; left; split; [reflexivity|]; intros j HI. eapply HM; [|exact HI]; reflexivity.
  - right; left; split; [reflexivity|]; intros j HI. destruct H as [->|[d ->]]; [destruct HI|]. destruct m; inlist HI.
  - right; left; split; [reflexivity|]; intros j HI. destruct H as [->| ->]; inlist HI.
  - right; left; split; [reflexivity|]; intros j HI. destruct H as [->| ->]; inlist HI.
  - destruct H as (h1 & h2 & h3 & c & ->). left. cbn. auto 10.
  - right; left; split; [reflexivity|]; intros j HI. destruct H as [->| ->]; [inlist HI|eapply returns_consume; eauto].
  - right; left; split; [reflexivity|]; intros j HI. destruct H as [->| ->]; inlist HI.
  - right; left; split; [reflexivity|]; intros j HI. destruct H as [->| ->]; inlist HI.
  - right; left; split; [reflexivity|]; intros j HI. subst e. destruct sy; inlist HI.
  - right; left; split; [reflexivity|]; intros j HI. destruct H as [l ->]. inlist HI.
  - right; left; split; [reflexivity|]; intros j HI. destruct l as [|d l]; [subst; inlist HI|]. destruct H as [->|[x ->]]; [inlist HI|].
    apply in_app_or in HI. destruct HI as [HI|[<-|[]]]; [eapply returns_consume; eauto|reflexivity].
  - right; left; split; [reflexivity|]; intros j HI. destruct H as [l ->]. inlist HI.
  - right; left; split; [reflexivity|]; intros j HI. destruct l; subst; inlist HI.
Qed.
Lemma good_none : forall k, (forall i, In i k -> returns i = false) -> good k.
Proof. intros k H. rewrite <- (app_nil_r k). apply good_app; [exact H|exact I]. Qed.
Lemma crash_same : forall b pw body im t s s' ev, step b pw body im t s = Some (ev, s') -> any_crash ev = true -> exists w, s' = set_crash s w.
Proof. intros b pw body im t s s' ev H HC. step_cases H; injection H as <- <-; try discriminate HC; eauto. Qed.
Lemma good_step : forall b pw body im t s s' ev, step b pw body im t s = Some (ev, s') -> any_erase ev = false ->
  c_conns s <> [] \/ (forall u k, nth_error (c_threads s) u = Some k -> good k) -> c_conns s' <> [] \/ (forall u k, nth_error (c_threads s') u = Some k -> good k).
Proof.
  intros b pw body im t s s' ev H HE [HC|HG].
  - left. exact (proj1 (conn_step _ _ _ _ _ _ _ _ HC HE H)).
  - destruct (any_crash ev) eqn:EV; [destruct (crash_same _ _ _ _ _ _ _ _ H EV) as [w ->]; right; exact HG|].
    destruct (c_conns s') as [|cp l] eqn:EC; [right|left; discriminate].
    refine (local_step good b pw body im t s s' ev H HG _ _).
    + intros d x. apply good_none. intros i Hi. eapply returns_consume; eauto.
    + intros i k0 e Hn _ He Hg. destruct (expand_good _ _ _ He) as [[G1 G2]|[[G1 G2]|(c & p & ->)]].
      * now apply good_cons.
      * apply good_app; [exact G2|]. cbn [good] in Hg. destruct Hg as [Hg|[_ Hg]]; [congruence|exact Hg].
      * exfalso. unfold step in H. rewrite Hn in H. destruct (negb (is_none (c_crash s))); [discriminate|]. destruct (touches _ && _).
        -- injection H as <- <-. discriminate EV.
        -- injection H as <- <-. unst. apply app_eq_nil in EC. destruct EC. discriminate.
Qed.
Lemma connected_after_return : forall b pw body conns q programs t1 t2 t p m s', exec b pw body (initial conns q programs) (t1 ++ EReturn t (OConnect p m) :: t2) s' ->
  none any_erase (t1 ++ t2) -> none any_drop t2.
Proof.
  intros b pw body conns q programs t1 t2 t p m s' HE HN. apply exec_app in HE. destruct HE as (s1 & E1 & HE). inversion HE as [|? im u ev s2 ? ? Hst E2]; subst.
  assert (HG : c_conns s1 <> [] \/ (forall u k, nth_error (c_threads s1) u = Some k -> good k)).
  { assert (H0 : c_conns (initial conns q programs) <> [] \/ (forall u k, nth_error (c_threads (initial conns q programs)) u = Some k -> good k)).
    { right. intros u0 k Hn. cbn [initial c_threads] in Hn. rewrite nth_error_map in Hn. destruct (nth_error programs u0); [|discriminate]. injection Hn as <-.
      apply good_none. intros i Hi. apply in_map_iff in Hi. destruct Hi as (o & <- & _). reflexivity. }
    assert (HN1 : none any_erase t1) by (intros e He; apply HN, in_or_app; now left). clear - E1 H0 HN1. revert H0 HN1.
    induction E1 as [s|s im t ev s1 tr s' HS HX IH]; intros H0 HN1; [exact H0|]. apply IH; [|intros e He; apply HN1; now right].
    eapply good_step; eauto. apply HN1. now left. }
  destruct (step_return _ _ _ _ _ _ _ _ _ Hst) as (-> & k3 & Hn3). 
  assert (HC : c_conns s1 <> []).
  { destruct HG as [HG|HG]; [exact HG|]. specialize (HG _ _ Hn3). cbn in HG. destruct HG as [HG|[HG _]]; discriminate. }
  eapply connected_no_drop; [exact E2| |intros e He; apply HN, in_or_app; now right].
  refine (proj1 (conn_step _ _ _ _ _ _ _ _ HC _ Hst)). reflexivity.
Qed.

(** ** Destroying the consumer when all other threads of the user are done: background tasks cannot outlive it *)
Definition inner i : bool :=
  match i with IAcqA | IRelA | IAcqX | IRelX | IFlush | IWaits _ | IDisconnect | IDiscs _ | IStart _ _ _ | IEnd KAsync _ => true | _ => false end.
Lemma expand_inner : forall i e, expand (no_calls (X := X)) i e -> inner i = true -> forall j, In j e -> inner j = true.
Proof.
  intros i e H Hi j HJ. destruct i; try discriminate; cbn [expand] in H; try (subst e; inlist HJ; fail).
  - destruct sy; [discriminate|]. subst e. destruct HJ.
  - destruct H as [l ->]. inlist HJ.
  - destruct l as [|d l]; [subst; inlist HJ|]. destruct H as [->|[x ->]]; inlist HJ.
  - destruct H as [l ->]. inlist HJ.
  - destruct l; subst; inlist HJ.
Qed.
(** threads of background tasks *)
Definition task k : Prop := k = [] \/ exists d, k = [IEnd KAsync d] \/ exists x, k = [IStart KAsync d x; IEnd KAsync d].
Definition last_call k : Prop := exists e, (forall i, In i e -> inner i = true) /\ k = e ++ [IDestroy; IReturn ODestroyConsumer].
(** everything is over *)
Definition over s t : Prop := (forall u k, nth_error (c_threads s) u = Some k -> u <> t -> k = []) /\
  forall k, nth_error (c_threads s) t = Some k -> k = [] \/ k = [IReturn ODestroyConsumer].
Definition ending s t : Prop := c_alive s = true /\ (forall u k, nth_error (c_threads s) u = Some k -> u <> t -> task k) /\
  (forall k, nth_error (c_threads s) t = Some k -> last_call k) /\ (phaseA s t \/ phaseB s t \/ phaseC s t) /\ disc_top s /\ t < length (c_threads s).
Lemma over_step : forall b pw im u s s' ev t, step b pw no_calls im u s = Some (ev, s') -> over s t -> over s' t /\ any_crash ev = false.
Proof.
  intros b pw im u s s' ev t H [H1 H2]. unfold step in H. destruct (negb (is_none (c_crash s))); [discriminate|].
  destruct (nth_error (c_threads s) u) as [[|i k]|] eqn:E; try discriminate. destruct (Nat.eq_dec u t) as [->|N].
  - specialize (H2 _ E). destruct H2 as [H2|H2]; [discriminate|]. injection H2 as -> ->. cbn in H. injection H as <- <-. split; [|reflexivity]. split.
    + intros v k Hv Nv. unst. apply nth_upd in Hv. destruct Hv as [[-> ->]|[_ Hv]]; [congruence|eauto].
    + intros k Hv. unst. apply nth_upd in Hv. destruct Hv as [[_ ->]|[N _]]; [auto|congruence].
  - specialize (H1 _ _ E N). discriminate.
Qed.
Lemma ending_step : forall b pw im u s s' ev tr t, inv3 s tr -> step b pw no_calls im u s = Some (ev, s') -> ending s t -> (ending s' t \/ over s' t) /\ any_crash ev = false.
Proof.
  intros b pw im u s s' ev tr t HI H (HA & HT & HL & HP & HD & HN).
  assert (HO : forall i k0, nth_error (c_threads s) u = Some (i :: k0) -> inner i = true \/ (i = IDestroy /\ u = t /\ k0 = [IReturn ODestroyConsumer])).
  { intros i k0 Hn. destruct (Nat.eq_dec u t) as [->|N].
    - destruct (HL _ Hn) as (e & He & HK). destruct e as [|i0 e]; cbn in HK; injection HK as -> ->; [auto|]. left. apply He. now left.
    - destruct (HT _ _ Hn N) as [HX|(d & [HX|(x & HX)])]; [discriminate|injection HX as -> _; auto..]. }
  assert (HE : any_insert ev = false /\ any_crash ev = false).
  { clear - HO HA H. step_cases H; injection H as <- <-; try subst; try (split; reflexivity); exfalso; specialize (HO _ _ eq_refl);
    (destruct HO as [HO|(HO & _)]; try discriminate); rewrite HA in *; cbn in *; rewrite ?andb_false_r in *; discriminate. }
  destruct HE as [HEi HEc]. split; [|exact HEc].
  pose proof (phase_step _ _ _ _ _ _ _ _ _ t HI HD HEi H HP) as HP'. pose proof (disc_top_step _ _ _ _ _ _ _ _ HD H) as HD'.
  destruct (nth_error (c_threads s) u) as [[|i k0]|] eqn:En; try (unfold step in H; rewrite En in H; destruct (negb (is_none (c_crash s))); discriminate).
  destruct (HO _ _ eq_refl) as [Hi|(-> & -> & ->)].
  - left. split; [|split; [|split; [|split; [exact HP'|split; [exact HD'|]]]]].
    + unfold step in H. rewrite En, HA in H. rewrite andb_false_r in H. destruct (negb (is_none (c_crash s))); [discriminate|].
      destruct i; try discriminate Hi; step_cases H; injection H as <- <-; exact HA.
    + destruct (step_moved _ _ _ _ _ _ _ _ H) as (j & k1 & Hj & [(w & -> & _)|(_ & e & He & HTh)]); [discriminate|]. rewrite En in Hj. injection Hj as <- <-.
      assert (HU : forall v k, nth_error (upd (c_threads s) u (e ++ k0)) v = Some k -> v <> t -> task k).
      { intros v k Hv Nv. apply nth_upd in Hv. destruct Hv as [[-> ->]|[_ Hv]]; [|eauto].
        destruct (HT _ _ En Nv) as [HX|(d & [HX|(x & HX)])]; [discriminate|..]; injection HX as -> ->; cbn [expand] in He; subst e; cbn.
        - now left.
        - right. exists d. now left. }
      intros v k Hv Nv. destruct HTh as [HTh|(d & x & HTh)]; rewrite HTh in Hv; [eauto|]. apply nth_snoc in Hv. destruct Hv as [Hv|[_ ->]]; [eauto|].
      right. exists d. right. exists x. reflexivity.
    + destruct (step_moved _ _ _ _ _ _ _ _ H) as (j & k1 & Hj & [(w & -> & _)|(_ & e & He & HTh)]); [discriminate|]. rewrite En in Hj. injection Hj as <- <-.
      assert (HU : forall k, nth_error (upd (c_threads s) u (e ++ k0)) t = Some k -> last_call k).
      { intros k Hv. apply nth_upd in Hv. destruct Hv as [[<- ->]|[_ Hv]]; [|eauto].
        destruct (HL _ En) as (e0 & He0 & HK). destruct e0 as [|i0 e0]; cbn in HK; injection HK as -> ->; [discriminate Hi|].
        exists (e ++ e0). split; [|now rewrite app_assoc]. intros j Hj. apply in_app_or in Hj. destruct Hj as [Hj|Hj]; [eapply expand_inner; eauto|]. apply He0. now right. }
      intros k Hv. destruct HTh as [HTh|(d & x & HTh)]; rewrite HTh in Hv; [eauto|]. apply nth_snoc in Hv. destruct Hv as [Hv|[Hv _]]; [eauto|].
      exfalso. rewrite upd_length in Hv. lia.
    + destruct (step_moved _ _ _ _ _ _ _ _ H) as (j & k1 & Hj & [(w & -> & _)|(_ & e & He & HTh)]); [discriminate|].
      destruct HTh as [HTh|(d & x & HTh)]; rewrite HTh, ?app_length, upd_length; lia.
  - right. unfold step in H. rewrite En in H. destruct (negb (is_none (c_crash s))); [discriminate|]. rewrite HA in H. cbn [touches negb andb] in H. injection H as <- <-.
    assert (HF : forall i, pending s t i -> i = IDestroy \/ i = IReturn ODestroyConsumer).
    { intros i (k & Hk & Hi). rewrite En in Hk. injection Hk as <-. destruct Hi as [Hi|[Hi|[]]]; auto. }
    assert (HC : forall d, calm (c_stat s d)).
    { destruct HP as [[_ HX]|[(_ & _ & HX)|(_ & HX)]]; [destruct (HF _ HX); discriminate..|]. intros d. destruct (HX d) as [HY|(l & HY & _)]; [exact HY|].
      destruct (HF _ HY); discriminate. }
    split.
    + intros v k Hv Nv. unst. apply nth_upd in Hv. destruct Hv as [[-> ->]|[_ Hv]]; [congruence|].
      assert (HX : forall d, In (IEnd KAsync d) k -> False).
      { intros d Hd. destruct HI as [[HI _] _]. pose proof (i_deliv _ _ HI d) as HX. specialize (HC d). unfold deliv_ok in HX.
        pose proof (tot_le (isE d) _ _ _ (isE_nn d) Hv) as LE. pose proof (wt_in (isE d) _ _ (isE_nn d) Hd) as LI. cbn [isE] in LI. unfold hit in LI. rewrite Nat.eqb_refl in LI.
        destruct (c_stat s d) as [| |[]| |]; cbn in HC; try tauto; lia. }
      destruct (HT _ _ Hv Nv) as [HY|(d & [HY|(x & HY)])]; [exact HY|..]; subst k; destruct (HX d); cbn; auto.
    + intros k Hv. unst. apply nth_upd in Hv. destruct Hv as [[_ ->]|[N _]]; [auto|congruence].
Qed.
(** the threads that are not the user's run background tasks *)
Lemma tasks : forall b pw conns q programs tr s', exec b pw no_calls (initial conns q programs) tr s' ->
  forall u k, nth_error (c_threads s') u = Some k -> length programs <= u -> task k.
Proof.
  intros b pw conns q programs tr s' HE.
  assert (H0 : length programs <= length (c_threads (initial conns q programs)) /\
    forall u k, nth_error (c_threads (initial conns q programs)) u = Some k -> length programs <= u -> task k).
  { cbn [initial c_threads]. rewrite map_length. split; [lia|]. intros u k Hn Hu. rewrite nth_error_map in Hn.
    assert (nth_error programs u = None) by now apply nth_error_None. rewrite H in Hn. discriminate. }
  revert H0. generalize (length programs) as n. intros n. induction HE as [s|s im t ev s1 tr s' HS HX IH]; intros [HL H0]; [exact H0|]. apply IH.
  destruct (step_moved _ _ _ _ _ _ _ _ HS) as (i & k0 & Hn & [(w & _ & ->)|(_ & e & He & HT)]); [split; [exact HL|exact H0]|].
  assert (HU : forall u k, nth_error (upd (c_threads s) t (e ++ k0)) u = Some k -> n <= u -> task k).
  { intros u k Hu Hnu. apply nth_upd in Hu. destruct Hu as [[-> ->]|[_ Hu]]; [|eauto].
    destruct (H0 _ _ Hn Hnu) as [HY|(d & [HY|(x & HY)])]; [discriminate|..]; injection HY as -> ->; cbn [expand] in He; subst e; cbn.
    - now left.
    - right. exists d. now left. }
  destruct HT as [HT|(d & x & HT)]; rewrite HT; (split; [rewrite ?app_length, upd_length; lia|]); [exact HU|].
  intros u k Hu Hnu. apply nth_snoc in Hu. destruct Hu as [Hu|[_ ->]]; [eauto|]. right. exists d. right. exists x. reflexivity.
Qed.
Lemma destroy_safe : forall b pw conns q programs t1 t2 t s1 s2, exec b pw no_calls (initial conns q programs) t1 s1 ->
  c_alive s1 = true -> nth_error (c_threads s1) t = Some [ICall ODestroyConsumer] -> t < length programs ->
  (forall u, u < length programs -> u <> t -> finished s1 u) -> exec b pw no_calls s1 t2 s2 -> none any_crash t2.
Proof.
  intros b pw conns q programs t1 t2 t s1 s2 E1 HA Hn Ht HF E2.
  pose proof (reach_inv3 _ _ _ _ _ _ _ _ E1) as I1.
  pose proof (disc_top_exec _ _ _ _ _ _ E1 (disc_top_initial _ _ _)) as D1.
  (* background tasks may run before the call *)
  assert (HG : forall tr0 s tr s2, inv3 s tr0 -> exec b pw no_calls s tr s2 ->
    (c_alive s = true /\ nth_error (c_threads s) t = Some [ICall ODestroyConsumer] /\ disc_top s /\ (forall u k, nth_error (c_threads s) u = Some k -> u <> t -> task k))
    \/ ending s t \/ over s t -> none any_crash tr).
  { clear. intros tr0 s tr s2 HI HX. revert tr0 HI. induction HX as [s|s im u ev s1 tr s' HS HX IH]; intros tr0 HI HP e He; [destruct He|].
    assert (HQ : ((c_alive s1 = true /\ nth_error (c_threads s1) t = Some [ICall ODestroyConsumer] /\ disc_top s1 /\ (forall u k, nth_error (c_threads s1) u = Some k -> u <> t -> task k))
      \/ ending s1 t \/ over s1 t) /\ any_crash ev = false).
    { destruct HP as [(HA & Hn & HD & HT)|[HP|HP]].
      - pose proof (disc_top_step _ _ _ _ _ _ _ _ HD HS) as HD'. destruct (Nat.eq_dec u t) as [->|N].
        + unfold step in HS. rewrite Hn in HS. destruct (negb (is_none (c_crash s))); [discriminate|]. cbn [touches andb] in HS. injection HS as <- <-. split; [|reflexivity].
          right. left. assert (HL : t < length (c_threads s)) by (apply nth_error_Some; congruence).
          split; [exact HA|]. split; [|split; [|split; [|split; [exact HD'|unst; rewrite upd_length; exact HL]]]].
          * intros v k Hv Nv. unst. apply nth_upd in Hv. destruct Hv as [[-> ->]|[_ Hv]]; [congruence|eauto].
          * intros k Hv. unst. apply nth_upd in Hv. destruct Hv as [[_ ->]|[N _]]; [|congruence].
            exists disconnect_flush_code. split; [|reflexivity]. intros i Hi. inlist Hi.
          * left. split; [exists IDisconnect; split; [reflexivity|]|]; eexists; (split; [unst; now apply upd_same|]); cbn; auto 10.
        + destruct (step_moved _ _ _ _ _ _ _ _ HS) as (i & k0 & Hi & [(w & -> & ->)|(_ & e0 & He0 & HTh)]).
          * exfalso. destruct (HT _ _ Hi N) as [HY|(d & [HY|(x & HY)])]; [discriminate|..]; injection HY as -> ->;
            unfold step in HS; rewrite Hi, HA in HS; cbn in HS; destruct (negb (is_none (c_crash s))); discriminate.
          * assert (HCr : any_crash ev = false /\ c_alive s1 = true).
            { destruct (HT _ _ Hi N) as [HY|(d & [HY|(x & HY)])]; [discriminate|..]; injection HY as -> ->;
              unfold step in HS; rewrite Hi, HA in HS; cbn in HS; destruct (negb (is_none (c_crash s))); try discriminate; injection HS as <- <-; auto. }
            destruct HCr as [HCr HA']. split; [|exact HCr]. left. split; [exact HA'|].
            assert (HU : forall v k, nth_error (upd (c_threads s) u (e0 ++ k0)) v = Some k -> v <> t -> task k).
            { intros v k Hv Nv. apply nth_upd in Hv. destruct Hv as [[-> ->]|[_ Hv]]; [|eauto].
              destruct (HT _ _ Hi N) as [HY|(d & [HY|(x & HY)])]; [discriminate|..]; injection HY as -> ->; cbn [expand] in He0; subst e0; cbn.
              - now left.
              - right. exists d. now left. }
            assert (HL : t < length (c_threads s)) by (apply nth_error_Some; congruence).
            destruct HTh as [HTh|(d & x & HTh)]; rewrite HTh; (split; [|split; [exact HD'|]]).
            -- rewrite upd_other by congruence. exact Hn.
            -- exact HU.
            -- rewrite nth_error_app1 by (rewrite upd_length; exact HL). rewrite upd_other by congruence. exact Hn.
            -- intros v k Hv Nv. apply nth_snoc in Hv. destruct Hv as [Hv|[_ ->]]; [eauto|]. right. exists d. right. exists x. reflexivity.
      - destruct (ending_step _ _ _ _ _ _ _ _ _ HI HS HP) as [HQ HC]. split; [right; exact HQ|exact HC].
      - destruct (over_step _ _ _ _ _ _ _ _ HS HP) as [HQ HC]. split; [auto|exact HC]. }
    destruct HQ as [HQ HC]. destruct He as [<-|He]; [exact HC|]. eapply IH; [eapply inv3_step; eauto|exact HQ|exact He]. }
  eapply HG; [exact I1|exact E2|]. left. repeat split; auto. intros v k Hv Nv. destruct (Nat.lt_ge_cases v (length programs)) as [C|C].
  - specialize (HF _ C Nv). unfold finished in HF. left. congruence.
  - eapply tasks; eauto.
Qed.

(** ** Destroying a producer, once, while nobody disconnects the consumer *)
Definition cf i : bool := match i with IContains _ | IFindErase _ => true | _ => false end.
Definition lead3 i : bool := match i with IContains _ | IAcqA | IAcqX => true | _ => false end.
Fixpoint fe k : Prop := match k with [] => True | i :: k' => (existsb cf k' = true -> lead3 i = true) /\ fe k' end.
Lemma fe_none : forall k, existsb cf k = false -> fe k.
Proof. induction k as [|i k IH]; intros H; cbn in *; [exact I|]. apply orb_false_elim in H. destruct H as [_ H]. split; [congruence|auto]. Qed.
Lemma fe_app : forall e k, fe e -> fe k -> existsb cf k = false -> fe (e ++ k).
Proof.
  induction e as [|i e IH]; intros k He Hk HC; cbn [app fe] in *; [exact Hk|]. destruct He as [H1 H2]. split; [|auto].
  rewrite existsb_app, HC, orb_false_r. exact H1.
Qed.
Lemma cf_map : forall A (g : A -> instr X) l, (forall a, cf (g a) = false) -> existsb cf (map g l) = false.
Proof. intros A g l H. induction l as [|a l IH]; cbn; [reflexivity|]. now rewrite H, IH. Qed.
Lemma cf_consume : forall body m d (x : X), existsb cf (consume_code body m d x) = false.
Proof. intros. unfold consume_code. cbn [existsb cf orb]. rewrite existsb_app, cf_map by reflexivity. reflexivity. Qed.
Lemma expand_fe : forall body i e, expand body i e -> fe e /\ (lead3 i = true -> e = []).
Proof.
  intros body i e H. destruct i; cbn [expand] in H; try (subst e; cbn; intuition discriminate).
  - subst e. split; [|discriminate]. destruct o; cbn; intuition discriminate.
  - destruct H as [l ->]. split; [apply fe_none; now apply cf_map|discriminate].
  - destruct H as [l ->]. split; [apply fe_none; now apply cf_map|discriminate].
  - destruct H as [l ->]. split; [apply fe_none; now apply cf_map|discriminate].
  - destruct H as [->|[d ->]]; [cbn; auto|]. destruct m; cbn; intuition discriminate.
  - destruct H as [->| ->]; cbn; intuition discriminate.
  - destruct H as [->| ->]; cbn; intuition discriminate.
  - destruct H as (h1 & h2 & h3 & c & ->). cbn. intuition discriminate.
  - destruct H as [->| ->]; [cbn; intuition discriminate|]. split; [apply fe_none, cf_consume|discriminate].
  - destruct H as [->| ->]; cbn; intuition discriminate.
  - destruct H as [->| ->]; cbn; intuition discriminate.
  - subst e. destruct sy; cbn; intuition discriminate.
  - destruct H as [l ->]. cbn. intuition discriminate.
  - destruct l as [|d l]; [subst; cbn; intuition discriminate|]. destruct H as [->|[x ->]]; [cbn; intuition discriminate|]. split; [|discriminate].
    apply fe_none. rewrite existsb_app, cf_consume. reflexivity.
  - destruct H as [l ->]. cbn. intuition discriminate.
  - destruct l; subst; cbn; intuition discriminate.
Qed.
Lemma fe_step : forall b pw body im t s s' ev, step b pw body im t s = Some (ev, s') ->
  (forall u k, nth_error (c_threads s) u = Some k -> fe k) -> forall u k, nth_error (c_threads s') u = Some k -> fe k.
Proof.
  intros b pw body im t s s' ev H HF. refine (local_step fe b pw body im t s s' ev H HF _ _).
  - intros d x. apply fe_none, cf_consume.
  - intros i k0 e _ _ He [H1 H2]. destruct (expand_fe _ _ _ He) as [H3 H4]. destruct (existsb cf k0) eqn:E.
    + rewrite (H4 (H1 eq_refl)). exact H2.
    + now apply fe_app.
Qed.

(** who is destroying producer [p] *)
Definition dw (p : nat) i : Z := match i with ICall (ODestroyProducer p') | IDestroySignals p' => if (p' =? p)%nat then 1 else 0 | _ => 0 end%Z.
Definition df (p : nat) i : bool := match i with IEmitDisconnect p' | ITryDisconnect _ p' | IContains p' | IFindErase p' => p' =? p | _ => false end.
Lemma dw_nn : forall p i, (0 <= dw p i)%Z. Proof. intros p []; cbn; try lia; [destruct o; try lia|]; destruct (_ =? _); lia. Qed.
Fixpoint own p k : Prop := match k with [] => True | i :: k' => (df p i = true -> (1 <= wt (dw p) k')%Z) /\ own p k' end.
Lemma own_none : forall p e k, existsb (df p) e = false -> own p k -> own p (e ++ k).
Proof. induction e as [|i e IH]; intros k H HK; cbn [app own existsb] in *; [exact HK|]. apply orb_false_elim in H. destruct H as [H1 H2]. split; [congruence|auto]. Qed.
Lemma own_some : forall p e k, (1 <= wt (dw p) k)%Z -> own p k -> own p (e ++ k).
Proof.
  induction e as [|i e IH]; intros k H HK; cbn [app own]; [exact HK|]. split; [|auto]. intros _. rewrite wt_app. pose proof (wt_nonneg (dw p) e (dw_nn p)). lia.
Qed.
Lemma df_map : forall p A (g : A -> instr X) l, (forall a, df p (g a) = false) -> existsb (df p) (map g l) = false.
Proof. intros p A g l H. induction l as [|a l IH]; cbn; [reflexivity|]. now rewrite H, IH. Qed.
Lemma df_consume : forall p body m d (x : X), existsb (df p) (consume_code body m d x) = false.
Proof. intros. unfold consume_code. cbn [existsb df orb]. rewrite existsb_app, df_map by reflexivity. reflexivity. Qed.
Lemma expand_df : forall p body i e, expand body i e -> df p i = false -> existsb (df p) e = true -> i = ICall (ODestroyProducer p).
Proof.
  intros p body i e H Hi HE.
  destruct i; cbn [expand] in H; try (subst e; discriminate HE).
  - subst e. destruct o; try discriminate HE. cbn in HE. rewrite !orb_false_r in HE. apply Nat.eqb_eq in HE. congruence.
  - destruct H as [l ->]. rewrite df_map in HE by reflexivity. discriminate.
  - destruct H as [l ->]. rewrite df_map in HE by reflexivity. discriminate.
  - destruct H as [l ->]. cbn in Hi. rewrite df_map in HE by (intros; exact Hi). discriminate.
  - destruct H as [->|[d ->]]; [discriminate|]. destruct m; discriminate.
  - destruct H as [->| ->]; discriminate.
  - cbn in Hi. destruct H as [->| ->]; cbn in HE; try rewrite Hi in HE; discriminate.
  - destruct H as (h1 & h2 & h3 & c & ->). discriminate.
  - destruct H as [->| ->]; [discriminate|]. rewrite df_consume in HE. discriminate.
  - destruct H as [->| ->]; discriminate.
  - destruct H as [->| ->]; discriminate.
  - subst e. destruct sy; discriminate.
  - destruct H as [l ->]. discriminate.
  - destruct l as [|d l]; [subst; discriminate|]. destruct H as [->|[x ->]]; [discriminate|]. rewrite existsb_app, df_consume in HE. discriminate.
  - destruct H as [l ->]. discriminate.
  - destruct l; subst; discriminate.
Qed.
Lemma own_step : forall p b pw body im t s s' ev, step b pw body im t s = Some (ev, s') ->
  (forall u k, nth_error (c_threads s) u = Some k -> own p k) -> forall u k, nth_error (c_threads s') u = Some k -> own p k.
Proof.
  intros p b pw body im t s s' ev H HF. refine (local_step (own p) b pw body im t s s' ev H HF _ _).
  - intros d x. rewrite <- (app_nil_r (consume_code _ _ _ _)). apply own_none; [apply df_consume|exact I].
  - intros i k0 e _ _ He [H1 H2]. destruct (df p i) eqn:E; [apply own_some; auto|]. destruct (existsb (df p) e) eqn:E2; [|now apply own_none].
    pose proof (expand_df _ _ _ _ He E E2) as ->. cbn [expand] in He. subst e. cbn [code app own]. cbn [wt dw df]. rewrite Nat.eqb_refl.
    pose proof (wt_nonneg (dw p) k0 (dw_nn p)). repeat split; try discriminate; try exact H2. lia.
Qed.
Lemma tot_two : forall (f : instr X -> Z) l t u k k', (forall i, 0 <= f i)%Z -> t <> u -> nth_error l t = Some k -> nth_error l u = Some k' -> (wt f k + wt f k' <= tot f l)%Z.
Proof.
  intros f. induction l as [|a l IH]; intros [|t] [|u] k k' Hf N H1 H2; cbn [nth_error tot] in *; try discriminate; try congruence.
  - injection H1 as ->. pose proof (tot_le f _ _ _ Hf H2). lia.
  - injection H2 as ->. pose proof (tot_le f _ _ _ Hf H1). lia.
  - assert (N' : t <> u) by congruence. specialize (IH _ _ _ _ Hf N' H1 H2). pose proof (wt_nonneg f a Hf). lia.
Qed.

Lemma dw_map : forall p A (g : A -> instr X) l, (forall a, dw p (g a) = 0%Z) -> wt (dw p) (map g l) = 0%Z.
Proof. intros. now apply wt_map0. Qed.
Lemma dw_calls : forall p l, (forall o, In o l -> destroys (X := X) o = false) -> wt (dw p) (map ICall l) = 0%Z.
Proof.
  intros p l H. induction l as [|o l IH]; cbn [map wt]; [reflexivity|]. rewrite IH by (intros; apply H; now right). specialize (H o (or_introl eq_refl)). destruct o; try discriminate; reflexivity.
Qed.
Section Dw.
Variable body : X -> list (op X).
Hypothesis Hbody : forall x o, In o (body x) -> destroys o = false.
Lemma dw_consume : forall p m d x, wt (dw p) (consume_code body m d x) = 0%Z.
Proof. intros p m d x. unfold consume_code. cbn [wt]. rewrite wt_app, dw_calls by (intros; eauto). reflexivity. Qed.
Lemma expand_dw : forall p i e, expand body i e -> (wt (dw p) e <= dw p i)%Z.
Proof.
  intros p i e H. destruct i; cbn [expand] in H; try (subst e; cbn [wt dw]; try lia; destruct (_ =? _); lia).
  - subst e. destruct o; cbn; lia.
  - destruct H as [l ->]. rewrite dw_map by reflexivity. cbn. lia.
  - destruct H as [l ->]. rewrite dw_map by reflexivity. cbn. lia.
  - destruct H as [l ->]. rewrite dw_map by reflexivity. cbn. lia.
  - destruct H as [->|[d ->]]; [cbn; lia|]. destruct m; cbn; lia.
  - destruct H as [->| ->]; cbn; lia.
  - destruct H as [->| ->]; cbn; lia.
  - destruct H as (h1 & h2 & h3 & c & ->). cbn; lia.
  - destruct H as [->| ->]; [cbn; lia|]. rewrite dw_consume. cbn; lia.
  - destruct H as [->| ->]; cbn; lia.
  - destruct H as [->| ->]; cbn; lia.
  - subst e. destruct sy; cbn; lia.
  - destruct H as [l ->]. cbn; lia.
  - destruct l as [|d l]; [subst; cbn; lia|]. destruct H as [->|[x ->]]; [cbn; lia|]. rewrite wt_app, dw_consume. cbn; lia.
  - destruct H as [l ->]. cbn; lia.
  - destruct l; subst; cbn; lia.
Qed.
Lemma dw_step : forall p b pw im t s s' ev, step b pw body im t s = Some (ev, s') -> (tot (dw p) (c_threads s') <= tot (dw p) (c_threads s))%Z.
Proof.
  intros p b pw im t s s' ev H. destruct (step_moved _ _ _ _ _ _ _ _ H) as (i & k0 & Hn & [(w & _ & ->)|(_ & e & He & HT)]); [apply Z.le_refl|].
  pose proof (expand_dw p _ _ He) as HE. destruct HT as [->|(d & x & ->)]; rewrite ?tot_app; cbn [tot]; rewrite ?dw_consume, (tot_upd _ _ _ _ _ Hn), wt_app; cbn [wt]; lia.
Qed.
End Dw.
(** no connecting, no disconnecting, no destruction of the consumer *)
Definition steady (o : op X) : bool := connects o || disconnecting o.
Definition upset i : bool := match i with ICall o => steady o | IConnect _ _ | IHook _ | IInsert _ _ | IDisconnect | IDiscs _ | IDestroy => true | _ => false end.
Lemma upset_expand : forall body, (forall x o, In o (body x) -> steady o = false) -> forall i e, expand body i e -> upset i = false -> forall j, In j e -> upset j = false.
Proof.
  intros body HB i e H Hi j HI.
  assert (HCn : forall m d x, In j (consume_code body m d x) -> upset j = false).
  { intros m d x HJ. unfold consume_code in HJ. destruct HJ as [<-|HJ]; [reflexivity|]. apply in_app_or in HJ. destruct HJ as [HJ|[<-|[]]]; [|reflexivity].
    apply in_map_iff in HJ. destruct HJ as (o & <- & Ho). exact (HB _ _ Ho). }
  destruct i; try discriminate; cbn [expand] in H; try (subst e; inlist HI; fail).
  - subst e. destruct o; try discriminate; inlist HI.
  - destruct H as [l ->]. apply in_map_iff in HI. destruct HI as (h & <- & _). reflexivity.
  - destruct H as [l ->]. apply in_map_iff in HI. destruct HI as (h & <- & _). reflexivity.
  - destruct H as [l ->]. apply in_map_iff in HI. destruct HI as (h & <- & _). reflexivity.
  - destruct H as [->|[d ->]]; [destruct HI|]. destruct m; inlist HI.
  - destruct H as [->| ->]; inlist HI.
  - destruct H as [->| ->]; inlist HI.
  - destruct H as [->| ->]; [inlist HI|eauto].
  - destruct H as [->| ->]; inlist HI.
  - destruct H as [->| ->]; inlist HI.
  - subst e. destruct sy; inlist HI.
  - destruct H as [l ->]. inlist HI.
  - destruct l as [|d l]; [subst; inlist HI|]. destruct H as [->|[x ->]]; [inlist HI|]. apply in_app_or in HI. destruct HI as [HI|[<-|[]]]; [eauto|reflexivity].
Qed.
Record kept s : Prop := {
  k_hooks : forall h, In h (c_hooks s) -> hk_sig h = SigDisconnect -> In (hk_conn h, hk_prod h) (c_conns s);
  k_fun : forall c p p', In (c, p) (c_conns s) -> In (c, p') (c_conns s) -> p = p';
  k_try : forall t k c p, nth_error (c_threads s) t = Some k -> In (ITryDisconnect c p) k -> forall p', In (c, p') (c_conns s) -> p' = p;
  k_cf : forall t k p, nth_error (c_threads s) t = Some k -> In (IContains p) k \/ In (IFindErase p) k -> exists c, In (c, p) (c_conns s);
  k_fe : forall t k, nth_error (c_threads s) t = Some k -> fe k;
  k_own : forall p t k, nth_error (c_threads s) t = Some k -> own p k;
  k_one : forall p, (tot (dw p) (c_threads s) <= 1)%Z;
  k_alive : c_alive s = true;
  k_quiet : forall t k i, nth_error (c_threads s) t = Some k -> In i k -> upset i = false }.
Lemma own_in : forall p k i, own p k -> In i k -> df p i = true -> (1 <= wt (dw p) k)%Z.
Proof.
  intros p k i. induction k as [|j k IH]; intros HO HI HD; [destruct HI|]. cbn [own wt] in *. destruct HO as [H1 H2]. pose proof (dw_nn p j).
  destruct HI as [->|HI]; [specialize (H1 HD); lia|specialize (IH H2 HI HD); lia].
Qed.
(** which producers the expansion of an instruction mentions *)
Lemma expand_try : forall body i e c p, expand body i e -> In (ITryDisconnect c p) e -> i = IEmitDisconnect p.
Proof.
  intros body i e c p H HI.
  assert (HM : forall A (g : A -> instr X) l, (forall a, g a <> ITryDisconnect c p) -> ~ In (ITryDisconnect c p) (map g l)).
  { intros A g l Hg Hj. apply in_map_iff in Hj. destruct Hj as (a & Ha & _). now apply (Hg a). }
  assert (HC : forall m d x, ~ In (ITryDisconnect c p) (consume_code body m d x)).
  { intros m d x [HJ|HJ]; [discriminate|]. apply in_app_or in HJ. destruct HJ as [HJ|[HJ|[]]]; [|discriminate]. eapply HM; [|exact HJ]. discriminate. }
  Ltac absurd_in HI := cbn in HI; repeat (destruct HI as [HI|HI]; [try discriminate|]); try destruct HI.
  destruct i; cbn [expand] in H; try (subst e; absurd_in HI; fail).
  - subst e. destruct o; absurd_in HI.
  - destruct H as [l ->]. exfalso. eapply HM; [|exact HI]. discriminate.
  - destruct H as [l ->]. exfalso. eapply HM; [|exact HI]. discriminate.
  - destruct H as [l ->]. apply in_map_iff in HI. destruct HI as (h & HI & _). congruence.
  - destruct H as [->|[d ->]]; [destruct HI|]. destruct m; absurd_in HI.
  - destruct H as [->| ->]; absurd_in HI.
  - destruct H as [->| ->]; absurd_in HI.
  - destruct H as (h1 & h2 & h3 & c0 & ->). absurd_in HI.
  - destruct H as [->| ->]; [absurd_in HI|]. now destruct (HC _ _ _ HI).
  - destruct H as [->| ->]; absurd_in HI.
  - destruct H as [->| ->]; absurd_in HI.
  - subst e. destruct sy; absurd_in HI.
  - destruct H as [l ->]. absurd_in HI.
  - destruct l as [|d l]; [subst; absurd_in HI|]. destruct H as [->|[x ->]]; [absurd_in HI|]. apply in_app_or in HI. destruct HI as [HI|[HI|[]]]; [now destruct (HC _ _ _ HI)|discriminate].
  - destruct H as [l ->]. absurd_in HI.
  - destruct l; subst; absurd_in HI.
Qed.
Lemma expand_cf : forall body i e p, expand body i e -> In (IContains p) e \/ In (IFindErase p) e -> exists c, i = ITryDisconnect c p.
Proof.
  intros body i e p H HI.
  assert (HX : existsb (df p) e = true).
  { apply existsb_exists. destruct HI as [HI|HI]; eexists; (split; [exact HI|]); cbn; apply Nat.eqb_refl. }
  assert (HC : existsb cf e = true).
  { apply existsb_exists. destruct HI as [HI|HI]; eexists; (split; [exact HI|]); reflexivity. }
  destruct (df p i) eqn:E.
  - destruct i; try discriminate; cbn in E; apply Nat.eqb_eq in E; subst; cbn [expand] in H.
    + destruct H as [l ->]. rewrite cf_map in HC by reflexivity. discriminate.
    + eauto.
    + subst. discriminate.
    + subst. discriminate.
  - pose proof (expand_df _ _ _ _ H E HX) as ->. cbn [expand] in H. subst e. discriminate.
Qed.

Lemma kept_moves : forall b pw body im t s s' ev, step b pw body im t s = Some (ev, s') -> kept s ->
  any_crash ev = false /\ c_alive s' = true /\
  ((c_conns s' = c_conns s /\ incl (c_hooks s') (c_hooks s)) \/
   (exists p c k0, nth_error (c_threads s) t = Some (IFindErase p :: k0) /\ In (c, p) (c_conns s) /\
      c_conns s' = filter (fun cp => negb (fst cp =? c)) (c_conns s) /\ c_hooks s' = filter (fun h => negb (hk_conn h =? c)) (c_hooks s) /\
      c_threads s' = upd (c_threads s) t (IRelX :: IRelA :: k0))).
Proof.
  intros b pw body im t s s' ev H HK. pose proof (k_alive _ HK) as HA. pose proof (k_quiet _ HK t) as HQ. pose proof (k_cf _ HK t) as HC.
  step_cases H; injection H as <- <-; try subst; unst;
  try (specialize (HQ _ _ eq_refl (or_introl eq_refl)); discriminate);
  try (rewrite HA in *; cbn in *; rewrite ?andb_false_r in *; discriminate);
  try (split; [reflexivity|split; [exact HA|left; split; [reflexivity|first [apply incl_refl|intros h Hh; apply filter_In in Hh; tauto]]]]).
  - exfalso. destruct (HC _ p eq_refl) as (c & Hc); [left; now left|].
    match goal with E : existsb _ _ = false |- _ => apply Bool.not_true_iff_false in E; apply E end. apply existsb_exists. exists (c, p). split; [exact Hc|apply Nat.eqb_refl].
  - split; [reflexivity|]. split; [exact HA|]. right. exists p. eexists. eexists. split; [reflexivity|].
    match goal with E : find _ _ = Some (?a, ?b) |- _ => apply find_some in E; destruct E as [F1 F2]; apply Nat.eqb_eq in F2; cbn in F2; subst b; split; [exact F1|] end.
    auto.
  - exfalso. destruct (HC _ p eq_refl) as (c & Hc); [right; now left|].
    match goal with E : find _ _ = None |- _ => pose proof (find_none _ _ E _ Hc) as HX end. cbn in HX. rewrite Nat.eqb_refl in HX. discriminate.
Qed.
Lemma kept_step : forall b pw body im t s s' ev, (forall x o, In o (body x) -> destroys o = false) -> (forall x o, In o (body x) -> steady o = false) ->
  step b pw body im t s = Some (ev, s') -> kept s -> kept s'.
Proof.
  intros b pw body im t s s' ev HB1 HB2 H HK. destruct (kept_moves _ _ _ _ _ _ _ _ H HK) as (HCr & HA' & HM).
  assert (HS : incl (c_conns s') (c_conns s) /\ incl (c_hooks s') (c_hooks s)).
  { destruct HM as [[-> HI]|(p & c & k0 & _ & _ & -> & -> & _)]; [split; [apply incl_refl|exact HI]|]. split; intros a Ha; apply filter_In in Ha; tauto. }
  destruct HS as [HSc HSh].
  destruct (step_moved _ _ _ _ _ _ _ _ H) as (i & k0 & Hn & [(w & -> & _)|(_ & e & He & HT)]); [discriminate HCr|].
  assert (Lt : t < length (c_threads s)) by (apply nth_error_Some; congruence).
  (* a thread of the new state *)
  assert (HTh : forall u k, nth_error (c_threads s') u = Some k -> (u <> t /\ nth_error (c_threads s) u = Some k) \/ (u = t /\ k = e ++ k0) \/ (u <> t /\ exists d x, k = consume_code body KAsync d x)).
  { intros u k Hu. destruct HT as [HT|(d & x & HT)]; rewrite HT in Hu.
    - apply nth_upd in Hu. destruct Hu as [[-> ->]|[N Hu]]; auto.
    - apply nth_snoc in Hu. destruct Hu as [Hu|[Hu ->]]; [apply nth_upd in Hu; destruct Hu as [[-> ->]|[N Hu]]; auto|].
      right. right. split; [rewrite upd_length in Hu; lia|eauto]. }
  assert (Ht : nth_error (c_threads s') t = Some (e ++ k0)).
  { destruct HT as [-> |(d & x & ->)]; [now apply upd_same|]. rewrite nth_error_app1 by (rewrite upd_length; exact Lt). now apply upd_same. }
  constructor.
  - intros h Hh Hg. destruct HM as [[-> HI]|(p & c & k1 & _ & _ & -> & Eh & _)]; [apply (k_hooks _ HK); auto|].
    rewrite Eh in Hh. apply filter_In in Hh. destruct Hh as [Hh Hc]. apply filter_In. split; [now apply (k_hooks _ HK)|exact Hc].
  - intros c p p' H1 H2. eapply (k_fun _ HK); eauto.
  - intros u k c p Hu Hi p' Hp'. destruct (HTh _ _ Hu) as [[N Hu']|[[-> ->]|[N (d & x & ->)]]].
    + eapply (k_try _ HK); eauto.
    + apply in_app_or in Hi. destruct Hi as [Hi|Hi]; [|eapply (k_try _ HK); [exact Hn|right; exact Hi|auto]].
      pose proof (expand_try _ _ _ _ _ He Hi) as ->. clear He.
      unfold step in H. rewrite Hn in H. destruct (negb (is_none (c_crash s))); [discriminate|]. cbn [touches andb] in H. injection H as <- <-. unst.
      rewrite upd_same in Ht by exact Lt. injection Ht as Ht. apply app_inv_tail in Ht. subst e. apply in_map_iff in Hi. destruct Hi as (h & Hh & Hi). injection Hh as <-.
      unfold hooks_of in Hi. apply filter_In in Hi. destruct Hi as [Hi Hb]. apply andb_prop in Hb. destruct Hb as [Hb1 Hb2]. apply Nat.eqb_eq in Hb2.
      assert (Hg : hk_sig h = SigDisconnect) by (destruct (hk_sig h); try discriminate; reflexivity).
      pose proof (k_hooks _ HK _ Hi Hg) as HH. rewrite Hb2 in HH. eapply (k_fun _ HK); eauto.
    + exfalso. destruct Hi as [Hi|Hi]; [discriminate|]. apply in_app_or in Hi. destruct Hi as [Hi|[Hi|[]]]; [|discriminate]. apply in_map_iff in Hi. destruct Hi as (o & Ho & _). discriminate.
  - intros u k p Hu Hi.
    assert (HOld : forall k1, nth_error (c_threads s) u = Some k1 -> In (IContains p) k1 \/ In (IFindErase p) k1 -> (u = t -> In (IContains p) k0 \/ In (IFindErase p) k0) ->
      exists c, In (c, p) (c_conns s')).
    { intros k1 Hk1 Hi1 Ht1. destruct (k_cf _ HK _ _ _ Hk1 Hi1) as (c & Hc). destruct HM as [[-> _]|(p' & c' & k2 & Hn2 & Hc' & -> & _)]; [eauto|].
      rewrite Hn in Hn2. injection Hn2 as -> ->. exists c. apply filter_In. split; [exact Hc|]. cbn [fst]. destruct (Nat.eqb_spec c c') as [->|N]; [|reflexivity]. exfalso.
      pose proof (k_fun _ HK _ _ _ Hc Hc') as <-. destruct (Nat.eq_dec u t) as [->|N].
      - destruct (k_fe _ HK _ _ Hn) as [HF _]. assert (HX : existsb cf k2 = true).
        { apply existsb_exists. destruct (Ht1 eq_refl) as [HX|HX]; eexists; (split; [exact HX|]); reflexivity. }
        specialize (HF HX). discriminate.
      - pose proof (k_one _ HK p) as HO. pose proof (tot_two (dw p) _ _ _ _ _ (dw_nn p) N Hk1 Hn) as HW.
        assert (W1 : (1 <= wt (dw p) k1)%Z).
        { destruct Hi1 as [Hi1|Hi1]; (eapply own_in; [eapply (k_own _ HK); exact Hk1|exact Hi1|cbn; apply Nat.eqb_refl]). }
        assert (W2 : (1 <= wt (dw p) (IFindErase p :: k2))%Z) by (eapply own_in; [eapply (k_own _ HK); exact Hn|now left|cbn; apply Nat.eqb_refl]). lia. }
    destruct (HTh _ _ Hu) as [[N Hu']|[[-> ->]|[N (d & x & ->)]]].
    + eapply HOld; eauto. congruence.
    + rewrite !in_app_iff in Hi. assert (Hi' : (In (IContains p) e \/ In (IFindErase p) e) \/ (In (IContains p) k0 \/ In (IFindErase p) k0)) by tauto.
      destruct Hi' as [Hi'|Hi']; [|eapply HOld; [exact Hn| |auto]; destruct Hi'; [left|right]; now right].
      destruct (expand_cf _ _ _ _ He Hi') as (c & ->). clear HOld HM.
      unfold step in H. rewrite Hn in H. destruct (negb (is_none (c_crash s))); [discriminate|]. cbn [touches andb] in H. injection H as <- <-. unst.
      rewrite upd_same in Ht by exact Lt. injection Ht as Ht. apply app_inv_tail in Ht. subst e.
      destruct (connected s SigDisconnect c) eqn:EC; [|destruct Hi' as [[]|[]]]. unfold connected in EC. apply existsb_exists in EC. destruct EC as (h & Hh & Hb).
      apply andb_prop in Hb. destruct Hb as [Hb1 Hb2]. apply Nat.eqb_eq in Hb2. assert (Hg : hk_sig h = SigDisconnect) by (destruct (hk_sig h); try discriminate; reflexivity).
      pose proof (k_hooks _ HK _ Hh Hg) as HH. rewrite Hb2 in HH. exists c. pose proof (k_try _ HK _ _ c p Hn (or_introl eq_refl) _ HH) as <-. exact HH.
    + exfalso. assert (HX : existsb cf (consume_code body KAsync d x) = true).
      { apply existsb_exists. destruct Hi as [HX|HX]; eexists; (split; [exact HX|]); reflexivity. }
      rewrite cf_consume in HX. discriminate.
  - exact (fe_step _ _ _ _ _ _ _ _ H (k_fe _ HK)).
  - intros p. exact (own_step p _ _ _ _ _ _ _ _ H (k_own _ HK p)).
  - intros p. pose proof (dw_step body HB1 p _ _ _ _ _ _ _ H). pose proof (k_one _ HK p). lia.
  - exact HA'.
  - refine (absent_step upset body HB2 (upset_expand body HB2) _ b pw im t s s' ev H (k_quiet _ HK)). intros. split; reflexivity.
Qed.
(** how often the destructor of producer [p] is called in the programs *)
Definition destructions (p : nat) (programs : list (list (op X))) : nat :=
  length (filter (fun o => match o with ODestroyProducer p' => p' =? p | _ => false end) (concat programs)).
Lemma kept_initial : forall conns q (programs : list (list (op X))), NoDup (map (fun cpm : nat * nat * kind => fst (fst cpm)) conns) ->
  (forall p, destructions p programs <= 1) -> (forall l o, In l programs -> In o l -> steady o = false) -> kept (initial conns q programs).
Proof.
  intros conns q programs HN HD HS.
  assert (HT : forall t k, nth_error (c_threads (initial conns q programs)) t = Some k -> exists l, In l programs /\ k = map ICall l).
  { intros t k Hn. cbn [initial c_threads] in Hn. rewrite nth_error_map in Hn. destruct (nth_error programs t) as [l|] eqn:E; [|discriminate]. injection Hn as <-.
    exists l. split; [eapply nth_error_In; eauto|reflexivity]. }
  constructor; cbn [initial c_hooks c_conns c_alive].
  - intros h Hh _. apply in_flat_map in Hh. destruct Hh as ([[c p] m] & Hc & Hh). apply in_map_iff in Hh. destruct Hh as (g & <- & _). cbn. apply in_map_iff. exists (c, p, m). auto.
  - intros c p p' H1 H2. apply in_map_iff in H1, H2. destruct H1 as ([[c1 p1] m1] & E1 & H1). destruct H2 as ([[c2 p2] m2] & E2 & H2). cbn in E1, E2.
    injection E1 as -> ->. injection E2 as -> ->. clear - HN H1 H2. induction conns as [|a l IH]; [destruct H1|]. cbn [map] in HN. inversion HN as [|? ? HN1 HN2]; subst.
    destruct H1 as [->|H1], H2 as [E|H2].
    + congruence.
    + exfalso. apply HN1. apply in_map_iff. exists (c, p', m2). auto.
    + subst a. exfalso. apply HN1. apply in_map_iff. exists (c, p, m1). auto.
    + auto.
  - intros t k c p Hn Hi. destruct (HT _ _ Hn) as (l & _ & ->). apply in_map_iff in Hi. destruct Hi as (o & Ho & _). discriminate.
  - intros t k p Hn Hi. destruct (HT _ _ Hn) as (l & _ & ->). rewrite !in_map_iff in Hi. destruct Hi as [(o & Ho & _)|(o & Ho & _)]; discriminate.
  - intros t k Hn. destruct (HT _ _ Hn) as (l & _ & ->). apply fe_none. now apply cf_map.
  - intros p t k Hn. destruct (HT _ _ Hn) as (l & _ & ->). rewrite <- (app_nil_r (map _ _)). apply own_none; [|exact I]. now apply df_map.
  - intros p. specialize (HD p). unfold destructions in HD.
    assert (HX : tot (dw p) (c_threads (initial conns q programs)) = Z.of_nat (length (filter (fun o => match o with ODestroyProducer p' => p' =? p | _ => false end) (concat programs)))).
    { cbn [initial c_threads]. clear. induction programs as [|l r IH]; cbn [map tot concat]; [reflexivity|]. rewrite IH, filter_app, app_length, Nat2Z.inj_add. f_equal. clear.
      induction l as [|o l IH]; cbn [map wt filter]; [reflexivity|]. rewrite IH. destruct o; cbn [dw]; try lia. destruct (p0 =? p); cbn [length]; lia. }
    rewrite HX. lia.
  - reflexivity.
  - intros t k i Hn Hi. destruct (HT _ _ Hn) as (l & Hl & ->). apply in_map_iff in Hi. destruct Hi as (o & <- & Ho). exact (HS _ _ Hl Ho).
Qed.
Lemma destroy_producers_safe : forall b pw body conns q programs tr s', exec b pw body (initial conns q programs) tr s' ->
  NoDup (map (fun cpm : nat * nat * kind => fst (fst cpm)) conns) -> no_op connects body programs -> no_op disconnecting body programs ->
  (forall x o, In o (body x) -> destroys o = false) -> (forall p, destructions p programs <= 1) -> none any_crash tr.
Proof.
  intros b pw body conns q programs tr s' HE HN [C1 C2] [D1 D2] HB HD.
  assert (HK : kept (initial conns q programs)).
  { apply kept_initial; auto. intros l o Hl Ho. unfold steady. now rewrite (C2 _ _ Hl Ho), (D2 _ _ Hl Ho). }
  assert (HS : forall x o, In o (body x) -> steady o = false) by (intros x o Ho; unfold steady; now rewrite (C1 _ _ Ho), (D1 _ _ Ho)).
  clear C1 C2 D1 D2 HD HN. induction HE as [s|s im t ev s1 tr s' H HX IH]; intros e He; [destruct He|].
  destruct (kept_moves _ _ _ _ _ _ _ _ H HK) as (HC & _). destruct He as [<-|He]; [exact HC|]. apply IH; auto. eapply kept_step; eauto.
Qed.
End P.
