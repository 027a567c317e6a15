(** Mutual exclusion, and what happens during one call. *)
From Verif Require Import Prelude LockModel LockSpec LockProofs LockTop.
Local Open Scope nat_scope.

Section T.
Context {S L : Type}.
Implicit Types (programs : list (list (method S L * L))) (st : lstate S L) (tr : list (levent L)).

(** ** Mutual exclusion *)
Definition hold (o : option nat) (t : nat) : nat := match o with Some u => if u =? t then 1 else 0 | None => 0 end.
Definition counted tr st : Prop := forall t, length (filter (entered t) tr) = length (filter (left_ t) tr) + hold (l_owner st) t.
Lemma counted_step : forall programs s0 s1 rs t st e st' tr, linv programs s0 st tr s1 rs -> counted tr st -> lstep true t st = Some (e, st') -> counted (tr ++ [e]) st'.
Proof.
  intros programs s0 s1 rs t st e st' tr HV HC H. unfold lstep in H. destruct (nth_error (l_threads st) t) as [th|] eqn:En; [|discriminate].
  assert (HK : forall e0 o, (forall u, entered u e0 = false) -> (forall u, left_ u e0 = false) -> l_owner o = l_owner st -> counted (tr ++ [e0]) o).
  { intros e0 o H1 H2 H3 u. rewrite !filter_app. cbn [filter]. rewrite H1, H2, !app_nil_r, H3. apply HC. }
  destruct (th_code th) as [|i k] eqn:Ek; [discriminate|]. destruct i as [m a|m| | |g|].
  - injection H as <- <-. now apply HK.
  - destruct (m_done m _); injection H as <- <-; now apply HK.
  - destruct (l_owner st) eqn:Eo; [discriminate|]. injection H as <- <-. intros u. rewrite !filter_app, !app_length. specialize (HC u). rewrite Eo in HC. cbn [l_owner hold filter entered left_] in *.
    destruct (t =? u); cbn [length]; lia.
  - injection H as <- <-. pose proof (v_shape _ _ _ _ _ _ HV _ _ En) as HS.
    assert (HO : l_owner st = Some t).
    { destruct HS as [H1 H2|m' H1 H2 H3|m' a' H1 H2 H3 H4 H5|m' a' gs H1 H2 H3 H4 H5 H6|H1 H2 H3 H4]; rewrite Ek in H1; try discriminate; [|exact H4].
      destruct (skipn (th_n th) (prog programs t)); discriminate. }
    intros u. rewrite !filter_app, !app_length. specialize (HC u). rewrite HO in HC. cbn [l_owner hold filter entered left_] in *. destruct (t =? u); cbn [length]; lia.
  - destruct (g (l_obj st) (th_local th)). injection H as <- <-. now apply HK.
  - injection H as <- <-. now apply HK.
Qed.
Lemma counted_run : forall programs s0 l0 sched tr st, look_fixed (methods programs) -> lrun true sched (linit s0 l0 programs) = (tr, st) -> counted tr st.
Proof.
  intros programs s0 l0 sched tr st HF.
  assert (HG : forall sched st0 tr0 tr st s1 rs, linv programs s0 st0 tr0 s1 rs -> counted tr0 st0 -> lrun true sched st0 = (tr, st) -> counted (tr0 ++ tr) st).
  { clear sched tr st. induction sched as [|t r IH]; intros st0 tr0 tr st s1 rs HV HC H; cbn [lrun] in H.
    - injection H as <- <-. now rewrite app_nil_r.
    - destruct (lstep true t st0) as [[e st1]|] eqn:E; [|eauto]. destruct (lrun true r st1) as [tr1 st2] eqn:E2. injection H as <- <-.
      destruct (linv_step _ _ HF _ _ _ _ _ _ _ HV E) as (s2 & rs2 & HV2). replace (tr0 ++ e :: tr1) with ((tr0 ++ [e]) ++ tr1) by (rewrite <- app_assoc; reflexivity).
      eapply IH; eauto. eapply counted_step; eauto. }
  intros H. apply (HG sched (linit s0 l0 programs) [] tr st s0 []); [apply linv_init|intros t; reflexivity|exact H].
Qed.
Theorem mutual_exclusion : forall programs s0 l0 sched tr st t u, look_fixed (methods programs) -> lrun true sched (linit s0 l0 programs) = (tr, st) ->
  inside tr t -> inside tr u -> t = u.
Proof.
  intros programs s0 l0 sched tr st t u HF H Ht Hu. pose proof (counted_run _ _ _ _ _ _ HF H) as HC. pose proof (HC t) as H1. pose proof (HC u) as H2. unfold inside in *.
  unfold hold in *. destruct (l_owner st) as [v|]; [|lia]. destruct (Nat.eqb_spec v t), (Nat.eqb_spec v u); try lia; congruence.
Qed.
(** Members are only accessed from inside. *)
Theorem accesses_inside : forall programs s0 l0 sched t1 t n t2 st, look_fixed (methods programs) -> lrun true sched (linit s0 l0 programs) = (t1 ++ VAccess t n :: t2, st) -> inside t1 t.
Proof.
  intros programs s0 l0 sched t1 t n t2 st HF H. destruct (lrun_split _ _ _ _ _ _ _ H) as (sc1 & v & sc2 & sm & sm' & G1 & G2 & _).
  pose proof (counted_run _ _ _ _ _ _ HF G1) as HC. destruct (all_valid _ _ _ _ _ _ HF G1) as (s1 & rs & HV).
  unfold lstep in G2. destruct (nth_error (l_threads sm) v) as [th|] eqn:En; [|discriminate]. pose proof (v_shape _ _ _ _ _ _ HV _ _ En) as HS.
  destruct (th_code th) as [|i k] eqn:Ek; [discriminate|]. destruct i as [m0 a|m0| | |g|]; try discriminate.
  - destruct (m_done m0 _); discriminate.
  - destruct (l_owner sm); discriminate.
  - assert (HO : l_owner sm = Some v).
    { destruct HS as [H1 H2|m' H1 H2 H3|m' a' H1 H2 H3 H4 H5|m' a' gs H1 H2 H3 H4 H5 H6|H1 H2 H3 H4]; rewrite Ek in H1; try discriminate; [|exact H4].
      destruct (skipn (th_n th) (prog programs v)); discriminate. }
    destruct (g (l_obj sm) (th_local th)). injection G2 as <- <- _. specialize (HC v). rewrite HO in HC. cbn [hold] in HC. rewrite Nat.eqb_refl in HC. unfold inside. lia.
Qed.

(** ** One call: its events, in this order, whoever else is running; with or without lock *)
Variable programs : list (list (method S L * L)).
Hypothesis simple : forall m a, In (m, a) (concat programs) -> locks_first m.
Definition done_events (t n : nat) (m : method S L) (a : L) (es : list (levent L)) : Prop :=
  exists r, es = VBegin t n :: VEnter t n a :: repeat (VAccess t n) (length (m_crit m)) ++ [VLeave t n; VReturn t n r].
Inductive phase tr (t : nat) (th : lthread S L) : Prop :=
| PhIdle : th_code th = begins (skipn (th_n th) (prog programs t)) -> filter (about t (th_n th)) tr = [] -> phase tr t th
| PhLook : forall m, th_code th = LLook m :: begins (skipn (1 + th_n th) (prog programs t)) -> nth_error (prog programs t) (th_n th) = Some (m, th_local th) ->
    filter (about t (th_n th)) tr = [VBegin t (th_n th)] -> phase tr t th
| PhWait : forall m, th_code th = body_code m ++ LReturn :: begins (skipn (1 + th_n th) (prog programs t)) -> nth_error (prog programs t) (th_n th) = Some (m, th_local th) ->
    filter (about t (th_n th)) tr = [VBegin t (th_n th)] -> phase tr t th
| PhIn : forall m a gs, th_code th = map LAccess gs ++ LUnlock :: LReturn :: begins (skipn (1 + th_n th) (prog programs t)) -> nth_error (prog programs t) (th_n th) = Some (m, a) ->
    (exists k, k + length gs = length (m_crit m) /\ filter (about t (th_n th)) tr = VBegin t (th_n th) :: VEnter t (th_n th) a :: repeat (VAccess t (th_n th)) k) -> phase tr t th
| PhOut : forall m a, th_code th = LReturn :: begins (skipn (1 + th_n th) (prog programs t)) -> nth_error (prog programs t) (th_n th) = Some (m, a) ->
    filter (about t (th_n th)) tr = VBegin t (th_n th) :: VEnter t (th_n th) a :: repeat (VAccess t (th_n th)) (length (m_crit m)) ++ [VLeave t (th_n th)] -> phase tr t th.
Record oinv tr st : Prop := {
  o_phase : forall t th, nth_error (l_threads st) t = Some th -> phase tr t th;
  o_past : forall t th n m a, nth_error (l_threads st) t = Some th -> n < th_n th -> nth_error (prog programs t) n = Some (m, a) -> done_events t n m a (filter (about t n) tr);
  o_future : forall t th n, nth_error (l_threads st) t = Some th -> th_n th < n -> filter (about t n) tr = [] }.
Lemma about_other : forall tr e t u n, (forall k, about u k e = false) -> u <> t -> filter (about u n) (tr ++ [e]) = filter (about u n) tr.
Proof. intros tr e t u n H _. rewrite filter_app. cbn [filter]. rewrite H. apply app_nil_r. Qed.
Lemma oinv_step : forall b t st e st' tr, oinv tr st -> lstep b t st = Some (e, st') -> oinv (tr ++ [e]) st'.
Proof.
  intros b t st e st' tr [HP HD HF] H. unfold lstep in H. destruct (nth_error (l_threads st) t) as [th|] eqn:En; [|discriminate].
  pose proof (HP _ _ En) as HT.
  (* a step within call number th_n, or no event at all *)
  assert (HK : forall e0 o own l' k', (forall u n, (u, n) <> (t, th_n th) -> about u n e0 = false) ->
    phase (tr ++ [e0]) t {| th_local := l'; th_code := k'; th_n := th_n th |} ->
    oinv (tr ++ [e0]) {| l_obj := o; l_owner := own; l_threads := lupd (l_threads st) t {| th_local := l'; th_code := k'; th_n := th_n th |} |}).
  { intros e0 o own l' k' He Hph. assert (HE : forall u n, (u, n) <> (t, th_n th) -> filter (about u n) (tr ++ [e0]) = filter (about u n) tr).
    { intros u n Hn. rewrite filter_app. cbn [filter]. rewrite (He u n Hn). apply app_nil_r. }
    constructor; cbn [l_threads]; intros u th'.
    - intros Hu. apply lupd_nth in Hu. destruct Hu as [[-> ->]|[N Hu]]; [exact Hph|]. destruct (HP _ _ Hu) as [A1 A2|m A1 A2 A3|m A1 A2 A3|m a gs A1 A2 A3|m a A1 A2 A3].
      + apply PhIdle; auto. rewrite HE; auto. congruence.
      + eapply PhLook; eauto. rewrite HE; auto. congruence.
      + eapply PhWait; eauto. rewrite HE; auto. congruence.
      + eapply PhIn; eauto. rewrite HE; auto. congruence.
      + eapply PhOut; eauto. rewrite HE; auto. congruence.
    - intros n m a Hu Hn Hm. apply lupd_nth in Hu. destruct Hu as [[-> ->]|[N Hu]]; cbn [th_n] in *.
      + rewrite HE; [eapply HD; eauto|]. intros E. injection E as E. lia.
      + rewrite HE; [eapply HD; eauto|]. congruence.
    - intros n Hu Hn. apply lupd_nth in Hu. destruct Hu as [[-> ->]|[N Hu]]; cbn [th_n] in *.
      + rewrite HE; [eapply HF; eauto|]. intros E. injection E as E. lia.
      + rewrite HE; [eapply HF; eauto|]. congruence. }
  assert (Hsnoc : forall e0, about t (th_n th) e0 = true -> filter (about t (th_n th)) (tr ++ [e0]) = filter (about t (th_n th)) tr ++ [e0]).
  { intros e0 He. rewrite filter_app. cbn [filter]. now rewrite He. }
  assert (Hab : forall u n, (u, n) <> (t, th_n th) -> (t =? u) && (th_n th =? n) = false).
  { intros u n Hn. destruct (Nat.eqb_spec t u), (Nat.eqb_spec (th_n th) n); subst; auto. congruence. }
  assert (Hme : (t =? t) && (th_n th =? th_n th) = true) by now rewrite !Nat.eqb_refl.
  destruct (th_code th) as [|i k] eqn:Ek; [discriminate|]. destruct i as [m a|m| | |g|].
  - injection H as <- <-. apply HK; [exact Hab|]. destruct HT as [A1 A2|m' A1 A2 A3|m' A1 A2 A3|m' a' gs A1 A2 A3|m' a' A1 A2 A3]; rewrite Ek in A1; try discriminate; [|destruct gs; discriminate].
    assert (HM : nth_error (prog programs t) (th_n th) = Some (m, a)).
    { destruct (nth_error (prog programs t) (th_n th)) as [[m' a']|] eqn:E.
      - rewrite (begins_skip _ _ _ _ E) in A1. injection A1 as <- <- _. reflexivity.
      - apply nth_error_None in E. rewrite skipn_all2 in A1 by exact E. discriminate. }
    rewrite (begins_skip _ _ _ _ HM) in A1. injection A1 as ->. apply (PhLook _ _ _ m); cbn [th_code th_n th_local]; auto. rewrite Hsnoc, A2 by exact Hme. reflexivity.
  - destruct HT as [A1 A2|m' A1 A2 A3|m' A1 A2 A3|m' a' gs A1 A2 A3|m' a' A1 A2 A3]; rewrite Ek in A1; try discriminate.
    1:{ destruct (skipn (th_n th) (prog programs t)); discriminate. }
    2:{ destruct gs; discriminate. }
    injection A1 as <- ->.
    assert (HI : In (m, th_local th) (concat programs)).
    { apply in_concat. exists (prog programs t). split; [|eapply nth_error_In; eauto]. unfold prog in *. destruct (nth_in_or_default t programs []) as [HI|HX]; [exact HI|]. rewrite HX in A2. destruct (th_n th); discriminate. }
    destruct (simple _ _ HI) as [HL1 HL2]. rewrite HL1, HL2 in H. injection H as <- <-. apply HK; [reflexivity|].
    apply (PhWait _ _ _ m); cbn [th_code th_n th_local]; auto. rewrite filter_app. cbn [filter about]. rewrite app_nil_r. exact A3.
  - destruct HT as [A1 A2|m' A1 A2 A3|m A1 A2 A3|m' a' gs A1 A2 A3|m' a' A1 A2 A3]; rewrite Ek in A1; try discriminate.
    1:{ destruct (skipn (th_n th) (prog programs t)); discriminate. }
    2:{ destruct gs; discriminate. }
    assert (HX : exists own, e = VEnter t (th_n th) (th_local th) /\ st' = {| l_obj := l_obj st; l_owner := own; l_threads := lupd (l_threads st) t {| th_local := th_local th; th_code := k; th_n := th_n th |} |}).
    { destruct b; [destruct (l_owner st); [discriminate|]|]; injection H as <- <-; eauto. }
    destruct HX as (own & -> & ->). apply HK; [exact Hab|]. cbn [body_code app] in A1. injection A1 as ->. rewrite <- app_assoc. cbn [app].
    apply (PhIn _ _ _ m (th_local th) (m_crit m)); cbn [th_code th_n th_local]; auto. exists 0. split; [reflexivity|]. rewrite Hsnoc, A3 by exact Hme. reflexivity.
  - injection H as <- <-. destruct HT as [A1 A2|m' A1 A2 A3|m A1 A2 A3|m a gs A1 A2 A3|m' a' A1 A2 A3]; rewrite Ek in A1; try discriminate.
    1:{ destruct (skipn (th_n th) (prog programs t)); discriminate. }
    symmetry in A1. apply code_head in A1. destruct A1 as [(-> & _ & ->)|(g & gs' & _ & HX & _)]; [|discriminate]. apply HK; [exact Hab|].
    destruct A3 as (k & Ek' & A3). cbn [length] in Ek'. rewrite Nat.add_0_r in Ek'. subst k. apply (PhOut _ _ _ m a); cbn [th_code th_n th_local]; auto. rewrite Hsnoc, A3 by exact Hme. reflexivity.
  - destruct HT as [A1 A2|m' A1 A2 A3|m A1 A2 A3|m a gs A1 A2 A3|m' a' A1 A2 A3]; rewrite Ek in A1; try discriminate.
    1:{ destruct (skipn (th_n th) (prog programs t)); discriminate. }
    symmetry in A1. apply code_head in A1. destruct A1 as [(_ & HX & _)|(g' & gs' & -> & HX & ->)]; [discriminate|]. injection HX as <-.
    destruct (g (l_obj st) (th_local th)) as [obj' l'] eqn:Eg. injection H as <- <-. apply HK; [exact Hab|]. apply (PhIn _ _ _ m a gs'); cbn [th_code th_n th_local]; auto.
    destruct A3 as (k & Ek' & A3). exists (1 + k). cbn [length] in Ek'. split; [lia|]. rewrite Hsnoc, A3 by exact Hme. cbn [app]. do 2 f_equal. symmetry. rewrite Nat.add_comm. apply repeat_app.
  - injection H as <- <-. destruct HT as [A1 A2|m' A1 A2 A3|m A1 A2 A3|m a gs A1 A2 A3|m a A1 A2 A3]; rewrite Ek in A1; try discriminate.
    1:{ destruct (skipn (th_n th) (prog programs t)); discriminate. }
    1:{ destruct gs; discriminate. }
    injection A1 as ->.
    assert (HE : forall u n, (u, n) <> (t, th_n th) -> filter (about u n) (tr ++ [VReturn t (th_n th) (th_local th)]) = filter (about u n) tr).
    { intros u n Hn. rewrite filter_app. cbn [filter about]. rewrite (Hab u n Hn). apply app_nil_r. }
    constructor; cbn [l_threads]; intros u th'.
    + intros Hu. apply lupd_nth in Hu. destruct Hu as [[-> ->]|[N Hu]].
      * apply PhIdle; cbn [th_code th_n]; [reflexivity|]. rewrite HE; [eapply HF; eauto|]. intros E. injection E as E. lia.
      * destruct (HP _ _ Hu) as [B1 B2|m2 B1 B2 B3|m2 B1 B2 B3|m2 a2 gs B1 B2 B3|m2 a2 B1 B2 B3].
        -- apply PhIdle; auto. rewrite HE; auto. congruence.
        -- eapply PhLook; eauto. rewrite HE; auto. congruence.
        -- eapply PhWait; eauto. rewrite HE; auto. congruence.
        -- eapply PhIn; eauto. rewrite HE; auto. congruence.
        -- eapply PhOut; eauto. rewrite HE; auto. congruence.
    + intros n m2 a2 Hu Hn Hm. apply lupd_nth in Hu. destruct Hu as [[-> ->]|[N Hu]]; cbn [th_n] in *.
      * destruct (Nat.eq_dec n (th_n th)) as [->|Nn].
        -- rewrite A2 in Hm. injection Hm as <- <-. exists (th_local th). rewrite Hsnoc, A3 by exact Hme. cbn [app]. rewrite <- app_assoc. reflexivity.
        -- rewrite HE; [eapply HD; eauto; lia|]. intros E. injection E as E. lia.
      * rewrite HE; [eapply HD; eauto|]. congruence.
    + intros n Hu Hn. apply lupd_nth in Hu. destruct Hu as [[-> ->]|[N Hu]]; cbn [th_n] in *.
      * rewrite HE; [eapply HF; eauto; lia|]. intros E. injection E as E. lia.
      * rewrite HE; [eapply HF; eauto|]. congruence.
Qed.
Lemma oinv_run : forall b sched st tr0 tr st', oinv tr0 st -> lrun b sched st = (tr, st') -> oinv (tr0 ++ tr) st'.
Proof.
  intros b. induction sched as [|t r IH]; intros st tr0 tr st' HI H; cbn [lrun] in H.
  - injection H as <- <-. now rewrite app_nil_r.
  - destruct (lstep b t st) as [[e st1]|] eqn:E; [|eauto]. destruct (lrun b r st1) as [tr1 st2] eqn:E2. injection H as <- <-.
    replace (tr0 ++ e :: tr1) with ((tr0 ++ [e]) ++ tr1) by (rewrite <- app_assoc; reflexivity). eapply IH; eauto. eapply oinv_step; eauto.
Qed.
Lemma oinv_init : forall s0 l0, oinv [] (linit s0 l0 programs).
Proof.
  intros. constructor; cbn; intros t th.
  - intros Hn. rewrite nth_error_map in Hn. destruct (nth_error programs t) as [p|] eqn:E; [|discriminate]. injection Hn as <-.
    apply PhIdle; cbn; [|reflexivity]. unfold begins, prog. rewrite (nth_error_nth _ _ _ E). reflexivity.
  - intros n m a Hn Hl. rewrite nth_error_map in Hn. destruct (nth_error programs t) as [p|] eqn:E; [|discriminate]. injection Hn as <-. cbn in Hl. lia.
  - reflexivity.
Qed.
Theorem each_call_once : forall b s0 l0 sched tr st, lrun b sched (linit s0 l0 programs) = (tr, st) -> all_done st ->
  forall t n m a, nth_error (nth t programs []) n = Some (m, a) ->
  exists r, filter (about t n) tr = VBegin t n :: VEnter t n a :: repeat (VAccess t n) (length (m_crit m)) ++ [VLeave t n; VReturn t n r].
Proof.
  intros b s0 l0 sched tr st H HA t n m a Hm. pose proof (oinv_run _ _ _ [] _ _ (oinv_init s0 l0) H) as [HP HD _]. cbn [app] in *.
  assert (Hlen : forall sched st0 tr st, lrun b sched st0 = (tr, st) -> length (l_threads st) = length (l_threads st0)).
  { clear. induction sched as [|t r IH]; intros st0 tr st H; cbn [lrun] in H; [injection H as _ <-; reflexivity|].
    destruct (lstep b t st0) as [[e st1]|] eqn:E; [|eauto]. destruct (lrun b r st1) as [tr1 st2] eqn:E2. injection H as _ <-. rewrite (IH _ _ _ E2).
    unfold lstep in E. destruct (nth_error (l_threads st0) t); [|discriminate]. destruct (th_code l) as [|[| | | | |] k]; try discriminate.
    - injection E as _ <-. apply lupd_length.
    - destruct (m_done m _); injection E as _ <-; apply lupd_length.
    - destruct b; [destruct (l_owner st0); [discriminate|]|]; injection E as _ <-; apply lupd_length.
    - injection E as _ <-. apply lupd_length.
    - destruct (g (l_obj st0) (th_local l)). injection E as _ <-. apply lupd_length.
    - injection E as _ <-. apply lupd_length. }
  pose proof (Hlen _ _ _ _ H) as HL. cbn [linit l_threads] in HL. rewrite map_length in HL.
  destruct (nth_error (l_threads st) t) as [th|] eqn:En.
  - eapply HD; eauto. destruct (HP _ _ En) as [A1 A2|m' A1 A2 A3|m' A1 A2 A3|m' a' gs A1 A2 A3|m' a' A1 A2 A3]; rewrite (HA _ _ En) in A1; try discriminate; [|destruct gs; discriminate].
    destruct (Nat.le_gt_cases (th_n th) n) as [Hle|Hgt]; [|exact Hgt]. exfalso.
    unfold begins, prog in A1. symmetry in A1. apply map_eq_nil in A1. apply (f_equal (@length _)) in A1. rewrite skipn_length in A1. cbn in A1.
    assert (n < length (nth t programs [])) by (apply nth_error_Some; congruence). lia.
  - apply nth_error_None in En. rewrite nth_overflow in Hm by lia. destruct n; discriminate.
Qed.
End T.
