(** What a call of issue_sample() or flush_consumers() does: every connection made before it is served, exactly once. *)
From Verif Require Import Prelude ConcModel ConcSpec ConcInv ConcLocks ConcDeliv ConcInvs ConcSilent ConcMode ConcFlush.
Local Open Scope nat_scope.

Section P.
Context {X : Type}.
Implicit Types (s : state X) (k : list (instr X)) (i : instr X) (tr : list (event X)).

Ltac unst := cbn [go spawn set_threads set_conns set_hooks set_alock set_xlock set_shared set_queue set_stat new_delivery new_conn set_dead set_crash unhook
       c_threads c_queue c_stat c_next c_conns c_hooks c_alock c_xlock c_shared c_alive c_crash c_nextc] in *.

(** ** One step in detail *)
Definition hooks_after i s s' : Prop :=
  match i with
  | IDiscs _ | IDestroySignals _ | IFindErase _ => True
  | IHook h => c_hooks s' = c_hooks s ++ [h]
  | _ => c_hooks s' = c_hooks s
  end.
Definition exactly i s t ev (e : list (instr X)) : Prop :=
  match i with
  | ICall o => ev = ECall t o
  | IReturn o => ev = EReturn t o
  | IEmitSample p x => e = map (fun h => ITrySample (hk_conn h) (hk_kind h) x) (hooks_of s SigSample p)
  | IEmitFlush p => e = map (fun h => ITryFlush (hk_conn h)) (hooks_of s SigFlush p)
  | ITrySample c m x => connected s SigSample c = true -> e = slot_code m (c_next s) x /\ ev = EDeliver t (c_next s) m x
  | ITryFlush c => connected s SigFlush c = true -> e = flush_code
  | IConnect p m => exists c, e = [IHook {| hk_sig := SigSample; hk_conn := c; hk_prod := p; hk_kind := m |};
      IHook {| hk_sig := SigFlush; hk_conn := c; hk_prod := p; hk_kind := m |};
      IHook {| hk_sig := SigDisconnect; hk_conn := c; hk_prod := p; hk_kind := m |}; IInsert c p]
  | IFlush => e = [IWaits (c_queue s)]
  | IWaits (d :: l) => (e = [IWaits l] /\ c_stat s d = SDone) \/ In (IWaits (d :: l)) e
  | _ => True
  end.
Definition by_thread t (ev : event X) : Prop :=
  match ev with
  | ECall u _ | EReturn u _ | EDeliver u _ _ _ | EAccept u _ | EDrop u _ | EStart u _ _ | EEnd u _ | EInsert u _ _ | EErase u _ | EFlushLocked u | ETau u | ECrash u _ => u = t
  end.
Definition matching i (ev : event X) : Prop :=
  match ev with
  | ECall _ o => i = ICall o
  | EReturn _ o => i = IReturn o
  | EDeliver _ _ m x => exists c, i = ITrySample c m x
  | _ => True
  end.
Lemma step_shape : forall b pw body im t s s' ev, step b pw body im t s = Some (ev, s') ->
  by_thread t ev /\ exists i k0, nth_error (c_threads s) t = Some (i :: k0) /\
   ((exists w, ev = ECrash t w /\ s' = set_crash s w) \/
    matching i ev /\ hooks_after i s s' /\
    exists e, expand body i e /\ exactly i s t ev e /\
      (c_threads s' = upd (c_threads s) t (e ++ k0) \/ exists d x, c_threads s' = upd (c_threads s) t (e ++ k0) ++ [consume_code body KAsync d x])).
Proof.
  intros b pw body im t s s' ev H.
  step_cases H; injection H as <- <-; try subst; unst; (split; [reflexivity|]); eexists; eexists; (split; [reflexivity|]);
  try (left; eexists; split; reflexivity); right;
  (split; [cbn [matching]; first [exact I|reflexivity|eexists; reflexivity]|]);
  (split; [cbn [hooks_after]; unst; first [exact I|reflexivity]|]); unst.
  all: first [ eexists []; split; [reflexivity|split; [first [exact I|reflexivity|cbn; congruence]|left; reflexivity]]
             | eexists []; split; [left; reflexivity|split; [first [exact I|reflexivity|cbn; congruence]|left; reflexivity]]
             | eexists [_]; split; [reflexivity|split; [exact I|left; reflexivity]]
             | eexists [_]; split; [left; reflexivity|split; [first [exact I|left; split; [reflexivity|assumption]]|left; reflexivity]]
             | eexists [_]; split; [right; reflexivity|split; [exact I|left; reflexivity]]
             | eexists [_]; split; [right; reflexivity|split; [exact I|right; do 2 eexists; reflexivity]]
             | eexists [_]; split; [eexists; reflexivity|split; [first [exact I|reflexivity]|left; reflexivity]]
             | eexists [_; _]; split; [reflexivity|split; [exact I|left; reflexivity]]
             | eexists [_; _; _]; split; [reflexivity|split; [exact I|left; reflexivity]]
             | eexists (map _ _); split; [eexists; reflexivity|split; [first [exact I|reflexivity]|left; reflexivity]]
             | eexists (slot_code _ _ _); split; [right; eexists; reflexivity|split; [cbn; auto|left; reflexivity]]
             | eexists flush_code; split; [right; reflexivity|split; [cbn; auto|left; reflexivity]]
             | eexists (disconnect_slot_code _); split; [right; reflexivity|split; [exact I|left; reflexivity]]
             | eexists (consume_code _ _ _ _); split; [right; reflexivity|split; [exact I|left; reflexivity]]
             | eexists (code _ ++ [IReturn _]); split; [reflexivity|split; [reflexivity|left; rewrite <- app_assoc; reflexivity]]
             | eexists [_; _; _; _]; split; [do 4 eexists; reflexivity|split; [eexists; reflexivity|left; reflexivity]]
             | idtac ].
  exists (consume_code body KAsync n x ++ [IWaits (n :: l2)]). split; [right; eexists; reflexivity|split; [right; apply in_or_app; right; now left|left]]. unfold consume_code. cbn [app]. rewrite <- !app_assoc. reflexivity.
Qed.

(** ** As long as nothing is disconnected or destroyed, connections are only added *)
Definition rem i : bool :=
  match i with IDisconnect | IDiscs _ | IDestroySignals _ | IFindErase _ | ITryDisconnect _ _ | IEmitDisconnect _ | IContains _ | IDestroy => true | _ => false end.
Definition keeps (ev : event X) : Prop := match ev with ECall _ o => removes o = false | _ => True end.
Lemma rem_map : forall A (g : A -> instr X) l, (forall a, rem (g a) = false) -> existsb rem (map g l) = false.
Proof. intros A g l H. induction l as [|a l IH]; cbn; [reflexivity|]. now rewrite H, IH. Qed.
Lemma rem_consume : forall body m d (x : X), existsb rem (consume_code body m d x) = false.
Proof. intros. unfold consume_code. cbn [existsb rem orb]. rewrite existsb_app, rem_map by reflexivity. reflexivity. Qed.
Lemma expand_rem : forall body i e, expand body i e -> rem i = false -> (forall o, i = ICall o -> removes o = false) -> existsb rem e = false.
Proof.
  intros body i e H Hi HC.
  destruct i; try discriminate Hi; cbn [expand] in H; try (subst e; reflexivity).
  - subst e. specialize (HC o eq_refl). destruct o; try discriminate HC; reflexivity.
  - destruct H as [l ->]. now apply rem_map.
  - destruct H as [l ->]. now apply rem_map.
  - destruct H as [->|[d ->]]; [reflexivity|]. destruct m; reflexivity.
  - destruct H as [->| ->]; reflexivity.
  - destruct H as (h1 & h2 & h3 & c & ->). reflexivity.
  - destruct H as [->| ->]; [reflexivity|]. apply rem_consume.
  - destruct H as [->| ->]; reflexivity.
  - destruct H as [->| ->]; reflexivity.
  - subst e. destruct sy; reflexivity.
  - destruct H as [l ->]. reflexivity.
  - destruct l as [|d l]; [subst; reflexivity|]. destruct H as [->|[x ->]]; [reflexivity|]. rewrite existsb_app, rem_consume. reflexivity.
Qed.
Definition stays s : Prop := forall u k, nth_error (c_threads s) u = Some k -> existsb rem k = false.
Lemma stays_step : forall b pw body im t s s' ev, stays s -> keeps ev -> step b pw body im t s = Some (ev, s') -> stays s'.
Proof.
  intros b pw body im t s s' ev HS HK H u k Hu. destruct (step_shape _ _ _ _ _ _ _ _ H) as (_ & i & k0 & Hn & [(w & _ & ->)|(HM & _ & e & He & HX & HT)]).
  - eapply HS. exact Hu.
  - pose proof (HS _ _ Hn) as H0. cbn [existsb] in H0. apply orb_false_elim in H0. destruct H0 as [Hi Hk0].
    assert (HE : existsb rem e = false). { eapply expand_rem; eauto. intros o ->. cbn in HX. subst ev. exact HK. }
    destruct HT as [HT|(d & x & HT)]; rewrite HT in Hu; [|apply nth_snoc in Hu; destruct Hu as [Hu|[_ ->]]; [|apply rem_consume]];
    (apply nth_upd in Hu; destruct Hu as [[-> ->]|[_ Hu]]; [|eauto]); rewrite existsb_app, HE; exact Hk0.
Qed.
Lemma stays_initial : forall conns q (programs : list (list (op X))), stays (initial conns q programs).
Proof.
  intros conns q programs t k Hn. cbn [initial c_threads] in Hn. rewrite nth_error_map in Hn. destruct (nth_error programs t); [|discriminate]. injection Hn as <-.
  now apply rem_map.
Qed.
Lemma hooks_grow : forall b pw body im t s s' ev, stays s -> step b pw body im t s = Some (ev, s') -> incl (c_hooks s) (c_hooks s').
Proof.
  intros b pw body im t s s' ev HS H. destruct (step_shape _ _ _ _ _ _ _ _ H) as (_ & i & k0 & Hn & [(w & _ & ->)|(HM & HH & _)]); [intros h Hh; exact Hh|].
  pose proof (HS _ _ Hn) as H0. cbn [existsb] in H0. apply orb_false_elim in H0. destruct H0 as [Hi _].
  destruct i; try discriminate Hi; cbn [hooks_after] in HH; rewrite HH; intros x0 Hx; try exact Hx. apply in_or_app. now left.
Qed.

(** ** Counting connections: [P] selects producers and modes, [g] the signal *)
Section Count.
Variables (g : signal) (P : nat -> kind -> bool).
Definition cnt (h : hook) : bool := sig_eqb (hk_sig h) g && P (hk_prod h) (hk_kind h).
Definition zb (b : bool) : Z := if b then 1%Z else 0%Z.
Definition isP_op (o : op X) : bool := match o with OConnect p m => P p m | _ => false end.
Definition pend i : Z := match i with IConnect p m => zb (P p m) | IHook h => zb (cnt h) | _ => 0%Z end.
Definition retn i : Z := match i with IReturn o => zb (isP_op o) | _ => 0%Z end.
Definition bal i : Z := (retn i - pend i)%Z.
Definition conn_called (ev : event X) : bool := match ev with ECall _ o => isP_op o | _ => false end.
Definition conn_returned (ev : event X) : bool := match ev with EReturn _ o => isP_op o | _ => false end.
Definition nh s : Z := Z.of_nat (length (filter cnt (c_hooks s))).
Lemma pend_consume : forall body m d (x : X), wt pend (consume_code body m d x) = 0%Z.
Proof. intros. unfold consume_code. cbn [wt pend]. rewrite wt_app, wt_map0 by reflexivity. reflexivity. Qed.
Lemma retn_consume : forall body m d (x : X), wt retn (consume_code body m d x) = 0%Z.
Proof. intros. unfold consume_code. cbn [wt retn]. rewrite wt_app, wt_map0 by reflexivity. reflexivity. Qed.
Lemma bal_consume : forall body m d (x : X), suf bal (consume_code body m d x).
Proof. intros. unfold consume_code. cbn [suf]. assert (HS : suf bal (map ICall (body x) ++ [IEnd m d])) by (apply suf_app; [now apply suf_map0|cbn; lia]).
  split; [|exact HS]. pose proof (suf_nonneg _ _ HS). cbn [wt]. change (bal (IStart m d x)) with 0%Z. lia. Qed.
Lemma cnt_three : forall c p m, (zb (cnt {| hk_sig := SigSample; hk_conn := c; hk_prod := p; hk_kind := m |}) +
  zb (cnt {| hk_sig := SigFlush; hk_conn := c; hk_prod := p; hk_kind := m |}) + zb (cnt {| hk_sig := SigDisconnect; hk_conn := c; hk_prod := p; hk_kind := m |}) = zb (P p m))%Z.
Proof. intros c p m. unfold cnt. cbn [hk_sig hk_prod hk_kind]. destruct g; cbn [sig_eqb andb zb]; lia. Qed.
Lemma zb_nn : forall c, (0 <= zb c <= 1)%Z. Proof. intros []; cbn; lia. Qed.
(** what a step of the head instruction does to the weights *)
Lemma expand_pend : forall body i e s t ev, expand body i e -> exactly i s t ev e ->
  wt pend e = match i with ICall o => zb (isP_op o) | IHook _ => 0%Z | _ => pend i end.
Proof.
  intros body i e s t ev H HX.
  destruct i; cbn [expand] in H; try (subst e; reflexivity).
  - subst e. rewrite wt_app. destruct o; cbn; lia.
  - destruct H as [l ->]. now apply wt_map0.
  - destruct H as [l ->]. now apply wt_map0.
  - destruct H as [l ->]. now apply wt_map0.
  - destruct H as [->|[d ->]]; [reflexivity|]. destruct m; reflexivity.
  - destruct H as [->| ->]; reflexivity.
  - destruct H as [->| ->]; reflexivity.
  - cbn [exactly] in HX. destruct HX as [c ->]. cbn [wt pend]. pose proof (cnt_three c p m). lia.
  - destruct H as [->| ->]; [reflexivity|]. apply pend_consume.
  - destruct H as [->| ->]; reflexivity.
  - destruct H as [->| ->]; reflexivity.
  - subst e. destruct sy; reflexivity.
  - destruct H as [l ->]. reflexivity.
  - destruct l as [|d l]; [subst; reflexivity|]. destruct H as [->|[x ->]]; [reflexivity|]. rewrite wt_app, pend_consume. reflexivity.
  - destruct H as [l ->]. reflexivity.
  - destruct l; subst; reflexivity.
Qed.
Lemma expand_retn : forall body i e, expand body i e -> wt retn e = match i with ICall o => zb (isP_op o) | _ => 0%Z end.
Proof.
  intros body i e H.
  destruct i; cbn [expand] in H; try (subst e; reflexivity).
  - subst e. rewrite wt_app. destruct o; cbn; lia.
  - destruct H as [l ->]. now apply wt_map0.
  - destruct H as [l ->]. now apply wt_map0.
  - destruct H as [l ->]. now apply wt_map0.
  - destruct H as [->|[d ->]]; [reflexivity|]. destruct m; reflexivity.
  - destruct H as [->| ->]; reflexivity.
  - destruct H as [->| ->]; reflexivity.
  - destruct H as (h1 & h2 & h3 & c & ->). reflexivity.
  - destruct H as [->| ->]; [reflexivity|]. apply retn_consume.
  - destruct H as [->| ->]; reflexivity.
  - destruct H as [->| ->]; reflexivity.
  - subst e. destruct sy; reflexivity.
  - destruct H as [l ->]. reflexivity.
  - destruct l as [|d l]; [subst; reflexivity|]. destruct H as [->|[x ->]]; [reflexivity|]. rewrite wt_app, retn_consume. reflexivity.
  - destruct H as [l ->]. reflexivity.
  - destruct l; subst; reflexivity.
Qed.
Lemma suf0 : forall e, (forall i, In i e -> bal i = 0%Z) -> wt bal e = 0%Z /\ suf bal e.
Proof.
  induction e as [|i e IH]; intros H; cbn [wt suf]; [split; [reflexivity|exact I]|]. destruct IH as [H1 H2]; [intros; apply H; now right|].
  rewrite (H i (or_introl eq_refl)), H1. split; [reflexivity|split; [cbn; lia|exact H2]].
Qed.
Ltac easy0 := let j := fresh in let Hj := fresh in apply suf0; intros j Hj; cbn in Hj; repeat (destruct Hj as [<-|Hj]; [reflexivity|]); destruct Hj.
Lemma expand_bal : forall body i k0 e s t ev, expand body i e -> exactly i s t ev e -> suf bal (i :: k0) -> suf bal (e ++ k0).
Proof.
  intros body i k0 e s t ev H HX [HB HK]. pose proof (suf_nonneg _ _ HK) as HN.
  assert (HG : suf bal e -> suf bal (e ++ k0)) by (intros; now apply suf_app).
  destruct i; cbn [expand] in H; try (subst e; exact HK).
  - apply HG. subst e. destruct o; try (apply suf_app; [easy0|cbn; lia]).
    cbn [code app suf wt]. unfold bal. cbn [retn pend isP_op]. pose proof (zb_nn (P p m)). repeat split; lia.
  - destruct H as [l ->]. apply HG. now apply suf_map0.
  - destruct H as [l ->]. apply HG. now apply suf_map0.
  - destruct H as [l ->]. apply HG. now apply suf_map0.
  - destruct H as [->|[d ->]]; [exact HK|]. apply HG. destruct m; easy0.
  - destruct H as [->| ->]; [exact HK|]. apply HG. easy0.
  - destruct H as [->| ->]; [exact HK|]. apply HG. easy0.
  - cbn [exactly] in HX. destruct HX as [c ->]. cbn [app suf wt] in *. unfold bal at 1 in HB. cbn [retn pend] in HB.
    repeat (match goal with |- context [bal (IHook ?h)] => change (bal (IHook h)) with (0 - zb (cnt h))%Z | |- context [bal (IInsert ?a ?b)] => change (bal (IInsert a b)) with 0%Z end). pose proof (cnt_three c p m).
    pose proof (zb_nn (cnt {| hk_sig := SigSample; hk_conn := c; hk_prod := p; hk_kind := m |})).
    pose proof (zb_nn (cnt {| hk_sig := SigFlush; hk_conn := c; hk_prod := p; hk_kind := m |})).
    pose proof (zb_nn (cnt {| hk_sig := SigDisconnect; hk_conn := c; hk_prod := p; hk_kind := m |})).
    repeat split; try lia. exact HK.
  - destruct H as [->| ->]; apply HG; [easy0|]. apply bal_consume.
  - destruct H as [->| ->]; apply HG; easy0.
  - subst e. apply HG. easy0.
  - destruct H as [->| ->]; apply HG; easy0.
  - subst e. destruct sy; apply HG; [easy0|exact I].
  - destruct H as [l ->]. apply HG. easy0.
  - destruct l as [|d l]; [subst; apply HG; easy0|]. destruct H as [->|[x ->]]; apply HG; [easy0|]. apply suf_app; [apply bal_consume|easy0].
  - destruct H as [l ->]. apply HG. easy0.
  - destruct l; subst; apply HG; easy0.
  - subst e. apply HG. easy0.
Qed.
Definition counted n0 s tr : Prop :=
  (n0 + zt conn_called tr = nh s + tot pend (c_threads s))%Z /\ (zt conn_called tr = zt conn_returned tr + tot retn (c_threads s))%Z /\
  forall u k, nth_error (c_threads s) u = Some k -> suf bal k.
Lemma counted_step : forall b pw body im t s s' ev tr n0, stays s -> keeps ev -> counted n0 s tr -> step b pw body im t s = Some (ev, s') -> counted n0 s' (tr ++ [ev]).
Proof.
  intros b pw body im t s s' ev tr n0 HS HK (H1 & H2 & H3) H. destruct (step_shape _ _ _ _ _ _ _ _ H) as (HB & i & k0 & Hn & [(w & -> & ->)|(HM & HH & e & He & HX & HT)]).
  - split; [|split].
    + rewrite zt_snoc. cbn [conn_called]. unfold nh in *. unst. lia.
    + rewrite !zt_snoc. cbn [conn_called conn_returned]. unst. lia.
    + exact H3.
  - pose proof (HS _ _ Hn) as H0. cbn [existsb] in H0. apply orb_false_elim in H0. destruct H0 as [Hi _].
    pose proof (expand_pend _ _ _ _ _ _ He HX) as HP. pose proof (expand_retn _ _ _ He) as HR.
    assert (TP : (tot pend (c_threads s') = tot pend (c_threads s) - pend i + wt pend e)%Z).
    { destruct HT as [->|(d & x & ->)]; rewrite ?tot_app; cbn [tot]; rewrite ?pend_consume, (tot_upd _ _ _ _ _ Hn), wt_app; cbn [wt]; lia. }
    assert (TR : (tot retn (c_threads s') = tot retn (c_threads s) - retn i + wt retn e)%Z).
    { destruct HT as [->|(d & x & ->)]; rewrite ?tot_app; cbn [tot]; rewrite ?retn_consume, (tot_upd _ _ _ _ _ Hn), wt_app; cbn [wt]; lia. }
    assert (TH : (nh s' = nh s + match i with IHook h => zb (cnt h) | _ => 0%Z end)%Z).
    { unfold nh. destruct i; try discriminate Hi; cbn [hooks_after] in HH; rewrite HH; try lia. rewrite filter_app, app_length. cbn [filter]. destruct (cnt h); cbn [length zb]; lia. }
    assert (TC : (zb (conn_called ev) = match i with ICall o => zb (isP_op o) | _ => 0%Z end)%Z).
    { destruct i; cbn [exactly] in HX; try (subst ev; reflexivity); destruct ev; cbn [matching] in HM; try reflexivity; congruence. }
    assert (TD : (zb (conn_returned ev) = retn i)%Z).
    { destruct i; cbn [exactly] in HX; try (subst ev; reflexivity); destruct ev; cbn [matching] in HM; try reflexivity; congruence. }
    split; [|split].
    + rewrite zt_snoc. change (if conn_called ev then 1%Z else 0%Z) with (zb (conn_called ev)). rewrite TC, TP, TH, HP. destruct i; cbn [pend]; lia.
    + rewrite !zt_snoc. change (if conn_called ev then 1%Z else 0%Z) with (zb (conn_called ev)). change (if conn_returned ev then 1%Z else 0%Z) with (zb (conn_returned ev)).
      rewrite TC, TD, TR, HR. destruct i; cbn [retn]; lia.
    + intros u k Hu. destruct HT as [HT|(d & x & HT)]; rewrite HT in Hu; [|apply nth_snoc in Hu; destruct Hu as [Hu|[_ ->]]; [|apply bal_consume]];
      (apply nth_upd in Hu; destruct Hu as [[-> ->]|[_ Hu]]; [|eauto]); eapply expand_bal; eauto.
Qed.
Definition made0 (conns : list (nat * nat * kind)) : nat := length (filter (fun cpm => P (snd (fst cpm)) (snd cpm)) conns).
Lemma counted_initial : forall conns q (programs : list (list (op X))), counted (Z.of_nat (made0 conns)) (initial conns q programs) [].
Proof.
  intros conns q programs. split; [|split].
  - assert (HT : tot pend (c_threads (initial conns q programs)) = 0%Z).
    { cbn [initial c_threads]. induction programs as [|l r IH]; cbn [map tot]; [reflexivity|]. rewrite IH, wt_map0 by reflexivity. reflexivity. }
    rewrite HT. cbn. rewrite !Z.add_0_r. unfold nh, made0. cbn [initial c_hooks]. f_equal. clear HT. induction conns as [|[[c p] m] l IH]; [reflexivity|].
    cbn [flat_map fst snd filter]. rewrite filter_app, app_length. cbn [fst snd] in IH. rewrite <- IH. unfold cnt. cbn [map filter hk_sig hk_prod hk_kind fst snd].
    destruct g; cbn [sig_eqb andb]; destruct (P p m); cbn [length]; lia.
  - cbn [initial c_threads]. cbn. induction programs as [|l r IH]; cbn [map tot]; [reflexivity|]. rewrite wt_map0 by reflexivity. cbn. exact IH.
  - intros t k Hn. cbn [initial c_threads] in Hn. rewrite nth_error_map in Hn. destruct (nth_error programs t); [|discriminate]. injection Hn as <-. now apply suf_map0.
Qed.
Lemma tot_suf : forall f (l : list (list (instr X))), (forall u k, nth_error l u = Some k -> suf f k) -> (0 <= tot f l)%Z.
Proof.
  intros f. induction l as [|k l IH]; intros H; cbn; [lia|]. pose proof (suf_nonneg _ _ (H 0 k eq_refl)). specialize (IH (fun u k' Hk => H (Datatypes.S u) k' Hk)). lia.
Qed.
Lemma tot_sub : forall (l : list (list (instr X))), tot bal l = (tot retn l - tot pend l)%Z.
Proof.
  induction l as [|k l IH]; cbn; [reflexivity|]. rewrite IH. assert (HW : wt bal k = (wt retn k - wt pend k)%Z); [|lia]. clear. induction k as [|i k IH]; cbn [wt]; [reflexivity|].
  unfold bal at 1. rewrite IH. lia.
Qed.
Lemma pend_nn : forall i, (0 <= pend i)%Z. Proof. intros []; cbn; try lia; apply zb_nn. Qed.
Lemma counted_bounds : forall n0 s tr, counted n0 s tr -> (n0 + zt conn_returned tr <= nh s <= n0 + zt conn_called tr)%Z.
Proof.
  intros n0 s tr (H1 & H2 & H3). pose proof (tot_suf bal _ H3) as HS. rewrite tot_sub in HS. pose proof (tot_nonneg pend (c_threads s) pend_nn). lia.
Qed.
End Count.

(** ** The instructions that follow from a slot, as long as consume() makes no calls *)
Definition inner i : bool :=
  match i with
  | ICall _ | IAcqA | IRelA | IAcqS | IRelS | ISyncBody _ _ | IAsyncBody _ _ | IPush _ | ITrim | IStart _ _ _ | IEnd _ _ | IFlush | IWaits _ => true
  | _ => false
  end.
Lemma inner_map : forall A (g : A -> instr X) l, (forall a, inner (g a) = true) -> forallb inner (map g l) = true.
Proof. intros A g l H. induction l as [|a l IH]; cbn; [reflexivity|]. now rewrite H, IH. Qed.
Lemma inner_consume : forall body m d (x : X), forallb inner (consume_code body m d x) = true.
Proof. intros. unfold consume_code. cbn [forallb inner andb]. rewrite forallb_app, inner_map by reflexivity. reflexivity. Qed.
Lemma expand_inner : forall body i e, expand body i e -> inner i = true -> (forall o, i <> ICall o) -> forallb inner e = true.
Proof.
  intros body i e H Hi HC.
  destruct i; try discriminate Hi; cbn [expand] in H; try (subst e; reflexivity).
  - now destruct (HC o).
  - destruct H as [->| ->]; [reflexivity|]. apply inner_consume.
  - destruct H as [->| ->]; reflexivity.
  - destruct H as [->| ->]; reflexivity.
  - subst e. destruct sy; reflexivity.
  - destruct H as [l ->]. reflexivity.
  - destruct l as [|d l]; [subst; reflexivity|]. destruct H as [->|[x ->]]; [reflexivity|]. rewrite forallb_app, inner_consume. reflexivity.
Qed.
(** [t] makes no call and does not return from one *)
Definition no_calls t (ev : event X) : Prop := match ev with ECall u _ | EReturn u _ => u <> t | _ => True end.
Lemma other_thread : forall b pw body im u s s' ev t k, step b pw body im u s = Some (ev, s') -> u <> t -> nth_error (c_threads s) t = Some k -> nth_error (c_threads s') t = Some k.
Proof.
  intros b pw body im u s s' ev t k H HU Hn. destruct (step_shape _ _ _ _ _ _ _ _ H) as (_ & i & k0 & Hu & [(w & -> & ->)|(_ & _ & e & _ & _ & HT)]); [exact Hn|].
  assert (HLt : t < length (c_threads s)) by (apply nth_error_Some; congruence).
  destruct HT as [->|(d & x & ->)]; [|rewrite nth_error_app1 by (rewrite upd_length; exact HLt)]; rewrite upd_other by congruence; exact Hn.
Qed.
Lemma own_thread : forall b pw body im t s s' ev i k0, step b pw body im t s = Some (ev, s') -> nth_error (c_threads s) t = Some (i :: k0) ->
  by_thread t ev /\ ((exists w, ev = ECrash t w /\ s' = set_crash s w) \/
  matching i ev /\ hooks_after i s s' /\ exists e, expand body i e /\ exactly i s t ev e /\ nth_error (c_threads s') t = Some (e ++ k0)).
Proof.
  intros b pw body im t s s' ev i k0 H Hn. destruct (step_shape _ _ _ _ _ _ _ _ H) as (HB & i' & k0' & Hu & HR). rewrite Hn in Hu. injection Hu as <- <-. split; [exact HB|].
  destruct HR as [HW|(HM & HH & e & He & HX & HT)]; [now left|]. right. split; [exact HM|split; [exact HH|]]. exists e. split; [exact He|split; [exact HX|]].
  assert (HLt : t < length (c_threads s)) by (apply nth_error_Some; congruence).
  destruct HT as [->|(d & x & ->)]; [|rewrite nth_error_app1 by (rewrite upd_length; exact HLt)]; apply upd_same; exact HLt.
Qed.
Lemma connected_grow : forall s s' g c, incl (c_hooks s) (c_hooks s') -> connected s g c = true -> connected s' g c = true.
Proof. intros s s' g c HI H. unfold connected in *. apply existsb_exists in H. destruct H as (h & Hh & HE). apply existsb_exists. exists h. auto. Qed.
Lemma hook_connected : forall s g p h, In h (hooks_of s g p) -> connected s g (hk_conn h) = true.
Proof.
  intros s g p h H. unfold hooks_of in H. apply filter_In in H. destruct H as [H1 H2]. apply andb_prop in H2. destruct H2 as [H2 _]. unfold connected. apply existsb_exists. exists h.
  split; [exact H1|]. rewrite H2, Nat.eqb_refl. reflexivity.
Qed.

(** ** issue_sample() *)
Definition todo_of m i : Z := match i with ITrySample _ m' _ => zb (kind_eqb m' m) | _ => 0%Z end.
Definition tries s x i : Prop := match i with ITrySample c _ y => y = x /\ connected s SigSample c = true | _ => False end.
Section Send.
Variables (t p : nat) (x : X) (k0 : list (instr X)) (tr1 : list (event X)) (n0 : kind -> Z).
Definition sel m : nat -> kind -> bool := fun p' m' => (p' =? p) && kind_eqb m' m.
Let o := OSend (X := X) p x.
(** [tr2] is what has happened since the call *)
Definition serving s tr2 : Prop :=
  (nth_error (c_threads s) t = Some (IEmitSample p x :: IReturn o :: k0) /\ forall m, zt (given t m) tr2 = 0%Z) \/
  exists l R, nth_error (c_threads s) t = Some (l ++ R ++ IReturn o :: k0) /\ forallb inner l = true /\ Forall (tries s x) R /\
    forall m, (n0 m + zt (conn_returned (sel m)) tr1 <= zt (given t m) tr2 + wt (todo_of m) R <= n0 m + zt (conn_called (sel m)) (tr1 ++ tr2))%Z.
Lemma zt_app : forall P (a c : list (event X)), zt P (a ++ c) = (zt P a + zt P c)%Z.
Proof. intros P a c. unfold zt, times. rewrite filter_app, app_length. lia. Qed.
Lemma not_given : forall m u ev, by_thread u ev -> u <> t -> given t m ev = false.
Proof. intros m u ev HB HU. destruct ev; try reflexivity. cbn in *. subst. apply Nat.eqb_neq in HU. now rewrite HU. Qed.
Lemma zt_le_snoc : forall P (a : list (event X)) e, (zt P a <= zt P (a ++ [e]))%Z.
Proof. intros. rewrite zt_snoc. destruct (P e); lia. Qed.
Lemma todo_emit : forall m l, wt (todo_of m) (map (fun h => ITrySample (hk_conn h) (hk_kind h) x) l) = Z.of_nat (length (filter (fun h => kind_eqb (hk_kind h) m) l)).
Proof. intros m l. induction l as [|h l IH]; cbn [map wt todo_of filter]; [reflexivity|]. rewrite IH. destruct (kind_eqb (hk_kind h) m); cbn [zb length]; lia. Qed.
Lemma emit_count : forall s m, Z.of_nat (length (filter (fun h => kind_eqb (hk_kind h) m) (hooks_of s SigSample p))) = nh SigSample (sel m) s.
Proof.
  intros s m. unfold nh, hooks_of. f_equal. induction (c_hooks s) as [|h l IH]; cbn [filter]; [reflexivity|]. unfold cnt at 1, sel at 1. cbn [filter].
  destruct (sig_eqb (hk_sig h) SigSample); cbn [andb]; [|exact IH]. destruct (hk_prod h =? p); cbn [andb filter]; [|exact IH]. destruct (kind_eqb (hk_kind h) m); cbn [length]; rewrite IH; reflexivity.
Qed.
Lemma serving_step : forall b pw body im u s s' ev tr2, stays s -> keeps ev -> no_calls t ev -> (forall m, counted SigSample (sel m) (n0 m) s (tr1 ++ tr2)) ->
  step b pw body im u s = Some (ev, s') -> serving s tr2 -> serving s' (tr2 ++ [ev]) /\ (forall d m y, ev = EDeliver t d m y -> y = x).
Proof.
  intros b pw body im u s s' ev tr2 HS HK HC HCt H HV.
  assert (HG : incl (c_hooks s) (c_hooks s')) by (eapply hooks_grow; eauto).
  assert (HT : forall R, Forall (tries s x) R -> Forall (tries s' x) R).
  { intros R HR. eapply Forall_impl; [|exact HR]. intros []; cbn; try tauto. intros [-> Hc]. split; [reflexivity|]. eapply connected_grow; eauto. }
  assert (HLe : forall m, (zt (conn_called (sel m)) (tr1 ++ tr2) <= zt (conn_called (sel m)) (tr1 ++ tr2 ++ [ev]))%Z).
  { intros m. rewrite app_assoc. apply zt_le_snoc. }
  destruct (Nat.eq_dec u t) as [->|N].
  2: { destruct (step_shape _ _ _ _ _ _ _ _ H) as (HB & _). split.
       - destruct HV as [[Hn HZ]|(l & R & Hn & Hl & HR & HZ)].
         + left. split; [eapply other_thread; eauto|]. intros m. rewrite zt_snoc, (not_given m u ev HB N), HZ. reflexivity.
         + right. exists l, R. split; [eapply other_thread; eauto|]. split; [exact Hl|split; [auto|]]. intros m. specialize (HZ m). specialize (HLe m). rewrite zt_snoc, (not_given m u ev HB N). lia.
       - intros d m y ->. cbn in HB. congruence. }
  destruct HV as [[Hn HZ]|(l & R & Hn & Hl & HR & HZ)].
  - destruct (own_thread _ _ _ _ _ _ _ _ _ _ H Hn) as (HB & [(w & -> & ->)|(HM & HH & e & He & HX & Hn')]).
    + split; [|discriminate]. left. split; [exact Hn|]. intros m. rewrite zt_snoc, HZ. reflexivity.
    + assert (HNd : forall m, given t m ev = false). { intros m. destruct ev; try reflexivity. cbn in HM. destruct HM as [c E]. discriminate. }
      split; [|intros d m y ->; cbn in HM; destruct HM as [c E]; discriminate].
      cbn [exactly] in HX. right. exists [], e. split; [exact Hn'|]. split; [reflexivity|split].
      * subst e. apply Forall_forall. intros i Hi. apply in_map_iff in Hi. destruct Hi as (h & <- & Hh). cbn. split; [reflexivity|]. eapply connected_grow; [exact HG|]. eapply hook_connected; eauto.
      * intros m. rewrite zt_snoc, HZ, HNd, HX, todo_emit, emit_count. specialize (HLe m). pose proof (counted_bounds _ _ _ _ _ (HCt m)) as HBd. rewrite zt_app in HBd at 1.
        pose proof (zt_nonneg (conn_returned (sel m)) tr2). lia.
  - destruct l as [|i l]; cbn [app] in Hn.
    + destruct R as [|i R]; cbn [app] in Hn.
      * destruct (own_thread _ _ _ _ _ _ _ _ _ _ H Hn) as (HB & [(w & -> & ->)|(HM & HH & e & He & HX & Hn')]).
        -- split; [|discriminate]. right. exists [], []. split; [exact Hn|]. split; [reflexivity|split; [constructor|]]. intros m. specialize (HZ m). specialize (HLe m). rewrite zt_snoc. cbn [given]. lia.
        -- cbn [exactly] in HX. subst ev. cbn in HC. congruence.
      * inversion HR as [|? ? Hi HR']; subst. destruct i; cbn in Hi; try tauto. destruct Hi as [-> Hcon].
        destruct (own_thread _ _ _ _ _ _ _ _ _ _ H Hn) as (HB & [(w & -> & ->)|(HM & HH & e & He & HX & Hn')]).
        -- split; [|discriminate]. right. exists [], (ITrySample c m x :: R). split; [exact Hn|]. split; [reflexivity|split; [auto|]]. intros m'. specialize (HZ m'). specialize (HLe m'). rewrite zt_snoc. cbn [given]. lia.
        -- cbn [exactly] in HX. destruct (HX Hcon) as [-> ->]. split; [|intros d m' y E; congruence].
           right. exists (slot_code m (c_next s) x), R. split; [rewrite Hn'; reflexivity|]. split; [destruct m; reflexivity|split; [auto|]].
           intros m'. specialize (HZ m'). specialize (HLe m'). cbn [wt todo_of] in HZ. rewrite zt_snoc. cbn [given]. rewrite Nat.eqb_refl. cbn [andb]. unfold zb in HZ. destruct (kind_eqb m m'); lia.
    + destruct (own_thread _ _ _ _ _ _ _ _ _ _ H Hn) as (HB & [(w & -> & ->)|(HM & HH & e & He & HX & Hn')]).
      * split; [|discriminate]. right. exists (i :: l), R. split; [exact Hn|]. split; [exact Hl|split; [auto|]]. intros m. specialize (HZ m). specialize (HLe m). rewrite zt_snoc. cbn [given]. lia.
      * cbn [forallb] in Hl. apply andb_prop in Hl. destruct Hl as [Hi Hl].
        assert (HE : forallb inner e = true). { eapply expand_inner; eauto. intros o' ->. cbn in HX. subst ev. cbn in HC. congruence. }
        assert (HNd : forall m, given t m ev = false). { intros m. destruct ev; try reflexivity. cbn in HM. destruct HM as [c ->]. discriminate. }
        split; [|intros d m y ->; cbn in HM; destruct HM as [c ->]; discriminate].
        right. exists (e ++ l), R. split; [rewrite Hn', <- app_assoc; reflexivity|]. split; [rewrite forallb_app, HE; exact Hl|split; [auto|]].
        intros m. specialize (HZ m). specialize (HLe m). rewrite zt_snoc, HNd. lia.
Qed.
End Send.
(** executions in which nothing is removed *)
Lemma stays_exec : forall b pw body s tr s', exec b pw body s tr s' -> stays s -> (forall e, In e tr -> keeps e) -> stays s'.
Proof. intros b pw body s tr s' H. induction H; intros HS HK; auto. apply IHexec; [|intros; apply HK; now right]. eapply stays_step; eauto. apply HK. now left. Qed.
Lemma counted_exec : forall g P b pw body s tr s', exec b pw body s tr s' -> forall n0 tr0, stays s -> (forall e, In e tr -> keeps e) -> counted g P n0 s tr0 -> counted g P n0 s' (tr0 ++ tr).
Proof.
  intros g P b pw body s tr s' H. induction H; intros n0 tr0 HS HK HC; [now rewrite app_nil_r|].
  replace (tr0 ++ ev :: tr) with ((tr0 ++ [ev]) ++ tr) by (rewrite <- app_assoc; reflexivity). assert (HKe : keeps ev) by (apply HK; now left).
  apply IHexec; [eapply stays_step; eauto|intros; apply HK; now right|eapply counted_step; eauto].
Qed.
Lemma serving_exec : forall b pw body s tr s', exec b pw body s tr s' -> forall t p x k0 tr1 n0 tr2, stays s -> (forall e, In e tr -> keeps e) -> (forall e, In e tr -> no_calls t e) ->
  (forall m, counted SigSample (sel p m) (n0 m) s (tr1 ++ tr2)) -> serving t p x k0 tr1 n0 s tr2 ->
  serving t p x k0 tr1 n0 s' (tr2 ++ tr) /\ (forall d m y, In (EDeliver t d m y) tr -> y = x).
Proof.
  intros b pw body s tr s' H. induction H as [s|s im t0 ev s1 tr s' H H1 IH]; intros t p x k0 tr1 n0 tr2 HS HK HC HCt HV; [rewrite app_nil_r; split; [exact HV|intros d m y []]|].
  assert (HKe : keeps ev) by (apply HK; now left). assert (HCe : no_calls t ev) by (apply HC; now left).
  destruct (serving_step _ _ _ _ _ _ _ _ _ _ _ _ _ _ _ HS HKe HCe HCt H HV) as [HV' HY].
  replace (tr2 ++ ev :: tr) with ((tr2 ++ [ev]) ++ tr) by (rewrite <- app_assoc; reflexivity).
  destruct (IH t p x k0 tr1 n0 (tr2 ++ [ev])) as [HA HB]; [eapply stays_step; eauto|intros; apply HK; now right|intros; apply HC; now right| |exact HV'|].
  - intros m. rewrite app_assoc. eapply counted_step; eauto.
  - split; [exact HA|]. intros d m y [E|HI]; [eapply HY; eauto|eauto].
Qed.
Lemma serves : forall b pw body conns q programs s' t1 t2 t3 t p (x : X),
  exec b pw body (initial conns q programs) (t1 ++ ECall t (OSend p x) :: t2 ++ EReturn t (OSend p x) :: t3) s' ->
  (forall e, In e (t1 ++ t2) -> keeps e) -> (forall e, In e t2 -> no_calls t e) ->
  (forall m, made0 (sel p m) conns + times (conn_returned (sel p m)) t1 <= times (given t m) t2 <= made0 (sel p m) conns + times (conn_called (sel p m)) (t1 ++ t2)) /\
  (forall d m y, In (EDeliver t d m y) t2 -> y = x).
Proof.
  intros b pw body conns q programs s' t1 t2 t3 t p x HE HK HC.
  apply exec_app in HE. destruct HE as (s1 & E1 & HE). inversion HE as [|? im u0 ev s2 ? ? Hst E2]; subst.
  apply exec_app in E2. destruct E2 as (s3 & E2 & E3). inversion E3 as [|? im3 u3 ev3 s4 ? ? Hst3 E4]; subst.
  destruct (step_call _ _ _ _ _ _ _ _ _ Hst) as (-> & k0 & Hn & Hs2). cbn [code app] in Hs2.
  destruct (step_return _ _ _ _ _ _ _ _ _ Hst3) as (-> & k3 & Hn3).
  assert (K1 : forall e, In e t1 -> keeps e) by (intros; apply HK, in_or_app; auto).
  assert (K2 : forall e, In e t2 -> keeps e) by (intros; apply HK, in_or_app; auto).
  assert (S1 : stays s1) by (eapply stays_exec; eauto; apply stays_initial).
  assert (C1 : forall m, counted SigSample (sel p m) (Z.of_nat (made0 (sel p m) conns)) s1 t1).
  { intros m. pose proof (counted_exec SigSample (sel p m) _ _ _ _ _ _ E1 _ [] (stays_initial _ _ _) K1 (counted_initial SigSample (sel p m) conns q programs)) as HX. exact HX. }
  assert (Ke : keeps (ECall t (OSend p x))) by reflexivity.
  assert (S2 : stays s2) by (eapply stays_step; eauto).
  set (tr1 := t1 ++ [ECall t (OSend p x)]).
  assert (C2 : forall m, counted SigSample (sel p m) (Z.of_nat (made0 (sel p m) conns)) s2 (tr1 ++ [])).
  { intros m. rewrite app_nil_r. unfold tr1. exact (counted_step _ _ _ _ _ _ _ _ _ _ _ _ S1 Ke (C1 m) Hst). }
  assert (V2 : serving t p x k0 tr1 (fun m => Z.of_nat (made0 (sel p m) conns)) s2 []).
  { left. split; [subst s2; eapply go_thread; eauto|reflexivity]. }
  destruct (serving_exec _ _ _ _ _ _ E2 t p x k0 tr1 _ [] S2 K2 HC C2 V2) as [V3 HY]. split; [|exact HY].
  cbn [app] in V3. destruct V3 as [[Hx _]|(l & R & Hx & Hl & HR & HZ)]; rewrite Hn3 in Hx; [discriminate|].
  destruct l as [|i l]; [|injection Hx as <- Hx; discriminate Hl]. destruct R as [|i R]; [|injection Hx as <- Hx; inversion HR; subst; contradiction].
  intros m. specialize (HZ m). cbn [wt] in HZ. rewrite zt_app in HZ. unfold tr1 in HZ. rewrite !zt_app in HZ. unfold zt in HZ. 
  replace (times (conn_returned (sel p m)) [ECall t (OSend p x)]) with 0 in HZ by reflexivity. replace (times (conn_called (sel p m)) [ECall t (OSend p x)]) with 0 in HZ by reflexivity.
  unfold times in *. rewrite filter_app, app_length. lia.
Qed.

(** ** flush_consumers() *)
Definition tries_flush s i : Prop := match i with ITryFlush c => connected s SigFlush c = true | _ => False end.
Definition selp (p : nat) : nat -> kind -> bool := fun p' _ => p' =? p.
Section FlushAll.
Variables (t p : nat) (k0 : list (instr X)) (d : nat).
Let o := OFlushConsumers (X := X) p.
Definition flushing_all s : Prop :=
  (nth_error (c_threads s) t = Some (IEmitFlush p :: IReturn o :: k0) /\ taken (c_stat s d)) \/
  exists l R, nth_error (c_threads s) t = Some (l ++ R ++ IReturn o :: k0) /\ forallb inner l = true /\ Forall (tries_flush s) R /\
    (c_stat s d = SDone \/ (taken (c_stat s d) /\ (In IFlush l \/ (l = [] /\ R <> []))) \/ exists w, In (IWaits w) l /\ In d w).
Lemma flushing_all_step : forall b pw body im u s s' ev tr, inv s tr -> stays s -> keeps ev -> no_calls t ev -> (1 <= nh SigFlush (selp p) s)%Z ->
  step b pw body im u s = Some (ev, s') -> flushing_all s -> flushing_all s'.
Proof.
  intros b pw body im u s s' ev tr HI HS HK HC HN H HV.
  assert (HG : incl (c_hooks s) (c_hooks s')) by (eapply hooks_grow; eauto).
  assert (HT : forall R, Forall (tries_flush s) R -> Forall (tries_flush s') R).
  { intros R HR. eapply Forall_impl; [|exact HR]. intros []; cbn; try tauto. intros Hc. eapply connected_grow; eauto. }
  pose proof (i_deliv _ _ HI) as HD.
  assert (HTk : taken (c_stat s d) -> taken (c_stat s' d)) by (eapply taken_step; eauto).
  assert (HDn : c_stat s d = SDone -> c_stat s' d = SDone). { intros E. rewrite (stat_final _ _ _ _ _ _ _ _ _ d HD H); auto. }
  destruct (Nat.eq_dec u t) as [->|N].
  2: { destruct HV as [[Hn HZ]|(l & R & Hn & Hl & HR & HZ)].
       - left. split; [eapply other_thread; eauto|auto].
       - right. exists l, R. split; [eapply other_thread; eauto|]. split; [exact Hl|split; [auto|]]. intuition auto. }
  destruct HV as [[Hn HZ]|(l & R & Hn & Hl & HR & HZ)].
  - destruct (own_thread _ _ _ _ _ _ _ _ _ _ H Hn) as (HB & [(w & -> & ->)|(HM & HH & e & He & HX & Hn')]); [left; split; [exact Hn|exact HZ]|].
    cbn [exactly] in HX. right. exists [], e. split; [exact Hn'|]. split; [reflexivity|split].
    + subst e. apply Forall_forall. intros i Hi. apply in_map_iff in Hi. destruct Hi as (h & <- & Hh). cbn. eapply connected_grow; [exact HG|]. eapply hook_connected; eauto.
    + right. left. split; [auto|]. right. split; [reflexivity|]. subst e. intros E. apply map_eq_nil in E. unfold nh in HN.
      assert (HL : length (filter (cnt SigFlush (selp p)) (c_hooks s)) = length (hooks_of s SigFlush p)) by reflexivity. rewrite HL, E in HN. cbn in HN. lia.
  - destruct l as [|i l]; cbn [app] in Hn.
    + destruct R as [|i R]; cbn [app] in Hn.
      * destruct (own_thread _ _ _ _ _ _ _ _ _ _ H Hn) as (HB & [(w & -> & ->)|(HM & HH & e & He & HX & Hn')]).
        -- right. exists [], []. split; [exact Hn|]. split; [reflexivity|split; [constructor|exact HZ]].
        -- cbn [exactly] in HX. subst ev. cbn in HC. congruence.
      * inversion HR as [|? ? Hi HR']; subst. destruct i; cbn in Hi; try tauto.
        destruct (own_thread _ _ _ _ _ _ _ _ _ _ H Hn) as (HB & [(w & -> & ->)|(HM & HH & e & He & HX & Hn')]).
        -- right. exists [], (ITryFlush c :: R). split; [exact Hn|]. split; [reflexivity|split; [auto|exact HZ]].
        -- cbn [exactly] in HX. pose proof (HX Hi) as ->. right. exists flush_code, R. split; [rewrite Hn'; reflexivity|]. split; [reflexivity|split; [auto|]].
           destruct HZ as [HZ|[[HZ _]|(w & [] & _)]]; [left; auto|right; left]. split; [auto|]. left. right. now left.
    + destruct (own_thread _ _ _ _ _ _ _ _ _ _ H Hn) as (HB & [(w & -> & ->)|(HM & HH & e & He & HX & Hn')]).
      * right. exists (i :: l), R. split; [exact Hn|]. split; [exact Hl|split; [auto|exact HZ]].
      * cbn [forallb] in Hl. apply andb_prop in Hl. destruct Hl as [Hi Hl].
        assert (HE : forallb inner e = true). { eapply expand_inner; eauto. intros o' ->. cbn in HX. subst ev. cbn in HC. congruence. }
        right. exists (e ++ l), R. split; [rewrite Hn', <- app_assoc; reflexivity|]. split; [rewrite forallb_app, HE; exact Hl|split; [auto|]].
        destruct HZ as [HZ|[[HZ [HF|[HF _]]]|(w & HF & Hw)]]; [left; auto| |discriminate|].
        -- destruct HF as [->|HF].
           ++ cbn [exactly] in HX. subst e. destruct (taken_queued _ _ _ _ _ HI Hn HZ) as [HQ|HQ]; [left; auto|]. right. right. exists (c_queue s). split; [now left|exact HQ].
           ++ right. left. split; [auto|]. left. apply in_or_app. now right.
        -- destruct HF as [->|HF].
           ++ destruct w as [|d' w]; [destruct Hw|]. cbn [exactly] in HX. destruct HX as [[-> Hd']|HX].
              ** destruct Hw as [->|Hw]; [left; auto|]. right. right. exists w. split; [now left|exact Hw].
              ** right. right. exists (d' :: w). split; [apply in_or_app; now left|exact Hw].
           ++ right. right. exists w. split; [apply in_or_app; now right|exact Hw].
Qed.
End FlushAll.
Lemma flushing_all_exec : forall b pw body s tr s', exec b pw body s tr s' -> forall t p k0 d n0 tr0, inv s tr0 -> stays s -> (forall e, In e tr -> keeps e) -> (forall e, In e tr -> no_calls t e) ->
  counted SigFlush (selp p) n0 s tr0 -> (1 <= n0 + zt (conn_returned (selp p)) tr0)%Z -> flushing_all t p k0 d s -> flushing_all t p k0 d s'.
Proof.
  intros b pw body s tr s' H. induction H as [s|s im t0 ev s1 tr s' H H1 IH]; intros t p k0 d n0 tr0 HI HS HK HC HCt HP HV; [exact HV|].
  assert (HKe : keeps ev) by (apply HK; now left). assert (HCe : no_calls t ev) by (apply HC; now left).
  pose proof (counted_bounds _ _ _ _ _ HCt) as HB.
  refine (IH t p k0 d n0 (tr0 ++ [ev]) _ _ _ _ _ _ _).
  - eapply inv_step; eauto.
  - eapply stays_step; eauto.
  - intros; apply HK; now right.
  - intros; apply HC; now right.
  - eapply counted_step; eauto.
  - pose proof (zt_le_snoc (conn_returned (selp p)) tr0 ev). lia.
  - eapply flushing_all_step; eauto. lia.
Qed.
Lemma flush_all_waits : forall b pw body conns q programs s' t1 t2 t3 t p d,
  exec b pw body (initial conns q programs) (t1 ++ ECall t (OFlushConsumers p) :: t2 ++ EReturn t (OFlushConsumers p) :: t3) s' ->
  (forall e, In e (t1 ++ t2) -> keeps e) -> (forall e, In e t2 -> no_calls t e) ->
  1 <= made0 (selp p) conns + times (conn_returned (selp p)) t1 ->
  (exists u, In (EAccept u d) t1) -> (exists u x, In (EDeliver u d KAsync x) t1) -> exists u, In (EEnd u d) (t1 ++ t2).
Proof.
  intros b pw body conns q programs s' t1 t2 t3 t p d HE HK HC HP (u & Ha) (u' & x & Hd).
  apply exec_app in HE. destruct HE as (s1 & E1 & HE). inversion HE as [|? im u0 ev s2 ? ? Hst E2]; subst.
  apply exec_app in E2. destruct E2 as (s3 & E2 & E3). inversion E3 as [|? im3 u3 ev3 s4 ? ? Hst3 E4]; subst.
  pose proof (reach_inv3 _ _ _ _ _ _ _ _ E1) as I1.
  assert (HT : taken (c_stat s1 d)).
  { destruct I1 as [[I1 _] M1]. pose proof (i_deliv _ _ I1 d) as HD. destruct (M1 _ _ _ _ Hd) as (_ & M2 & _). unfold deliv_ok in HD.
    pose proof (in_zt (accepted d) _ _ Ha (Nat.eqb_refl _)). destruct (c_stat s1 d) as [|y|m| |] eqn:Es; cbn; auto; try lia.
    destruct m; [|exact I]. specialize (M2 KSync eq_refl). discriminate. }
  destruct (step_call _ _ _ _ _ _ _ _ _ Hst) as (-> & k0 & Hn & Hs2). cbn [code app] in Hs2.
  destruct (step_return _ _ _ _ _ _ _ _ _ Hst3) as (-> & k3 & Hn3).
  assert (K1 : forall e, In e t1 -> keeps e) by (intros; apply HK, in_or_app; auto).
  assert (K2 : forall e, In e t2 -> keeps e) by (intros; apply HK, in_or_app; auto).
  assert (S1 : stays s1) by (eapply stays_exec; eauto; apply stays_initial).
  set (P := selp p) in *.
  pose proof (counted_exec SigFlush P _ _ _ _ _ _ E1 _ [] (stays_initial _ _ _) K1 (counted_initial SigFlush P conns q programs)) as C1. cbn [app] in C1.
  assert (Ke : keeps (ECall t (OFlushConsumers p))) by reflexivity.
  assert (S2 : stays s2) by (eapply stays_step; eauto).
  pose proof (counted_step _ _ _ _ _ _ _ _ _ _ _ _ S1 Ke C1 Hst) as C2.
  pose proof (inv3_step _ _ _ _ _ _ _ _ _ I1 Hst) as I2. pose proof (exec_inv3 _ _ _ _ _ _ _ E2 I2) as I3.
  assert (V2 : flushing_all t p k0 d s2). { left. subst s2. split; [eapply go_thread; eauto|exact HT]. }
  assert (HP' : (1 <= Z.of_nat (made0 P conns) + zt (conn_returned P) (t1 ++ [ECall t (OFlushConsumers p)]))%Z).
  { pose proof (zt_le_snoc (conn_returned P) t1 (ECall t (OFlushConsumers p))). unfold zt in *. lia. }
  assert (V3 : flushing_all t p k0 d s3). { eapply flushing_all_exec; [exact E2|apply I2|exact S2|exact K2|exact HC|exact C2|exact HP'|exact V2]. }
  destruct V3 as [[Hx _]|(l & R & Hx & Hl & HR & HZ)]; rewrite Hn3 in Hx; [discriminate|].
  destruct l as [|i l]; [|injection Hx as <- Hx; discriminate Hl]. destruct R as [|i R]; [|injection Hx as <- Hx; inversion HR; subst; contradiction].
  destruct HZ as [W3|[[_ [[]|[_ HZ]]]|(w & [] & _)]]; [|congruence].
  destruct I3 as [[I3 _] _]. pose proof (i_deliv _ _ I3 d) as HD. unfold deliv_ok in HD. rewrite W3 in HD. destruct HD as (_ & _ & _ & _ & _ & HN & _).
  set (ec := ECall (X := X) t (OFlushConsumers p)) in *.
  unfold zt, times in HN. destruct (filter (ended d) ((t1 ++ [ec]) ++ t2)) as [|e l] eqn:Ef; [cbn in HN; lia|].
  assert (HI : In e (filter (ended d) ((t1 ++ [ec]) ++ t2))) by (rewrite Ef; now left). apply filter_In in HI. destruct HI as [HI He].
  destruct e; try discriminate. cbn in He. apply Nat.eqb_eq in He. subst d0. exists t0. apply in_app_or in HI. apply in_or_app. destruct HI as [HI|HI]; [|auto].
  apply in_app_or in HI. destruct HI as [HI|[HI|[]]]; [auto|discriminate].
Qed.

Lemma keeps_none : forall tr, none any_removal tr -> forall e, In e tr -> keeps e.
Proof. intros tr H e He. specialize (H e He). destruct e; try exact I. exact H. Qed.
Lemma no_calls_none : forall t tr, none (calls_or_returns t) tr -> forall e, In e tr -> no_calls t e.
Proof. intros t tr H e He. specialize (H e He). destruct e; try exact I; cbn in *; now apply Nat.eqb_neq. Qed.
Lemma top_serves : forall b pw body conns q programs sched before during after s t p (x : X),
  run b pw body sched (initial conns q programs) = (before ++ ECall t (OSend p x) :: during ++ EReturn t (OSend p x) :: after, s) ->
  none any_removal (before ++ during) -> none (calls_or_returns t) during ->
  (forall m, existing p m conns + times (connect_returned p m) before <= times (given t m) during <= existing p m conns + times (connect_called p m) (before ++ during)) /\
  (forall d m y, In (EDeliver t d m y) during -> y = x).
Proof.
  intros b pw body conns q programs sched before during after s t p x H HR HC. apply run_exec in H.
  exact (serves _ _ _ _ _ _ _ _ _ _ _ _ _ H (keeps_none _ HR) (no_calls_none _ _ HC)).
Qed.
Lemma filter_le : forall A (f h : A -> bool) l, (forall a, f a = true -> h a = true) -> length (filter f l) <= length (filter h l).
Proof. intros A f h l H. induction l as [|a l IH]; cbn [filter]; [cbn; lia|]. specialize (H a). destruct (h a), (f a); cbn [length]; try lia; specialize (H eq_refl); discriminate. Qed.
Lemma top_flush_consumers : forall b pw body conns q programs sched before during after s t p d (m : kind),
  run b pw body sched (initial conns q programs) = (before ++ ECall t (OFlushConsumers p) :: during ++ EReturn t (OFlushConsumers p) :: after, s) ->
  none any_removal (before ++ during) -> none (calls_or_returns t) during ->
  1 <= existing p m conns + times (connect_returned p m) before ->
  (exists u x, In (EDeliver u d KAsync x) before) -> (exists u, In (EAccept u d) before) -> exists u, In (EEnd u d) (before ++ during).
Proof.
  intros b pw body conns q programs sched before during after s t p d m H HR HC HP Hd Ha. apply run_exec in H.
  refine (flush_all_waits _ _ _ _ _ _ _ _ _ _ _ _ _ H (keeps_none _ HR) (no_calls_none _ _ HC) _ Ha Hd).
  assert (H1 : existing p m conns <= made0 (selp p) conns). { apply filter_le. intros [[c p'] m']. cbn. unfold selp. intros E. apply andb_prop in E. tauto. }
  assert (H2 : times (connect_returned p m) before <= times (conn_returned (selp p)) before).
  { apply filter_le. intros []; try discriminate. destruct o; try discriminate. cbn. unfold selp. intros E. apply andb_prop in E. tauto. }
  lia.
Qed.
End P.
