(** Acyclic networks: no deadlock, and every history ends. *)
From Verif Require Import Prelude ANetModel ANetBase ANetInv ANetSpec ANetFlow.
Local Open Scope nat_scope.

Section Term.
Context {X St : Type}.
Variable edges : list edge.
Variable filt : nat -> option (St -> X -> St * option X).
Variable s0 : nat -> St.
Variable programs : list (list (op X)).
Implicit Types (s : state X St) (k : list (instr X)) (i j : instr X) (tr : list (event X)).
Notation exec1 := (exec1 edges filt).
Notation step := (step edges filt).
Notation run := (run edges filt).
Notation reach := (reach edges filt s0 programs).
Notation slots := (slots edges).
Ltac split_step R NT X1 :=
  let P := fresh "P" in pose proof X1 as P; eapply exec_split in P; [|exact R|exact NT];
  destruct P as [[EXC P]|(EXC & -> & -> & lu & U1 & U2 & U)]; [clear X1; rename P into X1|].

(** ** Tasks belong to one consumer *)
Definition owned s (c d : nat) := d < a_next s /\ forall l c', somewhere s (IEnd l c' (Some d)) -> c' = c.
Definition owned_by s i : Prop := match i with IWaits _ _ c L => forall d, In d L -> owned s c d | _ => True end.
Lemma end_started : forall tr s l c d, reach tr s -> somewhere s (IEnd l c (Some d)) -> d < a_next s.
Proof.
  intros tr s l c d R H. destruct (task_reach _ _ _ _ _ _ R d) as [T F]. pose proof (tot_ge (ends d) _ _ H) as G. cbn [ends] in G. rewrite Nat.eqb_refl in G. cbn in G.
  destruct (Nat.lt_ge_cases d (a_next s)) as [|GE]; [assumption|]. apply F in GE. rewrite GE in T. cbn in T. lia.
Qed.
Lemma owned_reach : forall tr s, reach tr s -> (forall c d, In (c, d) (a_queue s) -> owned s c d) /\ all (owned_by s) s.
Proof.
  induction 1 as [|tr s im t ev s' R IH E]; [split; [intros c d []|now apply init_all]|]. destruct IH as [IH1 IH2].
  destruct (step_inv _ _ _ _ _ _ _ E) as (A & i & k & B & e & sp & s1 & Q & L & X1 & S').
  assert (HIn : In (i :: k) (a_threads s)) by (rewrite Q; apply in_or_app; right; now left).
  pose proof (mid_nth _ _ _ _ _ Q L) as NT.
  assert (NX : a_next s <= a_next s'). { rewrite S'. cbn [set_threads a_next]. split_step R NT X1; [clear -X1; exec_cases X1; cbn; lia|destruct U; cbn; lia]. }
  (* the consumer of a task does not change *)
  assert (KEEP : forall c d, owned s c d -> owned s' c d).
  { intros c d [O1 O2]. split; [lia|]. intros l c' H. destruct (somewhere_new _ _ _ _ _ _ _ _ _ _ _ _ _ _ _ Q X1 S' H) as [Hn|Ho]; [|eauto]. exfalso. split_step R NT X1; [|destruct Hn]. clear -Hn X1 O1.
    exec_cases X1; try (match goal with o : op X |- _ => destruct o end); unfold code, consume_code in Hn; cbn [app concat In] in Hn; rewrite ?app_nil_r in Hn;
      try (apply in_map_iff in Hn; destruct Hn as (z & Hn & _)); repeat (destruct Hn as [Hn|Hn]); try discriminate; try contradiction; injection Hn as _ _ Hn; lia. }
  assert (NEWT : forall c d, In (c, d) (a_queue s') -> In (c, d) (a_queue s) \/ (d = a_next s /\ throws im = false /\ normal edges filt im t s i = Some (ev, e, sp, s1) /\ exists l x, i = IAsync l c x)).
  { intros c d H. rewrite S' in H. cbn [set_threads a_queue] in H. split_step R NT X1; [|destruct U; now left]. pose proof X1 as X0. clear -H X1 X0.
    exec_cases X1; cbn [new_call set_lock set_queue set_stat new_task set_st set_exc a_queue] in H; try (now left); try (apply filter_In in H as [H _]; now left).
    - apply in_app_or in H as [H|[H|[]]]; [now left|]. injection H as -> <-. right. split; [reflexivity|]. split; [reflexivity|]. split; [assumption|]. now exists l, x.
    - apply in_app_or in H as [H|[H|[]]]; [now left|]. injection H as -> <-. right. split; [reflexivity|]. split; [reflexivity|]. split; [assumption|]. now exists l, x. }
  split.
  - intros c d H. destruct (NEWT _ _ H) as [H1|(-> & TH & X0 & l & x & ->)]; [auto|]. cbn [ANetModel.normal] in X0. rewrite TH in X0. split.
    + rewrite S'. cbn [set_threads a_next]. injection X0 as _ _ _ <-. cbn. lia.
    + intros l' c' HS. destruct (somewhere_new _ _ _ _ _ _ _ _ _ _ _ _ _ _ _ Q X1 S' HS) as [Hn|Ho]; [|apply (end_started _ _ _ _ _ R) in Ho; lia].
      injection X0 as _ <- <- _. destruct (immediately im); cbn in Hn; repeat (destruct Hn as [Hn|Hn]); try discriminate; try contradiction; now injection Hn.
  - intros j Hj. destruct (somewhere_new _ _ _ _ _ _ _ _ _ _ _ _ _ _ _ Q X1 S' Hj) as [Hn|Ho].
    + destruct j as [| | | | | | | | | | | | | |n r c L0]; try exact I. intros d HD. apply KEEP. pose proof (IH2 _ (head_somewhere _ _ _ HIn)) as IH3. split_step R NT X1; [|destruct Hn]. clear -Hn X1 HD IH1 IH3.
      exec_cases X1; try (match goal with o : op X |- _ => destruct o end); unfold code, consume_code in Hn; cbn [app concat In] in Hn; rewrite ?app_nil_r in Hn;
        try (apply in_map_iff in Hn; destruct Hn as (z & Hn & _)); repeat (destruct Hn as [Hn|Hn]); try discriminate; try contradiction.
      * injection Hn as <- <- <- <-. apply in_queue in HD. auto.
      * injection Hn as <- <- <- <-. apply IH3. assumption.
      * injection Hn as <- <- <- <-. apply IH3. now right.
    + pose proof (IH2 _ Ho) as O. destruct j; try exact I. intros d HD. apply KEEP. apply O. assumption.
Qed.

(** ** What a task can do *)
Variable rank : nat -> nat.
Hypothesis up : forall e, In e edges -> rank (g_from e) < rank (g_to e).
Definition top : nat := list_max (map (fun e => rank (g_to e)) edges).
Lemma slot_rank : forall a e p, In (a, e) (slots p) -> rank p < rank (g_to e) <= top.
Proof.
  intros a e p H. apply in_slots in H as [H1 H2]. apply nth_error_In in H1. split; [subst p; now apply up|]. unfold top.
  assert (F : Forall (fun m => m <= list_max (map (fun e => rank (g_to e)) edges)) (map (fun e => rank (g_to e)) edges)) by (apply list_max_le; lia).
  rewrite Forall_forall in F. apply F. apply in_map_iff. now exists e.
Qed.
Definition lo (m : nat) i : Prop :=
  match i with
  | ISlot _ c _ _ | IAsync _ c _ | IUnlock c | IAcqTrim c | ITrim c => m < rank c <= top
  | IEmit _ p _ | IConsume _ p _ => m <= rank p
  | IParked _ | IEnd _ _ _ => True
  | _ => False
  end.
Definition lowk k := forall l c d, In (IEnd l c (Some d)) k -> forall j, In j k -> lo (rank c) j.
Lemma low_reach : forall tr s, reach tr s -> stacks lowk s.
Proof.
  induction 1 as [|tr s im t ev s' R IH E].
  - unfold stacks. cbn [initial a_threads]. apply Forall_forall. intros k Hk l c d H. apply in_map_iff in Hk as (p & <- & _). apply in_map_iff in H as (o & H & _). discriminate.
  - pose proof (okk_reach _ _ _ _ _ _ R) as HO. 
    assert (C : stacks (fun k => okk edges k /\ lowk k) s). { unfold stacks in *. rewrite Forall_forall in *. intros k Hk. split; auto. }
    assert (C' : stacks (fun k => okk edges k /\ lowk k) s'); [|unfold stacks in *; rewrite Forall_forall in *; intros k Hk; now apply C'].
    eapply stacks_step; [|exact C|exact E]. intros i k e sp s1 NT [HK HL] X1. destruct (okk_exec _ _ _ _ _ _ _ _ _ _ _ HK X1) as [K1 K2].
    assert (G : (forall l c d, In (IEnd l c (Some d)) k -> forall j, In j e -> lo (rank c) j) /\ (forall l c d, ~ In (IEnd l c (Some d)) e) /\ Forall lowk sp).
    { clear K1 K2 C HO. assert (HL' : forall l c d, In (IEnd l c (Some d)) k -> lo (rank c) i) by (intros l c d H; apply (HL l c d); [now right|now left]).
      split_step R NT X1; [|split; [intros ? ? ? _ ? []|split; [intros ? ? ? []|constructor]]].
      exec_cases X1; try (match goal with o : op X |- _ => destruct o end); unfold code, consume_code; cbn [app];
        (split; [intros l1 c1 d1 H1 j1 Hj1|split; [intros l1 c1 d1 H1|repeat constructor]]);
        repeat match goal with
               | H : In _ [] |- _ => destruct H
               | H : In _ (_ :: _) |- _ => destruct H as [H|H]
               | H : In _ (map _ _) |- _ => apply in_map_iff in H; destruct H as ([? ?] & H & HSL)
               end; try discriminate; try (now injection H1);
        try (specialize (HL' _ _ _ H1)); subst; cbn [lo fst snd] in *; try exact I; try assumption; try contradiction; try lia.
      - apply slot_rank in HSL. lia.
      - intros l2 c2 d2 H2 j2 H3. destruct H2 as [H2|[H2|[]]]; [discriminate|]. injection H2 as <- <- <-. destruct H3 as [<-|[<-|[]]]; cbn [lo]; [lia|exact I].
      - intros l2 c2 d2 H2 j2 H3. destruct H2 as [H2|[H2|[H2|[]]]]; try discriminate. injection H2 as <- <- <-. destruct H3 as [<-|[<-|[<-|[]]]]; cbn [lo]; [exact I|lia|exact I]. }
    destruct G as (G1 & G2 & G3). split.
    + split; [assumption|]. intros l c d H j Hj. apply in_app_or in H as [H|H]; [now elim (G2 l c d)|].
      apply in_app_or in Hj as [Hj|Hj]; [eapply G1; eauto|]. apply (HL l c d); now right.
    + rewrite Forall_forall in *. intros k' H. split; auto.
Qed.

(** ** No deadlock *)
Notation normal := (ANetModel.normal edges filt).
Lemma move : forall im s k, In k (a_threads s) -> match k with [] => False | i :: _ => normal im 0 s i <> None end -> exists t, step im t s <> None.
Proof.
  intros im s k H E. destruct k as [|i k]; [destruct E|]. destruct (In_nth_error _ _ H) as (t & HT). exists t. unfold ANetModel.step. rewrite HT.
  assert (G : exec1 im t s i <> None -> match exec1 im t s i with Some (ev, e, sp, s1) => Some (ev, set_threads s1 (upd (a_threads s) t (e ++ k) ++ sp)) | None => None end <> None).
  { destruct (exec1 im t s i) as [[[[? ?] ?] ?]|]; [discriminate|congruence]. }
  apply G. unfold ANetModel.exec1. destruct (a_exc s t); [discriminate|].
  clear -E. destruct i; cbn [ANetModel.normal] in *; repeat match goal with |- context [match ?z with _ => _ end] => destruct z eqn:? end; try discriminate; try assumption; congruence.
Qed.
Ltac go im Hk := apply (move im _ _ Hk); cbn; try (destruct (throws im)); discriminate.
Lemma task_stack : forall tr s l c d, reach tr s -> somewhere s (IEnd l c (Some d)) -> exists k, In k (a_threads s) /\ In (IEnd l c (Some d)) k.
Proof. intros tr s l c d R (k & H1 & H2). now exists k. Qed.
Lemma locked_moves : forall im m tr s c, reach tr s -> S top - rank c <= m -> a_lock s c = true -> exists t, step im t s <> None.
Proof.
  intros im. induction m as [m IHm] using lt_wf_ind. intros tr s c R Hm HL.
  pose proof (lock_reach _ _ _ _ _ _ R c) as T. rewrite HL in T. cbn in T.
  destruct (tot_pos (fun i => b2n (holds c i)) s) as (i & Hi & P); [lia|]. cbn beta in P.
  assert (HH : holds c i = true) by (destruct (holds c i); [reflexivity|cbn in P; lia]).
  assert (HG : holding i = true) by (destruct i; cbn in *; try discriminate; reflexivity).
  destruct (holding_head _ _ _ _ _ _ _ R Hi HG) as (k & Hk).
  destruct i; cbn in HG; try discriminate; try (go im Hk).
  - apply (move im s _ Hk). cbn. destruct (queue s c0); [discriminate|]. destruct (a_stat s n); discriminate.
  - cbn [holds] in HH. apply Nat.eqb_eq in HH. subst c0. destruct l as [|d L]; [apply (move im s _ Hk); cbn; discriminate|].
    destruct (a_stat s d) eqn:ES; try (apply (move im s _ Hk); cbn; rewrite ES; discriminate).
    + (* SFresh *) exfalso. destruct (owned_reach _ _ R) as [_ O]. destruct (O _ Hi d (or_introl eq_refl)) as [O1 _]. apply (task_reach _ _ _ _ _ _ R d) in ES. lia.
    + (* SActive *)
      destruct (task_reach _ _ _ _ _ _ R d) as [TD _]. rewrite ES in TD. cbn in TD. destruct (tot_pos (ends d) s) as (j & Hj & PJ); [lia|].
      destruct j as [| | | | | | | | | |l c' d'| | | |]; cbn in PJ; try lia. destruct d' as [d'|]; [|lia]. destruct (Nat.eqb_spec d' d) as [->|]; [|cbn in PJ; lia].
      destruct (owned_reach _ _ R) as [_ O]. destruct (O _ Hi d (or_introl eq_refl)) as [_ O2]. specialize (O2 _ _ Hj). subst c'.
      destruct Hj as (kj & Hkj & Hj). pose proof (low_reach _ _ R) as LW. unfold stacks in LW. rewrite Forall_forall in LW. specialize (LW _ Hkj _ _ _ Hj).
      pose proof (okk_reach _ _ _ _ _ _ R) as HO. unfold stacks in HO. rewrite Forall_forall in HO. specialize (HO _ Hkj).
      destruct kj as [|h kj]; [destruct Hj|]. specialize (LW h (or_introl eq_refl)).
      assert (REC : forall c2, rank c < rank c2 <= top -> a_lock s c2 = true -> exists t, step im t s <> None).
      { intros c2 H1 H2. apply (IHm (S top - rank c2)) with (tr := tr) (c := c2); auto. lia. }
      destruct h; cbn [lo] in LW; try contradiction; try (go im Hkj).
      * destruct m0; [apply (move im s _ Hkj); cbn; discriminate|]. destruct (a_lock s c0) eqn:EL; [eauto|]. apply (move im s _ Hkj). cbn. rewrite EL. discriminate.
      * destruct (a_lock s c0) eqn:EL; [eauto|]. apply (move im s _ Hkj). cbn. rewrite EL. discriminate.
      * apply (move im s _ Hkj). cbn. destruct (queue s c0); [discriminate|]. destruct (a_stat s n0); discriminate.
      * destruct HO as [[_ (l1 & c1 & x1 & ->)] _]. destruct Hj as [Hj|[Hj|[Hj|[]]]]; try discriminate. injection Hj as -> -> ->. apply (move im s _ Hkj). cbn. rewrite ES. discriminate.
      * apply (move im s _ Hkj). cbn. destruct (throws im); [discriminate|]. destruct (filt c0) as [f|]; [|discriminate]. destruct (f (a_st s c0) x) as [? ?]. discriminate.
Qed.
(** The threads that make the calls are never deferred tasks. *)
Lemma user_reach : forall tr s, reach tr s -> forall t, t < length programs -> exists k, nth_error (a_threads s) t = Some k /\ forall d, ~ In (IParked d) k.
Proof.
  induction 1 as [|tr s im t ev s' R IH E]; intros t0 HT.
  - cbn [initial a_threads]. rewrite nth_error_map. destruct (nth_error programs t0) as [p|] eqn:EP; [|apply nth_error_None in EP; lia]. exists (map ICall p). split; [reflexivity|]. intros d H. apply in_map_iff in H as (o & H & _). discriminate.
  - destruct (IH _ HT) as (k0 & N0 & P0). destruct (step_inv _ _ _ _ _ _ _ E) as (A & i & k & B & e & sp & s1 & Q & L & X1 & ->). cbn [set_threads a_threads]. rewrite Q in N0.
    pose proof (mid_nth _ _ _ _ _ Q L) as NT.
    destruct (Nat.lt_trichotomy t0 (length A)) as [LT|[->|GT]].
    + exists k0. rewrite nth_error_app1 in * by assumption. now split.
    + exists (e ++ k). rewrite nth_error_app2 in * by lia. rewrite Nat.sub_diag in *. cbn in N0 |- *. injection N0 as <-. split; [reflexivity|]. intros d H. apply in_app_or in H as [H|H]; [|apply (P0 d); now right].
      split_step R NT X1; [|destruct H]. clear -X1 H. exec_cases X1; try (match goal with o : op X |- _ => destruct o end); unfold code, consume_code in H; cbn [app In] in H;
        try (apply in_map_iff in H; destruct H as (z & H & _)); repeat (destruct H as [H|H]); try discriminate; try contradiction.
    + exists k0. rewrite nth_error_app2 in * by lia. destruct (t0 - length A) as [|m] eqn:EM; [lia|]. cbn [nth_error] in *. split; [|assumption]. rewrite nth_error_app1; [assumption|]. apply nth_error_Some. congruence.
Qed.
Lemma no_deadlock_reach : forall im tr s, reach tr s -> (exists t, step im t s <> None) \/ forall t, t < length programs -> nth_error (a_threads s) t = Some [].
Proof.
  intros im tr s R.
  assert (D : forall t, t < length programs -> nth_error (a_threads s) t = Some [] \/ exists t', step im t' s <> None).
  { intros t HT. destruct (user_reach _ _ R _ HT) as (k & N & P). destruct k as [|i k]; [now left|right]. pose proof (nth_error_In _ _ N) as Hk.
    assert (LM : forall c, a_lock s c = true -> exists t', step im t' s <> None) by (intros c HL; eapply locked_moves; eauto).
    destruct i; try (go im Hk).
    - destruct m; [apply (move im s _ Hk); cbn; discriminate|]. destruct (a_lock s c) eqn:EL; [eauto|]. apply (move im s _ Hk). cbn. rewrite EL. discriminate.
    - destruct (a_lock s c) eqn:EL; [eauto|]. apply (move im s _ Hk). cbn. rewrite EL. discriminate.
    - apply (move im s _ Hk). cbn. destruct (queue s c); [discriminate|]. destruct (a_stat s n); discriminate.
    - exfalso. apply (P d). now left.
    - apply (move im s _ Hk). cbn. destruct (throws im); [discriminate|]. destruct (filt c) as [f|]; [|discriminate]. destruct (f (a_st s c) x) as [? ?]. discriminate.
    - destruct (a_lock s c) eqn:EL; [eauto|]. apply (move im s _ Hk). cbn. rewrite EL. discriminate.
    - apply (LM c). pose proof (lock_reach _ _ _ _ _ _ R c) as T. pose proof (tot_ge (fun i => b2n (holds c i)) _ _ (head_somewhere _ _ _ Hk)) as G. cbn [holds] in G. rewrite Nat.eqb_refl in G. cbn in G. destruct (a_lock s c); [reflexivity|cbn in T; lia]. }
  assert (ALL : forall n, n <= length programs -> (exists t, step im t s <> None) \/ forall t, t < n -> nth_error (a_threads s) t = Some []).
  { induction n as [|n IH]; intros HN; [right; intros t HT; lia|]. destruct IH as [IH|IH]; [lia|now left|]. destruct (D n) as [D'|D']; [lia| |now left]. right. intros t HT. destruct (Nat.eq_dec t n) as [->|]; [assumption|]. apply IH. lia. }
  apply ALL. lia.
Qed.

(** ** Every history ends *)
Fixpoint emission (u : nat) (p : nat) : nat :=
  match u with
  | 0 => 1
  | S u' => S (list_sum (map (fun ie => 11 + emission u' (g_to (snd ie))) (slots p)))
  end.
Fixpoint flushes (u : nat) (p : nat) : nat :=
  match u with
  | 0 => 1
  | S u' => S (list_sum (map (fun ie => 4 + flushes u' (g_to (snd ie))) (slots p)))
  end.
Lemma sum_le : forall {A} (f g : A -> nat) L, (forall a, In a L -> f a <= g a) -> list_sum (map f L) <= list_sum (map g L).
Proof.
  intros A f g L H. induction L as [|a L IH]; [reflexivity|]. cbn [map]. cbn [list_sum fold_right]. apply Nat.add_le_mono; [apply H; now left|]. apply IH. intros b Hb. apply H. now right.
Qed.
Lemma emission_mono : forall u u' p, u <= u' -> emission u p <= emission u' p.
Proof.
  induction u as [|u IH]; intros u' p H; [destruct u'; cbn; lia|]. destruct u' as [|u']; [lia|]. cbn [emission]. apply le_n_S. apply sum_le. intros ie _. specialize (IH u' (g_to (snd ie)) ltac:(lia)). lia.
Qed.
Lemma flushes_mono : forall u u' p, u <= u' -> flushes u p <= flushes u' p.
Proof.
  induction u as [|u IH]; intros u' p H; [destruct u'; cbn; lia|]. destruct u' as [|u']; [lia|]. cbn [flushes]. apply le_n_S. apply sum_le. intros ie _. specialize (IH u' (g_to (snd ie)) ltac:(lia)). lia.
Qed.
Definition cost_issue (p : nat) : nat := emission (S top - rank p) p.
Definition cost_flush (p : nat) : nat := flushes (S top - rank p) p.
Lemma cost_issue_slots : forall p, S (list_sum (map (fun ie => 11 + cost_issue (g_to (snd ie))) (slots p))) <= cost_issue p.
Proof.
  intros p. unfold cost_issue at 2. destruct (slots p) as [|[a e] L] eqn:ES; [destruct (S top - rank p); cbn [emission list_sum map fold_right]; lia|].
  assert (HR : rank p < S top). { assert (H : In (a, e) (slots p)) by (rewrite ES; now left). apply slot_rank in H. lia. }
  destruct (S top - rank p) as [|u] eqn:EU; [lia|]. cbn [emission]. rewrite ES. apply le_n_S. apply sum_le. intros [a' e'] H. cbn [snd]. rewrite <- ES in H. apply slot_rank in H.
  unfold cost_issue. pose proof (emission_mono (S top - rank (g_to e')) u (g_to e') ltac:(lia)). lia.
Qed.
Lemma cost_flush_slots : forall p, S (list_sum (map (fun ie => 4 + cost_flush (g_to (snd ie))) (slots p))) <= cost_flush p.
Proof.
  intros p. unfold cost_flush at 2. destruct (slots p) as [|[a e] L] eqn:ES; [destruct (S top - rank p); cbn [flushes list_sum map fold_right]; lia|].
  assert (HR : rank p < S top). { assert (H : In (a, e) (slots p)) by (rewrite ES; now left). apply slot_rank in H. lia. }
  destruct (S top - rank p) as [|u] eqn:EU; [lia|]. cbn [flushes]. rewrite ES. apply le_n_S. apply sum_le. intros [a' e'] H. cbn [snd]. rewrite <- ES in H. apply slot_rank in H.
  unfold cost_flush. pose proof (flushes_mono (S top - rank (g_to e')) u (g_to e') ltac:(lia)). lia.
Qed.
Definition cost_op (o : op X) : nat := match o with OSend p _ => cost_issue p | OFlushConsumers p => cost_flush p | OFlush c => 4 + cost_flush c end.
Definition cost i : nat :=
  match i with
  | ICall o => 2 + cost_op o
  | IReturn _ _ => 1
  | IEmit _ p _ => cost_issue p
  | ISlot _ c _ _ => 11 + cost_issue c
  | IAsync _ c _ => 10 + cost_issue c
  | IUnlock _ => 1
  | IAcqTrim _ => 3
  | ITrim _ => 2
  | IParked _ => 1
  | IConsume _ c _ => 1 + cost_issue c
  | IEnd _ _ _ => 1
  | IEmitFlush _ _ p => cost_flush p
  | ISlotFlush _ _ c => 4 + cost_flush c
  | IFlush _ _ c => 3 + cost_flush c
  | IWaits _ _ c L => 2 + cost_flush c + length L
  end.
Definition deferred s : nat := length (filter (fun d => match a_stat s d with SDeferred => true | _ => false end) (seq 0 (a_next s))).
Definition measure s : nat := tot cost s + length (a_queue s) + deferred s.
Lemma wt_map : forall {A} w (h : A -> instr X) L, wt w (map h L) = list_sum (map (fun a => w (h a)) L).
Proof. intros. unfold wt. now rewrite map_map. Qed.
Lemma queue_split : forall s c, length (queue s c) + length (filter (fun cd : nat * nat => negb (fst cd =? c)) (a_queue s)) = length (a_queue s).
Proof. intros s c. unfold queue. rewrite map_length. induction (a_queue s) as [|cd q IH]; [reflexivity|]. cbn [filter]. destruct (fst cd =? c); cbn [negb length]; lia. Qed.
Lemma filter_le : forall {A} (P : A -> bool) L, length (filter P L) <= length L.
Proof. intros A P L. induction L as [|a L IH]; [reflexivity|]. cbn [filter]. destruct (P a); cbn [length]; lia. Qed.
Lemma filter_lt : forall {A} (P : A -> bool) L a, In a L -> P a = false -> length (filter P L) < length L.
Proof.
  intros A P L a. induction L as [|b L IH]; [intros []|]. intros [->|H] HP; cbn [filter].
  - rewrite HP. pose proof (filter_le P L). cbn [length]. lia.
  - specialize (IH H HP). destruct (P b); cbn [length]; lia.
Qed.
Lemma count_set : forall (P Q : nat -> bool) L d, NoDup L -> (forall e, e <> d -> P e = Q e) -> length (filter P L) + (if existsb (Nat.eqb d) L then b2n (Q d) else 0) = length (filter Q L) + (if existsb (Nat.eqb d) L then b2n (P d) else 0).
Proof.
  intros P Q L d ND H. induction L as [|e L IH]; [reflexivity|]. inversion ND as [|? ? N1 N2]; subst. specialize (IH N2). cbn [filter existsb]. destruct (Nat.eqb_spec d e) as [->|N]; cbn [orb].
  - assert (F : existsb (Nat.eqb e) L = false). { destruct (existsb _ L) eqn:EX; [|reflexivity]. apply existsb_exists in EX as (e' & E1 & E2). apply Nat.eqb_eq in E2. now subst. }
    rewrite F in IH. destruct (P e), (Q e); cbn [length b2n]; lia.
  - rewrite (H e) by congruence. destruct (Q e); cbn [length]; lia.
Qed.
Definition is_deferred (v : stat) : bool := match v with SDeferred => true | _ => false end.
Lemma deferred_set : forall s d v, d < a_next s -> deferred (set_stat s d v) + b2n (is_deferred (a_stat s d)) = deferred s + b2n (is_deferred v).
Proof.
  intros s d v H. unfold deferred. cbn [set_stat a_next a_stat].
  pose proof (count_set (fun e => is_deferred (if e =? d then v else a_stat s e)) (fun e => is_deferred (a_stat s e)) (seq 0 (a_next s)) d (seq_NoDup _ _)) as C.
  assert (EX : existsb (Nat.eqb d) (seq 0 (a_next s)) = true) by (apply existsb_exists; exists d; split; [apply in_seq; lia|apply Nat.eqb_refl]).
  rewrite EX, Nat.eqb_refl in C. unfold is_deferred in *. rewrite C; [reflexivity|]. intros e N. destruct (Nat.eqb_spec e d); [contradiction|reflexivity].
Qed.
Lemma deferred_new : forall s v, a_stat s (a_next s) = SFresh -> deferred (set_stat (new_task s) (a_next s) v) = deferred s + b2n (is_deferred v).
Proof.
  intros s v F. assert (N : deferred (new_task s) = deferred s).
  { unfold deferred. cbn [new_task a_next a_stat]. rewrite seq_S, filter_app, app_length. cbn [filter plus]. rewrite F. cbn. lia. }
  pose proof (deferred_set (new_task s) (a_next s) v) as D. cbn [new_task a_next a_stat] in D. specialize (D ltac:(lia)). rewrite F in D. cbn [is_deferred b2n] in D. rewrite N in D. unfold new_task in *. lia.
Qed.
Lemma deferred_ext : forall s s', a_stat s' = a_stat s -> a_next s' = a_next s -> deferred s' = deferred s.
Proof. intros s s' H1 H2. unfold deferred. now rewrite H1, H2. Qed.
Lemma measure_step : forall tr s im t ev s', reach tr s -> step im t s = Some (ev, s') -> measure s' < measure s.
Proof.
  intros tr s im t ev s' R E.
  destruct (tot_step edges filt cost _ _ _ _ _ E) as (i & e & sp & s1 & X1 & T & (k & Hk & NT) & HLock & HQueue & HStat & HNext & _).
  unfold measure. rewrite HQueue, (deferred_ext s1 s') by auto. pose proof (owned_reach _ _ R) as [_ OW]. specialize (OW _ (head_somewhere _ _ _ Hk)).
  clear HLock HQueue HStat HNext E. split_step R NT X1.
  2:{ rewrite ?wts_nil, ?wt_nil in T. destruct U; cbn [cost] in T; cbn [set_stat set_exc a_queue]; try lia.
      - pose proof (end_started _ _ _ _ _ R (head_somewhere _ _ _ Hk)) as LT. pose proof (deferred_set (set_exc s t false) d SDone LT) as D. cbn [is_deferred b2n] in D.
        rewrite (deferred_ext s (set_exc s t false)) in D by reflexivity. lia.
      - rewrite (deferred_ext s (set_exc s t false)) by reflexivity. lia. }
  exec_cases X1; try (match goal with o : op X |- _ => destruct o end); unfold code, consume_code in *; rewrite ?wts_cons, ?wts_nil, ?wt_app, ?wt_cons, ?wt_nil, ?wt_map in *;
    cbn [cost cost_op app length] in *;
    try (match goal with |- context [deferred (?h s)] => rewrite (deferred_ext s (h s)) by reflexivity end);
    try (match goal with |- context [deferred (?h s ?v)] => rewrite (deferred_ext s (h s v)) by reflexivity end);
    try (match goal with |- context [deferred (set_exc (set_lock s ?c false) ?u ?v)] => rewrite (deferred_ext s (set_exc (set_lock s c false) u v)) by reflexivity end);
    try (match goal with |- context [deferred (?h s ?v ?w)] => rewrite (deferred_ext s (h s v w)) by reflexivity end);
    cbn [set_queue new_call set_lock set_stat set_st set_exc new_task a_queue] in *; try lia.
  - (* IEmit *) pose proof (cost_issue_slots p). cbn [fst snd] in T. lia.
  - (* IAsync, immediately *)
    rewrite (deferred_ext (set_stat (new_task s) (a_next s) SActive)), deferred_new by (try reflexivity; apply (task_reach _ _ _ _ _ _ R); lia). rewrite app_length. cbn. lia.
  - rewrite (deferred_ext (set_stat (new_task s) (a_next s) SDeferred)), deferred_new by (try reflexivity; apply (task_reach _ _ _ _ _ _ R); lia). rewrite app_length. cbn. lia.
  - (* ITrim *)
    match goal with H : queue s c = n :: _ |- _ => assert (HI : In n (queue s c)) by (rewrite H; now left) end. apply in_queue in HI.
    pose proof (filter_lt (fun cd : nat * nat => negb (snd cd =? n)) (a_queue s) (c, n) HI) as FL. cbn [snd] in FL. rewrite Nat.eqb_refl in FL. specialize (FL eq_refl). lia.
  - (* IEnd *)
    pose proof (end_started _ _ _ _ _ R (head_somewhere _ _ _ Hk)) as LT. pose proof (deferred_set s n SDone LT) as D. cbn [is_deferred b2n] in D. lia.
  - (* IEmitFlush *) pose proof (cost_flush_slots p). cbn [fst snd] in T. lia.
  - (* IFlush *) pose proof (queue_split s c). lia.
  - (* IWaits *)
    destruct (OW n0 (or_introl eq_refl)) as [LT _]. pose proof (deferred_set s n0 SActive LT) as D. match goal with H : a_stat s n0 = _ |- _ => rewrite H in D end. cbn [is_deferred b2n] in D. lia.
Qed.
Lemma measure_run : forall sched tr s tr' s', reach tr s -> run sched s = (tr', s') -> length tr' + measure s' <= measure s.
Proof.
  induction sched as [|[t im] r IH]; intros tr s tr' s' R H; cbn [ANetModel.run] in H.
  - injection H as <- <-. cbn. lia.
  - destruct (step im t s) as [[e s1]|] eqn:E; [|eauto]. destruct (run r s1) as [tr1 s2] eqn:E2. injection H as <- <-.
    pose proof (measure_step _ _ _ _ _ _ R E). specialize (IH _ _ _ _ (reachS _ _ _ _ _ _ _ _ _ _ R E) E2). cbn [length]. lia.
Qed.
Lemma completes : forall im tr s, reach tr s -> exists sched tr' s', run (map (fun t => (t, im)) sched) s = (tr', s') /\ forall t, t < length programs -> nth_error (a_threads s') t = Some [].
Proof.
  intros im tr s. remember (measure s) as m eqn:EM. revert tr s EM. induction m as [m IH] using lt_wf_ind. intros tr s -> R.
  destruct (no_deadlock_reach im tr s R) as [(t & HT)|HD]; [|exists [], [], s; now split].
  destruct (step im t s) as [[e s1]|] eqn:E; [|congruence].
  destruct (IH _ (measure_step _ _ _ _ _ _ R E) _ _ eq_refl (reachS _ _ _ _ _ _ _ _ _ _ R E)) as (sched & tr' & s' & H1 & H2).
  exists (t :: sched), (e :: tr'), s'. split; [|assumption]. cbn [map ANetModel.run]. now rewrite E, H1.
Qed.
End Term.

Section Acyclic.
Context {X St : Type}.
Variable edges : list edge.
Variable filt : nat -> option (St -> X -> St * option X).
Variable s0 : nat -> St.
Variable programs : list (list (op X)).
Hypothesis AC : acyclic edges.
Notation run := (run edges filt).
Theorem no_deadlock : forall sched tr s im, run sched (initial s0 programs) = (tr, s) ->
  (exists t, step edges filt im t s <> None) \/ forall t, t < length programs -> nth_error (a_threads s) t = Some [].
Proof. intros sched tr s im RUN. destruct AC as (rank & up). eapply no_deadlock_reach; [exact up|]. eapply run_reach; exact RUN. Qed.
Theorem bounded : exists N, forall sched tr s, run sched (initial s0 programs) = (tr, s) -> length tr <= N.
Proof.
  destruct AC as (rank & up). exists (measure edges rank (initial s0 programs)). intros sched tr s RUN. pose proof (measure_run edges filt s0 programs rank up sched [] _ tr s (reach0 _ _ _ _) RUN). lia.
Qed.
Theorem can_be_completed : forall sched tr s im, run sched (initial s0 programs) = (tr, s) ->
  exists sched' tr' s', run (map (fun t => (t, im)) sched') s = (tr', s') /\ forall t, t < length programs -> nth_error (a_threads s') t = Some [].
Proof. intros sched tr s im RUN. destruct AC as (rank & up). eapply completes; [exact up|]. eapply run_reach; exact RUN. Qed.
End Acyclic.
