(** If consume() does not call back, some thread can always move. *)
From Verif Require Import Prelude ConcModel ConcSpec ConcInv ConcLocks ConcDeliv ConcInvs ConcSilent ConcMode.
Local Open Scope nat_scope.

Section P.
Context {X : Type}.
Implicit Types (s : state X) (k e : list (instr X)) (i : instr X) (tr : list (event X)).

(** consume() makes no calls on its own consumer *)
Definition no_calls : X -> list (op X) := fun _ => [].

Definition neutral i : bool :=
  match i with
  | ICall _ | IReturn _ | IEmitSample _ _ | IEmitFlush _ | IEmitDisconnect _ | ITrySample _ _ _ | ITryFlush _ | ITryDisconnect _ _
  | IDestroySignals _ | IConnect _ _ | IHook _ | IInsert _ _ | IDestroy => true
  | _ => false
  end.
(** The critical sections a thread can be in. *)
Inductive shape : list (instr X) -> Prop :=
| sh_nil : shape []
| sh_s1 : forall d x, shape [IAcqS; ISyncBody d x]
| sh_s2 : forall d x, shape [ISyncBody d x]
| sh_s3 : forall m d x, shape [IStart m d x; IEnd m d]
| sh_s4 : forall m d, shape [IEnd m d]
| sh_s5 : shape [IRelS]
| sh_a1 : forall d x, shape [IAcqA; IAsyncBody d x]
| sh_a2 : forall d x, shape [IAsyncBody d x]
| sh_a3 : forall d, shape [IPush d]
| sh_a4 : shape [IRelA; IAcqA; ITrim]
| sh_a5 : shape [IAcqA; ITrim]
| sh_a6 : shape [ITrim]
| sh_a7 : shape [IRelA]
| sh_f1 : shape [IAcqA; IFlush]
| sh_f2 : shape [IFlush]
| sh_f3 : forall l, shape [IWaits l]
| sh_f4 : forall d x l, shape [IStart KAsync d x; IEnd KAsync d; IWaits l]
| sh_f5 : forall d l, shape [IEnd KAsync d; IWaits l]
| sh_d1 : shape [IAcqA; IAcqX; IDisconnect; IAcqA; IFlush]
| sh_d2 : shape [IAcqX; IDisconnect; IAcqA; IFlush]
| sh_d3 : shape [IDisconnect; IAcqA; IFlush]
| sh_d4 : forall l, shape [IDiscs l; IAcqA; IFlush]
| sh_d5 : shape [IRelX; IRelA; IAcqA; IFlush]
| sh_d6 : shape [IRelA; IAcqA; IFlush]
| sh_p1 : forall p, shape [IContains p; IAcqA; IAcqX; IFindErase p]
| sh_p2 : forall p, shape [IAcqA; IAcqX; IFindErase p]
| sh_p3 : forall p, shape [IAcqX; IFindErase p]
| sh_p4 : forall p, shape [IFindErase p]
| sh_p5 : shape [IRelX; IRelA].
Definition good k : Prop := exists e k0, k = e ++ k0 /\ shape e /\ forallb neutral k0 = true.
Lemma neutral_map : forall A (g : A -> instr X) l k, (forall a, neutral (g a) = true) -> forallb neutral k = true -> forallb neutral (map g l ++ k) = true.
Proof. intros A g l k H Hk. rewrite forallb_app, Hk, andb_true_r. induction l as [|a l IH]; cbn; [reflexivity|]. now rewrite H, IH. Qed.
Lemma good_step : forall i k0 e, expand no_calls i e -> good (i :: k0) -> good (e ++ k0).
Proof.
  intros i k0 e HE (e1 & k1 & Hk & HS & HN).
  destruct HS; cbn [app] in Hk;
  (* head in a critical section *)
  try (injection Hk as -> ->; cbn [expand] in HE; unfold consume_code, no_calls in HE; cbn in HE;
    repeat match goal with
    | H : _ \/ _ |- _ => destruct H
    | H : exists _, _ |- _ => destruct H
    | H : match ?l with [] => _ | _ :: _ => _ end |- _ => destruct l
    | H : e = match ?m with KSync => _ | KAsync => _ end |- _ => destruct m
    end; subst e; cbn [app];
    match goal with |- good ?k =>
      first [ exists [], k1; split; [reflexivity|split; [constructor|exact HN]]
            | (eexists [_], k1; split; [reflexivity|split; [constructor|exact HN]])
            | (eexists [_;_], k1; split; [reflexivity|split; [constructor|exact HN]])
            | (eexists [_;_;_], k1; split; [reflexivity|split; [constructor|exact HN]])
            | (eexists [_;_;_;_], k1; split; [reflexivity|split; [constructor|exact HN]])
            | idtac ] end; fail).
  (* head outside *)
  subst k1. cbn [forallb] in HN. apply andb_prop in HN. destruct HN as [Hi HN].
  destruct i; try discriminate; cbn [expand] in HE.
  - subst e. rewrite <- app_assoc. cbn [app].
    destruct o; cbn [code app].
    + exists [], (IEmitSample p x :: IReturn (OSend p x) :: k0). split; [reflexivity|split; [constructor|exact HN]].
    + exists [], (IEmitFlush p :: IReturn (OFlushConsumers p) :: k0). split; [reflexivity|split; [constructor|exact HN]].
    + exists [], (IConnect p m :: IReturn (OConnect p m) :: k0). split; [reflexivity|split; [constructor|exact HN]].
    + exists [IAcqA; IFlush], (IReturn OFlush :: k0). split; [reflexivity|split; [constructor|exact HN]].
    + exists [IAcqA; IAcqX; IDisconnect; IAcqA; IFlush], (IReturn ODisconnectFlush :: k0). split; [reflexivity|split; [constructor|exact HN]].
    + exists [], (IEmitDisconnect p :: IDestroySignals p :: IReturn (ODestroyProducer p) :: k0). split; [reflexivity|split; [constructor|exact HN]].
    + exists [IAcqA; IAcqX; IDisconnect; IAcqA; IFlush], (IDestroy :: IReturn ODestroyConsumer :: k0). split; [reflexivity|split; [constructor|exact HN]].
  - subst e. exists [], k0. split; [reflexivity|split; [constructor|exact HN]].
  - destruct HE as [l ->]. exists [], (map (fun h => ITrySample (hk_conn h) (hk_kind h) x) l ++ k0). split; [reflexivity|split; [constructor|now apply neutral_map]].
  - destruct HE as [l ->]. exists [], (map (fun h => ITryFlush (hk_conn h)) l ++ k0). split; [reflexivity|split; [constructor|now apply neutral_map]].
  - destruct HE as [l ->]. exists [], (map (fun h => ITryDisconnect (hk_conn h) p) l ++ k0). split; [reflexivity|split; [constructor|now apply neutral_map]].
  - destruct HE as [->|[d ->]]; [exists [], k0; split; [reflexivity|split; [constructor|exact HN]]|].
    exists (slot_code m d x), k0. split; [reflexivity|split; [destruct m; constructor|exact HN]].
  - destruct HE as [->| ->]; [exists [], k0|exists flush_code, k0]; (split; [reflexivity|split; [constructor|exact HN]]).
  - destruct HE as [->| ->]; [exists [], k0|exists (disconnect_slot_code p), k0]; (split; [reflexivity|split; [constructor|exact HN]]).
  - subst e. exists [], k0. split; [reflexivity|split; [constructor|exact HN]].
  - destruct HE as (h1 & h2 & h3 & c & ->). exists [], ([IHook h1; IHook h2; IHook h3; IInsert c p] ++ k0). split; [reflexivity|split; [constructor|exact HN]].
  - subst e. exists [], k0. split; [reflexivity|split; [constructor|exact HN]].
  - subst e. exists [], k0. split; [reflexivity|split; [constructor|exact HN]].
  - subst e. exists [], k0. split; [reflexivity|split; [constructor|exact HN]].
Qed.
Definition all_good s : Prop := forall t k, nth_error (c_threads s) t = Some k -> good k.
Lemma all_good_step : forall b pw im t s s' ev, all_good s -> step b pw no_calls im t s = Some (ev, s') -> all_good s'.
Proof.
  intros b pw im t s s' ev HF H. refine (local_step good b pw no_calls im t s s' ev H HF _ _).
  - intros d x. exists (consume_code no_calls KAsync d x), []. split; [now rewrite app_nil_r|split; [constructor|reflexivity]].
  - intros i k0 e _ _ He Hg. eapply good_step; eauto.
Qed.
Lemma all_good_initial : forall conns q (programs : list (list (op X))), all_good (initial conns q programs).
Proof.
  intros conns q programs t k Hn. cbn [initial c_threads] in Hn. rewrite nth_error_map in Hn. destruct (nth_error programs t) as [l|]; [|discriminate]. injection Hn as <-.
  exists [], (map ICall l ++ []). split; [now rewrite app_nil_r|split; [constructor|now apply neutral_map]].
Qed.

(** A flush waits only for tasks in the queue. *)
Definition waits_queued s : Prop := forall t k l, nth_error (c_threads s) t = Some k -> In (IWaits l) k -> forall d, In d l -> In d (c_queue s).

Ltac unst := cbn [go spawn set_threads set_conns set_hooks set_alock set_xlock set_shared set_queue set_stat new_delivery new_conn set_dead set_crash unhook
       c_threads c_queue c_stat c_next c_conns c_hooks c_alock c_xlock c_shared c_alive c_crash c_nextc] in *.
Lemma waits_queued_step : forall b pw body im t s s' ev, locks s -> waits_queued s -> step b pw body im t s = Some (ev, s') -> waits_queued s'.
Proof.
  intros b pw body im t s s' ev HL HW H u k l Hu Hl d Hd.
  assert (Hkeep : forall k0 l0, nth_error (c_threads s) u = Some k0 -> In (IWaits l0) k0 -> In d l0 -> In d (c_queue s)) by (intros; eapply HW; eauto).
  step_cases H; injection H as <- <-; try subst; unst; fold_body; eauto.
  all: try (apply nth_snoc in Hu; destruct Hu as [Hu|[_ Hu]];
     [|exfalso; subst k; rewrite <- (app_nil_r (consume_code _ _ _ _)) in Hl; apply in_waits_consume in Hl; exact Hl]).
  all: apply nth_upd in Hu; destruct Hu as [[-> Hu]|[Hne Hu]]; try subst k.
  all: try (eapply Hkeep; [exact Hu|exact Hl|exact Hd]; fail).
  all: try match goal with Hn : nth_error _ _ = Some (?i :: ?k0) |- _ =>
     assert (Hin : In (IWaits l) k0) by
       (first [ exact Hl | apply in_waits_code in Hl; exact Hl | apply in_waits_consume in Hl; exact Hl
              | apply in_waits_map in Hl; [exact Hl|discriminate]
              | cbn in Hl; intuition discriminate ]);
     first [ eapply Hkeep; [exact Hn|right; exact Hin|exact Hd]
           | exfalso; destruct (head_A _ _ _ _ HL Hn eq_refl) as [_ HZ]; pose proof (wt_in dA _ _ dA_nn Hin) as HC; cbn in HC; lia ]; fail end.
  all: try (exfalso; match goal with Hn : nth_error _ ?tt = Some (?i :: ?k0), Hu : nth_error _ ?uu = Some ?k, Hne : ?uu <> ?tt |- _ =>
     destruct (head_A _ _ _ _ HL Hn eq_refl) as [HA _]; pose proof (holds_A _ _ _ _ HL Hu Hl eq_refl) as HB; congruence end; fail).
  - assert (Hin : In (IWaits l) l1) by (destruct m; cbn in Hl; intuition discriminate). eapply Hkeep; [exact E0|right; exact Hin|exact Hd].
  - destruct Hl as [Hl|Hl]; [injection Hl as <-; exact Hd|]. eapply Hkeep; [exact E0|right; exact Hl|exact Hd].
  - eapply Hkeep; [exact E0|eapply in_waits_consume; exact Hl|exact Hd].
  - destruct Hl as [Hl|Hl]; [injection Hl as <-; eapply Hkeep; [exact E0|left; reflexivity|right; exact Hd]|]. eapply Hkeep; [exact E0|right; exact Hl|exact Hd].
Qed.
Lemma waits_queued_initial : forall conns q (programs : list (list (op X))), waits_queued (initial conns q programs).
Proof.
  intros conns q programs t k l Hn Hi. cbn [initial c_threads] in Hn. rewrite nth_error_map in Hn. destruct (nth_error programs t) as [p|]; [|discriminate]. injection Hn as <-.
  apply in_map_iff in Hi. destruct Hi as (o & E & _). discriminate.
Qed.

(** ** Progress *)
Definition can_block i : bool := match i with IAcqA | IAcqX | IAcqS | IWaits (_ :: _) => true | _ => false end.
Lemma runs : forall b pw body im t s i k, c_crash s = None -> nth_error (c_threads s) t = Some (i :: k) -> can_block i = false -> step b pw body im t s <> None.
Proof.
  intros b pw body im t s i k HC Hn HB. unfold step. rewrite HC, Hn. cbn [is_none negb].
  destruct (touches i && negb (c_alive s)); [discriminate|]. destruct i; try discriminate.
  - destruct (connected s SigSample c); discriminate.
  - destruct (length (c_conns s) =? 0); discriminate.
  - destruct (length (c_conns s) =? 0); [discriminate|destruct im; discriminate].
  - destruct (c_queue s); [discriminate|]. destruct (c_stat s n); discriminate.
  - destruct l; discriminate.
  - destruct l; discriminate.
  - destruct (existsb _ _); [discriminate|destruct b; discriminate].
  - destruct (find _ _) as [[c q]|]; discriminate.
Qed.
Lemma wt_neutral : forall f k, (forall i, neutral i = true -> f i = 0%Z) -> forallb neutral k = true -> wt f k = 0%Z.
Proof.
  intros f k Hf. induction k as [|i k IH]; cbn [forallb wt]; [reflexivity|]. intros H. apply andb_prop in H. destruct H as [H1 H2]. rewrite Hf, IH by assumption. reflexivity.
Qed.
Lemma head_of : forall k, good k -> forall f, (forall i, neutral i = true -> f i = 0%Z) -> exists e k0, k = e ++ k0 /\ shape e /\ wt f k = wt f e.
Proof.
  intros k (e & k0 & -> & HS & HN) f Hf. exists e, k0. split; [reflexivity|]. split; [exact HS|]. rewrite wt_app, (wt_neutral f k0 Hf HN). lia.
Qed.
Section Stuck.
Variables (b : build) (pw : bool) (s : state X) (tr : list (event X)).
Hypothesis HI : inv3 s tr.
Hypothesis HG : all_good s.
Hypothesis HQ : waits_queued s.
Hypothesis HC : c_crash s = None.
Hypothesis HS : forall t, step b pw no_calls true t s = None.
Lemma st_runs : forall t i k, nth_error (c_threads s) t = Some (i :: k) -> can_block i = true.
Proof. intros t i k Hn. destruct (can_block i) eqn:E; [reflexivity|]. now destruct (runs b pw no_calls true t s i k HC Hn E). Qed.
Lemma st_no_end : forall t k m d, nth_error (c_threads s) t = Some k -> In (IEnd m d) k -> False.
Proof.
  intros t k m d Hn Hi. destruct (HG _ _ Hn) as (e & k0 & -> & HSh & HN).
  assert (HX : In (IEnd m d) e).
  { apply in_app_or in Hi. destruct Hi as [Hi|Hi]; [exact Hi|]. rewrite forallb_forall in HN. specialize (HN _ Hi). discriminate. }
  destruct HSh; cbn in HX; try (intuition discriminate); pose proof (st_runs _ _ _ Hn) as HR; cbn in HR; discriminate.
Qed.
Lemma st_no_waits : forall t d l k, nth_error (c_threads s) t = Some (IWaits (d :: l) :: k) -> False.
Proof.
  intros t d l k Hn. pose proof (HS t) as H. unfold step in H. rewrite HC, Hn in H. cbn [is_none negb] in H.
  destruct (touches (IWaits (d :: l)) && negb (c_alive s)); [discriminate|].
  pose proof (HQ _ _ _ Hn (or_introl eq_refl) d (or_introl eq_refl)) as Hq. apply nq_in in Hq.
  destruct HI as [[HJ _] _]. pose proof (i_deliv _ _ HJ d) as HD. unfold deliv_ok in HD.
  pose proof (tot_nonneg (isP d) (c_threads s) (isP_nn d)).
  destruct (c_stat s d) as [|y|m| |] eqn:Es; try discriminate; try lia. destruct m; [lia|].
  destruct (tot_pos (isE d) (c_threads s) (isE_nn d)) as (u & k' & Hu & Hk); [lia|].
  assert (HX : exists m', In (IEnd m' d) k').
  { clear - Hk. induction k' as [|i k IH]; cbn in Hk; [lia|]. destruct (Z.ltb_spec 0 (isE d i)) as [C|C].
    - destruct i; cbn in C; try lia. unfold hit in C. destruct (Nat.eqb_spec d0 d); [|lia]. subst. eexists. now left.
    - destruct IH as (m & Hm); [lia|]. exists m. now right. }
  destruct HX as [m' HX]. exact (st_no_end _ _ _ _ Hu HX).
Qed.
Lemma st_heads : forall t i k, nth_error (c_threads s) t = Some (i :: k) -> i = IAcqA \/ i = IAcqX \/ i = IAcqS.
Proof.
  intros t i k Hn. pose proof (st_runs _ _ _ Hn) as H. destruct i; try discriminate; auto. destruct l; [discriminate|]. now destruct (st_no_waits _ _ _ _ Hn).
Qed.
Lemma st_x : c_xlock s = None.
Proof.
  destruct (c_xlock s) as [t|] eqn:E; [|reflexivity]. exfalso. destruct HI as [[HJ _] _]. destruct (i_locks _ _ HJ) as (L1 & _ & L3 & _).
  pose proof (L3 _ E) as HT. apply nth_error_Some in HT. destruct (nth_error (c_threads s) t) as [k|] eqn:Hn; [|congruence].
  destruct (L1 _ _ Hn) as (_ & W & _). rewrite E, one_same in W.
  destruct (head_of _ (HG _ _ Hn) wX) as (e & k0 & -> & HSh & HW); [intros []; cbn; try discriminate; reflexivity|]. rewrite W in HW.
  destruct HSh; cbn in HW; try lia; destruct (st_heads _ _ _ Hn) as [H|[H|H]]; discriminate.
Qed.
Lemma st_s : forall t, c_shared s t = 0.
Proof.
  intros t. destruct HI as [[HJ _] _]. destruct (i_locks _ _ HJ) as (L1 & _ & _ & L4 & _).
  destruct (nth_error (c_threads s) t) as [k|] eqn:Hn; [|apply L4; now apply nth_error_None].
  destruct (L1 _ _ Hn) as (_ & _ & W & _).
  destruct (head_of _ (HG _ _ Hn) wS) as (e & k0 & -> & HSh & HW); [intros []; cbn; try discriminate; reflexivity|]. rewrite W in HW.
  destruct HSh; try (cbn in HW; lia); destruct (st_heads _ _ _ Hn) as [H|[H|H]]; discriminate.
Qed.
Lemma st_no_acqx : forall t k, nth_error (c_threads s) t = Some (IAcqX :: k) -> False.
Proof.
  intros t k Hn. pose proof (HS t) as H. unfold step in H. rewrite HC, Hn in H. cbn [is_none negb] in H.
  destruct (touches IAcqX && negb (c_alive s)); [discriminate|]. rewrite st_x in H. cbn [is_none andb] in H.
  assert (HR : no_readers s = true) by (apply forallb_forall; intros u _; rewrite st_s; reflexivity). rewrite HR in H. discriminate.
Qed.
Lemma st_a : c_alock s = None.
Proof.
  destruct (c_alock s) as [t|] eqn:E; [|reflexivity]. exfalso. destruct HI as [[HJ _] _]. destruct (i_locks _ _ HJ) as (L1 & L2 & _).
  pose proof (L2 _ E) as HT. apply nth_error_Some in HT. destruct (nth_error (c_threads s) t) as [k|] eqn:Hn; [|congruence].
  destruct (L1 _ _ Hn) as (W & _). rewrite E, one_same in W.
  destruct (head_of _ (HG _ _ Hn) wA) as (e & k0 & -> & HSh & HW); [intros []; cbn; try discriminate; reflexivity|]. rewrite W in HW.
  destruct HSh; cbn in HW; try lia; try (destruct (st_heads _ _ _ Hn) as [H|[H|H]]; discriminate); eapply st_no_acqx; eauto.
Qed.
Lemma st_done : forall t k, nth_error (c_threads s) t = Some k -> k = [].
Proof.
  intros t [|i k] Hn; [reflexivity|]. exfalso. pose proof (HS t) as H. unfold step in H. rewrite HC, Hn in H. cbn [is_none negb] in H.
  destruct (touches i && negb (c_alive s)); [discriminate|].
  destruct (st_heads _ _ _ Hn) as [->|[->| ->]].
  - rewrite st_a in H. discriminate.
  - now destruct (st_no_acqx _ _ Hn).
  - rewrite st_x in H. cbn [is_none andb] in H.
    assert (HW : writer_waiting s = false).
    { destruct (writer_waiting s) eqn:E; [|reflexivity]. exfalso. unfold writer_waiting in E. apply existsb_exists in E. destruct E as (k' & Hk & E).
      apply In_nth_error in Hk. destruct Hk as [u Hu]. destruct k' as [|[] k']; try discriminate. eapply st_no_acqx; eauto. }
    rewrite HW, andb_false_r in H. discriminate.
Qed.
End Stuck.
Lemma reach_live : forall b pw conns q programs tr s', exec b pw no_calls (initial conns q programs) tr s' -> inv3 s' tr /\ all_good s' /\ waits_queued s'.
Proof.
  intros b pw conns q programs tr s' HE. split; [eapply reach_inv3; eauto|].
  pose proof (exec_keep3 b pw no_calls (fun s _ => all_good s /\ waits_queued s) (fun _ => True)) as HK. cbv beta in HK.
  refine (HK _ _ _ _ [] HE _ _ _); [|apply inv3_initial|split; [apply all_good_initial|apply waits_queued_initial]|auto].
  intros im t s s'' ev tr0 [[HI _] _] [H1 H2] _ HS. split; [eapply all_good_step; eauto|eapply waits_queued_step; eauto]. apply HI.
Qed.
Lemma step_none_im : forall b pw body im t s, step b pw body true t s = None -> step b pw body im t s = None.
Proof.
  intros b pw body im t s H. unfold step in *. destruct (negb (is_none (c_crash s))); [reflexivity|]. destruct (nth_error (c_threads s) t) as [[|i k]|]; try reflexivity.
  destruct (touches i && negb (c_alive s)); [exact H|]. destruct i; try exact H. destruct (length (c_conns s) =? 0); [exact H|discriminate].
Qed.
(** In every reachable state some thread can move, unless all have finished or the program has crashed. *)
Lemma no_deadlock : forall b pw conns q programs tr s', exec b pw no_calls (initial conns q programs) tr s' -> c_crash s' = None ->
  (exists t, t < length (c_threads s') /\ step b pw no_calls true t s' <> None) \/ (forall t k, nth_error (c_threads s') t = Some k -> k = []).
Proof.
  intros b pw conns q programs tr s' HE HC. destruct (reach_live _ _ _ _ _ _ _ HE) as (H1 & H2 & H3).
  destruct (existsb (fun t => negb (is_none (step b pw no_calls true t s'))) (seq 0 (length (c_threads s')))) eqn:E.
  - left. apply existsb_exists in E. destruct E as (t & Ht & E). apply in_seq in Ht. exists t. split; [lia|]. intros H. rewrite H in E. discriminate.
  - right. assert (HN : forall t, step b pw no_calls true t s' = None).
    { intros t. destruct (Nat.ltb_spec t (length (c_threads s'))) as [C|C].
      - destruct (step b pw no_calls true t s') eqn:Es; [|reflexivity]. exfalso. assert (HX : existsb (fun t => negb (is_none (step b pw no_calls true t s'))) (seq 0 (length (c_threads s'))) = true); [|congruence].
        apply existsb_exists. exists t. split; [apply in_seq; lia|]. rewrite Es. reflexivity.
      - unfold step. destruct (negb _); [reflexivity|]. apply nth_error_None in C. rewrite C. reflexivity. }
    exact (st_done b pw s' tr H1 H2 H3 HC HN).
Qed.
End P.
