(** If consume() does not call back, every execution is finite: all calls complete. *)
From Verif Require Import Prelude ConcModel ConcSpec ConcInv ConcLocks ConcDeliv ConcInvs ConcSilent ConcMode ConcLive.
Local Open Scope nat_scope.

Section P.
Context {X : Type}.
Implicit Types (s : state X) (k e : list (instr X)) (i : instr X) (tr : list (event X)).

Ltac unst := cbn [go spawn set_threads set_conns set_hooks set_alock set_xlock set_shared set_queue set_stat new_delivery new_conn set_dead set_crash unhook
       c_threads c_queue c_stat c_next c_conns c_hooks c_alock c_xlock c_shared c_alive c_crash c_nextc] in *.

Definition len {A} (l : list A) : Z := Z.of_nat (length l).
Lemma len_filter : forall A (f : A -> bool) l, (len (filter f l) <= len l)%Z.
Proof. intros A f l. unfold len. induction l as [|a l IH]; cbn [filter length]; [lia|]. destruct (f a); cbn [length]; lia. Qed.
Lemma len_app : forall A (l m : list A), len (l ++ m) = (len l + len m)%Z.
Proof. intros. unfold len. rewrite app_length. lia. Qed.
Lemma len_nn : forall A (l : list A), (0 <= len l)%Z. Proof. intros. unfold len. lia. Qed.
Lemma wt_mapc : forall A f (g : A -> instr X) l c, (forall a, f (g a) = c) -> wt f (map g l) = (len l * c)%Z.
Proof. intros A f g l c H. unfold len. induction l as [|a l IH]; cbn [map wt length]; [lia|]. rewrite H, IH. lia. Qed.

Variables (H D C : Z).
Hypothesis HnH : (0 <= H)%Z.
Hypothesis HnD : (0 <= D)%Z.
Hypothesis HnC : (0 <= C)%Z.

(** potential hooks, connections, queue entries *)
Definition ph i : Z := match i with IHook _ => 1 | IConnect _ _ => 3 | ICall (OConnect _ _) => 3 | _ => 0 end%Z.
Definition pc i : Z := match i with IInsert _ _ => 1 | IConnect _ _ => 1 | ICall (OConnect _ _) => 1 | _ => 0 end%Z.
Definition pq i : Z := match i with IPush _ => 1 | IAsyncBody _ _ => 1 | ITrySample _ _ _ => 1 | IEmitSample _ _ => H | ICall (OSend _ _) => H | _ => 0 end%Z.
Lemma ph_nn : forall i, (0 <= ph i)%Z. Proof. intros []; cbn; try lia. destruct o; lia. Qed.
Lemma pc_nn : forall i, (0 <= pc i)%Z. Proof. intros []; cbn; try lia. destruct o; lia. Qed.
Lemma pq_nn : forall i, (0 <= pq i)%Z. Proof. intros []; cbn; try lia. destruct o; lia. Qed.
Definition bounds s : Prop :=
  (len (c_hooks s) + tot ph (c_threads s) <= H)%Z /\ (len (c_conns s) + tot pc (c_threads s) <= C)%Z /\ (len (c_queue s) + tot pq (c_threads s) <= D)%Z.

Lemma calls_none : forall d m (x : X), consume_code no_calls m d x = [IStart m d x; IEnd m d]. Proof. reflexivity. Qed.

Lemma len_cons : forall A (a : A) l, len (a :: l) = (1 + len l)%Z. Proof. intros. unfold len. cbn [length]. lia. Qed.
Lemma len_nil : forall A, len (@nil A) = 0%Z. Proof. reflexivity. Qed.
Lemma hooks_of_len : forall s g p, (len (hooks_of s g p) <= len (c_hooks s))%Z. Proof. intros. apply len_filter. Qed.
Ltac lens := rewrite ?len_app, ?len_cons, ?len_nil in *;
  repeat match goal with
  | |- context [len (filter ?f ?l)] => lazymatch goal with _ : (len (filter f l) <= len l)%Z |- _ => fail | _ => pose proof (len_filter _ f l); pose proof (len_nn _ (filter f l)) end
  end.
Lemma bound1_step : forall b pw im t s s' ev, (len (c_hooks s) + tot ph (c_threads s) <= H)%Z -> step b pw no_calls im t s = Some (ev, s') -> (len (c_hooks s') + tot ph (c_threads s') <= H)%Z.
Proof.
  intros b pw im t s s' ev B HS.
  step_cases HS; injection HS as <- <-; try subst; unst; auto;
  rewrite ?tot_app; (try (erewrite !tot_upd by eassumption)); cbn [tot]; rewrite ?calls_none; rewrite ?wt_app; cbn [app wt ph map no_calls]; rewrite ?wt_app; cbn [app wt ph];
  rewrite ?wt_map0 by reflexivity; lens; try lia.
  - destruct o; cbn; lia.
  - destruct m; cbn; lia.
Qed.
Lemma bound2_step : forall b pw im t s s' ev, (len (c_conns s) + tot pc (c_threads s) <= C)%Z -> step b pw no_calls im t s = Some (ev, s') -> (len (c_conns s') + tot pc (c_threads s') <= C)%Z.
Proof.
  intros b pw im t s s' ev B HS. pose proof (len_nn _ (c_conns s)).
  step_cases HS; injection HS as <- <-; try subst; unst; auto;
  rewrite ?tot_app; (try (erewrite !tot_upd by eassumption)); cbn [tot]; rewrite ?calls_none; rewrite ?wt_app; cbn [app wt pc map no_calls]; rewrite ?wt_app; cbn [app wt pc];
  rewrite ?wt_map0 by reflexivity; lens; try lia.
  - destruct o; cbn; lia.
  - destruct m; cbn; lia.
Qed.
Lemma bound3_step : forall b pw im t s s' ev, (len (c_hooks s) <= H)%Z -> (len (c_queue s) + tot pq (c_threads s) <= D)%Z -> step b pw no_calls im t s = Some (ev, s') ->
  (len (c_queue s') + tot pq (c_threads s') <= D)%Z.
Proof.
  intros b pw im t s s' ev BH B HS. pose proof (len_nn _ (c_queue s)).
  assert (HHk : forall g p, (len (hooks_of s g p) <= H)%Z) by (intros g p; pose proof (hooks_of_len s g p); lia).
  step_cases HS; injection HS as <- <-; try subst; unst; auto;
  rewrite ?tot_app; (try (erewrite !tot_upd by eassumption)); cbn [tot]; rewrite ?calls_none; rewrite ?wt_app; cbn [app wt pq map no_calls]; rewrite ?wt_app; cbn [app wt pq];
  try (match goal with HQ : c_queue s = _ |- _ => rewrite HQ in * end); 
  lens; try (rewrite wt_map0 by reflexivity); try lia.
  - destruct o; cbn; lia.
  - rewrite (wt_mapc _ _ _ _ 1%Z) by reflexivity. specialize (HHk SigSample p). lia.
  - destruct m; cbn [slot_code wt pq]; lia.
Qed.
Lemma bounds_step : forall b pw im t s s' ev, bounds s -> step b pw no_calls im t s = Some (ev, s') -> bounds s'.
Proof.
  intros b pw im t s s' ev (B1 & B2 & B3) HS. split; [eapply bound1_step; eauto|split; [eapply bound2_step; eauto|eapply bound3_step; eauto]].
  pose proof (tot_nonneg ph (c_threads s) ph_nn). lia.
Qed.

(** ** The measure *)
Fixpoint sumd (f : nat -> stat X) (n : nat) : Z := match n with 0%nat => 0 | S m => sumd f m + (match f m with SDeferred _ => 1 | _ => 0 end) end%Z.
Lemma sumd_ext : forall f g n, (forall d, d < n -> f d = g d) -> sumd f n = sumd g n.
Proof. intros f g n HE. induction n as [|n IH]; cbn; [reflexivity|]. rewrite IH, HE by (intros; auto with arith). reflexivity. Qed.
Lemma sumd_upd : forall f n d v, d < n -> sumd (fun a => if a =? d then v else f a) n =
  (sumd f n - (match f d with SDeferred _ => 1 | _ => 0 end) + (match v with SDeferred _ => 1 | _ => 0 end))%Z.
Proof.
  intros f n d v HL. induction n as [|n IH]; [lia|]. cbn [sumd]. destruct (Nat.eq_dec d n) as [->|N].
  - rewrite Nat.eqb_refl. rewrite (sumd_ext _ f n); [lia|]. intros a Ha. destruct (Nat.eqb_spec a n); [lia|reflexivity].
  - rewrite IH by lia. destruct (Nat.eqb_spec n d); [lia|]. lia.
Qed.
Lemma sumd_nn : forall f n, (0 <= sumd f n)%Z.
Proof. intros f n. induction n as [|n IH]; cbn; [lia|]. destruct (f n); lia. Qed.
Definition cost0 i : Z :=
  match i with
  | ITrim => 2 | IPush _ => 6 | IEnd _ _ => 2 | IAsyncBody _ _ => 11 | ISyncBody _ _ => 4
  | IWaits l => 2 + len l | IFlush => 3 + D | IDiscs l => 3 + len l | IDisconnect => 4 + C | IFindErase _ => 3
  | ITrySample _ _ _ => 13 | ITryFlush _ => D + 5 | ITryDisconnect _ _ => 8 | IEmitSample _ _ => 1 + H * 13 | IEmitFlush _ => 1 + H * (D + 5)
  | IEmitDisconnect _ => 1 + H * 8 | IConnect _ _ => 5
  | _ => 1
  end%Z.
Definition cost i : Z := match i with ICall o => 2 + wt cost0 (code o) | _ => cost0 i end%Z.
Lemma cost0_pos : forall i, (1 <= cost0 i)%Z.
Proof. intros []; cbn [cost0]; try lia; try (pose proof (len_nn _ l); lia); nia. Qed.
Lemma cost_pos : forall i, (1 <= cost i)%Z.
Proof. intros i. destruct i; try exact (cost0_pos _). cbn [cost]. pose proof (wt_nonneg cost0 (code o)). assert (forall i, 0 <= cost0 i)%Z by (intros i; pose proof (cost0_pos i); lia). specialize (H0 H1). lia. Qed.
Lemma cost_nn : forall i, (0 <= cost i)%Z. Proof. intros i. pose proof (cost_pos i). lia. Qed.
Lemma cost_code : forall o, wt cost (code o) = wt cost0 (code o). Proof. intros []; reflexivity. Qed.
Definition measure s : Z := (tot cost (c_threads s) + len (c_queue s) + 4 * sumd (c_stat s) (c_next s))%Z.
Lemma measure_nn : forall s, (0 <= measure s)%Z.
Proof. intros s. unfold measure. pose proof (tot_nonneg cost (c_threads s) cost_nn). pose proof (len_nn _ (c_queue s)). pose proof (sumd_nn (c_stat s) (c_next s)). lia. Qed.
Lemma measure_step : forall b pw im t s s' ev tr, inv3 s tr -> bounds s -> step b pw no_calls im t s = Some (ev, s') -> any_crash ev = false -> (measure s' < measure s)%Z.
Proof.
  intros b pw im t s s' ev tr [[HI _] _] (B1 & B2 & B3) HS HC.
  pose proof (i_deliv _ _ HI) as HD.
  pose proof (len_nn _ (c_queue s)) as LQ. pose proof (tot_nonneg pq (c_threads s) pq_nn) as TQ. pose proof (tot_nonneg pc (c_threads s) pc_nn) as TC.
  assert (HHk : forall g p, (0 <= len (hooks_of s g p) <= H)%Z).
  { intros g p. pose proof (hooks_of_len s g p). pose proof (tot_nonneg ph (c_threads s) ph_nn). pose proof (len_nn _ (hooks_of s g p)). lia. }
  assert (HF : c_stat s (c_next s) = SFresh) by (eapply fresh_above; eauto).
  unfold measure.
  assert (HB : forall i k0 d, nth_error (c_threads s) t = Some (i :: k0) -> isB d i = 1%Z -> c_stat s d = SFresh /\ d < c_next s).
  { intros i k0 d Hn Hb. exact (proj1 (active_head _ _ _ _ _ d HD Hn) Hb). }
  assert (HE : forall i k0 d, nth_error (c_threads s) t = Some (i :: k0) -> isE d i = 1%Z -> (exists m, c_stat s d = SActive m) /\ d < c_next s).
  { intros i k0 d Hn Hb. pose proof (proj2 (active_head _ _ _ _ _ d HD Hn) Hb) as HX. split; [exact HX|]. destruct HX as [m HX]. pose proof (HD d) as HY. unfold deliv_ok in HY. rewrite HX in HY. destruct m; lia. }
  assert (HFd : forall d x, c_stat s d = SDeferred x -> d < c_next s).
  { intros d x Hd. pose proof (HD d) as HY. unfold deliv_ok in HY. rewrite Hd in HY. lia. }
  step_cases HS; injection HS as <- <-; try subst; try discriminate HC; unst;
  rewrite ?tot_app; (try (erewrite !tot_upd by eassumption)); cbn [tot]; rewrite ?calls_none; rewrite ?wt_app; cbn [app wt cost cost0 map no_calls]; rewrite ?wt_app; cbn [app wt cost cost0]; 
  try (match goal with HQ : c_queue s = _ |- _ => rewrite HQ in * end); 
  lens; try lia.
  - rewrite cost_code. lia.
  - rewrite (wt_mapc _ _ _ _ 13%Z) by reflexivity. specialize (HHk SigSample p). nia.
  - rewrite (wt_mapc _ _ _ _ (D + 5)%Z) by reflexivity. specialize (HHk SigFlush p). nia.
  - rewrite (wt_mapc _ _ _ _ 8%Z) by reflexivity. specialize (HHk SigDisconnect p). nia.
  - cbn [sumd]. rewrite HF. destruct m; cbn [slot_code wt cost cost0]; lia.
  - destruct (HB _ _ d eq_refl) as [H1 H2]; [cbn; unfold hit; now rewrite Nat.eqb_refl|]. rewrite sumd_upd, H1 by exact H2. lia.
  - destruct (HB _ _ d eq_refl) as [H1 H2]; [cbn; unfold hit; now rewrite Nat.eqb_refl|]. rewrite sumd_upd, H1 by exact H2. lia.
  - destruct (HB _ _ d eq_refl) as [H1 H2]; [cbn; unfold hit; now rewrite Nat.eqb_refl|]. rewrite sumd_upd, H1 by exact H2. lia.
  - destruct (HB _ _ d eq_refl) as [H1 H2]; [cbn; unfold hit; now rewrite Nat.eqb_refl|]. rewrite sumd_upd, H1 by exact H2. lia.
  - destruct (HB _ _ d eq_refl) as [H1 H2]; [cbn; unfold hit; now rewrite Nat.eqb_refl|]. rewrite sumd_upd, H1 by exact H2. lia.
  - destruct (HE _ _ d eq_refl) as [[m' H1] H2]; [cbn; unfold hit; now rewrite Nat.eqb_refl|]. rewrite sumd_upd, H1 by exact H2. lia.
  - destruct (HE _ _ d eq_refl) as [[m' H1] H2]; [cbn; unfold hit; now rewrite Nat.eqb_refl|]. rewrite sumd_upd, H1 by exact H2. lia.
  - match goal with Hd : c_stat s n = SDeferred _ |- _ => pose proof (HFd _ _ Hd) as H2; rewrite sumd_upd, Hd by exact H2 end. lia.
  - unfold len at 1. rewrite map_length. fold (len (c_conns s)). lia.
Qed.
Lemma crash_ends : forall b pw body im t s, c_crash s <> None -> step b pw body im t s = None.
Proof. intros b pw body im t s HC. unfold step. destruct (c_crash s); [reflexivity|congruence]. Qed.
Lemma step_crash : forall b pw body im t s s' ev, step b pw body im t s = Some (ev, s') -> any_crash ev = true -> c_crash s' <> None.
Proof. intros b pw body im t s s' ev HS HC. step_cases HS; injection HS as <- <-; try subst; try discriminate HC; unst; discriminate. Qed.
Lemma exec_bounded : forall b pw s tr s' tr0, exec b pw no_calls s tr s' -> inv3 s tr0 -> bounds s -> (len tr <= measure s + 1)%Z.
Proof.
  intros b pw s tr s' tr0 HX. revert tr0. induction HX as [s|s im t ev s1 tr s' HS HX IH]; intros tr0 HI HB.
  - pose proof (measure_nn s). rewrite len_nil. lia.
  - rewrite len_cons. destruct (any_crash ev) eqn:Ec.
    + pose proof (step_crash _ _ _ _ _ _ _ _ HS Ec) as HC. inversion HX as [|? ? ? ? ? ? ? HS' HX']; subst.
      * rewrite len_nil. pose proof (measure_nn s). lia.
      * rewrite crash_ends in HS' by exact HC. discriminate.
    + pose proof (measure_step _ _ _ _ _ _ _ _ HI HB HS Ec). specialize (IH (tr0 ++ [ev]) (inv3_step _ _ _ _ _ _ _ _ _ HI HS) (bounds_step _ _ _ _ _ _ _ HB HS)). lia.
Qed.
End P.

Section Q.
Context {X : Type}.
Lemma terminates : forall conns (programs : list (list (op X))), exists N : nat, forall b pw q tr s', exec b pw no_calls (initial conns q programs) tr s' -> length tr <= N.
Proof.
  intros conns programs. pose (s0 := initial conns 0 programs).
  pose (H := (len (c_hooks s0) + tot ph (c_threads s0))%Z). pose (C := (len (c_conns s0) + tot pc (c_threads s0))%Z). pose (D := tot (pq H) (c_threads s0)).
  assert (HH : (0 <= H)%Z) by (unfold H; pose proof (len_nn _ (c_hooks s0)); pose proof (tot_nonneg ph (c_threads s0) ph_nn); lia).
  assert (HC : (0 <= C)%Z) by (unfold C; pose proof (len_nn _ (c_conns s0)); pose proof (tot_nonneg pc (c_threads s0) pc_nn); lia).
  assert (HD : (0 <= D)%Z) by (unfold D; apply tot_nonneg; now apply pq_nn).
  exists (Z.to_nat (measure H D C s0 + 1)). intros b pw q tr s' HX.
  assert (HB : bounds H D C (initial conns q programs)).
  { unfold bounds. split; [unfold H; cbn [s0 initial c_hooks c_threads]; lia|split; [unfold C; cbn [s0 initial c_conns c_threads]; lia|]]. unfold D. cbn [initial c_queue c_threads s0]. rewrite len_nil. lia. }
  pose proof (exec_bounded H D C HH HD HC b pw _ _ _ [] HX (inv3_initial _ _ _) HB) as HL.
  change (measure H D C (initial conns q programs)) with (measure H D C s0) in HL. unfold len in HL. pose proof (measure_nn H D C HH HD HC s0). lia.
Qed.
(** Whatever has happened so far, there is a way to continue in which all threads finish (or the program crashes); by [terminates] and [no_deadlock] every way to
    continue ends like this. *)
Lemma exec_snoc : forall b pw (body : X -> list (op X)) s tr s1 im t ev s2, exec b pw body s tr s1 -> step b pw body im t s1 = Some (ev, s2) -> exec b pw body s (tr ++ [ev]) s2.
Proof. intros. apply exec_app. exists s1. split; [assumption|]. econstructor; [eassumption|constructor]. Qed.
Lemma completes : forall b pw conns q (programs : list (list (op X))) tr s', exec b pw no_calls (initial conns q programs) tr s' ->
  exists tr' s'', exec b pw no_calls s' tr' s'' /\ (c_crash s'' <> None \/ forall t k, nth_error (c_threads s'') t = Some k -> k = []).
Proof.
  intros b pw conns q programs tr s' HX. destruct (terminates conns programs) as [N HN].
  assert (HG : forall m tr s', N - length tr <= m -> exec b pw no_calls (initial conns q programs) tr s' ->
    exists tr' s'', exec b pw no_calls s' tr' s'' /\ (c_crash s'' <> None \/ forall t k, nth_error (c_threads s'') t = Some k -> k = [])).
  { induction m as [|m IH]; intros tr0 s0 HM HE0.
    - destruct (c_crash s0) eqn:EC; [exists [], s0; split; [constructor|left; congruence]|].
      destruct (no_deadlock _ _ _ _ _ _ _ HE0 EC) as [(t & _ & HS)|HF]; [|exists [], s0; split; [constructor|auto]].
      destruct (step b pw no_calls true t s0) as [[ev s1]|] eqn:ES; [|congruence].
      pose proof (HN _ _ _ _ _ (exec_snoc _ _ _ _ _ _ _ _ _ _ HE0 ES)) as HL. rewrite app_length in HL. cbn in HL. pose proof (HN _ _ _ _ _ HE0). lia.
    - destruct (c_crash s0) eqn:EC; [exists [], s0; split; [constructor|left; congruence]|].
      destruct (no_deadlock _ _ _ _ _ _ _ HE0 EC) as [(t & _ & HS)|HF]; [|exists [], s0; split; [constructor|auto]].
      destruct (step b pw no_calls true t s0) as [[ev s1]|] eqn:ES; [|congruence].
      pose proof (exec_snoc _ _ _ _ _ _ _ _ _ _ HE0 ES) as HE1.
      destruct (IH (tr0 ++ [ev]) s1) as (tr' & s'' & H1 & H2); [rewrite app_length; cbn [length]; lia|exact HE1|]. exists (ev :: tr'), s''. split; [econstructor; eauto|exact H2]. }
  exact (HG _ _ _ (Nat.le_refl _) HX).
Qed.
End Q.
