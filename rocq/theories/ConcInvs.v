(** The remaining invariants of the concurrent model, put together. *)
From Verif Require Import Prelude ConcModel ConcSpec ConcInv ConcLocks ConcDeliv.
Local Open Scope nat_scope.

Section P.
Context {X : Type}.
Implicit Types (s : state X) (k : list (instr X)) (i : instr X) (tr : list (event X)).

Ltac unst := cbn [go spawn set_threads set_conns set_hooks set_alock set_xlock set_shared set_queue set_stat new_delivery new_conn set_dead set_crash unhook
       c_threads c_queue c_stat c_next c_conns c_hooks c_alock c_xlock c_shared c_alive c_crash c_nextc] in *.

Lemma code_suf0 : forall (o : op X) k f, (forall i, match i with IStart _ _ _ | IEnd _ _ => True | _ => f i = 0%Z end) -> suf f k -> suf f (code o ++ IReturn o :: k).
Proof.
  intros o k f H Hk.
  assert (HG : forall e, Forall (fun i => f i = 0%Z) e -> suf f (e ++ k)).
  { induction e as [|i e IH]; intros HF; [exact Hk|]. inversion HF as [|? ? H1 H2]; subst. specialize (IH H2). cbn [app suf]. split; [|exact IH].
    cbn [wt]. rewrite H1. pose proof (suf_nonneg _ _ IH). lia. }
  replace (code o ++ IReturn o :: k) with ((code o ++ [IReturn o]) ++ k) by (rewrite <- app_assoc; reflexivity). apply HG.
  destruct o; cbn; repeat constructor; match goal with |- f ?i = 0%Z => exact (H i) end.
Qed.
Lemma consume_se : forall body m d x d' k, suf (se d') k -> suf (@se X d') (consume_code body m d x ++ k).
Proof.
  intros body m d x d' k Hk. unfold consume_code. cbn [app suf]. rewrite <- app_assoc.
  assert (H1 : suf (se d') (map ICall (body x) ++ [IEnd m d] ++ k)).
  { apply suf_app; [now apply suf_map0|]. cbn [app suf wt]. split; [|exact Hk]. pose proof (suf_nonneg _ _ Hk). unfold se at 1. cbn. pose proof (hit_nonneg d d'). lia. }
  split; [|exact H1]. cbn [wt]. rewrite !wt_app. rewrite wt_map0 by reflexivity. cbn [wt]. pose proof (suf_nonneg _ _ Hk).
  unfold se at 1 2. cbn. lia.
Qed.
Lemma order_step : forall b pw body im t s s' ev, order_ok s -> step b pw body im t s = Some (ev, s') -> order_ok s'.
Proof.
  intros b pw body im t s s' ev HO H u k d Hu. revert u k Hu.
  apply (threads_step b pw body im t s s' ev (suf (se d)) H).
  - intros u k Hu. eapply HO; eauto.
  - intros i0 k0 k' HP Hi Hk. assert (HL : t < length (c_threads s)) by (apply nth_error_Some; congruence).
    step_cases H; injection H as <- <-; try subst; unst; injection Hi as <- <-;
    (try (match goal with Hx : nth_error (c_threads s) t = Some (_ :: _) |- _ => rewrite Hx in Hk end; injection Hk as <-; exact HP));
    (try (rewrite nth_error_app1 in Hk by (rewrite upd_length; exact HL)));
    (try (rewrite upd_same in Hk by exact HL)); injection Hk as <-;
    fold_body;
    pose proof (suf_nonneg _ _ HP) as HN; pose proof HP as HP'; cbn [suf] in HP'; destruct HP' as [_ HP'];
    pose proof (suf_nonneg _ _ HP') as HN';
    (try (apply code_suf0; [intros []; try exact I; reflexivity|exact HP']));
    (try (apply consume_se));
    cbn [app suf wt];
    repeat match goal with
    | |- _ /\ _ => split
    | |- suf _ (map _ _ ++ _) => apply suf_app; [apply suf_map0; reflexivity|]
    | |- context [slot_code ?m _ _] => destruct m; cbn [slot_code app suf wt]
    | |- suf _ (_ :: _) => cbn [suf wt]
    end; auto; unfold se in *; cbn [wt isE isS] in *; try lia.
  - intros d' x. rewrite <- (app_nil_r (consume_code _ _ _ _)). apply consume_se. exact I.
Qed.

Lemma dA_nn : forall i, (0 <= @dA X i)%Z. Proof. intros []; cbn; lia. Qed.
Lemma dS_nn : forall i, (0 <= @dS X i)%Z. Proof. intros []; cbn; try lia. destruct sy; lia. Qed.
Lemma dX_nn : forall i, (0 <= @dX X i)%Z. Proof. intros []; cbn; lia. Qed.
(** An instruction that only occurs while the lock is held: the thread holds the lock, and it is the only such instruction. *)
Lemma holds_A : forall s t k i, locks s -> nth_error (c_threads s) t = Some k -> In i k -> dA i = 1%Z -> c_alock s = Some t.
Proof.
  intros s t k i (HL & _) Hn Hi Hd. destruct (HL _ _ Hn) as (L1 & _ & _ & L4 & _). apply one_pos. rewrite <- L1, wA_split.
  pose proof (suf_nonneg _ _ L4). pose proof (wt_in dA k i dA_nn Hi). lia.
Qed.
Lemma head_A : forall s t i k, locks s -> nth_error (c_threads s) t = Some (i :: k) -> wA i = 1%Z -> c_alock s = Some t /\ wt dA k = 0%Z.
Proof.
  intros s t i k (HL & _) Hn Hw. destruct (HL _ _ Hn) as (L1 & _ & _ & L4 & _). cbn [suf] in L4. destruct L4 as [_ L4].
  cbn [wt] in L1. rewrite Hw, wA_split in L1. pose proof (suf_nonneg _ _ L4). pose proof (wt_nonneg dA k dA_nn).
  assert (E : c_alock s = Some t) by (apply one_pos; lia). rewrite E, one_same in L1. split; [exact E|lia].
Qed.
Lemma head_X : forall s t i k, locks s -> nth_error (c_threads s) t = Some (i :: k) -> wX i = 1%Z -> c_xlock s = Some t.
Proof.
  intros s t i k (HL & _) Hn Hw. destruct (HL _ _ Hn) as (_ & L2 & _ & _ & L5 & _). cbn [suf] in L5. destruct L5 as [_ L5].
  cbn [wt] in L2. rewrite Hw, wX_split in L2. pose proof (suf_nonneg _ _ L5). pose proof (wt_nonneg dX k dX_nn). apply one_pos. lia.
Qed.
(** While the unique lock is held no synchronous consume() is under way. *)
Lemma no_sync : forall s t u k m, locks s -> c_xlock s = Some t -> nth_error (c_threads s) u = Some k -> forall d, In (IEnd m d) k -> m = KAsync.
Proof.
  intros s t u k m (HL & _ & _ & _ & HX) Hx Hn d Hi. destruct m; [|reflexivity]. exfalso. destruct (HL _ _ Hn) as (_ & _ & L3 & _ & _ & L6).
  rewrite (HX ltac:(congruence)) in L3. rewrite wS_split in L3. pose proof (suf_nonneg _ _ L6). pose proof (wt_in dS k _ dS_nn Hi) as HW. cbn in HW. lia.
Qed.

Lemma active_head : forall s t tr i k d, (forall d, deliv_ok s tr d) -> nth_error (c_threads s) t = Some (i :: k) ->
  (isB d i = 1%Z -> c_stat s d = SFresh /\ d < c_next s) /\ (isE d i = 1%Z -> exists m, c_stat s d = SActive m).
Proof.
  intros s t tr i k d HD Hn. specialize (HD d). unfold deliv_ok in HD.
  pose proof (tot_le (isB d) _ _ _ (isB_nn d) Hn) as LB. pose proof (tot_le (isE d) _ _ _ (isE_nn d) Hn) as LE. cbn [wt] in LB, LE.
  pose proof (wt_nonneg (isB d) k (isB_nn d)). pose proof (wt_nonneg (isE d) k (isE_nn d)).
  split; intros H1; rewrite H1 in *; destruct (c_stat s d) as [| |[]| |]; try lia; eauto.
  split; [reflexivity|]. destruct (Nat.ltb_spec d (c_next s)); [assumption|lia].
Qed.
(** "done" and "dropped" are final *)
Lemma stat_final : forall b pw body im t s s' ev tr d, (forall d, deliv_ok s tr d) -> step b pw body im t s = Some (ev, s') ->
  c_stat s d = SDone \/ c_stat s d = SDropped -> c_stat s' d = c_stat s d.
Proof.
  intros b pw body im t s s' ev tr d HD H Hs.
  step_cases H; injection H as <- <-; try subst; unst; auto;
  match goal with |- context [if ?a =? ?c then _ else _] => destruct (Nat.eqb_spec a c); [subst|reflexivity] end;
  try (match goal with Hn : nth_error _ _ = Some (_ :: _) |- _ => destruct (active_head _ _ _ _ _ c_shared HD Hn) end; fail);
  match goal with Hn : nth_error (c_threads s) t = Some (?i :: ?k) |- _ =>
    match i with
    | ISyncBody ?e _ => destruct (active_head _ _ _ _ _ e HD Hn) as [HF _]; cbn [isB] in HF; unfold hit in HF; rewrite Nat.eqb_refl in HF; destruct (HF eq_refl) as [HF' _]; destruct Hs; congruence
    | IAsyncBody ?e _ => destruct (active_head _ _ _ _ _ e HD Hn) as [HF _]; cbn [isB] in HF; unfold hit in HF; rewrite Nat.eqb_refl in HF; destruct (HF eq_refl) as [HF' _]; destruct Hs; congruence
    | IEnd _ ?e => destruct (active_head _ _ _ _ _ e HD Hn) as [_ HF]; cbn [isE] in HF; unfold hit in HF; rewrite Nat.eqb_refl in HF; destruct (HF eq_refl) as [mm HF']; destruct Hs; congruence
    | IWaits _ => destruct Hs; congruence
    end end.
Qed.

Lemma in_waits_code : forall (o : op X) k l, In (IWaits l) (code o ++ IReturn o :: k) -> In (IWaits l) k.
Proof. intros o k l H. apply in_app_or in H. destruct H as [H|[H|H]]; [destruct o; cbn in H; intuition discriminate|discriminate|exact H]. Qed.
Lemma in_waits_map : forall A (g : A -> instr X) m k l, (forall a, g a <> IWaits l) -> In (IWaits l) (map g m ++ k) -> In (IWaits l) k.
Proof. intros A g m k l Hg H. apply in_app_or in H. destruct H as [H|H]; [|exact H]. apply in_map_iff in H. destruct H as (a & E & _). now destruct (Hg a). Qed.
Lemma in_waits_consume : forall body m d (x : X) k l, In (IWaits l) (consume_code body m d x ++ k) -> In (IWaits l) k.
Proof.
  intros body m d x k l H. unfold consume_code in H. cbn [app] in H. destruct H as [H|H]; [discriminate|]. rewrite <- app_assoc in H.
  apply in_waits_map in H; [|discriminate]. cbn in H. destruct H as [H|H]; [discriminate|exact H].
Qed.

Lemma waits_step : forall b pw body im t s s' ev tr, waits_ok s -> locks s -> (forall d, deliv_ok s tr d) -> step b pw body im t s = Some (ev, s') -> waits_ok s'.
Proof.
  intros b pw body im t s s' ev tr HW HL HD H u k l Hu Hl d Hd.
  pose proof (stat_final b pw body im t s s' ev tr d HD H) as HF.
  (* enough: the old state had the same obligation *)
  assert (Hkeep : forall k0 l0, nth_error (c_threads s) u = Some k0 -> In (IWaits l0) k0 -> In d (c_queue s) -> (In d l0 -> c_stat s' d = SDone \/ In d l) ->
                  c_stat s' d = SDone \/ In d l).
  { intros k0 l0 H1 H2 H3 H4. destruct (HW _ _ _ H1 H2 _ H3) as [E|E]; [left; rewrite HF by (left; exact E); exact E|auto]. }
  step_cases H; injection H as <- <-; try subst; unst; fold_body; eauto.
  all: try (apply nth_snoc in Hu; destruct Hu as [Hu|[_ Hu]];
     [|exfalso; subst k; rewrite <- (app_nil_r (consume_code _ _ _ _)) in Hl; apply in_waits_consume in Hl; exact Hl]).
  all: apply nth_upd in Hu; destruct Hu as [[-> Hu]|[Hne Hu]]; try subst k.
  all: try match goal with HQ : c_queue ?ss = ?v, Hq : In ?d (c_queue ?ss) |- _ => rewrite HQ in Hq end.
  all: try (eapply Hkeep; [exact Hu|exact Hl|exact Hd|]; auto; fail).
  all: try match goal with Hn : nth_error _ _ = Some (?i :: ?k0) |- _ =>
     assert (Hin : In (IWaits l) k0) by
       (first [ exact Hl | apply in_waits_code in Hl; exact Hl | apply in_waits_consume in Hl; exact Hl
              | apply in_waits_map in Hl; [exact Hl|discriminate]
              | cbn in Hl; intuition discriminate ]);
     eapply Hkeep; [exact Hn|right; exact Hin|exact Hd|auto]; fail end.
  - (* ITrySample *) assert (Hin : In (IWaits l) l1) by (destruct m; cbn in Hl; intuition discriminate). eapply Hkeep; [exact E0|right; exact Hin|exact Hd|auto].
  - (* IPush, own thread *) exfalso. destruct (head_A _ _ _ _ HL E0 eq_refl) as [_ HZ].
    assert (Hin : In (IWaits l) l1) by (cbn in Hl; intuition discriminate). pose proof (wt_in dA _ _ dA_nn Hin) as HC. cbn in HC. lia.
  - (* IPush, other thread *) exfalso. destruct (head_A _ _ _ _ HL E0 eq_refl) as [HA _].
    pose proof (holds_A _ _ _ _ HL Hu Hl eq_refl) as HB. congruence.
  - (* ITrim *) assert (Hin : In (IWaits l) l1) by (cbn in Hl; intuition discriminate). eapply Hkeep; [exact E0|right; exact Hin|right; exact Hd|auto].
  - (* ITrim, other *) eapply Hkeep; [exact Hu|exact Hl|right; exact Hd|auto].
  - (* IFlush *) destruct Hl as [Hl|Hl]; [injection Hl as <-; right; exact Hd|]. eapply Hkeep; [exact E0|right; exact Hl|exact Hd|auto].
  - destruct Hd.
  - destruct Hd.
  - (* IWaits, deferred *)
    assert (Hin : In (IWaits l) (IWaits (n :: l3) :: l1)) by (eapply in_waits_consume; exact Hl). eapply Hkeep; [exact E0|exact Hin|exact Hd|auto].
  - (* IWaits *)
    destruct Hl as [Hl|Hl].
    + injection Hl as <-. eapply Hkeep; [exact E0|left; reflexivity|exact Hd|]. intros [<-|HI']; [left; assumption|right; exact HI'].
    + eapply Hkeep; [exact E0|right; exact Hl|exact Hd|auto].
Qed.
(** The life of a delivery. *)
Definition next_stat (a c : stat X) : Prop :=
  match a, c with
  | SFresh, (SActive _ | SDeferred _ | SDropped) | SDeferred _, SActive KAsync | SActive _, SDone => True
  | _, _ => False
  end.
Lemma stat_step : forall b pw body im t s s' ev tr d, (forall d, deliv_ok s tr d) -> step b pw body im t s = Some (ev, s') ->
  c_stat s' d = c_stat s d \/ next_stat (c_stat s d) (c_stat s' d).
Proof.
  intros b pw body im t s s' ev tr d HD H.
  step_cases H; injection H as <- <-; try subst; unst; auto;
  match goal with |- context [if ?a =? ?c then _ else _] => destruct (Nat.eqb_spec a c); [subst|auto] end; right;
  match goal with Hn : nth_error (c_threads s) t = Some (?i :: ?k) |- _ =>
    match i with
    | ISyncBody ?e _ => destruct (active_head _ _ _ _ _ e HD Hn) as [HF _]; cbn [isB] in HF; unfold hit in HF; rewrite Nat.eqb_refl in HF; destruct (HF eq_refl) as [HF' _]; rewrite HF'; exact I
    | IAsyncBody ?e _ => destruct (active_head _ _ _ _ _ e HD Hn) as [HF _]; cbn [isB] in HF; unfold hit in HF; rewrite Nat.eqb_refl in HF; destruct (HF eq_refl) as [HF' _]; rewrite HF'; exact I
    | IEnd _ ?e => destruct (active_head _ _ _ _ _ e HD Hn) as [_ HF]; cbn [isE] in HF; unfold hit in HF; rewrite Nat.eqb_refl in HF; destruct (HF eq_refl) as [mm HF']; rewrite HF'; exact I
    | IWaits _ => match goal with HS : c_stat s _ = SDeferred _ |- _ => rewrite HS; exact I end
    end end.
Qed.
(** consume() ends in the mode in which it was accepted. *)
Definition kind_ok s : Prop := forall t k m d, nth_error (c_threads s) t = Some k -> In (IEnd m d) k -> c_stat s d = SActive m.
Lemma in_end_code : forall (o : op X) k m d, In (IEnd m d) (code o ++ IReturn o :: k) -> In (IEnd m d) k.
Proof. intros o k m d H. apply in_app_or in H. destruct H as [H|[H|H]]; [destruct o; cbn in H; intuition discriminate|discriminate|exact H]. Qed.
Lemma in_end_map : forall A (g : A -> instr X) l k m d, (forall a, g a <> IEnd m d) -> In (IEnd m d) (map g l ++ k) -> In (IEnd m d) k.
Proof. intros A g l k m d Hg H. apply in_app_or in H. destruct H as [H|H]; [|exact H]. apply in_map_iff in H. destruct H as (a & E & _). now destruct (Hg a). Qed.
Lemma in_end_consume : forall body m d (x : X) k m' d', In (IEnd m' d') (consume_code body m d x ++ k) -> (m' = m /\ d' = d) \/ In (IEnd m' d') k.
Proof.
  intros body m d x k m' d' H. unfold consume_code in H. cbn [app] in H. destruct H as [H|H]; [discriminate|]. rewrite <- app_assoc in H.
  apply in_end_map in H; [|discriminate]. cbn in H. destruct H as [H|H]; [|auto]. injection H as <- <-. auto.
Qed.
Lemma in_end_count : forall s tr t k m d, (forall d, deliv_ok s tr d) -> nth_error (c_threads s) t = Some k -> In (IEnd m d) k -> exists m', c_stat s d = SActive m'.
Proof.
  intros s tr t k m d HD Hn Hi. specialize (HD d). unfold deliv_ok in HD.
  pose proof (tot_le (isE d) _ _ _ (isE_nn d) Hn) as LE. pose proof (wt_in (isE d) _ _ (isE_nn d) Hi) as LW. cbn [isE] in LW. unfold hit in LW. rewrite Nat.eqb_refl in LW.
  destruct (c_stat s d) as [| |m'| |]; try lia; eauto.
Qed.
Lemma kind_step : forall b pw body im t s s' ev tr, kind_ok s -> (forall d, deliv_ok s tr d) -> waits_ok s -> order_ok s -> step b pw body im t s = Some (ev, s') -> kind_ok s'.
Proof.
  intros b pw body im t s s' ev tr HK HD HW HO H u k m d Hu Hi.
  pose proof (deliv_step b pw body im t s s' ev tr HD HW HO H) as HD'.
  destruct (in_end_count _ _ _ _ _ _ HD' Hu Hi) as [m' Hm'].
  pose proof (stat_step b pw body im t s s' ev tr d HD H) as HS. rewrite Hm' in *.
  assert (Hold : forall u0 k0, nth_error (c_threads s) u0 = Some k0 -> In (IEnd m d) k0 -> SActive m' = SActive m :> stat X).
  { intros u0 k0 H1 H2. rewrite (HK _ _ _ _ H1 H2) in HS. destruct HS as [HS|HS]; [exact HS|destruct HS]. }
  clear HS HD'.
  step_cases H; injection H as <- <-; try subst; unst; fold_body; eauto.
  all: try (apply nth_snoc in Hu; destruct Hu as [Hu|[_ Hu]]).
  all: try (apply nth_upd in Hu; destruct Hu as [[-> Hu]|[Hne Hu]]); try subst k; eauto.
  all: try match goal with Hn : nth_error _ _ = Some (?i :: ?k0) |- _ =>
     assert (Hin : In (IEnd m d) k0) by
       (first [ exact Hi | apply in_end_code in Hi; exact Hi
              | apply in_end_map in Hi; [exact Hi|discriminate]
              | cbn in Hi; intuition discriminate ]);
     eapply Hold; [exact Hn|right; exact Hin]; fail end.
  - (* ITrySample *) assert (Hin : In (IEnd m d) l0) by (destruct m0; cbn in Hi; intuition discriminate). eapply Hold; [exact E0|right; exact Hin].
  - apply in_end_consume in Hi. destruct Hi as [[-> ->]|Hi]; [rewrite Nat.eqb_refl in Hm'; congruence|]. eapply Hold; [exact E0|right; exact Hi].
  - rewrite <- (app_nil_r (consume_code _ _ _ _)) in Hi. apply in_end_consume in Hi. destruct Hi as [[-> ->]|[]]. rewrite Nat.eqb_refl in Hm'; congruence.
  - apply in_end_consume in Hi. destruct Hi as [[-> ->]|Hi]; [rewrite Nat.eqb_refl in Hm'; congruence|]. eapply Hold; [exact E0|exact Hi].
Qed.

(** The sample consumed is the sample delivered. *)
Definition arrived (d : nat) (x : X) tr : Prop := exists t m, In (EDeliver t d m x) tr.
Definition payload i : option (nat * X) := match i with ISyncBody d x | IAsyncBody d x | IStart _ d x => Some (d, x) | _ => None end.
Definition pay_ok s tr : Prop :=
  (forall t k i d x, nth_error (c_threads s) t = Some k -> In i k -> payload i = Some (d, x) -> arrived d x tr) /\
  (forall d x, c_stat s d = SDeferred x -> arrived d x tr) /\
  (forall t d x, In (EStart t d x) tr -> arrived d x tr).
Lemma arrived_app : forall d x tr tr', arrived d x tr -> arrived d x (tr ++ tr').
Proof. intros d x tr tr' (t & m & H). exists t, m. apply in_or_app. auto. Qed.
Lemma in_pay_code : forall (o : op X) k i p, payload i = Some p -> In i (code o ++ IReturn o :: k) -> In i k.
Proof.
  intros o k i p Hp H. apply in_app_or in H. destruct H as [H|[H|H]]; [|subst; discriminate|exact H].
  destruct o; cbn in H; repeat (destruct H as [H|H]; [subst i; discriminate|]); destruct H.
Qed.
Lemma in_pay_map : forall A (g : A -> instr X) l k i p, (forall a, payload (g a) = None) -> payload i = Some p -> In i (map g l ++ k) -> In i k.
Proof. intros A g l k i p Hg Hp H. apply in_app_or in H. destruct H as [H|H]; [|exact H]. apply in_map_iff in H. destruct H as (a & <- & _). rewrite Hg in Hp. discriminate. Qed.
Lemma in_pay_consume : forall body m d (x : X) k i p, payload i = Some p -> In i (consume_code body m d x ++ k) -> p = (d, x) \/ In i k.
Proof.
  intros body m d x k i p Hp H. unfold consume_code in H. cbn [app] in H. destruct H as [<-|H]; [cbn in Hp; left; congruence|]. rewrite <- app_assoc in H.
  apply in_pay_map with (p := p) in H; [|reflexivity|exact Hp]. cbn in H. destruct H as [<-|H]; [discriminate|auto].
Qed.
Lemma pay_step : forall b pw body im t s s' ev tr, pay_ok s tr -> step b pw body im t s = Some (ev, s') -> pay_ok s' (tr ++ [ev]).
Proof.
  intros b pw body im t s s' ev tr (H1 & H2 & H3) H. split; [|split].
  - intros u k i d x Hu Hi Hp.
    assert (Hold : forall u0 k0, nth_error (c_threads s) u0 = Some k0 -> In i k0 -> arrived d x (tr ++ [ev])).
    { intros u0 k0 Ha Hb. apply arrived_app. eapply H1; eauto. }
    step_cases H; injection H as <- <-; try subst; unst; fold_body; eauto.
    all: try (apply nth_snoc in Hu; destruct Hu as [Hu|[_ Hu]]).
    all: try (apply nth_upd in Hu; destruct Hu as [[-> Hu]|[Hne Hu]]); try subst k; eauto.
    all: try match goal with Hn : nth_error _ _ = Some (?i0 :: ?k0) |- _ =>
     assert (Hin : In i k0) by
       (first [ exact Hi | eapply in_pay_code; eassumption | eapply in_pay_map; [|eassumption|eassumption]; reflexivity
              | cbn in Hi; repeat (destruct Hi as [Hi|Hi]; [subst i; discriminate|]); assumption ]);
     eapply Hold; [exact Hn|right; exact Hin]; fail end.
    + (* ITrySample *)
      assert (HC : (d, x) = (c_next s, x0) \/ In i l0).
      { destruct m; cbn in Hi; destruct Hi as [<-|[<-|Hi]]; try discriminate; auto; cbn in Hp; left; congruence. }
      destruct HC as [HC|HC]; [|eapply Hold; [exact E0|right; exact HC]]. injection HC as -> ->. exists t, m. apply in_or_app. right. now left.
    + apply in_pay_consume with (p := (d, x)) in Hi; [|exact Hp]. destruct Hi as [Hi|Hi]; [|eapply Hold; [exact E0|right; exact Hi]].
      injection Hi as -> ->. apply arrived_app. eapply H1; [exact E0|left; reflexivity|reflexivity].
    + rewrite <- (app_nil_r (consume_code _ _ _ _)) in Hi. apply in_pay_consume with (p := (d, x)) in Hi; [|exact Hp]. destruct Hi as [Hi|[]].
      injection Hi as -> ->. apply arrived_app. eapply H1; [exact E0|left; reflexivity|reflexivity].
    + apply in_pay_consume with (p := (d, x)) in Hi; [|exact Hp]. destruct Hi as [Hi|Hi]; [|eapply Hold; [exact E0|exact Hi]].
      injection Hi as -> ->. apply arrived_app. now apply H2.
  - intros d x Hd.
    step_cases H; injection H as <- <-; try subst; unst; (try (apply arrived_app; now apply H2));
    match goal with H : context [if ?a =? ?c then _ else _] |- _ => destruct (Nat.eqb_spec a c); [subst; try discriminate|apply arrived_app; now apply H2] end.
    injection Hd as ->. apply arrived_app. eapply H1; [exact E0|left; reflexivity|reflexivity].
  - intros u d x Hu. apply in_app_or in Hu. destruct Hu as [Hu|[->|[]]]; [apply arrived_app; eauto|]. apply arrived_app.
    assert (HG : exists k0 m, nth_error (c_threads s) t = Some (IStart m d x :: k0)).
    { step_cases H; inversion H; subst; eauto. }
    destruct HG as (k0 & m & HG). eapply H1; [exact HG|left; reflexivity|reflexivity].
Qed.

(** All invariants together. *)
Record inv s tr : Prop := {
  i_locks : locks s; i_deliv : forall d, deliv_ok s tr d; i_waits : waits_ok s; i_order : order_ok s; i_kind : kind_ok s; i_pay : pay_ok s tr }.
Lemma inv_step : forall b pw body im t s s' ev tr, inv s tr -> step b pw body im t s = Some (ev, s') -> inv s' (tr ++ [ev]).
Proof.
  intros b pw body im t s s' ev tr [H1 H2 H3 H4 H5 H6] H. split.
  - eapply locks_step; eauto.
  - eapply deliv_step; eauto.
  - eapply waits_step; eauto.
  - eapply order_step; eauto.
  - eapply kind_step; eauto.
  - eapply pay_step; eauto.
Qed.
Lemma inv_initial : forall conns q (programs : list (list (op X))), inv (initial conns q programs) [].
Proof.
  intros conns q programs.
  assert (HT : forall f, (forall o, f (ICall o) = 0%Z) -> tot f (c_threads (initial conns q programs)) = 0%Z).
  { intros f Hf. cbn [initial c_threads]. induction programs as [|p l IH]; cbn [map tot]; [reflexivity|]. rewrite IH, wt_map0 by exact Hf. reflexivity. }
  assert (HI : forall t k i, nth_error (c_threads (initial conns q programs)) t = Some k -> In i k -> exists o, i = ICall o).
  { intros t k i Hn Hi. cbn [initial c_threads] in Hn. rewrite nth_error_map in Hn. destruct (nth_error programs t); [|discriminate]. injection Hn as <-.
    apply in_map_iff in Hi. destruct Hi as (o & <- & _). eauto. }
  split.
  - apply locks_initial.
  - intros d. unfold deliv_ok. rewrite !HT by reflexivity. cbn. repeat split; reflexivity.
  - intros t k l Hn Hi. destruct (HI _ _ _ Hn Hi). discriminate.
  - intros t k d Hn. cbn [initial c_threads] in Hn. rewrite nth_error_map in Hn. destruct (nth_error programs t); [|discriminate]. injection Hn as <-. now apply suf_map0.
  - intros t k m d Hn Hi. destruct (HI _ _ _ Hn Hi). discriminate.
  - split; [|split].
    + intros t k i d x Hn Hi Hp. destruct (HI _ _ _ Hn Hi) as [o ->]. discriminate.
    + cbn. discriminate.
    + intros t d x [].
Qed.
Lemma inv_run : forall b pw body sched s tr0 tr s', inv s tr0 -> run b pw body sched s = (tr, s') -> inv s' (tr0 ++ tr).
Proof.
  intros b pw body. induction sched as [|[t im] r IH]; intros s tr0 tr s' HI H; cbn [run] in H.
  - injection H as <- <-. now rewrite app_nil_r.
  - destruct (step b pw body im t s) as [[ev s1]|] eqn:E; [|eauto].
    destruct (run b pw body r s1) as [tr1 s2] eqn:E2. injection H as <- <-.
    replace (tr0 ++ ev :: tr1) with ((tr0 ++ [ev]) ++ tr1) by (rewrite <- app_assoc; reflexivity). apply (IH s1); [|exact E2]. eapply inv_step; eauto.
Qed.
End P.
