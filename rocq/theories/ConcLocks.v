(** The lock ownership invariant is preserved by every step. *)
From Verif Require Import Prelude ConcModel ConcInv.
Local Open Scope nat_scope.

Section P.
Context {X : Type}.
Implicit Types (s : state X) (k e : list (instr X)) (i : instr X).

Lemma locks_change : forall s s1 t k0 k', locks s -> nth_error (c_threads s) t = Some k0 -> c_threads s1 = c_threads s ->
  lock_ok s1 t k' ->
  (forall u, u <> t -> one (c_alock s1) u = one (c_alock s) u /\ one (c_xlock s1) u = one (c_xlock s) u /\ c_shared s1 u = c_shared s u) ->
  (forall u, c_alock s1 = Some u -> u = t \/ c_alock s = Some u) ->
  (forall u, c_xlock s1 = Some u -> u = t \/ c_xlock s = Some u) ->
  (c_xlock s1 <> None -> forall u, c_shared s1 u = 0) ->
  locks (go s1 t k').
Proof.
  intros s s1 t k0 k' (H1 & H2 & H3 & H4 & H5) Hn Ht Hk Hu Ha Hx Hs.
  assert (HL : t < length (c_threads s)) by (apply nth_error_Some; congruence).
  split; [|split; [|split; [|split]]]; cbn [go set_threads c_threads c_alock c_xlock c_shared]; rewrite ?Ht, ?upd_length; auto.
  - intros u k E. destruct (Nat.eq_dec u t) as [->|N].
    + rewrite upd_same in E by exact HL. injection E as <-. exact Hk.
    + rewrite upd_other in E by exact N. destruct (H1 _ _ E) as (L1 & L2 & L3 & L4). destruct (Hu u N) as (U1 & U2 & U3).
      unfold lock_ok. cbn [go set_threads c_threads c_alock c_xlock c_shared]. rewrite U1, U2, U3. auto.
  - intros u E. destruct (Ha u E) as [->|E']; auto.
  - intros u E. destruct (Hx u E) as [->|E']; auto.
  - intros u E. destruct (Hu u) as (_ & _ & ->); [lia|]. auto.
Qed.
Lemma locks_same : forall s s1 t k0 k', locks s -> nth_error (c_threads s) t = Some k0 -> c_threads s1 = c_threads s ->
  c_alock s1 = c_alock s -> c_xlock s1 = c_xlock s -> c_shared s1 = c_shared s ->
  wt wA k' = wt wA k0 -> wt wX k' = wt wX k0 -> wt wS k' = wt wS k0 -> (suf vA k0 -> suf vA k') -> (suf vX k0 -> suf vX k') -> (suf vS k0 -> suf vS k') ->
  locks (go s1 t k').
Proof.
  intros s s1 t k0 k' H Hn Ht Ea Ex Es W1 W2 W3 S1 S2 S3. apply (locks_change s s1 t k0 k' H Hn Ht); rewrite ?Ea, ?Ex, ?Es; auto.
  - destruct H as (H1 & _). destruct (H1 _ _ Hn) as (L1 & L2 & L3 & L4 & L5 & L6). unfold lock_ok. rewrite Ea, Ex, Es, W1, W2, W3. auto 10.
  - apply H.
Qed.
Lemma locks_spawn : forall s k, locks s -> wt wA k = 0%Z -> wt wX k = 0%Z -> wt wS k = 0%Z -> suf vA k -> suf vX k -> suf vS k -> locks (spawn s k).
Proof.
  intros s k (H1 & H2 & H3 & H4 & H5) W1 W2 W3 S1 S2 S3.
  split; [|split; [|split; [|split]]]; cbn [spawn set_threads c_threads c_alock c_xlock c_shared]; rewrite ?app_length; cbn [length]; auto.
  - intros t k' E. unfold lock_ok. cbn [spawn set_threads c_threads c_alock c_xlock c_shared].
    destruct (Nat.ltb_spec t (length (c_threads s))) as [C|C].
    + rewrite nth_error_app1 in E by exact C. destruct (H1 _ _ E) as (L1 & L2 & L3 & L4). auto.
    + rewrite nth_error_app2 in E by exact C. destruct (t - length (c_threads s)) as [|m]; [|destruct m; discriminate]. injection E as <-.
      rewrite W1, W2, W3. rewrite (H4 t) by exact C.
      assert (one (c_alock s) t = 0%Z). { unfold one. destruct (c_alock s) as [u|]; [|reflexivity]. specialize (H2 u eq_refl). destruct (Nat.eqb_spec u t); [lia|reflexivity]. }
      assert (one (c_xlock s) t = 0%Z). { unfold one. destruct (c_xlock s) as [u|]; [|reflexivity]. specialize (H3 u eq_refl). destruct (Nat.eqb_spec u t); [lia|reflexivity]. }
      repeat split; auto.
  - intros t E. specialize (H2 t E). lia.
  - intros t E. specialize (H3 t E). lia.
  - intros t E. apply H4. lia.
Qed.
Lemma locks_crash : forall s w, locks s -> locks (set_crash s w).
Proof. intros s w H. exact H. Qed.

(** weights of the pieces of code *)
Lemma body_wt : forall body d m (x : X) k f, (forall o, f (ICall o) = 0%Z) ->
  wt f (consume_code body m d x ++ k) = (f (IStart m d x) + f (IEnd m d) + wt f k)%Z.
Proof.
  intros body d m x k f H. unfold consume_code. cbn [app wt]. rewrite !wt_app, wt_map0 by exact H. cbn [wt]. lia.
Qed.
Lemma body_suf : forall body d m (x : X) k f, (forall o, f (ICall o) = 0%Z) -> f (IStart m d x) = 0%Z -> f (IEnd m d) = 0%Z -> suf f k ->
  suf f (consume_code body m d x ++ k).
Proof.
  intros body d m x k f H Hs He Hk. apply suf_app; [|exact Hk]. unfold consume_code.
  change (IStart m d x :: map ICall (body x) ++ [IEnd m d]) with ([IStart m d x] ++ map ICall (body x) ++ [IEnd m d]).
  apply suf_app; [cbn; lia|]. apply suf_app; [now apply suf_map0|cbn; lia].
Qed.
Lemma one_same : forall t, one (Some t) t = 1%Z. Proof. intros t. cbn. now rewrite Nat.eqb_refl. Qed.
Lemma one_other : forall t u, u <> t -> one (Some t) u = 0%Z.
Proof. intros t u H. cbn. destruct (Nat.eqb_spec t u); congruence. Qed.
Lemma one_pos : forall o t, (1 <= one o t)%Z -> o = Some t.
Proof. intros [u|] t; cbn; [|lia]. destruct (Nat.eqb_spec u t); [congruence|lia]. Qed.

Ltac wts := cbn [app wt wA wX wS vA vX vS dA dS Z.add Z.mul Z.opp]; rewrite ?body_wt by reflexivity; rewrite ?wt_app;
  rewrite ?wt_map0 by reflexivity; cbn [app wt wA wX wS vA vX vS Z.add] in *; try lia.
Ltac sufs := cbn [app wt wA wX wS vA vX vS suf]; intros; rewrite ?wt_app in *;
  repeat match goal with
  | H : suf _ (_ :: _) |- _ => cbn [suf] in H; destruct H
  | H : _ /\ _ |- _ => destruct H
  | |- _ /\ _ => split
  | |- suf _ (map _ _ ++ _) => apply suf_app; [apply suf_map0; reflexivity|]
  | |- suf _ (consume_code _ _ _ _ ++ _) => apply body_suf; [reflexivity|reflexivity|reflexivity|]
  | |- suf _ (_ :: _) => cbn [suf]
  | |- suf _ [] => exact I
  end; cbn [app wt wA wX wS vA vX vS] in *; repeat match goal with H : suf _ ?k |- _ => pose proof (suf_nonneg _ _ H); revert H end; intros; auto; try lia.

Lemma code_wt : forall (o : op X) k f, f (IReturn o) = 0%Z -> (forall p x, f (IEmitSample p x) = 0%Z) -> (forall p, f (IEmitFlush p) = 0%Z) ->
  (forall p, f (IEmitDisconnect p) = 0%Z) -> (forall p, f (IDestroySignals p) = 0%Z) -> (forall p m, f (IConnect p m) = 0%Z) -> f IDestroy = 0%Z ->
  (f IAcqA + f IFlush = 0)%Z -> (f IAcqA + f IAcqX + f IDisconnect = 0)%Z ->
  wt f (code o ++ IReturn o :: k) = wt f k.
Proof.
  intros o k f H1 H2 H3 H4 H5 H6 H7 H8 H9. destruct o; cbn [code flush_code disconnect_flush_code app wt]; rewrite ?H1, ?H2, ?H3, ?H4, ?H5, ?H6, ?H7; lia.
Qed.

Theorem locks_step : forall b pw body im t s s' ev, locks s -> step b pw body im t s = Some (ev, s') -> locks s'.
Proof.
  intros b pw body im t s s' ev HI H.
  step_cases H; injection H as <- <-; try (apply locks_crash; exact HI); try subst; fold_body;
  match goal with
  | Hn : nth_error (c_threads s) t = Some (?i :: ?k) |- _ =>
    pose proof (proj1 HI _ _ Hn) as (L1 & L2 & L3 & L4 & L5 & L6)
  end;
  try (eapply locks_same;
    [exact HI|eassumption|reflexivity|reflexivity|reflexivity|reflexivity| | | | | | ]; try (wts; fail); try (sufs; fail); fail).
  - (* ICall *)
    eapply locks_same; [exact HI|eassumption|reflexivity|reflexivity|reflexivity|reflexivity| | | | | | ];
      rewrite ?code_wt by reflexivity; try reflexivity; destruct o; cbn [code flush_code disconnect_flush_code app]; sufs.
  - (* ITrySample *)
    destruct m; (eapply locks_same; [exact HI|eassumption|reflexivity|reflexivity|reflexivity|reflexivity| | | | | | ]); cbn [slot_code app]; (try (wts; fail)); sufs.
  - (* IAcqA *)
    assert (EN : c_alock s = None) by (destruct (c_alock s); [discriminate|reflexivity]).
    cbn [wt wA wX wS] in L1, L2, L3. rewrite EN in L1. cbn [one] in L1.
    eapply locks_change; [exact HI|eassumption|reflexivity| | | | | ]; cbn [set_alock c_alock c_xlock c_shared].
    + unfold lock_ok. cbn [set_alock c_alock c_xlock c_shared]. rewrite one_same. repeat split; sufs.
    + intros u Hu. rewrite EN, one_other by exact Hu. auto.
    + intros u Hu. left. congruence.
    + auto.
    + apply HI.
  - (* IRelA *)
    cbn [wt wA wX wS] in L1, L2, L3. rewrite wA_split in L1. cbn [suf] in L4, L5, L6.
    pose proof (suf_nonneg _ _ (proj2 L4)) as N1. pose proof (wt_nonneg dA l0 ltac:(intros []; cbn; lia)) as N2.
    assert (EA : c_alock s = Some t) by (apply one_pos; lia). rewrite EA, one_same in L1.
    eapply locks_change; [exact HI|eassumption|reflexivity| | | | | ]; cbn [set_alock c_alock c_xlock c_shared].
    + unfold lock_ok. cbn [set_alock c_alock c_xlock c_shared one]. rewrite wA_split. repeat split; sufs.
    + intros u Hu. rewrite EA, one_other by exact Hu. auto.
    + discriminate.
    + auto.
    + apply HI.
  - (* IAcqX *)
    apply andb_prop in E4. destruct E4 as [E3 E4].
    assert (EN : c_xlock s = None) by (destruct (c_xlock s); [discriminate|reflexivity]).
    cbn [wt wA wX wS] in L1, L2, L3. rewrite EN in L2. cbn [one] in L2.
    eapply locks_change; [exact HI|eassumption|reflexivity| | | | | ]; cbn [set_xlock c_alock c_xlock c_shared].
    + unfold lock_ok. cbn [set_xlock c_alock c_xlock c_shared]. rewrite one_same. repeat split; sufs.
    + intros u Hu. rewrite EN, one_other by exact Hu. auto.
    + auto.
    + intros u Hu. left. congruence.
    + intros _. apply no_readers_spec; [apply HI|exact E4].
  - (* IRelX *)
    cbn [wt wA wX wS] in L1, L2, L3. rewrite wX_split in L2. cbn [suf] in L4, L5, L6.
    pose proof (suf_nonneg _ _ (proj2 L5)) as N1. pose proof (wt_nonneg dX l0 ltac:(intros []; cbn; lia)) as N2.
    assert (EA : c_xlock s = Some t) by (apply one_pos; lia). rewrite EA, one_same in L2.
    eapply locks_change; [exact HI|eassumption|reflexivity| | | | | ]; cbn [set_xlock c_alock c_xlock c_shared].
    + unfold lock_ok. cbn [set_xlock c_alock c_xlock c_shared one]. rewrite wX_split. repeat split; sufs.
    + intros u Hu. rewrite EA, one_other by exact Hu. auto.
    + auto.
    + discriminate.
    + congruence.
  - (* IAcqS *)
    apply andb_prop in E4. destruct E4 as [E3 E4].
    assert (EN : c_xlock s = None) by (destruct (c_xlock s); [discriminate|reflexivity]).
    cbn [wt wA wX wS] in L1, L2, L3.
    eapply locks_change; [exact HI|eassumption|reflexivity| | | | | ]; cbn [set_shared c_alock c_xlock c_shared].
    + unfold lock_ok. cbn [set_shared c_alock c_xlock c_shared]. rewrite Nat.eqb_refl. repeat split; sufs.
    + intros u Hu. destruct (Nat.eqb_spec u t); [congruence|]. auto.
    + auto.
    + auto.
    + congruence.
  - (* IRelS *)
    cbn [wt wA wX wS] in L1, L2, L3. rewrite wS_split in L3. cbn [suf] in L4, L5, L6.
    pose proof (suf_nonneg _ _ (proj2 L6)) as N1. pose proof (wt_nonneg dS l0 ltac:(intros []; cbn; try lia; destruct sy; lia)) as N2.
    eapply locks_change; [exact HI|eassumption|reflexivity| | | | | ]; cbn [set_shared c_alock c_xlock c_shared].
    + unfold lock_ok. cbn [set_shared c_alock c_xlock c_shared]. rewrite Nat.eqb_refl, wS_split. repeat split; sufs.
    + intros u Hu. destruct (Nat.eqb_spec u t); [congruence|]. auto.
    + auto.
    + auto.
    + intros Hx u. pose proof (proj2 (proj2 (proj2 (proj2 HI))) Hx) as Hz. rewrite !Hz. now destruct (u =? t).
  - (* IAsyncBody *)
    refine (locks_spawn _ _ _ _ _ _ _ _ _); (try (unfold consume_code; wts; fail)); [|rewrite <- (app_nil_r (consume_code _ _ _ _)); sufs..].
    eapply locks_same; [exact HI|eassumption|reflexivity|reflexivity|reflexivity|reflexivity| | | | | | ]; (try (wts; fail)); sufs.
Qed.

Lemma locks_run : forall b pw body sched s tr s', locks s -> run b pw body sched s = (tr, s') -> locks s'.
Proof.
  intros b pw body. induction sched as [|[t im] r IH]; intros s tr s' HI H; cbn [run] in H; [congruence|].
  destruct (step b pw body im t s) as [[ev s1]|] eqn:E; [|eauto].
  destruct (run b pw body r s1) as [tr1 s2] eqn:E2. injection H as <- <-. apply (IH s1 tr1); [|exact E2]. eapply locks_step; eauto.
Qed.
Lemma locks_initial : forall conns q (programs : list (list (op X))), locks (initial conns q programs).
Proof.
  intros conns q programs. split; [|split; [|split; [|split]]]; cbn [initial c_threads c_alock c_xlock c_shared]; try discriminate; auto.
  intros t k H. rewrite nth_error_map in H. destruct (nth_error programs t) as [l|]; [|discriminate]. injection H as <-.
  unfold lock_ok. cbn [initial c_alock c_xlock c_shared one]. rewrite !wt_map0 by reflexivity. repeat split; apply suf_map0; reflexivity.
Qed.
End P.
