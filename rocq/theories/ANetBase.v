(** Proof tools for ANetModel: reachable states with their histories, and invariants that are checked instruction by instruction. *)
From Verif Require Import Prelude ANetModel.
Local Open Scope nat_scope.

Section Base.
Context {X St : Type}.
Variable edges : list edge.
Variable filt : nat -> option (St -> X -> St * option X).
Variable s0 : nat -> St.
Variable programs : list (list (op X)).
Implicit Types (s : state X St) (k : list (instr X)) (i j : instr X) (tr : list (event X)).
Notation exec1 := (exec1 edges filt).
Notation step := (step edges filt).
Notation run := (run edges filt).

Inductive reach : list (event X) -> state X St -> Prop :=
| reach0 : reach [] (initial s0 programs)
| reachS tr s im t e s' : reach tr s -> step im t s = Some (e, s') -> reach (tr ++ [e]) s'.

Lemma run_reach_from : forall sched tr s tr' s', reach tr s -> run sched s = (tr', s') -> reach (tr ++ tr') s'.
Proof.
  induction sched as [|[t im] r IH]; intros tr s tr' s' H R; cbn [ANetModel.run] in R.
  - injection R as <- <-. now rewrite app_nil_r.
  - destruct (step im t s) as [[e s1]|] eqn:E; [|eauto].
    destruct (run r s1) as [tr1 s2] eqn:E2. injection R as <- <-.
    specialize (IH _ _ _ _ (reachS _ _ _ _ _ _ H E) E2). now rewrite <- app_assoc in IH.
Qed.
Lemma run_reach : forall sched tr s, run sched (initial s0 programs) = (tr, s) -> reach tr s.
Proof. intros sched tr s R. exact (run_reach_from _ _ _ _ _ reach0 R). Qed.

(** A step replaces the first instruction of one thread. *)
Lemma upd_mid {A} : forall (l1 l2 : list A) a b, upd (l1 ++ a :: l2) (length l1) b = l1 ++ b :: l2.
Proof. induction l1; intros; cbn; [reflexivity|now rewrite IHl1]. Qed.
Lemma exec1_threads : forall im t s i ev e sp s1, exec1 im t s i = Some (ev, e, sp, s1) -> a_threads s1 = a_threads s.
Proof.
  intros im t s i ev e sp s1 H. unfold ANetModel.exec1 in H. destruct (a_exc s t); destruct i; unfold ANetModel.unwind in H; cbn [ANetModel.normal] in H;
    repeat match type of H with
           | context [match ?z with _ => _ end] => destruct z eqn:?
           end; try discriminate; injection H as <- <- <- <-; reflexivity.
Qed.
Lemma step_inv : forall im t s ev s', step im t s = Some (ev, s') ->
  exists A i k B e sp s1, a_threads s = A ++ (i :: k) :: B /\ length A = t /\ exec1 im t s i = Some (ev, e, sp, s1) /\ s' = set_threads s1 (A ++ (e ++ k) :: B ++ sp).
Proof.
  intros im t s ev s' H. unfold ANetModel.step in H.
  destruct (nth_error (a_threads s) t) as [[|i k]|] eqn:E; try discriminate.
  destruct (exec1 im t s i) as [[[[ev' e] sp] s1]|] eqn:X1; try discriminate.
  injection H as <- <-.
  destruct (nth_error_split _ _ E) as (A & B & Q & L).
  exists A, i, k, B, e, sp, s1. repeat split; auto.
  rewrite Q, <- L, upd_mid, <- app_assoc. reflexivity.
Qed.

Lemma mid_nth : forall s A k B t, a_threads s = A ++ k :: B -> length A = t -> nth_error (a_threads s) t = Some k.
Proof. intros s A k B t Q <-. rewrite Q, nth_error_app2, Nat.sub_diag; [reflexivity|lia]. Qed.

(** ** Invariants of the stack of each thread *)
Definition stacks (P : list (instr X) -> Prop) s := Forall P (a_threads s).
Lemma stacks_step : forall (P : list (instr X) -> Prop) im t s ev s',
  (forall i k e sp s1, nth_error (a_threads s) t = Some (i :: k) -> P (i :: k) -> exec1 im t s i = Some (ev, e, sp, s1) -> P (e ++ k) /\ Forall P sp) ->
  stacks P s -> step im t s = Some (ev, s') -> stacks P s'.
Proof.
  intros P im t s ev s' H HI HS. destruct (step_inv _ _ _ _ _ HS) as (A & i & k & B & e & sp & s1 & Q & L & E & ->).
  pose proof (mid_nth _ _ _ _ _ Q L) as NT. unfold stacks in *. cbn [set_threads a_threads]. rewrite Q in HI. apply Forall_app in HI as [HA HB].
  inversion HB as [|? ? Hk HB']; subst. destruct (H _ _ _ _ _ NT Hk E) as [H1 H2].
  apply Forall_app; split; [assumption|]. constructor; [assumption|]. now apply Forall_app.
Qed.

(** ** Weights *)
Definition wt (w : instr X -> nat) k := list_sum (map w k).
Definition wts (w : instr X -> nat) (ks : list (list (instr X))) := list_sum (map (wt w) ks).
Definition tot w s := wts w (a_threads s).
Lemma wt_app : forall w k1 k2, wt w (k1 ++ k2) = wt w k1 + wt w k2.
Proof. intros. unfold wt. now rewrite map_app, list_sum_app. Qed.
Lemma wt_nil : forall w, wt w [] = 0.
Proof. reflexivity. Qed.
Lemma wts_nil : forall w, wts w [] = 0.
Proof. reflexivity. Qed.
Lemma wt_cons : forall w i k, wt w (i :: k) = w i + wt w k.
Proof. reflexivity. Qed.
Lemma wts_app : forall w (k1 k2 : list (list (instr X))), wts w (k1 ++ k2) = wts w k1 + wts w k2.
Proof. intros. unfold wts. now rewrite map_app, list_sum_app. Qed.
Lemma wts_cons : forall w k ks, wts w (k :: ks) = wt w k + wts w ks.
Proof. reflexivity. Qed.
Lemma tot_step : forall w im t s ev s', step im t s = Some (ev, s') ->
  exists i e sp s1, exec1 im t s i = Some (ev, e, sp, s1) /\ tot w s' + w i = tot w s + wt w e + wts w sp /\
    (exists k, In (i :: k) (a_threads s) /\ nth_error (a_threads s) t = Some (i :: k)) /\
    a_lock s' = a_lock s1 /\ a_queue s' = a_queue s1 /\ a_stat s' = a_stat s1 /\ a_next s' = a_next s1 /\ a_calls s' = a_calls s1 /\ a_st s' = a_st s1.
Proof.
  intros w im t s ev s' H. destruct (step_inv _ _ _ _ _ H) as (A & i & k & B & e & sp & s1 & Q & L & E & ->).
  exists i, e, sp, s1. split; [assumption|]. split.
  - unfold tot. cbn [set_threads a_threads]. rewrite Q, !wts_app, !wts_cons, wts_app, wt_app, wt_cons. lia.
  - split; [exists k; split; [rewrite Q; apply in_or_app; right; now left|exact (mid_nth _ _ _ _ _ Q L)]|]. repeat split; reflexivity.
Qed.
(** ** Instructions anywhere *)
Definition somewhere s i := exists k, In k (a_threads s) /\ In i k.
Lemma wt_0 : forall w k, wt w k = 0 <-> forall i, In i k -> w i = 0.
Proof.
  induction k as [|a k IH]; [now split|]. rewrite wt_cons. split.
  - intros H i [<-|Hi]; [lia|]. apply IH; [lia|assumption].
  - intros H. rewrite (H a (or_introl eq_refl)). cbn. apply IH. intros; apply H; now right.
Qed.
Lemma wt_ge : forall w k i, In i k -> w i <= wt w k.
Proof. induction k as [|a k IH]; intros i H; [destruct H|]. rewrite wt_cons. destruct H as [<-|H]; [lia|]. specialize (IH _ H). lia. Qed.
Lemma wts_ge : forall w ks k, In k ks -> wt w k <= wts w ks.
Proof. induction ks as [|a k IH]; intros i H; [destruct H|]. rewrite wts_cons. destruct H as [<-|H]; [lia|]. specialize (IH _ H). lia. Qed.
Lemma tot_ge : forall w s i, somewhere s i -> w i <= tot w s.
Proof. intros w s i (k & Hk & Hi). unfold tot. etransitivity; [exact (wt_ge _ _ _ Hi)|]. now apply wts_ge. Qed.
Lemma wt_pos : forall w k, 0 < wt w k -> exists i, In i k /\ 0 < w i.
Proof.
  induction k as [|a k IH]; [cbn; lia|]. rewrite wt_cons. intros H.
  destruct (w a) eqn:E; [|exists a; split; [now left|lia]]. destruct IH as (i & Hi & P); [lia|]. exists i; split; [now right|assumption].
Qed.
Lemma wts_pos : forall w ks, 0 < wts w ks -> exists k i, In k ks /\ In i k /\ 0 < w i.
Proof.
  induction ks as [|a k IH]; [cbn; lia|]. rewrite wts_cons. intros H.
  destruct (wt w a) eqn:E; [|destruct (wt_pos w a) as (i & Hi & P); [lia|]; exists a, i; repeat split; [now left|assumption..]].
  destruct IH as (k' & i & Hk & Hi & P); [lia|]. exists k', i; repeat split; [now right|assumption..].
Qed.
Lemma tot_pos : forall w s, 0 < tot w s -> exists i, somewhere s i /\ 0 < w i.
Proof. intros w s H. destruct (wts_pos _ _ H) as (k & i & Hk & Hi & P). exists i. split; [exists k; now split|assumption]. Qed.
Lemma head_somewhere : forall s i k, In (i :: k) (a_threads s) -> somewhere s i.
Proof. intros s i k H. exists (i :: k); split; [assumption|now left]. Qed.
(** Two occurrences: in different threads, or one below the other. *)
Lemma tot_two : forall w s i k k' j, In (i :: k) (a_threads s) -> 0 < w i -> tot w s <= 1 -> In k' (a_threads s) -> In j k' -> 0 < w j -> k' = i :: k /\ j = i.
Proof.
  intros w s i k k' j H Hi T Hk' Hj Hw. unfold tot in T. destruct (in_split _ _ H) as (A & B & Q). rewrite Q in *.
  rewrite wts_app, wts_cons, wt_cons in T.
  assert (0 < wt w k') by (pose proof (wt_ge w k' j Hj); lia).
  apply in_app_or in Hk' as [Hk'|[<-|Hk']].
  - pose proof (wts_ge w _ _ Hk'). lia.
  - split; [reflexivity|]. destruct Hj as [->|Hj]; [reflexivity|]. pose proof (wt_ge w k j Hj). lia.
  - pose proof (wts_ge w _ _ Hk'). lia.
Qed.
Lemma somewhere_old : forall s s' i k e sp s1 A B j, a_threads s = A ++ (i :: k) :: B ->
  s' = set_threads s1 (A ++ (e ++ k) :: B ++ sp) -> somewhere s j -> j = i \/ somewhere s' j.
Proof.
  intros s s' i k e sp s1 A B j Q -> (k' & Hk & Hj). rewrite Q in Hk. unfold somewhere. cbn [set_threads a_threads]. apply in_app_or in Hk as [Hk|[<-|Hk]].
  + right. exists k'. split; [apply in_or_app; now left|assumption].
  + destruct Hj as [<-|Hj]; [now left|]. right. exists (e ++ k). split; [apply in_or_app; right; now left|apply in_or_app; now right].
  + right. exists k'. split; [|assumption]. apply in_or_app; right; right; apply in_or_app; now left.
Qed.
(** Something that is somewhere after a step is new or was there before. *)
Lemma somewhere_new : forall im t s ev s' i k e sp s1 A B j, a_threads s = A ++ (i :: k) :: B -> exec1 im t s i = Some (ev, e, sp, s1) ->
  s' = set_threads s1 (A ++ (e ++ k) :: B ++ sp) -> somewhere s' j -> In j (e ++ concat sp) \/ somewhere s j.
Proof.
  intros im t s ev s' i k e sp s1 A B j Q E -> (k' & Hk & Hj). cbn [set_threads a_threads] in Hk. apply in_app_or in Hk as [Hk|[<-|Hk]].
  - right. exists k'. split; [rewrite Q; apply in_or_app; now left|assumption].
  - apply in_app_or in Hj as [Hj|Hj]; [left; apply in_or_app; now left|]. right. exists (i :: k). split; [rewrite Q; apply in_or_app; right; now left|now right].
  - apply in_app_or in Hk as [Hk|Hk].
    + right. exists k'. split; [rewrite Q; apply in_or_app; right; now right|assumption].
    + left. apply in_or_app; right. apply in_concat. eauto.
Qed.
(** An exception on its way adds nothing. *)
Lemma unwind_nil : forall t s i ev e sp s1, unwind t s i = Some (ev, e, sp, s1) -> e = [] /\ sp = [].
Proof. intros t s i ev e sp s1 E. unfold unwind in E. destruct i; try (injection E as <- <- <- <-; now split). destruct d; injection E as <- <- <- <-; now split. Qed.
(** Invariants of each instruction, relative to the history. *)
Definition all (P : instr X -> Prop) s := forall j, somewhere s j -> P j.
Lemma all_step : forall (P : instr X -> Prop) im t s ev s',
  (forall i k e sp s1, In (i :: k) (a_threads s) -> nth_error (a_threads s) t = Some (i :: k) -> P i -> a_exc s t = false -> ANetModel.normal edges filt im t s i = Some (ev, e, sp, s1) -> forall j, In j (e ++ concat sp) -> P j) ->
  all P s -> step im t s = Some (ev, s') -> all P s'.
Proof.
  intros P im t s ev s' H HI HS j Hj. destruct (step_inv _ _ _ _ _ HS) as (A & i & k & B & e & sp & s1 & Q & L & E & S').
  assert (HIn : In (i :: k) (a_threads s)) by (rewrite Q; apply in_or_app; right; now left).
  destruct (somewhere_new _ _ _ _ _ _ _ _ _ _ _ _ _ Q E S' Hj) as [Hn|Ho]; [|now apply HI].
  unfold ANetModel.exec1 in E. destruct (a_exc s t) eqn:EX.
  { destruct (unwind_nil _ _ _ _ _ _ _ E) as [-> ->]. destruct Hn. }
  eapply H; eauto; [exact (mid_nth _ _ _ _ _ Q L)|]. apply HI. eapply head_somewhere; eauto.
Qed.
End Base.

(** Case analysis on the instruction that is executed. *)
Ltac exec_cases H :=
  match type of H with
  | ANetModel.normal _ _ _ _ _ ?i = _ => destruct i
  end; cbn [ANetModel.normal] in H;
  repeat match type of H with
         | context [match ?z with _ => _ end] => destruct z eqn:?
         end; try discriminate H; injection H as <- <- <- <-.
