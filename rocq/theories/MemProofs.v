(** Proofs: the memory of consumers. *)
From Coq Require Import Lia List.
From Verif Require Import Prelude ConsumerModel ConsumerProofs StatsModel StatsSpec HistModel MemSpec.
Import ListNotations.
Local Open Scope list_scope.
Local Notation length := List.length.

Lemma wraps_step_w : forall w n, (1 < w)%N -> ((n + 1 + (w - 1)) / w = (n + (w - 1)) / w + (if (n mod w =? 0)%N then 1 else 0))%N.
Proof.
  intros w n Hw. pose proof (N.div_mod n w ltac:(lia)) as E. pose proof (N.mod_upper_bound n w ltac:(lia)) as B. set (k := (n / w)%N) in *. set (r := (n mod w)%N) in *.
  assert (E1 : ((n + 1 + (w - 1)) / w = k + 1)%N) by (symmetry; apply N.div_unique with r; lia). rewrite E1.
  destruct (N.eqb_spec r 0) as [H|H].
  - assert (E2 : ((n + (w - 1)) / w = k)%N) by (symmetry; apply N.div_unique with (w - 1)%N; lia). lia.
  - assert (E2 : ((n + (w - 1)) / w = k + 1)%N) by (symmetry; apply N.div_unique with (r - 1)%N; lia). lia.
Qed.
Lemma two64_gt : (1 < two64)%N.
Proof. reflexivity. Qed.
Lemma wraps_step : forall n, wraps (S n) = wraps n + (if (N.of_nat n mod two64 =? 0)%N then 1 else 0).
Proof.
  intros n. unfold wraps. rewrite Nat2N.inj_succ, <- N.add_1_r, (wraps_step_w two64 (N.of_nat n) two64_gt), N2Nat.inj_add. destruct (_ =? 0)%N; reflexivity.
Qed.
Lemma wraps_short : forall n, 0 < n -> (N.of_nat n <= two64)%N -> wraps n = 1.
Proof.
  intros n Hn Hl. unfold wraps. assert (E : ((N.of_nat n + (two64 - 1)) / two64 = 1)%N).
  { generalize two64_gt Hl. generalize two64. intros w Hw Hlw. symmetry. apply N.div_unique with (N.of_nat n - 1)%N; lia. }
  rewrite E. reflexivity.
Qed.
Lemma mod_step : forall n, (wrap64 (N.of_nat n mod two64 + 1) = N.of_nat (S n) mod two64)%N.
Proof.
  intros n. unfold wrap64. rewrite Nat2N.inj_succ, <- N.add_1_r. rewrite N.add_mod_idemp_l by (pose proof two64_gt; lia). reflexivity.
Qed.

Section Mem.
Context {K : Type}.
Variable F : kops K.
Notation small d vs := (Forall (fun v : list K => length v <= d) vs).
Lemma vop_length : forall f (a b : list K), length (vop f a b) <= length a.
Proof. intros. unfold vop. rewrite map_length, combine_length. lia. Qed.
Lemma scalars_le : forall d (vs : list (list K)), small d vs -> scalars vs <= length vs * d.
Proof. intros d vs H. unfold scalars. induction vs as [|v vs IH]; cbn [map list_sum fold_right length]; [lia|]. pose proof (Forall_inv H) as H1. pose proof (IH (Forall_inv_tail H)). cbn beta in H1. change (fold_right Init.Nat.add 0 (map (length (A:=K)) vs)) with (list_sum (map (length (A:=K)) vs)) in *. lia. Qed.
Lemma mean_update_length : forall (m x : list K) n, length (mean_update F m x n) <= length m.
Proof. intros. apply vop_length. Qed.
Lemma removelast_incl : forall {A} (l : list A) P, Forall P l -> Forall P (removelast l).
Proof. intros A l P H. induction H as [|a l Ha Hl IH]; cbn; [constructor|]. destruct l; [constructor|]. now constructor. Qed.
Lemma trim_small : forall M d (p : list (list K)), small d p -> small d (trim M p).
Proof. intros M d p H. unfold trim. destruct (_ <? _)%nat; [now apply removelast_incl|exact H]. Qed.
Lemma removelast_length : forall {A} (l : list A), length (removelast l) = length l - 1.
Proof. intros A l. induction l as [|a l IH]; [reflexivity|]. cbn [removelast]. destruct l; [reflexivity|]. cbn [length] in *. lia. Qed.
Lemma trim_length : forall M (p : list (list K)) B, M + 1 <= B -> length p <= S B -> length (trim M p) <= B.
Proof. intros M p B H1 H2. unfold trim. destruct (M + 1 <? length p)%nat eqn:E; [rewrite removelast_length; lia|]. apply Nat.ltb_ge in E. lia. Qed.

Lemma lag_loop_small : forall {A} (f : nat -> A -> outcome A) (Q : A -> Prop), (forall l a a', Q a -> f l a = Ok a' -> Q a') ->
  forall data l r, Forall Q data -> lag_loop f l data = Ok r -> Forall Q r /\ length r = length data.
Proof.
  intros A f Q Hf data. induction data as [|a data IH]; intros l r HQ H; cbn [lag_loop] in H.
  - injection H as <-. now split.
  - destruct (f l a) as [a'| | |] eqn:E; try discriminate H. cbn [bind] in H. destruct (lag_loop f (S l) data) as [r'| | |] eqn:E'; try discriminate H. cbn [bind] in H. injection H as <-.
    pose proof (Forall_inv HQ) as Ha. pose proof (Forall_inv_tail HQ) as Hd. destruct (IH (S l) r' Hd E') as [H1 H2]. split; [constructor; [exact (Hf l a a' Ha E)|exact H1]|]. cbn. now rewrite H2.
Qed.
Lemma nth_small : forall d (p : list (list K)) k v, small d p -> nth_error p k = Some v -> length v <= d.
Proof. intros d p k v H E. rewrite Forall_forall in H. apply H. eapply nth_error_In. exact E. Qed.

(** What holds of the state after n samples, for any kind of lag data. *)
Record bounded {A} (Q : A -> Prop) (M d n : nat) (s : @lagged K A) : Prop := {
  bd_n : lg_n s = (N.of_nat n mod two64)%N;
  bd_mean : small d (of_option (lg_mean s));
  bd_lags : Forall Q (lg_lags s) /\ length (lg_lags s) <= M + 1;
  bd_prev : small d (lg_prev s) /\ length (lg_prev s) <= M + wraps n }.
Lemma bounded_first : forall {A} (Q : A -> Prop) M d n (s : @lagged K A) sample lags, bounded Q M d n s -> (lg_n s =? 0)%N = true -> length sample <= d ->
  Forall Q lags -> length lags = M + 1 ->
  bounded Q M d (S n) {| lg_mean := Some sample; lg_lags := lags; lg_prev := sample :: lg_prev s; lg_n := 1 |}.
Proof.
  intros A Q M d n s sample lags H H0 Hs HQ HL. apply N.eqb_eq in H0. destruct H as [E _ _ [P1 P2]]. rewrite E in H0. constructor; cbn [lg_n lg_mean lg_lags lg_prev of_option].
  - rewrite <- mod_step, H0. reflexivity.
  - repeat constructor. exact Hs.
  - split; [exact HQ|lia].
  - split; [constructor; assumption|]. rewrite wraps_step, H0. cbn [length N.eqb]. lia.
Qed.
Lemma wraps_pos : forall n, (N.of_nat n mod two64 <> 0)%N -> 1 <= wraps n.
Proof.
  intros n H. assert (Hn : n <> 0). { intros ->. apply H. reflexivity. } clear H.
  assert (forall k, 1 <= wraps (S k)). { induction k as [|k IH]; rewrite wraps_step; [cbn; lia|lia]. } destruct n; [congruence|auto].
Qed.
Lemma bounded_next : forall {A} (Q : A -> Prop) M d n (s : @lagged K A) mean sample lags, bounded Q M d n s -> (lg_n s =? 0)%N = false -> lg_mean s = Some mean -> length sample <= d ->
  Forall Q lags -> length lags = length (lg_lags s) ->
  bounded Q M d (S n) {| lg_mean := Some (mean_update F mean sample (wrap64 (lg_n s + 1))); lg_lags := lags; lg_prev := trim M (sample :: lg_prev s); lg_n := wrap64 (lg_n s + 1) |}.
Proof.
  intros A Q M d n s mean sample lags H H0 Hm Hs HQ HL. apply N.eqb_neq in H0. destruct H as [E Hmn [L1 L2] [P1 P2]]. rewrite E in *. constructor; cbn [lg_n lg_mean lg_lags lg_prev of_option].
  - apply mod_step.
  - rewrite Hm in Hmn. cbn [of_option] in Hmn. constructor; [|constructor]. eapply Nat.le_trans; [apply mean_update_length|]. exact (Forall_inv Hmn).
  - split; [exact HQ|lia].
  - split; [apply trim_small; constructor; assumption|]. rewrite wraps_step. destruct (N.eqb_spec (N.of_nat n mod two64) 0) as [E0|E0]; [congruence|]. rewrite Nat.add_0_r.
    pose proof (wraps_pos n H0) as Hw. apply trim_length; [lia|]. cbn [length]. lia.
Qed.
Lemma bounded_init : forall {A} (Q : A -> Prop) M d, bounded Q M d 0 {| lg_mean := None; lg_lags := []; lg_prev := []; lg_n := 0 |}.
Proof. intros. constructor; cbn; [reflexivity|constructor|split; [constructor|lia]|split; [constructor|lia]]. Qed.
Lemma bounded_run : forall {A} (Q : A -> Prop) (M d : nat) (consume : @lagged K A -> list K -> outcome (@lagged K A)),
  (forall n s x s', bounded Q M d n s -> length x <= d -> consume s x = Ok s' -> bounded Q M d (S n) s') ->
  forall xs s0 s, bounded Q M d 0 s0 -> small d xs -> run_consumer consume s0 xs = Ok s -> bounded Q M d (length xs) s.
Proof.
  intros A Q M d consume Hstep xs s0 s H0 Hx H.
  enough (G : forall xs n s0, bounded Q M d n s0 -> small d xs -> forall s, run_consumer consume s0 xs = Ok s -> bounded Q M d (n + length xs) s).
  { exact (G xs 0 s0 H0 Hx s H). }
  clear xs s0 s H0 Hx H. induction xs as [|x xs IH]; intros n s0 H0 Hx s H; cbn [run_consumer] in H.
  - injection H as <-. now rewrite Nat.add_0_r.
  - destruct (consume s0 x) as [s1| | |] eqn:E; try discriminate H. cbn [bind] in H. cbn [length]. rewrite <- Nat.add_succ_comm. apply (IH (S n) s1); [|exact (Forall_inv_tail Hx)|exact H].
    apply (Hstep n s0 x s1); auto. exact (Forall_inv Hx).
Qed.

(** ** AutoCovarianceTrace *)
Lemma act_step : forall M d n s x s', bounded (fun ab : K * list K => length (snd ab) <= d) M d n s -> length x <= d -> act_consume F M s x = Ok s' ->
  bounded (fun ab => length (snd ab) <= d) M d (S n) s'.
Proof.
  intros M d n s x s' HB Hx H. unfold act_consume in H. destruct (lg_n s =? 0)%N eqn:E0.
  - injection H as <-. apply bounded_first; auto; [|apply repeat_length]. apply Forall_forall. intros ab Hab. apply repeat_spec in Hab. subst ab. cbn. rewrite map_length. exact Hx.
  - destruct (lg_mean s) as [mean|] eqn:Em; [|discriminate H]. destruct (same_size x mean); [|discriminate H].
    destruct (lag_loop (act_lag F (lg_n s) (x :: lg_prev s) x) 0 (lg_lags s)) as [lags| | |] eqn:El; try discriminate H. cbn [bind] in H. injection H as <-.
    assert (HP : small d (x :: lg_prev s)) by (constructor; [exact Hx|exact (proj1 (bd_prev _ _ _ _ _ HB))]).
    destruct (lag_loop_small (act_lag F (lg_n s) (x :: lg_prev s) x) (fun ab => length (snd ab) <= d)) with (data := lg_lags s) (l := 0) (r := lags) as [H1 H2]; auto.
    + intros l [al be] ab' Hab E. cbn [snd] in Hab. unfold act_lag in E. destruct (lg_n s =? N.of_nat l + 1)%N.
      * destruct (nth_error (x :: lg_prev s) 0) as [p0|] eqn:N0; [|discriminate E]. destruct (nth_error _ l); [|discriminate E]. destruct (nth_error _ 1); [|discriminate E]. destruct (nth_error _ (l + 1)); [|discriminate E].
        injection E as <-. cbn [snd]. eapply Nat.le_trans; [apply vop_length|]. eapply Nat.le_trans; [apply vop_length|]. eapply Nat.le_trans; [apply vop_length|]. exact (nth_small d _ 0 p0 HP N0).
      * destruct (N.of_nat l + 2 <=? lg_n s)%N; [|injection E as <-; exact Hab]. destruct (nth_error _ l); [|discriminate E]. injection E as <-. cbn [snd].
        eapply Nat.le_trans; [apply vop_length|exact Hab].
    + exact (proj1 (bd_lags _ _ _ _ _ HB)).
    + now apply bounded_next.
Qed.
Lemma scalars_map : forall {A} (g : A -> list K) d l, Forall (fun a => length (g a) <= d) l -> scalars (map g l) <= length l * d.
Proof. intros A g d l H. rewrite <- (map_length g l). apply scalars_le. now apply Forall_map. Qed.
Lemma sizes_le : forall d (xs : list (list K)), all_size d xs -> small d xs.
Proof. intros d xs H. eapply Forall_impl; [|exact H]. intros a ->. lia. Qed.
Theorem act_bound : forall M d xs s, all_size d xs -> run_consumer (act_consume F M) act_init xs = Ok s ->
  act_memory s <= d + (M + 1) * (1 + d) + (M + wraps (length xs)) * d.
Proof.
  intros M d xs s Hx H. assert (HB := bounded_run _ M d (act_consume F M) (act_step M d) xs act_init s (bounded_init _ M d) (sizes_le d xs Hx) H).
  destruct HB as [_ Hm [L1 L2] [P1 P2]]. unfold act_memory.
  pose proof (scalars_le d _ Hm) as S1. assert (length (of_option (lg_mean s)) <= 1) by (destruct (lg_mean s); cbn; lia).
  pose proof (scalars_map snd d (lg_lags s) L1) as S2. pose proof (scalars_le d _ P1) as S3.
  assert (length (of_option (lg_mean s)) * d <= 1 * d) by (apply Nat.mul_le_mono_r; assumption).
  assert (length (lg_lags s) * d <= (M + 1) * d) by (apply Nat.mul_le_mono_r; assumption).
  assert (length (lg_prev s) * d <= (M + wraps (length xs)) * d) by (apply Nat.mul_le_mono_r; assumption). lia.
Qed.

(** ** AutoCovarianceMatrix *)
Lemma acm_step : forall G M d n s x s', bounded (fun abe : matrix K * list K * list K => length (snd (fst abe)) <= d /\ length (snd abe) <= d) M d n s -> length x <= d -> acm_consume F G M s x = Ok s' ->
  bounded (fun abe => length (snd (fst abe)) <= d /\ length (snd abe) <= d) M d (S n) s'.
Proof.
  intros G M d n s x s' HB Hx H. unfold acm_consume in H. destruct (lg_n s =? 0)%N eqn:E0.
  - injection H as <-. apply bounded_first; auto; [|rewrite map_length; apply seq_length]. apply Forall_forall. intros ab Hab. apply in_map_iff in Hab. destruct Hab as (l & <- & _). cbn. rewrite map_length. auto.
  - destruct (lg_mean s) as [mean|] eqn:Em; [|discriminate H]. destruct (same_size x mean); [|discriminate H].
    destruct (lag_loop (acm_lag F (lg_n s) (x :: lg_prev s) x) 0 (lg_lags s)) as [lags| | |] eqn:El; try discriminate H. cbn [bind] in H. injection H as <-.
    assert (HP : small d (x :: lg_prev s)) by (constructor; [exact Hx|exact (proj1 (bd_prev _ _ _ _ _ HB))]).
    destruct (lag_loop_small (acm_lag F (lg_n s) (x :: lg_prev s) x) (fun abe => length (snd (fst abe)) <= d /\ length (snd abe) <= d)) with (data := lg_lags s) (l := 0) (r := lags) as [H1 H2]; auto.
    + intros l [[al be] et] ab' [Hb He] E. cbn [fst snd] in Hb, He. unfold acm_lag in E. destruct (lg_n s =? N.of_nat l + 1)%N.
      * destruct (nth_error (x :: lg_prev s) 0) as [p0|] eqn:N0; [|discriminate E]. destruct (nth_error _ l); [|discriminate E]. destruct (nth_error _ 1); [|discriminate E]. destruct (nth_error _ (l + 1)); [|discriminate E].
        injection E as <-. cbn [fst snd]. split; [eapply Nat.le_trans; [apply vop_length|]; exact (nth_small d _ 0 p0 HP N0)|].
        eapply Nat.le_trans; [apply vop_length|]. eapply Nat.le_trans; [apply vop_length|exact He].
      * destruct (N.of_nat l + 2 <=? lg_n s)%N; [|injection E as <-; split; assumption]. destruct (nth_error _ l); [|discriminate E]. injection E as <-. cbn [fst snd].
        split; (eapply Nat.le_trans; [apply vop_length|assumption]).
    + exact (proj1 (bd_lags _ _ _ _ _ HB)).
    + now apply bounded_next.
Qed.
Theorem acm_bound : forall G M d xs s, all_size d xs -> run_consumer (acm_consume F G M) acm_init xs = Ok s ->
  acm_memory d s <= d + (M + 1) * (d * d + 2 * d) + (M + wraps (length xs)) * d.
Proof.
  intros G M d xs s Hx H. assert (HB := bounded_run _ M d (acm_consume F G M) (acm_step G M d) xs acm_init s (bounded_init _ M d) (sizes_le d xs Hx) H).
  destruct HB as [_ Hm [L1 L2] [P1 P2]]. unfold acm_memory.
  pose proof (scalars_le d _ Hm) as S1. assert (length (of_option (lg_mean s)) <= 1) by (destruct (lg_mean s); cbn; lia).
  pose proof (scalars_map (fun a => snd (fst a)) d (lg_lags s) (Forall_impl _ (fun a H => proj1 H) L1)) as S2.
  pose proof (scalars_map snd d (lg_lags s) (Forall_impl _ (fun a H => proj2 H) L1)) as S2'. pose proof (scalars_le d _ P1) as S3.
  assert (length (of_option (lg_mean s)) * d <= 1 * d) by (apply Nat.mul_le_mono_r; assumption).
  assert (length (lg_lags s) * d <= (M + 1) * d) by (apply Nat.mul_le_mono_r; assumption).
  assert (length (lg_lags s) * (d * d) <= (M + 1) * (d * d)) by (apply Nat.mul_le_mono_r; assumption).
  assert (length (lg_prev s) * d <= (M + wraps (length xs)) * d) by (apply Nat.mul_le_mono_r; assumption). nia.
Qed.

(** ** What is remembered: the last max_lag + 1 samples *)
Section Window.
Context {A : Type}.
Variables (M : nat) (consume : @lagged K A -> list K -> outcome (@lagged K A)).
Hypothesis step0 : forall s x s', lg_n s = 0%N -> consume s x = Ok s' -> lg_prev s' = x :: lg_prev s /\ lg_n s' = 1%N.
Hypothesis step1 : forall s x s', lg_n s <> 0%N -> consume s x = Ok s' -> lg_prev s' = trim M (x :: lg_prev s) /\ lg_n s' = wrap64 (lg_n s + 1).
Lemma window : forall s0, lg_n s0 = 0%N -> lg_prev s0 = [] -> forall xs s, (N.of_nat (length xs) < two64)%N -> run_consumer consume s0 xs = Ok s ->
  lg_prev s = firstn (M + 1) (rev xs) /\ lg_n s = N.of_nat (length xs).
Proof.
  intros s0 H0 H1 xs. induction xs as [|x xs IH] using rev_ind; intros s Hl H.
  - injection H as <-. rewrite H0, H1. now rewrite firstn_nil.
  - rewrite run_consumer_app in H. destruct (run_consumer consume s0 xs) as [s1| | |] eqn:E; try discriminate H. cbn [bind run_consumer] in H.
    destruct (consume s1 x) as [s2| | |] eqn:E2; try discriminate H. cbn [bind] in H. injection H as <-. rewrite app_length in *. cbn [length] in *.
    assert (Hlt : (N.of_nat (length xs) + 1 < two64)%N) by (revert Hl; generalize two64; intros; lia).
    assert (Hlt' : (N.of_nat (length xs) < two64)%N) by (revert Hl; generalize two64; intros; lia).
    destruct (IH s1 Hlt' eq_refl) as [P1 P2]. rewrite rev_app_distr. cbn [rev app].
    assert (EN : N.of_nat (length xs + 1) = (N.of_nat (length xs) + 1)%N) by (clear; lia). rewrite EN.
    destruct xs as [|y ys] eqn:Exs.
    + destruct (step0 s1 x s2 P2 E2) as [Q1 Q2]. rewrite Q1, Q2, P1. cbn [rev length]. rewrite firstn_nil, Nat.add_1_r. cbn. now rewrite firstn_nil.
    + rewrite <- Exs in *. assert (Hnz : lg_n s1 <> 0%N) by (rewrite P2, Exs; cbn; clear; lia).
      destruct (step1 s1 x s2 Hnz E2) as [Q1 Q2]. rewrite Q1, Q2, P1, P2. split; [|unfold wrap64; rewrite N.mod_small by exact Hlt; reflexivity].
      clear. rewrite Nat.add_1_r. unfold trim. cbn [length]. set (l := rev xs). clearbody l.
      destruct (Nat.ltb_spec (M + 1) (S (length (firstn (S M) l)))) as [L|L].
      * rewrite firstn_length in L. assert (S M <= length l) by lia. assert (Hr : forall k (l : list (list K)), S k <= length l -> removelast (firstn (S k) l) = firstn k l) by (intros; now apply removelast_firstn).
        change (x :: firstn (S M) l) with (firstn (S (S M)) (x :: l)). apply Hr. cbn. lia.
      * rewrite firstn_length in L. change (firstn (S M) (x :: l)) with (x :: firstn M l). rewrite (firstn_all2 (n := S M)) by lia. rewrite (firstn_all2 (n := M)) by lia. reflexivity.
Qed.
End Window.
Theorem act_window : forall M xs s, (N.of_nat (length xs) < two64)%N -> run_consumer (act_consume F M) act_init xs = Ok s -> lg_prev s = firstn (M + 1) (rev xs).
Proof.
  intros M xs s Hl H. apply (fun H1 H2 => proj1 (window M (act_consume F M) H1 H2 act_init eq_refl eq_refl xs s Hl H)).
  - intros s0 x s' E0 E. unfold act_consume in E. rewrite E0 in E. cbn [N.eqb] in E. injection E as <-. now split.
  - intros s0 x s' E0 E. unfold act_consume in E. apply N.eqb_neq in E0. rewrite E0 in E. destruct (lg_mean s0); [|discriminate E]. destruct (same_size _ _); [|discriminate E].
    destruct (lag_loop _ _ _); try discriminate E. cbn [bind] in E. injection E as <-. now split.
Qed.
Theorem acm_window : forall G M xs s, (N.of_nat (length xs) < two64)%N -> run_consumer (acm_consume F G M) acm_init xs = Ok s -> lg_prev s = firstn (M + 1) (rev xs).
Proof.
  intros G M xs s Hl H. apply (fun H1 H2 => proj1 (window M (acm_consume F G M) H1 H2 acm_init eq_refl eq_refl xs s Hl H)).
  - intros s0 x s' E0 E. unfold acm_consume in E. rewrite E0 in E. cbn [N.eqb] in E. injection E as <-. now split.
  - intros s0 x s' E0 E. unfold acm_consume in E. apply N.eqb_neq in E0. rewrite E0 in E. destruct (lg_mean s0); [|discriminate E]. destruct (same_size _ _); [|discriminate E].
    destruct (lag_loop _ _ _); try discriminate E. cbn [bind] in E. injection E as <-. now split.
Qed.

(** ** MeanValue and CovarianceMatrix *)
Theorem mean_bound : forall dflt d xs s, xs <> [] -> all_size d xs -> run_consumer (mean_consume F) (mean_init dflt) xs = Ok s -> mean_memory s <= d.
Proof.
  intros dflt d xs s Hne Hx H. destruct xs as [|x xs]; [congruence|]. cbn [run_consumer mean_consume mean_init mv_n N.eqb bind] in H. pose proof (Forall_inv Hx) as Hd. cbn beta in Hd. pose proof (Forall_inv_tail Hx) as Hx'. clear Hx Hne.
  enough (G : forall xs s0, all_size d xs -> mean_memory s0 <= d -> forall s, run_consumer (mean_consume F) s0 xs = Ok s -> mean_memory s <= d).
  { apply (G xs {| mv_mean := Some x; mv_n := 1 |}); auto. unfold mean_memory, scalars. cbn. lia. }
  clear. induction xs as [|x xs IH]; intros s0 Hx H0 s H; cbn [run_consumer] in H; [injection H as <-; exact H0|].
  destruct (mean_consume F s0 x) as [s1| | |] eqn:E; try discriminate H. cbn [bind] in H. pose proof (Forall_inv Hx) as Hd. cbn beta in Hd. apply (IH s1 (Forall_inv_tail Hx)); [|exact H].
  unfold mean_consume in E. destruct (mv_n s0 =? 0)%N; [injection E as <-; unfold mean_memory, scalars; cbn; lia|]. destruct (mv_mean s0) as [mn|] eqn:Em; [|discriminate E]. destruct (same_size x mn); [|discriminate E].
  injection E as <-. unfold mean_memory, scalars in *. rewrite Em in H0. cbn in *. pose proof (mean_update_length mn x (wrap64 (mv_n s0 + 1))). lia.
Qed.
Theorem cov_bound : forall G d xs s, all_size d xs -> run_consumer (cov_consume F) (cov_init G) xs = Ok s -> cov_memory s <= d + d * d.
Proof.
  intros G d xs s Hx H.
  enough (L : forall xs s0, all_size d xs -> scalars (of_option (cv_mean s0)) <= d /\ cv_dim s0 <= d -> forall s, run_consumer (cov_consume F) s0 xs = Ok s -> scalars (of_option (cv_mean s)) <= d /\ cv_dim s <= d).
  { destruct (L xs (cov_init G) Hx ltac:(cbn; lia) s H) as [L1 L2]. unfold cov_memory. assert (cv_dim s * cv_dim s <= d * d) by (apply Nat.mul_le_mono; assumption). lia. }
  clear. induction xs as [|x xs IH]; intros s0 Hx H0 s H; cbn [run_consumer] in H; [injection H as <-; exact H0|].
  destruct (cov_consume F s0 x) as [s1| | |] eqn:E; try discriminate H. cbn [bind] in H. pose proof (Forall_inv Hx) as Hd. cbn beta in Hd. apply (IH s1 (Forall_inv_tail Hx)); [|exact H].
  unfold cov_consume in E. destruct (cv_n s0 =? 0)%N; [injection E as <-; unfold scalars; cbn; lia|]. destruct (cv_mean s0) as [mn|] eqn:Em; [|discriminate E]. destruct (same_size x mn); [|discriminate E].
  injection E as <-. cbn [cv_mean cv_dim of_option] in *. unfold scalars in *. cbn in *. pose proof (mean_update_length mn x (wrap64 (cv_n s0 + 1))). lia.
Qed.
End Mem.

(** ** Histogram *)
Lemma incr_length : forall bins k, length (incr bins k) = length bins.
Proof. induction bins as [|c bins IH]; intros [|k]; cbn; auto. Qed.
Theorem hist_bound : forall b xs s0 s, run_consumer (hist_consume b) s0 xs = Ok s -> h_pts s = h_pts s0 /\ length (h_bins s) = length (h_bins s0).
Proof.
  intros b. induction xs as [|x xs IH]; intros s0 s H; cbn [run_consumer] in H; [injection H as <-; now split|].
  destruct (hist_consume b s0 x) as [s1| | |] eqn:E; try discriminate H. cbn [bind] in H. destruct (IH s1 s H) as [-> ->]. unfold hist_consume in E.
  destruct (h_pts s0) eqn:Ep; [discriminate E|]. destruct (outside _ _); [injection E as <-; now rewrite Ep|]. destruct (bin_number _ _ _); try discriminate E. cbn [bind] in E.
  destruct (_ <? _); injection E as <-; [|now rewrite Ep]. cbn. now rewrite incr_length.
Qed.

(** ** Together *)
Section Together.
Context {K : Type}.
Variable F : kops K.
Lemma wraps_le1 : forall n, (N.of_nat n <= two64)%N -> wraps n <= 1.
Proof. intros [|n] H; [vm_compute; lia|]. rewrite wraps_short; [lia|lia|exact H]. Qed.
Theorem act_bounds : forall M d xs s, all_size d xs -> run_consumer (act_consume F M) act_init xs = Ok s ->
  act_memory s <= d + (M + 1) * (1 + d) + (M + wraps (length xs)) * d /\
  ((N.of_nat (length xs) <= two64)%N -> act_memory s <= d + (M + 1) * (1 + d) + (M + 1) * d).
Proof.
  intros M d xs s Hx H. pose proof (act_bound F M d xs s Hx H) as B. split; [exact B|]. intros Hl. pose proof (wraps_le1 _ Hl) as W. clear Hl.
  assert ((M + wraps (length xs)) * d <= (M + 1) * d) by (apply Nat.mul_le_mono_r; lia). lia.
Qed.
Theorem acm_bounds : forall G M d xs s, all_size d xs -> run_consumer (acm_consume F G M) acm_init xs = Ok s ->
  acm_memory d s <= d + (M + 1) * (d * d + 2 * d) + (M + wraps (length xs)) * d /\
  ((N.of_nat (length xs) <= two64)%N -> acm_memory d s <= d + (M + 1) * (d * d + 2 * d) + (M + 1) * d).
Proof.
  intros G M d xs s Hx H. pose proof (acm_bound F G M d xs s Hx H) as B. split; [exact B|]. intros Hl. pose proof (wraps_le1 _ Hl) as W. clear Hl.
  assert ((M + wraps (length xs)) * d <= (M + 1) * d) by (apply Nat.mul_le_mono_r; lia). lia.
Qed.
Theorem windows : forall G M xs, (N.of_nat (length xs) < two64)%N ->
  (forall s, run_consumer (act_consume F M) act_init xs = Ok s -> lg_prev s = firstn (M + 1) (rev xs)) /\
  (forall s, run_consumer (acm_consume F G M) acm_init xs = Ok s -> lg_prev s = firstn (M + 1) (rev xs)).
Proof. intros G M xs H. split; intros s; [now apply act_window|now apply acm_window]. Qed.
End Together.
