(** Proofs about exceptions inside consume(): the statistical consumers. *)
From Coq Require Import Lia QArith Qcanon Field.
From Verif Require Import Prelude ConsumerModel StatsModel StatsSpec StatsProofs StatsTop StatsInst FaultModel FaultSpec FaultProofs.
Local Open Scope nat_scope.

Section Mean.
Context {K : Type}.
Variable F : kops K.
Lemma mean_throw : forall s (x : list K) f s', call (mean_stmts F) s x f = Threw s' -> s' = {| mv_mean := mv_mean s; mv_n := if (mv_n s =? 0)%N then 1%N else wrap64 (mv_n s + 1) |}.
Proof.
  intros s x f s' H. unfold call, mean_stmts in H. unfold seq_ at 1 in H. cbn [members] in H. destruct (mv_n s =? 0)%N.
  - unfold seq_, set, may_throw in H. destruct f as [[|k]|]; try discriminate. now injection H.
  - unfold seq_ at 1 in H. cbn [set] in H. unfold seq_ at 1 in H. unfold may_throw at 1 in H. destruct f as [[|k]|].
    + now injection H.
    + destruct (mv_mean s) as [m|] eqn:Em; [|discriminate]. destruct (same_size x m); [|discriminate]. unfold seq_, set, may_throw in H. destruct k as [|[|[|k]]]; try discriminate; injection H as <-; reflexivity.
    + destruct (mv_mean s) as [m|] eqn:Em; [|discriminate]. destruct (same_size x m); discriminate.
Qed.
Lemma mean_run_n : forall xs s s', run_consumer (mean_consume F) s xs = Ok s' -> (mv_n s + N.of_nat (length xs) < two64)%N -> mv_n s' = (mv_n s + N.of_nat (length xs))%N.
Proof.
  induction xs as [|x xs IH]; intros s s' H Hl; [injection H as <-; cbn; lia|]. cbn [run_consumer length] in *. destruct (mean_consume F s x) as [s1| | |] eqn:E; try discriminate. cbn [bind] in H.
  assert (E1 : mv_n s1 = (mv_n s + 1)%N).
  { unfold mean_consume in E. destruct (N.eqb_spec (mv_n s) 0) as [E0|E0]; [injection E as <-; cbn; lia|]. destruct (mv_mean s) as [m|]; [|discriminate]. destruct (same_size x m); [|discriminate]. injection E as <-. cbn. unfold wrap64. apply N.mod_small. lia. }
  rewrite (IH s1 s' H); lia.
Qed.
Lemma run_app : forall {St X} (c : St -> X -> outcome St) s xs ys, run_consumer c s (xs ++ ys) = do s' <- run_consumer c s xs; run_consumer c s' ys.
Proof. intros St X c s xs. revert s. induction xs as [|x xs IH]; intros s ys; [reflexivity|]. cbn [app run_consumer]. destruct (c s x); cbn [bind]; auto. Qed.
Hypothesis EA : exact_arithmetic F.
Lemma update_self : forall (m : list K) n, mean_update F m m n = m.
Proof.
  destruct EA as [[inv FT] _ _ _ _ _ _]. pose proof (F_R FT) as RT. intros m n. unfold mean_update, vop.
  induction m as [|a m IH]; [reflexivity|]. cbn [combine map fst snd]. rewrite IH. f_equal. rewrite (Ring_theory.Rsub_def RT), (Ring_theory.Ropp_def RT), (Fdiv_def FT).
  assert (Z : kmul F (k0 F) (inv (kofN F n)) = k0 F) by (apply (Ring_theory.ARmul_0_l (Ring_theory.Rth_ARth (Eqsth K) (Eq_ext (kadd F) (kmul F) (kopp F)) RT))).
  rewrite Z, (Ring_theory.Radd_comm RT), (Ring_theory.Radd_0_l RT). reflexivity.
Qed.
Theorem mean_stand_ins : forall dflt d x h s, length x = d -> Forall (fun y => length (fst y) = d) h -> (N.of_nat (length h) + 1 < two64)%N -> calls (mean_stmts F) (mean_init dflt) ((x, true) :: h) s ->
  exists m, mean_get s = Ok m /\ length m = d /\ forall i, i < d -> comp F m i = the_mean F (stand_ins F d [x] h) i.
Proof.
  intros dflt d x h s Hx Hh Hl H. inversion H as [|s0 x0 f s1 h0 s2 Hc H1|]; subst s0 x0 h0 s2. apply mean_tr in Hc. rewrite mean_same in Hc.
  assert (R0 : run_consumer (mean_consume F) (mean_init dflt) [x] = Ok s1) by (cbn [run_consumer]; destruct (mean_consume F (mean_init dflt) x); try discriminate; cbn [bind]; cbn in Hc; congruence).
  clear Hc H.
  assert (G : forall h before s1 s, calls (mean_stmts F) s1 h s -> run_consumer (mean_consume F) (mean_init dflt) before = Ok s1 -> before <> [] -> all_size d before -> Forall (fun y => length (fst y) = d) h ->
    (N.of_nat (length before) + N.of_nat (length h) < two64)%N -> run_consumer (mean_consume F) (mean_init dflt) (stand_ins F d before h) = Ok s /\ stand_ins F d before h <> [] /\ all_size d (stand_ins F d before h) /\
    length (stand_ins F d before h) = length before + length h).
  { clear - EA. induction h as [|[y b] h IH]; intros before s1 s H R Hne Hs Hf Hl.
    - inversion H; subst. cbn [stand_ins length]. repeat split; auto; lia.
    - pose proof (Forall_inv Hf) as Hy. pose proof (Forall_inv_tail Hf) as Hf'. cbn [fst] in Hy. cbn [length] in Hl |- *. inversion H as [|s0 x0 f s2 h0 s3 Hc H1|s0 x0 f s2 h0 s3 Hc H1]; subst s0 x0 h0 s3; subst b.
      + apply mean_tr in Hc. rewrite mean_same in Hc. cbn [stand_ins]. destruct (IH (before ++ [y]) s2 s H1) as (I1 & I2 & I3 & I4).
        * rewrite run_app, R. cbn [bind run_consumer]. destruct (mean_consume F s1 y); try discriminate. cbn in Hc |- *. congruence.
        * destruct before; discriminate.
        * apply Forall_app. split; [exact Hs|]. constructor; [exact Hy|constructor].
        * exact Hf'.
        * rewrite app_length. cbn [length]. lia.
        * repeat split; auto. rewrite I4, app_length. cbn. lia.
      + apply mean_throw in Hc. cbn [stand_ins].
        destruct (top_mean F EA dflt before d Hne Hs ltac:(lia)) as (s0 & m & R' & Hg & Hm & Hi). rewrite R in R'. injection R' as <-.
        assert (Em : map (the_mean F before) (seq 0 d) = m).
        { apply (nth_ext _ _ (k0 F) (k0 F)); [now rewrite map_length, seq_length, Hm|]. intros i Hi'. rewrite map_length, seq_length in Hi'.
          rewrite (nth_indep _ (k0 F) (the_mean F before 0)) by (now rewrite map_length, seq_length). rewrite map_nth, seq_nth by exact Hi'. cbn [Nat.add]. symmetry. now apply Hi. }
        assert (En : mv_n s1 = N.of_nat (length before)). { rewrite (mean_run_n before _ _ R); cbn [mean_init mv_n]; lia. }
        assert (E0 : (mv_n s1 =? 0)%N = false) by (apply N.eqb_neq; rewrite En; destruct before; [congruence|cbn [length]; lia]).
        destruct (IH (before ++ [m]) s2 s H1) as (I1 & I2 & I3 & I4).
        * rewrite run_app, R. cbn [bind run_consumer]. unfold mean_consume. rewrite E0. unfold mean_get in Hg. destruct (mv_mean s1) as [m'|] eqn:Em1; [|discriminate]. injection Hg as ->.
          unfold same_size. rewrite Nat.eqb_refl. rewrite update_self. cbn [bind]. rewrite Hc, E0. reflexivity.
        * destruct before; discriminate.
        * apply Forall_app. split; [exact Hs|]. constructor; [exact Hm|constructor].
        * exact Hf'.
        * rewrite app_length. cbn [length]. lia.
        * rewrite Em. repeat split; auto. rewrite I4, app_length. cbn. lia. }
  assert (A1 : [x] <> []) by congruence.
  assert (A2 : all_size d [x]) by (apply Forall_cons; [exact Hx|apply Forall_nil]).
  assert (A3 : (N.of_nat (length [x]) + N.of_nat (length h) < two64)%N) by (cbn [length]; lia).
  destruct (G h [x] s1 s H1 R0 A1 A2 Hh A3) as (G1 & G2 & G3 & G4).
  destruct (top_mean F EA dflt _ d G2 G3) as (s' & m & R' & Hg & Hm & Hi); [rewrite G4; cbn [length]; lia|]. rewrite G1 in R'. injection R' as <-. exists m. auto.
Qed.
End Mean.

(** A first sample that could not be stored makes the next call undefined. *)
Theorem mean_first : forall {K} (F : kops K) x y, exists s, calls (mean_stmts F) (mean_init None) [(x, false)] s /\ mv_n s = 1%N /\ mean_get s = UB /\ call (mean_stmts F) s y None = Bad.
Proof.
  intros K F x y. eexists. split; [eapply (call_throws _ _ _ (Some 0)); [reflexivity|constructor]|]. repeat split.
Qed.
Theorem cov_first : forall {K} (F : kops K) G x y, exists s, calls (cov_stmts F) (cov_init G) [(x, false)] s /\ fst (cov_get s) = 0 /\ call (cov_stmts F) s y None = Bad.
Proof.
  intros K F G x y. eexists. split; [eapply (call_throws _ _ _ (Some 0)); [reflexivity|constructor]|]. split; reflexivity.
Qed.
Lemma cov_throw : forall {K} (F : kops K) s (x : list K) f s', call (cov_stmts F) s x f = Threw s' -> cv_n s <> 0%N ->
  cv_mean s' = cv_mean s /\ cv_n s' = wrap64 (cv_n s + 1) /\ (cv_cov s' = cv_cov s \/ exists m, cv_mean s = Some m /\ cv_cov s' = cov_entry F (vop (ksub F) x m) (cv_n s') (cv_cov s)).
Proof.
  intros K F s x f s' H Hn. apply N.eqb_neq in Hn. unfold call, cov_stmts in H. unfold seq_ at 1 in H. cbn [members] in H. rewrite Hn in H.
  unfold seq_ at 1 in H. cbn [set] in H. unfold seq_ at 1 in H. unfold may_throw at 1 in H. destruct f as [[|k]|].
  - injection H as <-. cbn. auto.
  - destruct (cv_mean s) as [m|] eqn:Em; [|discriminate]. destruct (same_size x m); [|discriminate]. unfold seq_, set, may_throw in H. destruct k as [|[|[|[|[|k]]]]]; try discriminate; injection H as <-; cbn; repeat split; auto; right; exists m; auto.
  - destruct (cv_mean s) as [m|] eqn:Em; [|discriminate]. destruct (same_size x m); discriminate.
Qed.

(** ** AutoCovarianceTrace *)
Definition keeps {St A} (R : St -> St -> Prop) (m : stmt St A) : Prop := forall s f, match m s f with Go _ s' _ => R s s' | Stop s' => R s s' | Undef => True end.
Lemma k_seq : forall {St A B} (R : St -> St -> Prop) (m : stmt St A) (k : A -> stmt St B), (forall a b c, R a b -> R b c -> R a c) -> keeps R m -> (forall a, keeps R (k a)) -> keeps R (seq_ m k).
Proof.
  intros St A B R m k Ht Hm Hk s f. unfold seq_. pose proof (Hm s f) as H. destruct (m s f) as [a s1 f1|s1|]; [|exact H|exact I]. pose proof (Hk a s1 f1) as H'. destruct (k a s1 f1); eauto.
Qed.
Lemma k_may : forall {St} (R : St -> St -> Prop), (forall s, R s s) -> keeps R may_throw.
Proof. intros St R H s [[|k]|]; cbn; auto. Qed.
Lemma k_ret : forall {St A} (R : St -> St -> Prop) (a : A), (forall s, R s s) -> keeps R (ret a).
Proof. intros St A R a H s f. cbn. auto. Qed.
Lemma k_mem : forall {St} (R : St -> St -> Prop), (forall s, R s s) -> keeps R members.
Proof. intros St R H s f. cbn. auto. Qed.
Lemma k_und : forall {St A} (R : St -> St -> Prop), keeps R (@undefined St A).
Proof. intros St A R s f. exact I. Qed.
Section Act.
Context {K : Type}.
Variable F : kops K.
Local Notation lg := (@lagged K (K * list K)).
Definition same_window (s s' : lg) : Prop := lg_prev s' = lg_prev s /\ lg_n s' = lg_n s.
Lemma sw_refl : forall s, same_window s s.
Proof. split; reflexivity. Qed.
Lemma sw_trans : forall a b c, same_window a b -> same_window b c -> same_window a c.
Proof. unfold same_window. intuition congruence. Qed.
Lemma sw_set : forall u : lg -> lg, (forall s, same_window s (u s)) -> keeps same_window (set u).
Proof. intros u H s f. apply H. Qed.
Ltac kw := first [apply k_seq; [exact sw_trans| |]|apply k_may; exact sw_refl|apply k_ret; exact sw_refl|apply k_mem; exact sw_refl|apply k_und|apply sw_set; intros; split; reflexivity
  |match goal with |- forall _, _ => intro end|match goal with |- keeps _ (match ?x with _ => _ end) => destruct x end].
Lemma lag_keeps : forall x l a b, keeps same_window (act_lag_stmts F x l a b).
Proof. intros. unfold act_lag_stmts, set_lag. cbv zeta. repeat kw. Qed.
Lemma loop_keeps : forall x n l, keeps same_window (act_loop_stmts F x l n).
Proof. intros x n. induction n as [|n IH]; intros l; cbn [act_loop_stmts]; repeat (first [apply lag_keeps|apply IH|kw]). Qed.
Lemma first_keeps : forall x n l, keeps same_window (act_first_stmts F x l n).
Proof. intros x n. induction n as [|n IH]; intros l; cbn [act_first_stmts]; unfold set_lag; repeat (first [apply IH|kw]). Qed.
Lemma act_throw : forall L (s : lg) x f s', call (act_stmts F L) s x f = Threw s' ->
  (lg_n s = 0%N /\ lg_prev s' = lg_prev s /\ lg_n s' = 0%N) \/
  (lg_n s <> 0%N /\ (s' = s \/ (lg_prev s' = x :: lg_prev s /\ lg_n s' = lg_n s) \/ (lg_prev s' = trim L (x :: lg_prev s) /\ lg_n s' = wrap64 (lg_n s + 1)))).
Proof.
  intros L s x f s' H. unfold call, act_stmts in H. unfold seq_ at 1 in H. cbn [members] in H. destruct (N.eqb_spec (lg_n s) 0) as [E0|E0].
  - left. split; [exact E0|].
    assert (Kp : keeps same_window (may_throw ;; may_throw ;; set (fun s => {| lg_mean := lg_mean s; lg_lags := repeat (k0 F, []) (L + 1); lg_prev := lg_prev s; lg_n := lg_n s |}) ;;
      act_first_stmts F x 0 (L + 1) ;; may_throw ;; set (fun s => {| lg_mean := Some x; lg_lags := lg_lags s; lg_prev := lg_prev s; lg_n := lg_n s |}) ;; may_throw)).
    { repeat (first [apply first_keeps|kw]). }
    specialize (Kp s f). rewrite <- E0. unfold seq_ in H, Kp.
    repeat match goal with
    | _ : context [match ?m ?a ?b with Go _ _ _ => _ | Stop _ => _ | Undef => _ end] |- _ => destruct (m a b) as [? ? ?|?|] eqn:?; try discriminate
    end; try (injection H as <-; exact Kp); try discriminate.
  - right. split; [exact E0|]. destruct (lg_mean s) as [m|] eqn:Em; [|discriminate]. destruct (same_size x m); [|discriminate].
    unfold seq_ at 1 in H. destruct f as [[|k]|]; cbn [may_throw] in H.
    + injection H as <-. now left.
    + right. unfold seq_ at 1 in H. cbn [set] in H. unfold seq_ at 1 in H.
      match type of H with context [act_loop_stmts F x 0 ?n ?s0 ?f0] => pose proof (loop_keeps x n 0 s0 f0) as Kp; destruct (act_loop_stmts F x 0 n s0 f0) as [a s1 f1|s1|] end; [| |discriminate].
      * right. destruct Kp as [Kp1 Kp2]. cbn [lg_prev lg_n] in Kp1, Kp2. unfold seq_, set, may_throw in H. destruct f1 as [[|[|[|[|k1]]]]|]; try discriminate; injection H as <-; cbn [lg_prev lg_n]; now rewrite Kp1, Kp2.
      * left. injection H as <-. exact Kp.
    + right. unfold seq_ at 1 in H. cbn [set] in H. unfold seq_ at 1 in H.
      match type of H with context [act_loop_stmts F x 0 ?n ?s0 ?f0] => pose proof (loop_keeps x n 0 s0 f0) as Kp; destruct (act_loop_stmts F x 0 n s0 f0) as [a s1 f1|s1|] end; [| |discriminate].
      * right. destruct Kp as [Kp1 Kp2]. cbn [lg_prev lg_n] in Kp1, Kp2. unfold seq_, set, may_throw in H. destruct f1 as [[|[|[|[|k1]]]]|]; try discriminate; injection H as <-; cbn [lg_prev lg_n]; now rewrite Kp1, Kp2.
      * left. injection H as <-. exact Kp.
Qed.
Lemma trim_length : forall L (x : list K) p, length p <= length (trim L (x :: p)).
Proof.
  intros L x p. unfold trim. destruct (L + 1 <? length (x :: p)); [|cbn; lia]. rewrite removelast_firstn_len, firstn_length. cbn [length]. lia.
Qed.
Theorem window_never_shrinks : forall L (s : lg) h s', calls (act_stmts F L) s h s' -> lg_n s <> 0%N -> (lg_n s + N.of_nat (length h) < two64)%N -> length (lg_prev s) <= length (lg_prev s').
Proof.
  intros L s h s' H. induction H as [s|s x f s' h s'' Hc H IH|s x f s' h s'' Hc H IH]; intros Hn Hl; [lia|cbn [length] in Hl|cbn [length] in Hl].
  - apply act_tr in Hc. rewrite act_same in Hc. unfold act_consume in Hc. destruct (N.eqb_spec (lg_n s) 0) as [E0|E0]; [contradiction|]. destruct (lg_mean s) as [m|]; [|discriminate]. destruct (same_size x m); [|discriminate].
    pose proof (lag_loop_ub F (lg_n s) (x :: lg_prev s) x (lg_lags s) 0) as HU. destruct (lag_loop _ 0 (lg_lags s)) as [r| | |]; try contradiction; try discriminate. cbn in Hc. injection Hc as <-. cbn [lg_n lg_prev] in IH.
    unfold wrap64 in IH. rewrite N.mod_small in IH by lia. pose proof (trim_length L x (lg_prev s)). etransitivity; [exact H0|]. apply IH; lia.
  - destruct (act_throw L s x f s' Hc) as [(E0 & _)|(_ & [->|[(E1 & E2)|(E1 & E2)]])]; [contradiction|apply IH; [exact Hn|lia]| |].
    + etransitivity; [|apply IH; rewrite E2; [exact Hn|lia]]. rewrite E1. cbn. lia.
    + unfold wrap64 in E2. rewrite N.mod_small in E2 by lia. etransitivity; [apply (trim_length L x)|]. rewrite <- E1. apply IH; lia.
Qed.
Theorem window_unbounded : forall L (x : list K) n, exists s, calls (act_stmts F L) act_init ((x, true) :: repeat (x, false) n) s /\ length (lg_prev s) = n + 1.
Proof.
  intros L x n. destruct (act_consume F L act_init x) as [s1| | |] eqn:E1; try discriminate.
  assert (G : forall n (s0 : lg), lg_n s0 = 1%N -> lg_mean s0 = Some x -> length (lg_lags s0) = L + 1 -> 1 <= length (lg_prev s0) ->
    exists s, calls (act_stmts F L) s0 (repeat (x, false) n) s /\ length (lg_prev s) = n + length (lg_prev s0)).
  { clear. induction n as [|n IH]; intros s0 Hn Hm Hl Hp; [exists s0; split; [constructor|reflexivity]|].
    assert (Hc : exists s1, call (act_stmts F L) s0 x (Some 1) = Threw s1 /\ lg_n s1 = 1%N /\ lg_mean s1 = Some x /\ length (lg_lags s1) = L + 1 /\ length (lg_prev s1) = S (length (lg_prev s0))).
    { unfold call, act_stmts. unfold seq_ at 1. cbn [members]. rewrite Hn, Hm. change (1 =? 0)%N with false. cbv iota. unfold same_size. rewrite Nat.eqb_refl. unfold seq_ at 1. cbn [may_throw]. unfold seq_ at 1. cbn [set].
      destruct s0 as [me la pr nn]. cbn [lg_n lg_mean lg_lags lg_prev] in *. subst nn me. rewrite Hl. replace (L + 1) with (S L) by lia. cbn [act_loop_stmts]. unfold seq_. cbn [members lg_lags].
      destruct la as [|[a b] la]; [cbn in Hl; lia|]. cbn [nth_error]. unfold act_lag_stmts, seq_, members. cbn [lg_n lg_prev]. change (1 =? N.of_nat 0 + 1)%N with true. cbv iota.
      destruct pr as [|p pr]; [cbn in Hp; lia|]. cbn [nth_error Nat.add]. unfold set_lag, set, may_throw. eexists. split; [reflexivity|]. cbn [lg_n lg_mean lg_lags lg_prev length firstn skipn app]. repeat split. cbn in Hl. lia. }
    destruct Hc as (s1 & Hc & H1 & H2 & H3 & H4). destruct (IH s1 H1 H2 H3 ltac:(lia)) as (s & Hs & Hlen). exists s. split; [|lia]. cbn [repeat]. now apply (call_throws _ _ _ (Some 1) s1). }
  cbn in E1. injection E1 as <-. destruct (G n {| lg_mean := Some x; lg_lags := repeat (k0 F, map (fun _ => k0 F) x) (L + 1); lg_prev := [x]; lg_n := 1 |}) as (s & Hs & Hl); [reflexivity|reflexivity|cbn; apply repeat_length|cbn; lia|].
  exists s. split; [|cbn in Hl; lia]. refine (call_returns _ _ _ None _ _ _ _ Hs). rewrite act_same. reflexivity.
Qed.
Theorem act_first : forall L (h : list (list K)) s, calls (act_stmts F L) act_init (map (fun x => (x, false)) h) s -> forall x xs, run_consumer (act_consume F L) s (x :: xs) = run_consumer (act_consume F L) act_init (x :: xs).
Proof.
  intros L h s H x xs. assert (G : lg_n s = 0%N /\ lg_prev s = []).
  { assert (G0 : forall h s0, calls (act_stmts F L) s0 (map (fun x => (x, false)) h) s -> lg_n s0 = 0%N -> lg_prev s0 = [] -> lg_n s = 0%N /\ lg_prev s = []).
    { clear. induction h as [|y h IH]; intros s0 H Hn Hp; inversion H as [|s1 x1 f s2 h1 s3 Hc H1|s1 x1 f s2 h1 s3 Hc H1]; subst; [now split|].
      destruct (act_throw L s0 y f s2 Hc) as [(_ & E1 & E2)|(E0 & _)]; [|contradiction]. apply (IH s2 H1 E2). congruence. }
    apply (G0 h act_init H); reflexivity. }
  destruct G as [G1 G2]. cbn [run_consumer]. f_equal. unfold act_consume. rewrite G1, G2. reflexivity.
Qed.
End Act.

(** ** What the property theorems cite *)
Local Notation q n d := (Q2Qc (n # d)).
Theorem all_strong : forall X : Type, strong_guarantee (@last_stmts X) last_consume /\ strong_guarantee (@count_stmts X) count_consume /\ strong_guarantee (@max_stmts X) max_consume.
Proof. intros X. split; [apply last_strong|split; [apply count_strong|apply max_strong]]. Qed.
Theorem mean_fault_example : exists s m, calls (mean_stmts Qc_ops) (mean_init None) [([q 1 1], true); ([q 7 1], false); ([q 3 1], true)] s /\ mean_get s = Ok [m] /\ Qeq (this m) (5 # 3).
Proof.
  eexists. eexists. split; [eapply (call_returns _ _ _ None); [reflexivity|eapply (call_throws _ _ _ (Some 2)); [reflexivity|eapply (call_returns _ _ _ None); [reflexivity|apply no_calls]]]|]. split; [reflexivity|]. vm_compute. reflexivity.
Qed.
Theorem mean_not_strong : ~ (forall h s, calls (mean_stmts Qc_ops) (mean_init None) h s -> run_consumer (mean_consume Qc_ops) (mean_init None) (consumed h) = Ok s).
Proof.
  intros H. destruct mean_fault_example as (s & m & Hc & Hg & Hm). specialize (H _ _ Hc). cbn [consumed map filter fst snd] in H.
  assert (E : exists m', mean_get s = Ok [m'] /\ Qeq (this m') 2). { cbn in H. injection H as <-. eexists. split; [reflexivity|]. vm_compute. reflexivity. }
  destruct E as (m' & Hg' & Hm'). rewrite Hg in Hg'. injection Hg' as <-. rewrite Hm in Hm'. discriminate Hm'.
Qed.
Theorem mean_first_call : forall (K : Type) (F : kops K) (x y : list K), exists s, calls (mean_stmts F) (mean_init None) [(x, false)] s /\ mean_get s = UB /\ call (mean_stmts F) s y None = Bad.
Proof. intros K F x y. destruct (mean_first F x y) as (s & H1 & _ & H2 & H3). exists s. auto. Qed.
Theorem acc_bound_get : forall (X : Type) (eqb : X -> X -> bool) (x : X) (h : list (X * bool)) s, (N.of_nat (length h) + 1 < two64)%N -> calls (acc_stmts eqb) acc_init ((x, true) :: h) s ->
  exists k, 1 <= k <= length h + 1 /\ (acc_get s == (Z.of_nat k # 1) / (Z.of_nat (length (consumed h) + 1) # 1))%Q.
Proof.
  intros X eqb x h s Hh H. destruct (acc_bound eqb x h s Hh H) as [H1 H2]. exists (N.to_nat (a_acc s)). split; [lia|]. unfold acc_get. rewrite H1.
  destruct (N.ltb_spec 0 (N.of_nat (length (consumed h) + 1))); [|lia]. replace (Z.of_nat (N.to_nat (a_acc s))) with (Z.of_N (a_acc s)) by lia. replace (Z.of_N (N.of_nat (length (consumed h) + 1))) with (Z.of_nat (length (consumed h) + 1)) by lia. reflexivity.
Qed.
(** Running calls with the given faults (None if the behaviour is undefined), and which of them returned. *)
Fixpoint run_faults {St X} (c : X -> stmt St unit) (s : St) (l : list (X * option nat)) : option (St * list bool) :=
  match l with
  | [] => Some (s, [])
  | (x, f) :: l' =>
    match call c s x f with
    | Finished s1 => match run_faults c s1 l' with Some (s', h) => Some (s', true :: h) | None => None end
    | Threw s1 => match run_faults c s1 l' with Some (s', h) => Some (s', false :: h) | None => None end
    | Bad => None
    end
  end.
Lemma run_faults_calls : forall {St X} (c : X -> stmt St unit) l s s' h, run_faults c s l = Some (s', h) -> calls c s (combine (map fst l) h) s'.
Proof.
  intros St X c l. induction l as [|[x f] l IH]; intros s s' h H; cbn [run_faults] in H; [injection H as <- <-; constructor|].
  destruct (call c s x f) as [s1|s1|] eqn:E; [| |discriminate]; destruct (run_faults c s1 l) as [[s2 h2]|] eqn:E2; try discriminate; injection H as <- <-; cbn [map fst combine].
  - apply (call_returns _ _ _ f s1); auto.
  - apply (call_throws _ _ _ f s1); auto.
Qed.
Lemma faults_example : forall {St X Y} (c : X -> stmt St unit) (get : St -> Y) l s h y, option_map (fun r => (get (fst r), snd r)) (run_faults c s l) = Some (y, h) -> exists s', calls c s (combine (map fst l) h) s' /\ get s' = y.
Proof.
  intros St X Y c get l s h y H. destruct (run_faults c s l) as [[s' h']|] eqn:E; [|discriminate]. cbn [option_map fst snd] in H. injection H as H1 H2. subst h'. exists s'. split; [now apply run_faults_calls|exact H1].
Qed.
Theorem cov_fault :
  (exists s, calls (cov_stmts Qc_ops) (cov_init (fun _ _ => q 0 1)) [([q 0 1], true); ([q 2 1], true); ([q 5 1], false); ([q 1 1], true)] s /\ Qeq (this (snd (cov_get s) 0 0)) (4 # 3)) /\
  Qeq (this (the_covariance Qc_ops [[q 0 1]; [q 2 1]; [q 1 1]] 0 0)) 1 /\
  (forall (K : Type) (F : kops K) garbage (x y : list K), exists s, calls (cov_stmts F) (cov_init garbage) [(x, false)] s /\ fst (cov_get s) = 0 /\ call (cov_stmts F) s y None = Bad).
Proof.
  split; [|split; [vm_compute; reflexivity|intros K F; exact (cov_first F)]].
  destruct (faults_example (cov_stmts Qc_ops) (fun s => this (snd (cov_get s) 0 0)) [([q 0 1], None); ([q 2 1], None); ([q 5 1], Some 0); ([q 1 1], None)] (cov_init (fun _ _ => q 0 1)) [true; true; false; true] (4 # 3)) as (s & H1 & H2).
  - vm_compute. reflexivity.
  - exists s. split; [exact H1|rewrite H2; reflexivity].
Qed.
Theorem act_fault :
  (exists s v, calls (act_stmts Qc_ops 0) act_init [([q 1 1], true); ([q 5 1], false); ([q 2 1], true)] s /\ act_get Qc_ops s 0 = Ok v /\ Qeq (this v) (25 # 2)) /\
  Qeq (this (the_autocovariance_trace Qc_ops 1 [[q 1 1]; [q 2 1]] 0)) (1 # 2) /\
  (forall (K : Type) (F : kops K) (max_lag : nat) (x : list K) n, exists s, calls (act_stmts F max_lag) act_init ((x, true) :: repeat (x, false) n) s /\ length (lg_prev s) = n + 1) /\
  (forall (K : Type) (F : kops K) (max_lag : nat) s h s', calls (act_stmts F max_lag) s h s' -> lg_n s <> 0%N -> (lg_n s + N.of_nat (length h) < two64)%N -> length (lg_prev s) <= length (lg_prev s')).
Proof.
  split; [|split; [vm_compute; reflexivity|split; [intros K F; exact (window_unbounded F)|intros K F; exact (window_never_shrinks F)]]].
  destruct (faults_example (act_stmts Qc_ops 0) (fun s => match act_get Qc_ops s 0 with Ok v => Some (this v) | _ => None end) [([q 1 1], None); ([q 5 1], Some 1); ([q 2 1], None)] act_init [true; false; true] (Some (25 # 2))) as (s & H1 & H2).
  - vm_compute. reflexivity.
  - exists s. destruct (act_get Qc_ops s 0) as [v| | |]; try discriminate. exists v. split; [exact H1|]. split; [reflexivity|]. injection H2 as H2. rewrite H2. reflexivity.
Qed.
