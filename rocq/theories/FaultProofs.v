(** Proofs about exceptions inside consume(). *)
From Coq Require Import Lia QArith Qcanon Field.
From Verif Require Import Prelude ConsumerModel StatsModel StatsSpec StatsProofs StatsTop StatsInst FaultModel FaultSpec.
Local Open Scope nat_scope.

Ltac run := cbn [seq_ members set may_throw ret undefined call as_ending].

(** ** Nothing throws *)
Lemma last_same : forall X s (x : X), call last_stmts s x None = as_ending s (last_consume s x).
Proof. reflexivity. Qed.
Lemma count_same : forall X s (x : X), call count_stmts s x None = as_ending s (count_consume s x).
Proof. reflexivity. Qed.
Lemma max_same : forall X s (x : X * aux), call max_stmts s x None = as_ending s (max_consume s x).
Proof.
  intros X s x. unfold call, max_stmts, max_consume. cbn. destruct (aux_find ll_key (snd x)) as [v|]; [|reflexivity]. destruct v; try reflexivity. cbn.
  destruct (deq (m_ll s) lowest); [reflexivity|]. cbn. destruct (dgt _ _); reflexivity.
Qed.
Lemma acc_same : forall X eqb s (x : X), call (acc_stmts eqb) s x None = as_ending s (acc_consume eqb s x).
Proof.
  intros X eqb s x. unfold call, acc_stmts, acc_consume. unfold seq_ at 1. cbn [members]. destruct (a_n s =? 0)%N; [reflexivity|]. destruct (a_prev s) as [p|] eqn:E; [|reflexivity].
  unfold seq_ at 1. cbn [may_throw]. destruct (eqb x p); [cbn; now rewrite E|reflexivity].
Qed.
Section Stats.
Context {K : Type}.
Variable F : kops K.
Lemma mean_same : forall s (x : list K), call (mean_stmts F) s x None = as_ending s (mean_consume F s x).
Proof.
  intros s x. unfold call, mean_stmts, mean_consume. unfold seq_ at 1. cbn [members]. destruct (mv_n s =? 0)%N; [reflexivity|]. unfold seq_ at 1. cbn [set]. unfold seq_ at 1. cbn [may_throw].
  destruct (mv_mean s) as [m|]; [|reflexivity]. destruct (same_size x m); reflexivity.
Qed.
Lemma cov_same : forall s (x : list K), call (cov_stmts F) s x None = as_ending s (cov_consume F s x).
Proof.
  intros s x. unfold call, cov_stmts, cov_consume. unfold seq_ at 1. cbn [members]. destruct (cv_n s =? 0)%N; [reflexivity|]. unfold seq_ at 1. cbn [set]. unfold seq_ at 1. cbn [may_throw].
  destruct (cv_mean s) as [m|]; [|reflexivity]. destruct (same_size x m); reflexivity.
Qed.
Local Notation lg := (@lagged K (K * list K)).
Definition with_lags (s : lg) (l : list (K * list K)) : lg := {| lg_mean := lg_mean s; lg_lags := l; lg_prev := lg_prev s; lg_n := lg_n s |}.
Lemma set_mid : forall (done : list (K * list K)) a b rest, firstn (length done) (done ++ a :: rest) ++ b :: skipn (S (length done)) (done ++ a :: rest) = done ++ b :: rest.
Proof.
  intros done a b rest. rewrite firstn_app, Nat.sub_diag, firstn_all, firstn_O, app_nil_r. f_equal. f_equal.
  replace (S (length done)) with (length (done ++ [a])) by (rewrite app_length; cbn; lia). change (a :: rest) with ([a] ++ rest). rewrite app_assoc, skipn_app, skipn_all, Nat.sub_diag. reflexivity.
Qed.
Lemma lag_same : forall x done ab rest (s : lg), lg_lags s = done ++ ab :: rest ->
  act_lag_stmts F x (length done) (fst ab) (snd ab) s None = match act_lag F (lg_n s) (lg_prev s) x (length done) ab with Ok r => Go tt (with_lags s (done ++ r :: rest)) None | _ => Undef end.
Proof.
  intros x done [alpha beta] rest [me la pr n] Hl. cbn [lg_lags] in Hl. subst la. unfold act_lag_stmts, act_lag. unfold seq_ at 1. cbn [members lg_n lg_prev fst snd].
  destruct (n =? N.of_nat (length done) + 1)%N.
  - destruct (nth_error pr 0) as [p0|]; [|reflexivity]. destruct (nth_error pr (length done)) as [pl|]; [|reflexivity]. destruct (nth_error pr 1) as [p1|]; [|reflexivity]. destruct (nth_error pr (length done + 1)) as [pl1|]; [|reflexivity].
    unfold seq_, set_lag, set, may_throw. cbn [lg_lags lg_mean lg_prev lg_n]. rewrite !set_mid. reflexivity.
  - destruct (N.of_nat (length done) + 2 <=? n)%N.
    + destruct (nth_error pr (length done)) as [pl|]; [|reflexivity]. unfold seq_, set_lag, set, may_throw. cbn [lg_lags lg_mean lg_prev lg_n]. rewrite !set_mid. reflexivity.
    + reflexivity.
Qed.
Lemma lag_loop_ub : forall n prev x todo l, match lag_loop (act_lag F n prev x) l todo with Ok _ | UB => True | _ => False end.
Proof.
  intros n prev x todo. induction todo as [|[a b] todo IH]; intros l; [exact I|]. cbn [lag_loop].
  assert (Ha : match act_lag F n prev x l (a, b) with Ok _ | UB => True | _ => False end).
  { unfold act_lag. destruct (n =? _)%N.
    - destruct (nth_error prev 0); [|exact I]. destruct (nth_error prev l); [|exact I]. destruct (nth_error prev 1); [|exact I]. destruct (nth_error prev (l + 1)); exact I.
    - destruct (_ <=? _)%N; [|exact I]. destruct (nth_error prev l); exact I. }
  destruct (act_lag F n prev x l (a, b)); cbn [bind]; try exact Ha. specialize (IH (S l)). destruct (lag_loop _ _ _); exact IH.
Qed.
Lemma loop_same : forall x todo done (s : lg), lg_lags s = done ++ todo ->
  act_loop_stmts F x (length done) (length todo) s None = match lag_loop (act_lag F (lg_n s) (lg_prev s) x) (length done) todo with Ok r => Go tt (with_lags s (done ++ r)) None | _ => Undef end.
Proof.
  intros x todo. induction todo as [|ab todo IH]; intros done s Hl; cbn [act_loop_stmts length lag_loop].
  - unfold ret, with_lags. rewrite <- Hl. destruct s; reflexivity.
  - unfold seq_ at 1. cbn [members]. rewrite Hl, nth_error_app2, Nat.sub_diag by lia. cbn [nth_error]. destruct ab as [a b]. unfold seq_. pose proof (lag_same x done (a, b) todo s Hl) as HL. cbn [fst snd] in HL. rewrite HL.
    destruct (act_lag F (lg_n s) (lg_prev s) x (length done) (a, b)) as [r| | |]; cbn [bind]; try reflexivity.
    pose proof (IH (done ++ [r]) (with_lags s (done ++ r :: todo))) as IH'. rewrite app_length in IH'. cbn [length] in IH'. rewrite Nat.add_1_r in IH'. rewrite IH' by (cbn [with_lags lg_lags]; now rewrite <- app_assoc).
    cbn [with_lags lg_n lg_prev]. destruct (lag_loop _ (S (length done)) todo); cbn [bind]; try reflexivity. unfold with_lags. cbn. now rewrite <- app_assoc.
Qed.
Lemma first_same : forall x rest done (s : lg), lg_lags s = done ++ rest ->
  act_first_stmts F x (length done) (length rest) s None = Go tt (with_lags s (done ++ repeat (k0 F, map (fun _ => k0 F) x) (length rest))) None.
Proof.
  intros x rest. induction rest as [|a rest IH]; intros done s Hl; cbn [act_first_stmts length repeat].
  - unfold ret, with_lags. rewrite <- Hl. destruct s; reflexivity.
  - unfold seq_ at 1. cbn [may_throw]. unfold seq_. unfold set_lag, set. rewrite Hl, set_mid.
    pose proof (IH (done ++ [(k0 F, map (fun _ => k0 F) x)]) (with_lags s (done ++ (k0 F, map (fun _ => k0 F) x) :: rest))) as IH'. rewrite app_length in IH'. cbn [length] in IH'. rewrite Nat.add_1_r in IH'.
    change {| lg_mean := lg_mean s; lg_lags := done ++ (k0 F, map (fun _ : K => k0 F) x) :: rest; lg_prev := lg_prev s; lg_n := lg_n s |} with (with_lags s (done ++ (k0 F, map (fun _ : K => k0 F) x) :: rest)).
    rewrite IH' by (cbn [with_lags lg_lags]; now rewrite <- app_assoc). unfold with_lags. cbn. now rewrite <- app_assoc.
Qed.
Lemma act_same : forall max_lag (s : lg) (x : list K), call (act_stmts F max_lag) s x None = as_ending s (act_consume F max_lag s x).
Proof.
  intros max_lag s x. unfold call, act_stmts, act_consume. unfold seq_ at 1. cbn [members]. destruct (lg_n s =? 0)%N.
  - unfold seq_ at 1. cbn [may_throw]. unfold seq_ at 1. cbn [may_throw]. unfold seq_ at 1. cbn [set]. unfold seq_ at 1.
    pose proof (first_same x (repeat (k0 F, []) (max_lag + 1)) [] (with_lags s (repeat (k0 F, []) (max_lag + 1))) eq_refl) as H. rewrite repeat_length in H. cbn [length app] in H. unfold with_lags at 1 in H. rewrite H. reflexivity.
  - destruct (lg_mean s) as [m|] eqn:Em; [|reflexivity]. destruct (same_size x m); [|reflexivity]. unfold seq_ at 1. cbn [may_throw]. unfold seq_ at 1. cbn [set]. unfold seq_ at 1.
    pose proof (loop_same x (lg_lags s) [] {| lg_mean := lg_mean s; lg_lags := lg_lags s; lg_prev := x :: lg_prev s; lg_n := lg_n s |} eq_refl) as H. cbn [length app lg_n lg_prev] in H. rewrite Em in *. rewrite H.
    pose proof (lag_loop_ub (lg_n s) (x :: lg_prev s) x (lg_lags s) 0) as HU. destruct (lag_loop _ 0 (lg_lags s)) as [r| | |]; try contradiction; reflexivity.
Qed.
End Stats.
Theorem without_exceptions :
  (forall X s (x : X), call last_stmts s x None = as_ending s (last_consume s x)) /\
  (forall X s (x : X), call count_stmts s x None = as_ending s (count_consume s x)) /\
  (forall X s (x : X * aux), call max_stmts s x None = as_ending s (max_consume s x)) /\
  (forall X eqb s (x : X), call (acc_stmts eqb) s x None = as_ending s (acc_consume eqb s x)) /\
  (forall K (F : kops K) s x, call (mean_stmts F) s x None = as_ending s (mean_consume F s x)) /\
  (forall K (F : kops K) s x, call (cov_stmts F) s x None = as_ending s (cov_consume F s x)) /\
  (forall K (F : kops K) max_lag s x, call (act_stmts F max_lag) s x None = as_ending s (act_consume F max_lag s x)).
Proof.
  repeat split; [exact max_same|exact acc_same|intros; apply mean_same|intros; apply cov_same|intros; apply act_same].
Qed.

(** ** Faults *)
(** Calls that return do so whatever the fault was. *)
Definition transparent {St X} (c : X -> stmt St unit) : Prop := forall s x f s', call c s x f = Finished s' -> call c s x None = Finished s'.
Definition transparent1 {St A} (m : stmt St A) : Prop := forall s f, match m s f with Go a s' f' => m s None = Go a s' None | Undef => True | Stop _ => True end.
Lemma tr_seq : forall {St A B} (m : stmt St A) (k : A -> stmt St B), transparent1 m -> (forall a, transparent1 (k a)) -> transparent1 (seq_ m k).
Proof.
  intros St A B m k Hm Hk s f. unfold seq_. pose proof (Hm s f) as H. destruct (m s f) as [a s1 f1|s1|]; [|exact I|exact I]. rewrite H. apply Hk.
Qed.
Lemma tr_may : forall {St}, transparent1 (@may_throw St).
Proof. intros St s [[|k]|]; cbn; auto. Qed.
Lemma tr_set : forall {St} (u : St -> St), transparent1 (set u).
Proof. intros St u s f. reflexivity. Qed.
Lemma tr_ret : forall {St A} (a : A), transparent1 (@ret St A a).
Proof. intros St A a s f. reflexivity. Qed.
Lemma tr_und : forall {St A}, transparent1 (@undefined St A).
Proof. intros St A s f. exact I. Qed.
Lemma tr_mem : forall {St}, transparent1 (@members St).
Proof. intros St s f. reflexivity. Qed.
Lemma tr_call : forall {St X} (c : X -> stmt St unit), (forall x, transparent1 (c x)) -> transparent c.
Proof. intros St X c H s x f s' E. unfold call in *. specialize (H x s f). destruct (c x s f) as [a s1 f1|s1|]; try discriminate. rewrite H. exact E. Qed.
Ltac tr1 := first [apply tr_seq|apply tr_may|apply tr_set|apply tr_ret|apply tr_und|apply tr_mem|match goal with |- forall _, _ => intro end|match goal with |- transparent1 (match ?x with _ => _ end) => destruct x end].
Ltac tr := repeat tr1.
Lemma last_tr : forall {X}, transparent (@last_stmts X).
Proof. intros. apply tr_call. intros x. unfold last_stmts. tr. Qed.
Lemma max_tr : forall {X}, transparent (@max_stmts X).
Proof. intros. apply tr_call. intros x. unfold max_stmts. tr; intros s f; exact I. Qed.
Lemma count_tr : forall {X}, transparent (@count_stmts X).
Proof. intros. apply tr_call. intros x. unfold count_stmts. tr. Qed.
Lemma acc_tr : forall {X} eqb, transparent (@acc_stmts X eqb).
Proof. intros. apply tr_call. intros x. unfold acc_stmts. tr. Qed.
Lemma mean_tr : forall {K} (F : kops K), transparent (mean_stmts F).
Proof. intros. apply tr_call. intros x. unfold mean_stmts. tr. Qed.
Lemma cov_tr : forall {K} (F : kops K), transparent (cov_stmts F).
Proof. intros. apply tr_call. intros x. unfold cov_stmts. tr. Qed.
Lemma lag_tr : forall {K} (F : kops K) x l a b, transparent1 (act_lag_stmts F x l a b).
Proof. intros. unfold act_lag_stmts, set_lag. cbv zeta. tr. Qed.
Lemma loop_tr : forall {K} (F : kops K) x n l, transparent1 (act_loop_stmts F x l n).
Proof. intros K F x n. induction n as [|n IH]; intros l; cbn [act_loop_stmts]; repeat (first [apply lag_tr|apply IH|tr1]). Qed.
Lemma first_tr : forall {K} (F : kops K) x n l, transparent1 (act_first_stmts F x l n).
Proof. intros K F x n. induction n as [|n IH]; intros l; cbn [act_first_stmts]; unfold set_lag; repeat (first [apply IH|tr1]). Qed.
Lemma act_tr : forall {K} (F : kops K) L, transparent (act_stmts F L).
Proof. intros. apply tr_call. intros x. unfold act_stmts. repeat (first [apply first_tr|apply loop_tr|tr1]). Qed.

(** Strong guarantee *)
Lemma strong : forall {St X} (c : X -> stmt St unit) consume, transparent c -> (forall s x, call c s x None = as_ending s (consume s x)) -> (forall s x f s', call c s x f = Threw s' -> s' = s) ->
  strong_guarantee c consume.
Proof.
  intros St X c consume Ht Hs Hthrow s h s' H. induction H as [s|s x f s' h s'' Hc H IH|s x f s' h s'' Hc H IH].
  - reflexivity.
  - apply Ht in Hc. rewrite Hs in Hc. unfold consumed in *. cbn [filter snd map fst run_consumer]. destruct (consume s x) as [s1| | |]; try discriminate. injection Hc as ->. exact IH.
  - apply Hthrow in Hc. subst s'. exact IH.
Qed.
Theorem last_strong : forall X, strong_guarantee (@last_stmts X) last_consume.
Proof.
  intros X. apply strong; [apply last_tr|apply last_same|]. intros s x f s'. unfold call, last_stmts, seq_, may_throw, set. destruct f as [[|k]|]; intros H; try discriminate. now injection H.
Qed.
Theorem count_strong : forall X, strong_guarantee (@count_stmts X) count_consume.
Proof. intros X. apply strong; [apply count_tr|apply count_same|]. intros s x f s'. discriminate. Qed.
Theorem max_strong : forall X, strong_guarantee (@max_stmts X) max_consume.
Proof.
  intros X. apply strong; [apply max_tr|apply max_same|]. intros s x f s'. unfold call, max_stmts, seq_, may_throw, set, members, ret.
  destruct (aux_find ll_key (snd x)) as [v|]; [destruct v as [ll| | |]|]; destruct f as [[|[|k]]|]; intros H; cbn - [deq dgt lowest] in H;
    try destruct (deq (m_ll s) lowest || dgt ll (m_ll s))%bool; cbn in H; try discriminate; now inversion H.
Qed.

(** ** AcceptanceRatio *)
Lemma acc_throw : forall {X} eqb s (x : X) f s', call (acc_stmts eqb) s x f = Threw s' -> a_n s <> 0%N ->
  s' = s \/ (a_n s' = a_n s /\ a_prev s' = a_prev s /\ a_acc s' = wrap64 (a_acc s + 1)).
Proof.
  intros X eqb s x f s' H Hn. unfold call, acc_stmts in H. unfold seq_ at 1 in H. cbn [members] in H. apply N.eqb_neq in Hn. rewrite Hn in H. destruct (a_prev s) as [p|] eqn:Ep; [|discriminate].
  unfold seq_ at 1 in H. unfold may_throw at 1 in H. destruct f as [[|k]|].
  - injection H as <-. now left.
  - destruct (eqb x p); [discriminate|]. unfold seq_, set, may_throw in H. destruct k; [|discriminate]. injection H as <-. right. cbn. auto.
  - destruct (eqb x p); discriminate.
Qed.
Theorem acc_unbounded : forall {X} (eqb : X -> X -> bool) x y, eqb y x = false -> forall n, (N.of_nat n + 1 < two64)%N ->
  exists s, calls (acc_stmts eqb) acc_init ((x, true) :: repeat (y, false) n) s /\ acc_get s = (Z.of_nat (n + 1) # 1)%Q.
Proof.
  intros X eqb x y Hxy n Hn.
  assert (G : forall m k, (N.of_nat (m + k) + 1 < two64)%N -> calls (acc_stmts eqb) {| a_n := 1; a_acc := N.of_nat k + 1; a_prev := Some x |} (repeat (y, false) m) {| a_n := 1; a_acc := N.of_nat (m + k) + 1; a_prev := Some x |}).
  { induction m as [|m IH]; intros k Hk; [constructor|]. cbn [repeat]. apply (call_throws _ _ _ (Some 1) {| a_n := 1; a_acc := N.of_nat (S k) + 1; a_prev := Some x |}).
    - unfold call, acc_stmts, seq_, members, may_throw, set. cbn [a_n N.eqb a_prev a_acc]. rewrite Hxy. assert (E : wrap64 (N.of_nat k + 1 + 1) = (N.of_nat (S k) + 1)%N) by (unfold wrap64; rewrite N.mod_small; lia). cbn [a_acc a_n a_prev]. now rewrite E.
    - replace (S m + k) with (m + S k) by lia. apply IH. lia. }
  exists {| a_n := 1; a_acc := N.of_nat n + 1; a_prev := Some x |}. split.
  - apply (call_returns _ _ _ None {| a_n := 1; a_acc := 1; a_prev := Some x |}); [reflexivity|]. specialize (G n 0). rewrite Nat.add_0_r in G. apply G. exact Hn.
  - unfold acc_get. cbn [a_n a_acc]. change (0 <? 1)%N with true. cbv iota. replace (Z.of_N (N.of_nat n + 1)) with (Z.of_nat (n + 1)) by lia. unfold Qdiv, Qmult, Qinv. cbn. f_equal. lia.
Qed.
Theorem acc_bound : forall {X} (eqb : X -> X -> bool) x h s, (N.of_nat (length h) + 1 < two64)%N -> calls (acc_stmts eqb) acc_init ((x, true) :: h) s ->
  a_n s = N.of_nat (length (consumed h) + 1) /\ (1 <= a_acc s <= N.of_nat (length h + 1))%N.
Proof.
  intros X eqb x h s Hh H. inversion H as [|s0 x0 f s1 h0 s2 Hc H1|]; subst. apply acc_tr in Hc. rewrite acc_same in Hc. cbn in Hc. injection Hc as <-. clear H.
  assert (G : forall h s0 n a s, calls (acc_stmts eqb) s0 h s -> a_n s0 = N.of_nat n -> (0 < n)%nat -> a_acc s0 = a -> (1 <= a)%N -> (N.of_nat n + N.of_nat (length h) < two64)%N -> (a + N.of_nat (length h) < two64)%N ->
    a_n s = N.of_nat (length (consumed h) + n) /\ (1 <= a_acc s <= a + N.of_nat (length h))%N).
  { clear. induction h as [|[x b] h IH]; intros s0 n a s H En Hn Ea Ha Hlen Hlen2.
    - inversion H; subst. cbn. split; [exact En|lia].
    - cbn [length] in *. inversion H as [|s1 x1 f s2 h1 s3 Hc H1|s1 x1 f s2 h1 s3 Hc H1]; subst.
      + apply acc_tr in Hc. rewrite acc_same in Hc. unfold acc_consume in Hc. destruct (N.eqb_spec (a_n s0) 0) as [E0|E0]; [lia|]. destruct (a_prev s0) as [p|]; [|discriminate]. unfold wrap64 in Hc.
        rewrite !N.mod_small in Hc by lia. cbn [consumed filter snd map fst length].
        destruct (eqb x p); cbn [as_ending] in Hc; injection Hc as <-.
        * destruct (IH _ (S n) (a_acc s0) s H1) as [I1 I2]; [cbn; lia|lia|reflexivity|lia|lia|lia|]. split; [|lia]. rewrite I1. unfold consumed. cbn [filter snd map fst length]. lia.
        * destruct (IH _ (S n) (a_acc s0 + 1)%N s H1) as [I1 I2]; [cbn; lia|lia|reflexivity|lia|lia|lia|]. split; [|lia]. rewrite I1. unfold consumed. cbn [filter snd map fst length]. lia.
      + assert (E0 : a_n s0 <> 0%N) by lia. destruct (acc_throw eqb s0 x f s2 Hc E0) as [->|(E1 & _ & E3)].
        * destruct (IH _ n (a_acc s0) s H1) as [I1 I2]; [exact En|lia|reflexivity|lia|lia|lia|]. split; [exact I1|lia].
        * unfold wrap64 in E3. rewrite N.mod_small in E3 by lia. destruct (IH _ n (a_acc s0 + 1)%N s H1) as [I1 I2]; [congruence|lia|exact E3|lia|lia|lia|]. split; [exact I1|lia]. }
  destruct (G h _ 1 1%N s H1) as [G1 G2]; [reflexivity|lia|reflexivity|lia|lia|lia|]. split; [exact G1|lia].
Qed.
