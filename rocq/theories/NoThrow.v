(** If nothing that is called throws, the producers do not throw. *)
From Coq Require Import String.
From Verif Require Import Prelude ProducerModel ProducerSpec ProducerProofs DRProofs DEProofs.
Local Open Scope string_scope.
Local Open Scope list_scope.
Local Notation length := List.length.

Section P.
Context {X D : Type}.
Variable (O : dops D).
Variable (E : env X D).
Hypothesis Hll : forall b x, e_ll E b x <> None.
Hypothesis Hprop : forall b x rj, e_prop E b x rj <> None.
Hypothesis Hcross : forall b x y z, e_cross E b x y z <> None.
Hypothesis Hiss : forall b x a, e_issue E b x a = false.
Hypothesis Hfl : forall b, e_flush E b = false.

Definition nt {A} (m : M (X := X) (D := D) A) := forall t, snd (m t) <> RExc /\ snd (m t) <> RTerm.
Lemma nt_ret : forall A (a : A), nt (ret a).
Proof. intros A a t. split; discriminate. Qed.
Lemma nt_bind : forall A B (m : M A) (k : A -> M B), nt m -> (forall a, nt (k a)) -> nt (mbind m k).
Proof.
  intros A B m k Hm Hk t. unfold mbind. specialize (Hm t). destruct (m t) as [t1 [a| | | | |]]; cbn in *; try tauto; try (split; discriminate).
  apply Hk.
Qed.
Lemma nt_call : forall A e (f : trace X D -> option A), (forall t, f t <> None) -> nt (call e f).
Proof. intros A e f Hf t. unfold call. specialize (Hf t). destruct (f t); cbn; [split; discriminate|tauto]. Qed.
Lemma nt_ll : forall x, nt (log_likelihood E x).
Proof. intros. apply nt_call. auto. Qed.
Lemma nt_prop : forall x rj, nt (propose_sample E x rj).
Proof. intros. apply nt_call. auto. Qed.
Lemma nt_cross : forall x a b, nt (crossover E x a b).
Proof. intros. apply nt_call. auto. Qed.
Lemma nt_unif : nt (uniform E).
Proof. apply nt_call. discriminate. Qed.
Lemma nt_uint : forall hi, nt (uniform_int E hi).
Proof. intros. apply nt_call. discriminate. Qed.
Lemma nt_issue : forall x a, nt (issue_sample E x a).
Proof. intros. apply nt_call. intros. now rewrite Hiss. Qed.
Lemma nt_flush : nt (flush_consumers E).
Proof. apply nt_call. intros. now rewrite Hfl. Qed.
Lemma nt_at : forall T (l : list T) i, nt (at_ l i).
Proof. intros T l i. unfold at_. destruct (nth_error l _); [apply nt_ret|]. intros t. split; discriminate. Qed.
Lemma nt_scope : forall A (m : M A), nt m -> nt (with_scope_exit E m).
Proof.
  intros A m Hm t. unfold with_scope_exit. specialize (Hm t). destruct (m t) as [t1 [a| | | | |]]; cbn in *; rewrite ?Hfl; cbn; tauto || (split; discriminate).
Qed.
Lemma nt_if : forall A (c : bool) (m m' : M A), nt m -> nt m' -> nt (if c then m else m').
Proof. intros A []; auto. Qed.
Lemma nt_fail : forall A (r : res A), r <> RExc -> r <> RTerm -> nt (fail r).
Proof. intros A r H1 H2 t. split; assumption. Qed.
Hint Resolve nt_ret nt_bind nt_ll nt_prop nt_cross nt_unif nt_uint nt_issue nt_flush nt_at nt_scope nt_if : nt.

Ltac go := repeat first [apply nt_bind; [|intros ?] | apply nt_if | apply nt_scope | progress auto with nt
                        | match goal with p : (_ * _)%type |- _ => destruct p end ].
Lemma nt_mh_loop : forall n x l, nt (mh_loop O E n x l).
Proof.
  induction n as [|n IH]; intros x l; cbn [mh_loop]; [apply nt_ret|]. unfold mh_accept. go.
Qed.
Theorem mh_no_throw : forall x0 n t r, mh_sample O E x0 n [] = (t, r) -> r = RVal tt.
Proof.
  intros x0 n t r H. assert (Hn : nt (mh_sample O E x0 n)).
  { unfold mh_sample. pose proof nt_mh_loop. go. }
  specialize (Hn []). rewrite H in Hn. cbn in Hn. apply mh_flush in H. destruct H as [[H|[H|H]] _]; tauto.
Qed.

(** without counting the out-of-range iterators as undefined behaviour, the recursion is well defined *)
Lemma num_yvec_lax : forall l : list (X * D), num_yvec false l <> None.
Proof. intros l. unfold num_yvec. cbn. discriminate. Qed.
Lemma fold_some : forall A (f : option A -> nat -> option A) js a,
  (forall j a, In j js -> f (Some a) j <> None) -> fold_left f js (Some a) <> None.
Proof.
  intros A f js. induction js as [|j js IH]; intros a Hf; cbn; [discriminate|].
  destruct (f (Some a) j) as [a'|] eqn:He; [|exfalso; apply (Hf j a); [now left|exact He]].
  apply IH. intros; apply Hf. now right.
Qed.
Lemma alpha_total : forall fuel x (y : list (X * D)), 1 <= length y <= fuel -> alpha_fn O false fuel x y <> None.
Proof.
  induction fuel as [|fuel IH]; intros x y Hy; [lia|]. cbn [alpha_fn].
  destruct (length y) as [|nr] eqn:Hl; [lia|].
  replace (S nr - 1) with nr by lia.
  destruct (nth_error y nr) as [yi|] eqn:Hn; [|apply nth_error_None in Hn; lia].
  destruct (Nat.eqb_spec nr 0); [discriminate|].
  apply fold_some. intros j a Hj. apply in_seq in Hj.
  destruct (num_yvec false _) eqn:Hv; [|exfalso; now apply num_yvec_lax in Hv].
  assert (H1 : alpha_fn O false fuel yi (firstn j (skipn (nr - j) y)) <> None).
  { apply IH. rewrite firstn_length, skipn_length. lia. }
  assert (H2 : alpha_fn O false fuel x (firstn j y) <> None).
  { apply IH. rewrite firstn_length. lia. }
  destruct (alpha_fn O false fuel yi _); [|tauto]. destruct (alpha_fn O false fuel x _); [discriminate|tauto].
Qed.
Definition ntu {A} (m : M (X := X) (D := D) A) := nt m /\ forall t, snd (m t) <> RUB.
Lemma ntu_bind : forall A B (m : M A) (k : A -> M B), ntu m -> (forall a, ntu (k a)) -> ntu (mbind m k).
Proof.
  intros A B m k [Hm Hm'] Hk. split; [apply nt_bind; [assumption|intros; apply Hk]|].
  intros t. unfold mbind. specialize (Hm' t). destruct (m t) as [t1 [a| | | | |]]; cbn in *; try tauto; try discriminate.
  apply Hk.
Qed.
Lemma ntu_call : forall A e (f : trace X D -> option A), (forall t, f t <> None) -> ntu (call e f).
Proof.
  intros A e f Hf. split; [now apply nt_call|]. intros t. unfold call. specialize (Hf t). destruct (f t); cbn; [discriminate|tauto].
Qed.
Lemma ntu_ret : forall A (a : A), ntu (ret a).
Proof. intros. split; [apply nt_ret|discriminate]. Qed.
Lemma ntu_dr_stages : forall m cur prop, ntu (dr_stages O E false m cur prop).
Proof.
  induction m as [|m IH]; intros cur prop; cbn [dr_stages]; [apply ntu_ret|].
  apply ntu_bind; [apply ntu_call; auto|]. intros [trial q]. apply ntu_bind; [apply ntu_call; auto|]. intros tl. cbv zeta.
  destruct (alpha_fn _ _ _ _ _) as [a|] eqn:Ha.
  2:{ exfalso. revert Ha. apply alpha_total. rewrite app_length. cbn. lia. }
  apply ntu_bind; [unfold dr_accept; destruct (d_gt O a _); [apply ntu_ret|apply ntu_bind; [apply ntu_call; discriminate|intros; apply ntu_ret]]|].
  intros []; [apply ntu_ret|apply IH].
Qed.
Lemma ntu_dr_loop : forall m n cur, ntu (dr_loop O E false m n cur).
Proof.
  intros m n. induction n as [|n IH]; intros cur; cbn [dr_loop]; [apply ntu_ret|].
  apply ntu_bind; [apply ntu_dr_stages|]. intros acc. cbv zeta. apply ntu_bind; [apply ntu_call; intros; now rewrite Hiss|intros; apply IH].
Qed.
Theorem dr_no_throw : forall x0 m n t r, dr_sample O E false x0 m n [] = (t, r) -> r = RVal tt.
Proof.
  intros x0 m n t r H.
  assert (Hb : ntu (mbind (log_likelihood E x0) (fun l => mbind (dr_loop O E false m n (x0, l)) (fun _ => flush_consumers E)))).
  { apply ntu_bind; [apply ntu_call; auto|]. intros l. apply ntu_bind; [apply ntu_dr_loop|]. intros _. apply ntu_call. intros. now rewrite Hfl. }
  assert (Hn : snd (dr_sample O E false x0 m n []) <> RExc /\ snd (dr_sample O E false x0 m n []) <> RTerm /\ snd (dr_sample O E false x0 m n []) <> RUB).
  { unfold dr_sample. destruct Hb as [Hb1 Hb2]. pose proof (nt_scope _ _ Hb1 []) as [H1 H2]. repeat split; auto.
    unfold with_scope_exit. specialize (Hb2 []). specialize (Hb1 []). destruct (mbind _ _ _) as [t1 [a| | | | |]]; cbn in *; rewrite ?Hfl; cbn; tauto || discriminate. }
  rewrite H in Hn. cbn in Hn. apply dr_flush in H. destruct H as [[H|[H|[H|H]]] _]; tauto.
Qed.

(** differential evaluation: also the task never stores an exception *)
Definition nts (s : gstate (X := X) (D := D)) := Forall (fun f => f <> None) (g_fut s).
Lemma nt_de_trial : forall gap g n c (cur : list X), nt (de_trial E gap g n c cur).
Proof. intros. unfold de_trial. go. Qed.
Lemma nt_task : forall c y q u cur s t, nts s ->
  snd (de_task O E c y q u cur s t) <> RExc /\ snd (de_task O E c y q u cur s t) <> RTerm /\
  forall s', snd (de_task O E c y q u cur s t) = RVal s' -> nts s'.
Proof.
  intros c y q u cur s t Hs. unfold de_task, log_likelihood, call. specialize (Hll t y). destruct (e_ll E t y); [|tauto].
  destruct (nth_error cur c); [|cbn; repeat split; discriminate]. destruct (nth_error (g_ll s) c); [|cbn; repeat split; discriminate].
  destruct (de_decide _ _ _ _ _ _ _) as [[acc nx] nl]. cbn. repeat split; try discriminate.
  intros s' H. inversion H; subst s'. unfold nts. cbn. apply Forall_app. split; [exact Hs|repeat constructor; discriminate].
Qed.
Lemma nt_launch : forall gap g n N0 cur k c s, nts s -> forall t,
  let r := snd (de_launch O E gap g n N0 cur k c s t) in r <> RExc /\ r <> RTerm /\ forall s', r = RVal s' -> nts s'.
Proof.
  intros gap g n N0 cur k. induction k as [|k IH]; intros c s Hs t; cbn [de_launch].
  - cbn. repeat split; try discriminate. intros s' H. inversion H; subst; exact Hs.
  - destruct (N0 <=? _)%N.
    { cbn. repeat split; try discriminate. intros s' H. inversion H; subst; exact Hs. }
    cbv zeta. unfold mbind at 1 4 7. 
    pose proof (nt_de_trial gap g n c cur t) as Htr. destruct (de_trial _ _ _ _ _ _ _) as [t1 [[y q]| | | | |]]; cbn in Htr; try tauto; try (cbn; repeat split; discriminate).
    unfold mbind at 1 3 5. unfold uniform, call. unfold mbind.
    set (u := e_unif E t1). destruct (nt_task c y q u cur s (t1 ++ [EUnif]) Hs) as (T1 & T2 & T3).
    destruct (de_task _ _ _ _ _ _ _ _ _) as [t2 [s'| | | | |]]; cbn in T1, T2; try tauto; try (cbn; repeat split; discriminate).
    apply IH. apply T3. reflexivity.
Qed.
Lemma nt_de_issue : forall (bd : build) g n N0 k c s, nts s -> nt (de_issue E bd g n N0 k c s).
Proof.
  intros bd g n N0 k. induction k as [|k IH]; intros c s Hs; cbn [de_issue]; [apply nt_ret|].
  destruct (N0 <=? _)%N; [apply nt_ret|].
  destruct (nth_error (g_fut s) c) as [[acc|]|] eqn:Hf.
  - go.
  - apply nth_error_In in Hf. unfold nts in Hs. rewrite Forall_forall in Hs. exfalso. exact (Hs _ Hf eq_refl).
  - destruct bd; apply nt_fail; discriminate.
Qed.
Lemma nt_de_loop : forall (bd : build) fuel gap n N0 g cur nx lls, nt (de_loop O E bd fuel gap n N0 g cur nx lls).
Proof.
  intros bd fuel. induction fuel as [|fuel IH]; intros gap n N0 g cur nx lls t; cbn [de_loop]; [split; discriminate|].
  destruct (_ <? N0)%N; [|split; discriminate]. unfold mbind at 1 3.
  destruct (nt_launch gap g n N0 cur (N.to_nat n) 0 {| g_next := nx; g_ll := lls; g_fut := [] |} ltac:(constructor) t) as (T1 & T2 & T3).
  destruct (de_launch _ _ _ _ _ _ _ _ _ _ _) as [t1 [s| | | | |]]; cbn in T1, T2; try tauto; try (cbn; split; discriminate).
  specialize (T3 s eq_refl).
  apply (nt_bind _ _ _ (fun _ => de_loop O E bd fuel gap n N0 (wrap64 (g + 1)) (g_next s) (g_next s) (g_ll s))); [now apply nt_de_issue|intros; apply IH].
Qed.
Lemma nt_init : forall xs, nt (de_init E xs).
Proof. induction xs; cbn [de_init]; go. Qed.
Theorem de_no_throw : forall (bd : build) fuel (xs : list X) gap N0 t r,
  (forall b hi, (e_uint E b hi <= hi)%N) ->
  3 <= length xs -> (N.of_nat (N0 + length xs) < two64)%N -> N0 < fuel ->
  de_sample O E bd fuel xs (N.of_nat gap) (N.of_nat N0) [] = (t, r) -> r = RVal tt.
Proof.
  intros bd fuel xs gap N0 t r Hu Hn H64 Hf H.
  assert (Hnt : nt (de_sample O E bd fuel xs (N.of_nat gap) (N.of_nat N0))).
  { unfold de_sample. apply nt_if; [apply nt_fail; discriminate|]. apply nt_scope. apply nt_bind; [apply nt_init|]. intros. apply nt_de_loop. }
  specialize (Hnt []). rewrite H in Hnt. cbn in Hnt. apply de_sample_run in H; auto.
  destruct H as (d & _ & _ & [Hr|[Hr|Hr]] & _); tauto.
Qed.
End P.
