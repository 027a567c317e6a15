(** Proofs of C76 for DifferentialEvaluationMetropolisHastings, where an exception thrown by the log likelihood of one chain is kept in a future until the samples of the chains before have been issued. *)
From Verif Require Import Prelude ProducerModel ProducerSpec ProducerProofs DEProofs ExcSpec ExcProofs.
Local Open Scope list_scope.
Local Notation length := List.length.

Section DE.
Context {X D : Type}.
Variables (E' E : env X D).
Hypothesis FE : fewer_exceptions E' E.
Variable O : dops D.
Notation sim := (@sim X D E).

Definition thrown (t s : trace X D) : Prop := exists a e b, s = a ++ e :: b /\ throws E (t ++ a) e = true.
(** weaker than [sim]: when [m] ends, a call has thrown, but others may have been made since *)
Definition simw {A} (m m' : @M X D A) : Prop := forall t,
  m t = m' t \/ (snd (m t) = RExc /\ exists s rest, fst (m t) = t ++ s /\ thrown t s /\ fst (m' t) = t ++ s ++ rest).
Lemma sim_simw {A} (m m' : M A) : sim m m' -> simw m m'.
Proof.
  intros H t. destruct (H t) as [Q|(R & s & e & rest & T & Th & T')]; [now left|right]. split; [exact R|].
  exists (s ++ [e]), rest. rewrite T, T', <- !app_assoc. split; [reflexivity|]. split; [|reflexivity]. exists s, e, []. split; [reflexivity|exact Th].
Qed.
Lemma thrown_after t s s2 : thrown (t ++ s) s2 -> thrown t (s ++ s2).
Proof. intros (a & e & b & -> & Th). exists (s ++ a), e, b. rewrite <- app_assoc in Th. split; [now rewrite <- app_assoc|exact Th]. Qed.
Lemma thrown_before t s s2 : thrown t s -> thrown t (s ++ s2).
Proof. intros (a & e & b & -> & Th). exists a, e, (b ++ s2). split; [now rewrite <- app_assoc|exact Th]. Qed.
Lemma simw_bind {A B} (m m' : M A) (k k' : A -> M B) : simw m m' -> ext m -> (forall a, simw (k a) (k' a)) -> (forall a, ext (k' a)) -> simw (mbind m k) (mbind m' k').
Proof.
  intros H HE K KE t. unfold mbind. destruct (H t) as [Eq|(R & s & rest & T & Th & T')].
  - rewrite <- Eq. destruct (HE t) as [s Hs]. destruct (m t) as [t1 r]. simpl in Hs. subst t1. destruct r; try (left; reflexivity).
    destruct (K a (t ++ s)) as [Q|(R & s2 & rest & T & Th & T')]; [left; exact Q|right].
    split; [exact R|]. exists (s ++ s2), rest. rewrite T, T', <- !app_assoc. repeat split. now apply thrown_after.
  - right. destruct (m t) as [t1 r]. destruct (m' t) as [t1' r']. simpl in *. subst r t1 t1'. split; [reflexivity|].
    exists s. destruct r' as [a| | | | |]; [|exists rest; auto..].
    destruct (KE a (t ++ s ++ rest)) as [s2 H2]. exists (rest ++ s2). rewrite H2. repeat split; try assumption. now rewrite <- !app_assoc.
Qed.

Lemma sim_at {A} (l : list A) i : sim (at_ l i : @M X D A) (at_ l i). Proof. apply sim_refl. Qed.
Lemma ext_at {A} (l : list A) i : ext (at_ l i : @M X D A). Proof. unfold at_. destruct (nth_error _ _); [apply ext_ret|apply ext_fail]. Qed.
Lemma trial_both gap g n c cur : sim (de_trial E gap g n c cur) (de_trial E' gap g n c cur) /\ ext (de_trial E gap g n c cur) /\ ext (de_trial E' gap g n c cur).
Proof.
  unfold de_trial. destruct (do_crossover gap g).
  - split; [|split].
    + apply sim_bind; [now apply sim_uint|apply ext_call| |]; intros da.
      * apply sim_bind; [apply sim_at|apply ext_at| |]; intros xa.
        -- apply sim_bind; [now apply sim_uint|apply ext_call| |]; intros db.
           ++ apply sim_bind; [apply sim_at|apply ext_at| |]; intros xb.
              ** apply sim_bind; [apply sim_at|apply ext_at| |]; intros xc.
                 --- apply sim_bind; [now apply sim_cross|apply ext_call| |]; intros z; [now apply sim_prop|apply ext_call].
                 --- apply ext_bind; [apply ext_call|intros z; apply ext_call].
              ** apply ext_bind; [apply ext_at|intros xc; apply ext_bind; [apply ext_call|intros z; apply ext_call]].
           ++ apply ext_bind; [apply ext_at|intros xb; apply ext_bind; [apply ext_at|intros xc; apply ext_bind; [apply ext_call|intros z; apply ext_call]]].
        -- apply ext_bind; [apply ext_call|intros db; apply ext_bind; [apply ext_at|intros xb; apply ext_bind; [apply ext_at|intros xc; apply ext_bind; [apply ext_call|intros z; apply ext_call]]]].
      * apply ext_bind; [apply ext_at|intros xa; apply ext_bind; [apply ext_call|intros db; apply ext_bind; [apply ext_at|intros xb; apply ext_bind; [apply ext_at|intros xc; apply ext_bind; [apply ext_call|intros z; apply ext_call]]]]].
    + repeat (apply ext_bind; [first [apply ext_at|apply ext_call]|intros ?]); apply ext_call.
    + repeat (apply ext_bind; [first [apply ext_at|apply ext_call]|intros ?]); apply ext_call.
  - split; [|split].
    + apply sim_bind; [apply sim_at|apply ext_at| |]; intros xc; [now apply sim_prop|apply ext_call].
    + apply ext_bind; [apply ext_at|intros xc; apply ext_call].
    + apply ext_bind; [apply ext_at|intros xc; apply ext_call].
Qed.

Section Generation.
Variables (gap g n N0 : N) (cur : list X).
Let stop c := (N0 <=? wrap64 (g * n + N.of_nat c))%N.
Let nc := length cur.
Definition lens (c : nat) (s : @gstate X D) : Prop := length (g_next s) = nc /\ length (g_ll s) = nc /\ length (g_fut s) = c.
(** Before chain [c]: the same states, or they differ from the chain on whose exception is waiting. *)
Definition waits (c c0 : nat) (s s' : @gstate X D) : Prop :=
  c0 < c /\ nth_error (g_fut s) c0 = Some None /\ (forall j, j < c0 -> nth_error (g_fut s') j = nth_error (g_fut s) j) /\
  (forall j, j < c0 -> nth_error (g_next s') j = nth_error (g_next s) j) /\ (forall j, j < c0 -> nth_error (g_ll s') j = nth_error (g_ll s) j) /\
  (forall j, j <= c0 -> stop j = false).
Lemma task_ext (F : env X D) c trial q u s : ext (de_task O F c trial q u cur s).
Proof.
  intros t. exists [EEval trial]. unfold de_task, log_likelihood, call. destruct (e_ll F t trial); [|reflexivity].
  destruct (nth_error cur c); [|reflexivity]. destruct (nth_error (g_ll s) c); [|reflexivity]. unfold de_decide. now destruct (d_ge _ _ _).
Qed.
Lemma issue_ext (F : env X D) b : forall k c s, ext (de_issue F b g n N0 k c s).
Proof.
  induction k as [|k IH]; intros c s; cbn [de_issue]; [apply ext_ret|]. destruct (N0 <=? _)%N; [apply ext_ret|].
  destruct (nth_error (g_fut s) c) as [[acc|]|]; [|apply ext_fail|destruct b; apply ext_fail].
  apply ext_bind; [apply ext_at|]; intros x. apply ext_bind; [apply ext_at|]; intros l. apply ext_bind; [apply ext_call|]; intros _. apply IH.
Qed.
Lemma launch_ext (F : env X D) : forall k c s, ext (de_launch O F gap g n N0 cur k c s).
Proof.
  induction k as [|k IH]; intros c s; cbn [de_launch]; [apply ext_ret|]. destruct (N0 <=? _)%N; [apply ext_ret|].
  apply ext_bind; [unfold de_trial; destruct (do_crossover gap g); repeat (apply ext_bind; [first [apply ext_at|apply ext_call]|intros ?]); apply ext_call|].
  intros [trial q]. apply ext_bind; [apply ext_call|]; intros u. apply ext_bind; [apply task_ext|]. intros s'. apply IH.
Qed.

Lemma lens_task : forall F c trial q u s t t1 s1, lens c s -> c < nc -> de_task O F c trial q u cur s t = (t1, RVal s1) -> lens (S c) s1.
Proof.
  intros F c trial q u s t t1 s1 (L1 & L2 & L3) Hc H. unfold de_task, log_likelihood, call in H. destruct (e_ll F t trial).
  - destruct (nth_error cur c); [|discriminate]. destruct (nth_error (g_ll s) c); [|discriminate]. destruct (de_decide _ _ _ _ _ _ _) as [[acc nx] nl].
    injection H as <- <-. unfold lens; simpl. rewrite !upd_length, app_length. simpl. lia.
  - injection H as <- <-. unfold lens; simpl. rewrite app_length. simpl. lia.
Qed.
Lemma task_val : forall F c trial q u s t, lens c s -> c < nc -> exists s1, de_task O F c trial q u cur s t = (t ++ [EEval trial], RVal s1) /\ lens (S c) s1 /\
  (forall j, j < c -> nth_error (g_fut s1) j = nth_error (g_fut s) j /\ nth_error (g_next s1) j = nth_error (g_next s) j /\ nth_error (g_ll s1) j = nth_error (g_ll s) j) /\
  (e_ll F t trial = None -> nth_error (g_fut s1) c = Some None).
Proof.
  intros F c trial q u s t L Hc. pose proof L as (L1 & L2 & L3).
  destruct (nth_error cur c) as [x|] eqn:Ex; [|apply nth_error_None in Ex; fold nc in Ex; lia].
  destruct (nth_error (g_ll s) c) as [l|] eqn:El; [|apply nth_error_None in El; lia].
  assert (H : exists s1, de_task O F c trial q u cur s t = (t ++ [EEval trial], RVal s1) /\
    (forall j, j < c -> nth_error (g_fut s1) j = nth_error (g_fut s) j /\ nth_error (g_next s1) j = nth_error (g_next s) j /\ nth_error (g_ll s1) j = nth_error (g_ll s) j) /\
    (e_ll F t trial = None -> nth_error (g_fut s1) c = Some None)).
  { unfold de_task, log_likelihood, call. destruct (e_ll F t trial) as [v|].
    - rewrite Ex, El. destruct (de_decide _ _ _ _ _ _ _) as [[acc nx] nl]. eexists; split; [reflexivity|]. simpl. split; [|discriminate].
      intros j Hj. rewrite !nth_upd_other by lia. rewrite nth_error_app1 by lia. auto.
    - eexists; split; [reflexivity|]. simpl. split; [intros j Hj; rewrite nth_error_app1 by lia; auto|]. intros _. rewrite nth_error_app2, L3, Nat.sub_diag by lia. reflexivity. }
  destruct H as (s1 & H1 & H2 & H3). exists s1. split; [exact H1|]. split; [|split; assumption]. now apply lens_task in H1.
Qed.
Lemma task_same c trial q u s t : throws E t (EEval trial) = false -> de_task O E c trial q u cur s t = de_task O E' c trial q u cur s t.
Proof.
  unfold throws, de_task, log_likelihood, call. destruct (e_ll E t trial) eqn:Q; [intros _|discriminate].
  rewrite (fe_ll E' E FE) by congruence. now rewrite Q.
Qed.

(** What two launches have to do with each other. [Tw]: has a call thrown when they begin? *)
Definition result2 (t0 : trace X D) (p p' : trace X D * res gstate) (c1 : nat) : Prop :=
  (exists t1 s1 c, p = (t1, RVal s1) /\ p' = (t1, RVal s1) /\ lens c s1) \/
  (exists t1 s1 s1' c c0 s, p = (t1, RVal s1) /\ p' = (t1, RVal s1') /\ c <= c1 /\ lens c s1 /\ lens c s1' /\ waits c c0 s1 s1' /\ t1 = t0 ++ s /\ thrown t0 s) \/
  (exists t1 r, p = (t1, r) /\ p' = (t1, r) /\ forall a, r <> RVal a) \/
  (snd p = RExc /\ exists s rest, fst p = t0 ++ s /\ thrown t0 s /\ fst p' = t0 ++ s ++ rest).
Lemma result2_later t0 s p p' c1 : result2 (t0 ++ s) p p' c1 -> result2 t0 p p' c1.
Proof.
  intros [H|[(t1 & s1 & s1' & c & c0 & z & A & B & C & L & L' & W & T & Th)|[H|(R & z & rest & T & Th & T')]]].
  - left; exact H.
  - right; left. exists t1, s1, s1', c, c0, (s ++ z). repeat (split; [assumption|]). split; [now rewrite T, app_assoc|]. now apply thrown_after.
  - right; right; left; exact H.
  - right; right; right. split; [exact R|]. exists (s ++ z), rest. rewrite T, T', <- !app_assoc. repeat split. now apply thrown_after.
Qed.
Lemma launch_two : forall k c s s' t t0 z, k + c = nc -> lens c s -> lens c s' -> (forall j, j < c -> stop j = false) ->
  t = t0 ++ z -> (s = s' \/ (thrown t0 z /\ exists c0, waits c c0 s s')) ->
  result2 t0 (de_launch O E gap g n N0 cur k c s t) (de_launch O E' gap g n N0 cur k c s' t) nc.
Proof.
  induction k as [|k IH]; intros c s s' t t0 z Hk L L' St Ht Hs; cbn [de_launch].
  - unfold ret. destruct Hs as [<-|(Th & c0 & W)].
    + left. exists t, s, c. auto.
    + right; left. exists t, s, s', c, c0, z. repeat (split; [first [assumption|reflexivity|lia]|]). exact Th.
  - fold (stop c). destruct (stop c) eqn:Sc.
    { unfold ret. destruct Hs as [<-|(Th & c0 & W)]; [left; exists t, s, c; auto|].
      right; left. exists t, s, s', c, c0, z. repeat (split; [first [assumption|reflexivity|lia]|]). exact Th. }
    destruct (trial_both gap g n c cur) as (T1 & T2 & T3). unfold mbind.
    destruct (T1 t) as [Eq|(R & s0 & e & rest & T & Th & T')].
    2:{ (* the proposal throws in E only *)
      right; right; right. destruct (de_trial E gap g n c cur t) as [t1 r]. destruct (de_trial E' gap g n c cur t) as [t1' r']. simpl in *. subst r t1 t1'. split; [reflexivity|].
      exists (z ++ s0 ++ [e]). simpl.
      assert (G : exists rest', fst (match r' with
         | RVal a => (let (trial, ratio) := a in fun t1 => let (t2, r2) := uniform E' t1 in match r2 with RVal u => (fun t3 => let (t4, r4) := de_task O E' c trial ratio u cur s' t3 in
             match r4 with RVal s1 => de_launch O E' gap g n N0 cur k (S c) s1 t4 | RExc => (t4, RExc) | RUB => (t4, RUB) | RAssert => (t4, RAssert) | RTerm => (t4, RTerm) | RLoop => (t4, RLoop) end) t2
             | RExc => (t2, RExc) | RUB => (t2, RUB) | RAssert => (t2, RAssert) | RTerm => (t2, RTerm) | RLoop => (t2, RLoop) end) (t ++ s0 ++ e :: rest)
         | RExc => (t ++ s0 ++ e :: rest, RExc) | RUB => (t ++ s0 ++ e :: rest, RUB) | RAssert => (t ++ s0 ++ e :: rest, RAssert) | RTerm => (t ++ s0 ++ e :: rest, RTerm) | RLoop => (t ++ s0 ++ e :: rest, RLoop) end)
         = (t ++ s0 ++ e :: rest) ++ rest').
      { destruct r' as [[trial ratio]| | | | |]; try (exists []; simpl; now rewrite app_nil_r).
        change (exists rest', fst (mbind (uniform E') (fun u => mbind (de_task O E' c trial ratio u cur s') (fun s1 => de_launch O E' gap g n N0 cur k (S c) s1)) (t ++ s0 ++ e :: rest)) = (t ++ s0 ++ e :: rest) ++ rest').
        apply ext_bind; [apply ext_call|]; intros u. apply ext_bind; [apply task_ext|intros s1; apply launch_ext]. }
      destruct G as [rest' G]. exists (rest ++ rest'). split; [subst t; now rewrite <- !app_assoc|]. split; [apply thrown_after; exists s0, e, []; split; [reflexivity|now subst t]|].
      etransitivity; [exact G|]. subst t. now rewrite <- !app_assoc. }
    rewrite <- Eq. destruct (T2 t) as [s0 Hs0]. destruct (de_trial E gap g n c cur t) as [t1 r]. simpl in Hs0. subst t1.
    destruct r as [[trial ratio]| | | | |]; try (right; right; left; eexists _, _; split; [reflexivity|]; split; [reflexivity|discriminate]).
    unfold uniform, call at 1 2. rewrite (fe_unif E' E FE).
    set (u := e_unif E (t ++ s0)). set (t2 := (t ++ s0) ++ [EUnif]).
    assert (Hc : c < nc) by lia.
    destruct (task_val E c trial ratio u s t2 L Hc) as (s1 & K1 & L1 & P1 & N1).
    destruct (task_val E' c trial ratio u s' t2 L' Hc) as (s1' & K1' & L1' & P1' & _).
    rewrite K1, K1'.
    assert (St' : forall j, j < S c -> stop j = false) by (intros j Hj; destruct (Nat.eq_dec j c) as [->|]; [exact Sc|apply St; lia]).
    assert (Ht2 : t2 ++ [EEval trial] = t0 ++ (z ++ s0 ++ [EUnif; EEval trial])) by (unfold t2; subst t; now rewrite <- !app_assoc).
    apply (IH (S c) s1 s1' (t2 ++ [EEval trial]) t0 (z ++ s0 ++ [EUnif; EEval trial])); try assumption; try lia.
    destruct Hs as [<-|(Th & c0 & W)].
    + destruct (throws E t2 (EEval trial)) eqn:Th.
      * right. assert (Th2 := Th). split.
        -- apply thrown_after. exists (s0 ++ [EUnif]), (EEval trial), []. split; [now rewrite <- app_assoc|]. unfold t2 in Th. subst t. rewrite app_assoc. exact Th.
        -- exists c. split; [lia|]. split; [apply N1; unfold throws in Th; now destruct (e_ll E t2 trial)|].
           split; [intros j Hj; destruct (P1 j Hj) as (-> & _); now destruct (P1' j Hj) as (-> & _)|].
           split; [intros j Hj; destruct (P1 j Hj) as (_ & -> & _); now destruct (P1' j Hj) as (_ & -> & _)|].
           split; [intros j Hj; destruct (P1 j Hj) as (_ & _ & ->); now destruct (P1' j Hj) as (_ & _ & ->)|]. intros j Hj. apply St'. lia.
      * left. rewrite (task_same c trial ratio u s t2 Th) in K1. congruence.
    + right. split; [now apply thrown_before|]. exists c0. destruct W as (W0 & W1 & W2 & W3 & W4 & W5).
      split; [lia|]. split; [now destruct (P1 c0 W0) as (-> & _)|].
      split; [intros j Hj; destruct (P1 j ltac:(lia)) as (-> & _); destruct (P1' j ltac:(lia)) as (-> & _); auto|].
      split; [intros j Hj; destruct (P1 j ltac:(lia)) as (_ & -> & _); destruct (P1' j ltac:(lia)) as (_ & -> & _); auto|].
      split; [intros j Hj; destruct (P1 j ltac:(lia)) as (_ & _ & ->); destruct (P1' j ltac:(lia)) as (_ & _ & ->); auto|]. exact W5.
Qed.

Lemma issue_same b : forall k c s, sim (de_issue E b g n N0 k c s) (de_issue E' b g n N0 k c s).
Proof.
  induction k as [|k IH]; intros c s; cbn [de_issue]; [apply sim_refl|]. destruct (N0 <=? _)%N; [apply sim_refl|].
  destruct (nth_error (g_fut s) c) as [[acc|]|]; [|apply sim_refl|destruct b; apply sim_refl].
  apply sim_bind; [apply sim_at|apply ext_at| |]; intros x.
  - apply sim_bind; [apply sim_at|apply ext_at| |]; intros l.
    + apply sim_bind; [now apply sim_issue|apply ext_call| |]; intros _; [apply IH|apply issue_ext].
    + apply ext_bind; [apply ext_call|intros _; apply issue_ext].
  - apply ext_bind; [apply ext_at|intros l; apply ext_bind; [apply ext_call|intros _; apply issue_ext]].
Qed.
(** Issuing when an exception waits at chain c0: E stops there, E' may go on *)
Lemma issue_waits b c1 c0 s s' : lens c1 s -> lens c1 s' -> waits c1 c0 s s' -> forall k c t, c <= c0 -> c0 < c + k ->
  (exists r, de_issue E b g n N0 k c s t = de_issue E' b g n N0 k c s' t /\ snd (de_issue E b g n N0 k c s t) = r /\ forall a, r <> RVal a) \/
  (snd (de_issue E b g n N0 k c s t) = RExc /\ exists z rest, fst (de_issue E b g n N0 k c s t) = t ++ z /\ fst (de_issue E' b g n N0 k c s' t) = t ++ z ++ rest).
Proof.
  intros L L' (W0 & W1 & W2 & W3 & W4 & W5). induction k as [|k IH]; intros c t Hc Hk; [lia|].
  cbn [de_issue]. fold (stop c). rewrite (W5 c Hc). destruct (Nat.eq_dec c c0) as [Ec|Nc].
  - subst c0. rewrite W1. right. split; [reflexivity|]. exists [].
    destruct (nth_error (g_fut s') c) as [[acc|]|]; [|exists []; unfold fail; simpl; rewrite app_nil_r; auto|destruct b; exists []; unfold fail; simpl; rewrite app_nil_r; auto].
    match goal with |- exists rest, _ /\ fst (?m t) = _ => assert (G : ext m) by (apply ext_bind; [apply ext_at|intros x; apply ext_bind; [apply ext_at|intros l; apply ext_bind; [apply ext_call|intros _; apply issue_ext]]]) end.
    destruct (G t) as [rest Hr]. exists rest. simpl. rewrite app_nil_r. split; [reflexivity|exact Hr].
  - assert (Hlt : c < c0) by lia. rewrite (W2 c Hlt). destruct (nth_error (g_fut s) c) as [[acc|]|] eqn:Ef.
    + unfold mbind, at_. rewrite !Nat2N.id, (W3 c Hlt), (W4 c Hlt).
      destruct (nth_error (g_next s) c) as [x|]; [|left; eexists; split; [reflexivity|]; split; [reflexivity|discriminate]]. unfold ret.
      destruct (nth_error (g_ll s) c) as [l|]; [|left; eexists; split; [reflexivity|]; split; [reflexivity|discriminate]].
      set (a := [_; _; _]). unfold issue_sample, call. destruct (e_issue E t x a) eqn:Ei.
      * (* issuing throws in E *) right. split; [reflexivity|]. exists [EIssue x a]. simpl. destruct (e_issue E' t x a).
        -- exists []. auto.
        -- destruct (issue_ext E' b k (S c) s' (t ++ [EIssue x a])) as [rest Hr]. exists rest. split; [reflexivity|]. rewrite Hr. now rewrite <- app_assoc.
      * rewrite (fe_issue E' E FE _ _ _ Ei).
        destruct (IH (S c) (t ++ [EIssue x a]) ltac:(lia) ltac:(lia)) as [H|(R & z & rest & T & T')]; [left; exact H|right].
        split; [exact R|]. exists (EIssue x a :: z), rest. rewrite T, T', <- !app_assoc. auto.
    + left. exists RExc. unfold fail. split; [reflexivity|]. split; [reflexivity|discriminate].
    + exfalso. destruct L as (_ & _ & L3). apply nth_error_None in Ef. lia.
Qed.
End Generation.

Lemma loop_ext (F : env X D) b gap n N0 : forall fuel g cur nx lls, ext (de_loop O F b fuel gap n N0 g cur nx lls).
Proof.
  induction fuel as [|fuel IH]; intros g cur nx lls; cbn [de_loop]; [apply ext_fail|]. destruct (_ <? _)%N; [|apply ext_ret].
  apply ext_bind; [apply launch_ext|]; intros s. apply ext_bind; [apply issue_ext|]; intros _. apply IH.
Qed.
Lemma loop_two b gap n N0 : forall fuel g cur nx lls, length cur = N.to_nat n -> length nx = length cur -> length lls = length cur ->
  simw (de_loop O E b fuel gap n N0 g cur nx lls) (de_loop O E' b fuel gap n N0 g cur nx lls).
Proof.
  induction fuel as [|fuel IH]; intros g cur nx lls Hn L1 L2; cbn [de_loop]; [apply sim_simw, sim_refl|].
  destruct (_ <? _)%N; [|apply sim_simw, sim_refl].
  intros t. unfold mbind.
  set (s0 := {| g_next := nx; g_ll := lls; g_fut := [] |}).
  assert (L0 : lens cur 0 s0) by (split; [exact L1|]; split; [exact L2|reflexivity]).
  destruct (launch_two gap g n N0 cur (N.to_nat n) 0 s0 s0 t t [] ltac:(lia) L0 L0 ltac:(intros; lia) ltac:(now rewrite app_nil_r) (or_introl eq_refl))
    as [(t1 & s1 & c & P & P' & L)|[(t1 & s1 & s1' & c & c0 & z & P & P' & Hc & L & L' & W & T & Th)|[(t1 & r & P & P' & R)|(R & z & rest & T & Th & T')]]].
  - rewrite P, P'. destruct (launch_ext gap g n N0 cur E (N.to_nat n) 0 s0 t) as [z Hz]. rewrite P in Hz. simpl in Hz. subst t1.
    destruct L as (A1 & A2 & _).
    assert (S2 : simw (mbind (de_issue E b g n N0 (N.to_nat n) 0 s1) (fun _ => de_loop O E b fuel gap n N0 (wrap64 (g + 1)) (g_next s1) (g_next s1) (g_ll s1)))
                      (mbind (de_issue E' b g n N0 (N.to_nat n) 0 s1) (fun _ => de_loop O E' b fuel gap n N0 (wrap64 (g + 1)) (g_next s1) (g_next s1) (g_ll s1)))).
    { apply simw_bind; [apply sim_simw, issue_same|apply issue_ext| |]; intros _; [|apply loop_ext]. apply IH; congruence. }
    destruct (S2 (t ++ z)) as [Q|(R & s2 & rest & Q & Th & Q')]; [left; exact Q|right].
    split; [exact R|]. exists (z ++ s2), rest. unfold mbind in Q, Q'. rewrite Q, Q', <- !app_assoc. repeat split. now apply thrown_after.
  - rewrite P, P'. subst t1.
    destruct (issue_waits g n N0 cur b c c0 s1 s1' L L' W (N.to_nat n) 0 (t ++ z) ltac:(lia) ltac:(destruct W; lia)) as [(r & Q & Q1 & Q2)|(R & s2 & rest & Q & Q')].
    + left. rewrite <- Q. destruct (de_issue E b g n N0 (N.to_nat n) 0 s1 (t ++ z)) as [t2 q]. simpl in Q1. subst q. destruct r as [v| | | | |]; try reflexivity. now destruct (Q2 v).
    + right. destruct (de_issue E b g n N0 (N.to_nat n) 0 s1 (t ++ z)) as [t2 q]. destruct (de_issue E' b g n N0 (N.to_nat n) 0 s1' (t ++ z)) as [t2' q']. simpl in *. subst q t2 t2'.
      split; [reflexivity|]. exists (z ++ s2).
      destruct q' as [v| | | | |]; [|exists rest; simpl; rewrite <- !app_assoc; split; [reflexivity|]; split; [now apply thrown_before|reflexivity]..].
      destruct (loop_ext E' b gap n N0 fuel (wrap64 (g + 1)) (g_next s1') (g_next s1') (g_ll s1') ((t ++ z) ++ s2 ++ rest)) as [w Hw]. exists (rest ++ w).
      rewrite Hw, <- !app_assoc. simpl. rewrite <- ?app_assoc. split; [reflexivity|]. split; [now apply thrown_before|reflexivity].
  - rewrite P, P'. left. destruct r; try reflexivity. now destruct (R a).
  - right. destruct (de_launch O E gap g n N0 cur (N.to_nat n) 0 s0 t) as [t1 q]. destruct (de_launch O E' gap g n N0 cur (N.to_nat n) 0 s0 t) as [t1' q']. simpl in *. subst q t1 t1'.
    split; [reflexivity|]. exists z. destruct q' as [s1| | | | |]; [|exists rest; auto..].
    match goal with |- context [fst (match ?x with (_, _) => _ end)] => idtac end.
    assert (G : ext (mbind (de_issue E' b g n N0 (N.to_nat n) 0 s1) (fun _ => de_loop O E' b fuel gap n N0 (wrap64 (g + 1)) (g_next s1) (g_next s1) (g_ll s1)))).
    { apply ext_bind; [apply issue_ext|intros _; apply loop_ext]. }
    destruct (G (t ++ z ++ rest)) as [w Hw]. unfold mbind in Hw. exists (rest ++ w). rewrite Hw, <- !app_assoc. auto.
Qed.
Lemma init_both : forall xs, sim (de_init E xs) (de_init E' xs) /\ ext (de_init E xs) /\ ext (de_init E' xs).
Proof.
  induction xs as [|x xs (I1 & I2 & I3)]; cbn [de_init]; [split; [apply sim_refl|split; apply ext_ret]|].
  split; [|split].
  - apply sim_bind; [now apply sim_ll|apply ext_call| |]; intros l.
    + apply sim_bind; [exact I1|exact I2| |]; intros ls; [apply sim_refl|apply ext_ret].
    + apply ext_bind; [exact I3|intros ls; apply ext_ret].
  - apply ext_bind; [apply ext_call|intros l; apply ext_bind; [exact I2|intros ls; apply ext_ret]].
  - apply ext_bind; [apply ext_call|intros l; apply ext_bind; [exact I3|intros ls; apply ext_ret]].
Qed.
Lemma init_length (F : env X D) : forall xs t t1 ls, de_init F xs t = (t1, RVal ls) -> length ls = length xs.
Proof.
  induction xs as [|x xs IH]; intros t t1 ls H; cbn [de_init] in H; [injection H as <- <-; reflexivity|].
  unfold mbind in H. destruct (log_likelihood F x t) as [t2 [l| | | | |]]; try discriminate.
  destruct (de_init F xs t2) as [t3 [ls'| | | | |]] eqn:Q; try discriminate. injection H as <- <-. simpl. f_equal. eapply IH; exact Q.
Qed.
Theorem de_cut : forall b fuel xs gap N0 t r t' r', de_sample O E b fuel xs gap N0 [] = (t, r) -> de_sample O E' b fuel xs gap N0 [] = (t', r') ->
  (t = t' /\ r = r') \/
  exists d, t = d ++ [EFlush] /\ (exists a e c, d = a ++ e :: c /\ throws E a e = true) /\ starts_with t' d /\ r = (if e_flush E d then RTerm else RExc).
Proof.
  intros b fuel xs gap N0 t r t' r' H1 H2. unfold de_sample in *.
  destruct (match b with Debug => _ | Release => _ end); [left; unfold fail in *; split; congruence|].
  set (nc := N.of_nat (length xs)) in *.
  set (m := mbind (de_init E xs) _) in H1. set (m' := mbind (de_init E' xs) _) in H2.
  assert (B : m [] = m' [] \/ (snd (m []) = RExc /\ exists s rest, fst (m []) = s /\ thrown [] s /\ fst (m' []) = s ++ rest)).
  { unfold m, m', mbind. destruct (init_both xs) as (I1 & I2 & I3). destruct (I1 []) as [Q|(R & s & e & rest & T & Th & T')].
    - rewrite <- Q. destruct (de_init E xs []) as [t1 [ls| | | | |]] eqn:Qi; try (left; reflexivity).
      pose proof (init_length E xs _ _ _ Qi) as Ll. assert (I2' := I2 []). rewrite Qi in I2'. destruct I2' as [s Hs]. simpl in Hs.
      destruct (loop_two b gap nc N0 fuel 0%N xs xs ls ltac:(unfold nc; lia) eq_refl Ll t1) as [W|(R & z & rest & T & Th & T')]; [left; exact W|right].
      split; [exact R|]. exists (t1 ++ z), rest. rewrite T, T', <- app_assoc. repeat split. subst t1. change (s ++ z) with ([] ++ s ++ z) at 1. apply (thrown_after [] s z). exact Th.
    - right. destruct (de_init E xs []) as [t1 q]. destruct (de_init E' xs []) as [t1' q']. simpl in *. subst q t1 t1'. split; [reflexivity|].
      exists (s ++ [e]). assert (Th2 : thrown [] (s ++ [e])) by (exists s, e, []; auto).
      destruct q' as [v| | | | |]; [|exists rest; rewrite <- app_assoc; auto..].
      destruct (loop_ext E' b gap nc N0 fuel 0%N xs xs v (s ++ e :: rest)) as [w Hw]. exists (rest ++ w). rewrite Hw, <- !app_assoc. auto. }
  unfold with_scope_exit in *. destruct B as [Q|(R & s & rest & T & Th & T')].
  - left. rewrite <- Q in H2. destruct (m []) as [t1 q].
    assert (G : flush_consumers E t1 = flush_consumers E' t1) by (unfold flush_consumers, call; now rewrite (fe_flush E' E FE)).
    rewrite <- G in H2. rewrite H1 in H2. now injection H2.
  - right. destruct (m []) as [t1 q]. destruct (m' []) as [t1' q']. simpl in *. subst q t1 t1'. unfold flush_consumers, call in *.
    exists s. injection H1 as <- <-. split; [reflexivity|]. split; [exact Th|]. split; [|now destruct (e_flush E _)].
    destruct q'; injection H2 as <- <-; unfold starts_with.
    all: try (exists rest; reflexivity). all: exists (rest ++ [EFlush]); now rewrite <- app_assoc.
Qed.
End DE.
