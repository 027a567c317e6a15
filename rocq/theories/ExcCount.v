(** Proofs of C76: how many samples DifferentialEvaluationMetropolisHastings has issued when the log likelihood has thrown. *)
From Verif Require Import Prelude ProducerModel ProducerSpec ProducerProofs DEProofs ExcSpec ExcProofs ExcDE.
Local Open Scope list_scope.
Local Notation length := List.length.

Section Count.
Context {X D : Type}.
Variable E : env X D.
Variable O : dops D.
Hypothesis NP : forall t x r, e_prop E t x r <> None.
Hypothesis NC : forall t x a b, e_cross E t x a b <> None.
Hypothesis NI : forall t x a, e_issue E t x a = false.
Notation nev := (@number_of_evaluations X D).
Notation nis t := (length (@issued X D t)).

Lemma nev_app a b : nev (a ++ b) = nev a + nev b.
Proof. unfold number_of_evaluations. now rewrite filter_app, app_length. Qed.
Lemma nis_app a b : nis (a ++ b) = nis a + nis b.
Proof. now rewrite issued_app, app_length. Qed.
Notation clean := (no_evaluation_throws E).
Definition calm (e : event X D) : bool := match e with EEval _ | EIssue _ _ | EFlush => false | _ => true end.
Definition noev (e : event X D) : bool := match e with EEval _ => false | _ => true end.

Lemma split_cases {T} (s1 s2 a b : list T) (e : T) : s1 ++ s2 = a ++ e :: b -> (exists b', s1 = a ++ e :: b' /\ b = b' ++ s2) \/ (exists a', a = s1 ++ a' /\ s2 = a' ++ e :: b).
Proof.
  revert a. induction s1 as [|h s1 IH]; intros a H; simpl in H; [right; exists a; auto|].
  destruct a as [|h' a]; simpl in H; injection H as -> H.
  - left. exists s1. auto.
  - destruct (IH a H) as [(b' & -> & ->)|(a' & -> & ->)]; [left; exists b'; auto|right; exists a'; auto].
Qed.
Lemma clean_app t s : clean t -> (forall a x b, s = a ++ EEval x :: b -> e_ll E (t ++ a) x <> None) -> clean (t ++ s).
Proof.
  intros C H a x b Q. destruct (split_cases t s a b (EEval x) Q) as [(b' & -> & _)|(a' & -> & Q')]; [apply (C a x b' eq_refl)|apply (H a' x b Q')].
Qed.
Lemma clean_noev t s : clean t -> forallb noev s = true -> clean (t ++ s).
Proof. intros C H. apply clean_app; [exact C|]. intros a x b ->. rewrite forallb_app in H. simpl in H. now rewrite andb_false_r in H. Qed.
Lemma clean_one t x : clean t -> e_ll E t x <> None -> clean (t ++ [EEval x]).
Proof.
  intros C H. apply clean_app; [exact C|]. intros a y b Q. destruct a as [|h a]; simpl in Q; [|destruct a; discriminate]. injection Q as <- _. now rewrite app_nil_r.
Qed.
Lemma calm_counts s : forallb calm s = true -> nev s = 0 /\ nis s = 0 /\ forallb noev s = true.
Proof.
  induction s as [|e s IH]; intros H; [auto|]. simpl in H. apply andb_true_iff in H as [H1 H2]. destruct (IH H2) as (A & B & C).
  change (e :: s) with ([e] ++ s). rewrite nev_app, nis_app, forallb_app, A, B, C. destruct e; simpl in *; try discriminate; auto.
Qed.

(** A computation which makes no evaluations, does not issue and does not throw *)
Definition still {A} (m : @M X D A) : Prop := forall t, exists s, fst (m t) = t ++ s /\ forallb calm s = true /\ snd (m t) <> RExc.
Lemma still_ret {A} (a : A) : still (ret a). Proof. intros t; exists []; simpl; rewrite app_nil_r; repeat split; discriminate. Qed.
Lemma still_at {A} (l : list A) i : still (at_ l i). Proof. intros t. unfold at_. destruct (nth_error _ _); exists []; simpl; rewrite app_nil_r; repeat split; discriminate. Qed.
Lemma still_call {A} e (f : trace X D -> option A) : calm e = true -> (forall t, f t <> None) -> still (call e f).
Proof. intros H N t. exists [e]. simpl. rewrite H. repeat split. specialize (N t). destruct (f t); [discriminate|congruence]. Qed.
Lemma still_bind {A B} (m : M A) (k : A -> M B) : still m -> (forall a, still (k a)) -> still (mbind m k).
Proof.
  intros H K t. unfold mbind. destruct (H t) as (s & Hs & Q & R). destruct (m t) as [t1 r]. simpl in *. subst t1.
  destruct r; try (exists s; simpl; repeat split; [assumption|discriminate]); [|congruence].
  destruct (K a (t ++ s)) as (s2 & Hs2 & Q2 & R2). exists (s ++ s2). rewrite Hs2, forallb_app, Q, Q2, app_assoc. auto.
Qed.
Lemma still_trial gap g n c cur : still (de_trial E gap g n c cur).
Proof.
  unfold de_trial. destruct (do_crossover gap g).
  - apply still_bind; [apply still_call; [reflexivity|discriminate]|intros da]. apply still_bind; [apply still_at|intros xa].
    apply still_bind; [apply still_call; [reflexivity|discriminate]|intros db]. apply still_bind; [apply still_at|intros xb]. apply still_bind; [apply still_at|intros xc].
    apply still_bind; [apply still_call; [reflexivity|intros t; apply NC]|intros z]. apply still_call; [reflexivity|intros t; apply NP].
  - apply still_bind; [apply still_at|intros xc]. apply still_call; [reflexivity|intros t; apply NP].
Qed.

Section Generation.
Variables (gap g n N0 : N) (cur : list X).
Let stop c := (N0 <=? wrap64 (g * n + N.of_nat c))%N.
Definition all_some (l : list (option bool)) : Prop := forall c, nth_error l c <> Some None.
Definition first_none (l : list (option bool)) (c0 : nat) : Prop := nth_error l c0 = Some None /\ forall c, c < c0 -> nth_error l c <> Some None.

Definition reached (t : trace X D) (c : nat) (s : @gstate X D) (t0 : trace X D) (c00 : nat) : Prop :=
  exists z, t = t0 ++ z /\ nis z = 0 /\ length (g_fut s) = c /\ (forall j, j < c -> stop j = false) /\ c00 <= c /\
  ((all_some (g_fut s) /\ clean t /\ nev z = c - c00) \/
   (exists c0 a x b, first_none (g_fut s) c0 /\ c00 <= c0 /\ z = a ++ EEval x :: b /\ e_ll E (t0 ++ a) x = None /\ clean (t0 ++ a) /\ nev a = c0 - c00)).

Lemma launch_count : forall k c s t t0 c00 t1 r, reached t c s t0 c00 -> de_launch O E gap g n N0 cur k c s t = (t1, r) ->
  r <> RExc /\ forall s1, r = RVal s1 -> exists c1, c1 <= c + k /\ reached t1 c1 s1 t0 c00 /\ (c1 = c + k \/ stop c1 = true).
Proof.
  induction k as [|k IH]; intros c s t t0 c00 t1 r R H; cbn [de_launch] in H.
  - injection H as <- <-. split; [discriminate|]. intros s1 Q. injection Q as <-. exists c. split; [lia|]. split; [exact R|]. left; lia.
  - fold (stop c) in H. destruct (stop c) eqn:Sc.
    { injection H as <- <-. split; [discriminate|]. intros s1 Q. injection Q as <-. exists c. split; [lia|]. split; [exact R|]. now right. }
    unfold mbind in H. destruct (still_trial gap g n c cur t) as (s0 & T & Q & NE). destruct (de_trial E gap g n c cur t) as [t2 q]. simpl in *. subst t2.
    destruct q as [[trial ratio]| | | | |]; try (injection H as <- <-; split; [discriminate|intros ? Hq; discriminate]); [|now destruct NE].
    unfold uniform, call in H. set (u := e_unif E (t ++ s0)) in *. set (t2 := (t ++ s0) ++ [EUnif]) in *.
    destruct (calm_counts s0 Q) as (Q1 & Q2 & Q3).
    destruct R as (z & Hz & Zi & Lf & St & Hc & Cases).
    assert (St' : forall j, j < S c -> stop j = false) by (intros j Hj; destruct (Nat.eq_dec j c) as [->|]; [exact Sc|apply St; lia]).
    assert (Ht : t2 ++ [EEval trial] = t0 ++ (z ++ s0 ++ [EUnif; EEval trial])) by (unfold t2; subst t; now rewrite <- !app_assoc).
    assert (Zi' : nis (z ++ s0 ++ [EUnif; EEval trial]) = 0) by (rewrite !nis_app, Zi, Q2; reflexivity).
    destruct (de_task O E c trial ratio u cur s t2) as [t3 q] eqn:K.
    assert (Kc : (q = RUB) \/ (exists v s1, q = RVal s1 /\ t3 = t2 ++ [EEval trial] /\ g_fut s1 = g_fut s ++ [v] /\ (e_ll E t2 trial = None <-> v = None))).
    { unfold de_task, log_likelihood, call in K. destruct (e_ll E t2 trial) as [l|] eqn:El.
      - destruct (nth_error cur c); [|injection K as <- <-; now left]. destruct (nth_error (g_ll s) c); [|injection K as <- <-; now left].
        destruct (de_decide _ _ _ _ _ _ _) as [[acc nx] nl]. injection K as <- <-. right. exists (Some acc). eexists. repeat split; simpl; try reflexivity; intros; discriminate.
      - injection K as <- <-. right. exists None. eexists. repeat split; simpl; reflexivity. }
    destruct Kc as [->|(v & s1 & -> & -> & Fv & Vn)]; [injection H as <- <-; split; [discriminate|intros ? Hq; discriminate]|].
    assert (R' : reached (t2 ++ [EEval trial]) (S c) s1 t0 c00).
    { exists (z ++ s0 ++ [EUnif; EEval trial]). split; [exact Ht|]. split; [exact Zi'|]. split; [rewrite Fv, app_length; simpl; lia|]. split; [exact St'|]. split; [lia|].
      destruct Cases as [(AS & Cl & Ne)|(c0 & a & x & b & (F1 & F2) & Hc0 & Zs & Et & Ca & Na)].
      - assert (Cl2 : clean t2) by (unfold t2; rewrite <- app_assoc; apply clean_noev; [exact Cl|]; rewrite forallb_app, Q3; reflexivity).
        destruct v as [v|].
        + left. split; [|split].
          * intros j. rewrite Fv. destruct (Nat.ltb_spec j (length (g_fut s))); [rewrite nth_error_app1 by lia; apply AS|].
            rewrite nth_error_app2 by lia. destruct (j - length (g_fut s)) as [|[|]]; simpl; discriminate.
          * apply clean_one; [exact Cl2|]. intros Hn. apply Vn in Hn. discriminate.
          * rewrite !nev_app, Ne, Q1. change (nev [EUnif; EEval trial]) with 1. lia.
        + right. exists c, (z ++ s0 ++ [EUnif]), trial, []. split; [split|].
          * rewrite Fv, nth_error_app2, Lf, Nat.sub_diag by lia. reflexivity.
          * intros j Hj. rewrite Fv, nth_error_app1 by lia. apply AS.
          * split; [lia|]. split; [now rewrite <- !app_assoc|].
            assert (Ht2 : t0 ++ z ++ s0 ++ [EUnif] = t2) by (unfold t2; subst t; now rewrite <- !app_assoc).
            rewrite Ht2. split; [now apply Vn|]. split; [exact Cl2|]. rewrite !nev_app, Ne, Q1. change (nev [EUnif]) with 0. lia.
      - assert (Hl : c0 < length (g_fut s)) by (apply nth_error_Some; congruence).
        right. exists c0, a, x, (b ++ s0 ++ [EUnif; EEval trial]). split; [split|].
        + rewrite Fv, nth_error_app1 by lia. exact F1.
        + intros j Hj. rewrite Fv, nth_error_app1 by lia. now apply F2.
        + split; [exact Hc0|]. split; [subst z; now rewrite <- !app_assoc|]. auto. }
    destruct (IH (S c) s1 (t2 ++ [EEval trial]) t0 c00 t1 r R' H) as (I1 & I2). split; [exact I1|]. intros s2 Hs2. destruct (I2 s2 Hs2) as (c1 & J1 & J2 & J3).
    exists c1. split; [lia|]. split; [exact J2|]. destruct J3; [left; lia|now right].
Qed.

Lemma issue_count_some b s c1 : length (g_fut s) = c1 -> all_some (g_fut s) -> (forall j, j < c1 -> stop j = false) -> forall k c t t1 r, c <= c1 -> (c1 = c + k \/ stop c1 = true /\ c1 < c + k) ->
  de_issue E b g n N0 k c s t = (t1, r) -> r <> RExc /\ (r = RVal tt -> exists z, t1 = t ++ z /\ nis z = c1 - c /\ forallb noev z = true).
Proof.
  intros L A St. induction k as [|k IH]; intros c t t1 r Hc Hk H; cbn [de_issue] in H.
  - injection H as <- <-. split; [discriminate|]. intros _. exists []. rewrite app_nil_r. simpl. repeat split. lia.
  - fold (stop c) in H. destruct (Nat.eq_dec c c1) as [Ec|Nc].
    { subst c. destruct Hk as [Hk|[Hk Hk2]]; [lia|]. rewrite Hk in H. injection H as <- <-. split; [discriminate|]. intros _. exists []. rewrite app_nil_r. simpl. repeat split. lia. }
    rewrite (St c) in H by lia. destruct (nth_error (g_fut s) c) as [[acc|]|] eqn:Ef; [|now destruct (A c)|apply nth_error_None in Ef; lia].
    unfold mbind, at_ in H. rewrite !Nat2N.id in H.
    destruct (nth_error (g_next s) c) as [x|]; [|injection H as <- <-; split; intros; discriminate]. unfold ret in H.
    destruct (nth_error (g_ll s) c) as [l|]; [|injection H as <- <-; split; intros; discriminate].
    set (a := [_; _; _]) in H. unfold issue_sample, call in H. rewrite NI in H.
    destruct (IH (S c) (t ++ [EIssue x a]) t1 r ltac:(lia) ltac:(destruct Hk as [Hk|[Hk Hk2]]; [left; lia|right; split; [exact Hk|lia]]) H) as (I1 & I2). split; [exact I1|]. intros Hr. destruct (I2 Hr) as (z & -> & Z1 & Z2).
    exists (EIssue x a :: z). split; [now rewrite <- app_assoc|]. split; [change (EIssue x a :: z) with ([EIssue x a] ++ z); rewrite nis_app, Z1; cbn; lia|]. exact Z2.
Qed.
Lemma issue_count_none b s c1 c0 : length (g_fut s) = c1 -> first_none (g_fut s) c0 -> (forall j, j < c1 -> stop j = false) -> forall k c t t1 r, c <= c0 ->
  de_issue E b g n N0 k c s t = (t1, r) -> r = RExc -> exists z, t1 = t ++ z /\ nis z = c0 - c.
Proof.
  intros L [F1 F2] St. assert (Hl : c0 < c1) by (rewrite <- L; apply nth_error_Some; congruence).
  induction k as [|k IH]; intros c t t1 r Hc H Hr; cbn [de_issue] in H; [injection H as <- <-; discriminate|].
  fold (stop c) in H. rewrite (St c) in H by lia. destruct (Nat.eq_dec c c0) as [Ec|Nc].
  - subst c. rewrite F1 in H. injection H as <- <-. exists []. rewrite app_nil_r. simpl. split; [reflexivity|lia].
  - destruct (nth_error (g_fut s) c) as [[acc|]|] eqn:Ef; [|now destruct (F2 c ltac:(lia))|apply nth_error_None in Ef; lia].
    unfold mbind, at_ in H. rewrite !Nat2N.id in H.
    destruct (nth_error (g_next s) c) as [x|]; [|injection H as <- <-; discriminate]. unfold ret in H.
    destruct (nth_error (g_ll s) c) as [l|]; [|injection H as <- <-; discriminate].
    set (a := [_; _; _]) in H. unfold issue_sample, call in H. rewrite NI in H.
    destruct (IH (S c) (t ++ [EIssue x a]) t1 r ltac:(lia) H Hr) as (z & -> & Z1).
    exists (EIssue x a :: z). split; [now rewrite <- app_assoc|]. change (EIssue x a :: z) with ([EIssue x a] ++ z); rewrite nis_app, Z1; cbn; lia.
Qed.
End Generation.

Definition counted (t : trace X D) (nc : nat) : Prop := exists a x b, t = a ++ EEval x :: b /\ e_ll E a x = None /\ clean a /\ nis t = nev a - nc.
Lemma loop_count b gap n N0 nc : nc = N.to_nat n -> forall fuel g cur nx lls t t1 r, clean t -> nev t = nc + nis t ->
  de_loop O E b fuel gap n N0 g cur nx lls t = (t1, r) -> r = RExc -> counted t1 nc.
Proof.
  intros Hn. induction fuel as [|fuel IH]; intros g cur nx lls t t1 r C Hne H Hr; cbn [de_loop] in H; [injection H as <- <-; discriminate|].
  destruct (_ <? _)%N; [|injection H as <- <-; discriminate]. unfold mbind in H.
  set (s0 := {| g_next := nx; g_ll := lls; g_fut := [] |}) in H.
  assert (R0 : reached g n N0 t 0 s0 t 0).
  { exists []. rewrite app_nil_r. split; [reflexivity|]. split; [reflexivity|]. split; [reflexivity|]. split; [intros; lia|]. split; [lia|].
    left. split; [intros [|c]; simpl; discriminate|]. split; [exact C|reflexivity]. }
  destruct (de_launch O E gap g n N0 cur (N.to_nat n) 0 s0 t) as [t2 q] eqn:L.
  destruct (launch_count gap g n N0 cur (N.to_nat n) 0 s0 t t 0 t2 q R0 L) as (L1 & L2).
  destruct q as [s1| | | | |]; try (injection H as <- <-; first [discriminate|now destruct L1]).
  destruct (L2 s1 eq_refl) as (c1 & Hc1 & (z & Hz & Zi & Lf & St & _ & Cases) & Hend).
  destruct (de_issue E b g n N0 (N.to_nat n) 0 s1 t2) as [t3 q] eqn:I.
  destruct Cases as [(AS & Cl & Ne)|(c0 & a & x & w & Fn & _ & Zs & Et & Ca & Na)].
  - destruct (issue_count_some g n N0 b s1 c1 Lf AS St (N.to_nat n) 0 t2 t3 q ltac:(lia)) as (I1 & I2);
      [destruct Hend as [He|He]; [left; lia|destruct (Nat.eq_dec c1 (0 + N.to_nat n)); [left; lia|right; split; [exact He|lia]]]|exact I|].
    destruct q as [[]| | | | |]; try (injection H as <- <-; first [discriminate|now destruct I1]).
    destruct (I2 eq_refl) as (y & -> & Y1 & Y2). apply (IH _ _ _ _ _ t1 r) in H; try assumption.
    + now apply clean_noev.
    + subst t2. rewrite !nev_app, !nis_app, Zi, Y1, Ne, Hne. assert (Hy : nev y = 0).
      { clear -Y2. induction y as [|e y IHy]; [reflexivity|]. simpl in Y2. apply andb_true_iff in Y2 as [A B]. destruct e; simpl in A; try discriminate; apply (IHy B). }
      rewrite Hy. lia.
  - destruct q as [[]| | | | |]; try (injection H as <- <-; discriminate).
    + (* the exception would have been swallowed *) exfalso.
      clear - NI I Fn Lf St Hc1. destruct Fn as [F1 F2]. assert (Hl : c0 < c1) by (rewrite <- Lf; apply nth_error_Some; congruence).
      assert (G : forall k c t t1 r, c <= c0 -> c0 < c + k -> de_issue E b g n N0 k c s1 t = (t1, r) -> r <> RVal tt).
      { induction k as [|k IHk]; intros c t t1 r Hc Hk H; [lia|]. cbn [de_issue] in H. rewrite (St c) in H by lia. destruct (Nat.eq_dec c c0) as [Ec|Nc].
        - subst c. rewrite F1 in H. injection H as <- <-. discriminate.
        - destruct (nth_error (g_fut s1) c) as [[acc|]|] eqn:Ef; [|now destruct (F2 c ltac:(lia))|apply nth_error_None in Ef; lia].
          unfold mbind, at_ in H. rewrite !Nat2N.id in H.
          destruct (nth_error (g_next s1) c) as [v|]; [|injection H as <- <-; discriminate]. unfold ret in H.
          destruct (nth_error (g_ll s1) c) as [l|]; [|injection H as <- <-; discriminate].
          set (e := [_; _; _]) in H. unfold issue_sample, call in H. rewrite NI in H. apply (IHk (S c) (t ++ [EIssue v e]) t1 r); [lia|lia|exact H]. }
      apply (G (N.to_nat n) 0 t2 t3 (RVal tt)); try assumption; try lia. reflexivity.
    + injection H as <- <-. destruct (issue_count_none g n N0 b s1 c1 c0 Lf Fn St (N.to_nat n) 0 t2 t3 RExc ltac:(lia) I eq_refl) as (y & -> & Y1).
      exists (t ++ a), x, (w ++ y). split; [subst t2 z; now rewrite <- !app_assoc|]. split; [exact Et|]. split; [exact Ca|].
      subst t2. rewrite !nis_app, nev_app, Zi, Y1, Na, Hne. lia.
Qed.
Lemma init_count : forall xs t t1 r, clean t -> nis t = 0 -> de_init E xs t = (t1, r) ->
  (r = RExc -> exists a x b, t1 = a ++ EEval x :: b /\ e_ll E a x = None /\ clean a /\ nis t1 = 0 /\ nev a < nev t + length xs) /\
  (forall ls, r = RVal ls -> clean t1 /\ nis t1 = 0 /\ nev t1 = nev t + length xs).
Proof.
  induction xs as [|x xs IH]; intros t t1 r C Ni H; cbn [de_init] in H.
  - injection H as <- <-. split; [discriminate|]. intros ls _. simpl. repeat split; [exact C|exact Ni|lia].
  - unfold mbind at 1 in H. unfold log_likelihood, call in H. destruct (e_ll E t x) as [l|] eqn:El.
    + unfold mbind in H. destruct (de_init E xs (t ++ [EEval x])) as [t2 q] eqn:Q.
      assert (C2 : clean (t ++ [EEval x])) by (apply clean_one; [exact C|congruence]).
      assert (N2 : nis (t ++ [EEval x]) = 0) by (rewrite nis_app, Ni; reflexivity).
      assert (V2 : nev (t ++ [EEval x]) = nev t + 1) by (rewrite nev_app; reflexivity).
      destruct (IH _ _ _ C2 N2 Q) as (I1 & I2).
      destruct q as [ls| | | | |]; injection H as <- <-; (split; [intros Hr; try discriminate|intros ls' Hr; try discriminate]).
      * injection Hr as <-. destruct (I2 ls eq_refl) as (A & B & V). simpl. rewrite V2 in V. repeat split; [exact A|exact B|lia].
      * destruct (I1 eq_refl) as (a & y & b & A & B & V & W & Z). exists a, y, b. rewrite V2 in Z. simpl. repeat split; try assumption. lia.
    + injection H as <- <-. split; [|intros; discriminate]. intros _. exists t, x, []. repeat split; try assumption; [rewrite nis_app, Ni; reflexivity|simpl; lia].
Qed.
Theorem de_count : (forall t, e_flush E t = false) -> forall b fuel xs gap N0 t, de_sample O E b fuel xs gap N0 [] = (t, RExc) -> counted t (length xs).
Proof.
  intros NF b fuel xs gap N0 t H. unfold de_sample in H. destruct (match b with Debug => _ | Release => _ end); [unfold fail in H; congruence|].
  set (nc := N.of_nat (length xs)) in *. unfold with_scope_exit in H. set (m := mbind (de_init E xs) _) in H.
  assert (B : forall t1 r, m [] = (t1, r) -> r = RExc -> counted t1 (length xs)).
  { intros t1 r Hm Hr. unfold m, mbind in Hm. destruct (de_init E xs []) as [t2 q] eqn:Q.
    destruct (init_count xs [] t2 q ltac:(intros a x w Hn; destruct a; discriminate) eq_refl Q) as (I1 & I2).
    destruct q as [ls| | | | |]; try (injection Hm as <- <-; discriminate).
    - destruct (I2 ls eq_refl) as (A & C & V). apply (loop_count b gap nc N0 (length xs) ltac:(unfold nc; lia)) in Hm; try assumption. rewrite V, C. cbn. lia.
    - injection Hm as <- <-. destruct (I1 eq_refl) as (a & x & w & A & C & V & W & Z). exists a, x, w. repeat split; try assumption. rewrite W. cbn in Z. lia. }
  destruct (m []) as [t1 r] eqn:Hm. unfold flush_consumers, call in H. rewrite NF in H.
  destruct r; try (injection H as <- ?; discriminate).
  injection H as <-. destruct (B t1 RExc eq_refl eq_refl) as (a & x & w & -> & P2 & P3 & P4). exists a, x, (w ++ [EFlush]).
  split; [now rewrite <- app_assoc|]. split; [exact P2|]. split; [exact P3|]. rewrite nis_app, P4. cbn. lia.
Qed.
End Count.
