(** Proofs about DifferentialEvaluationMetropolisHastings (tasks executed synchronously). *)
From Coq Require Import String.
From Verif Require Import Prelude ProducerModel ProducerSpec ProducerProofs.
Local Open Scope string_scope.
Local Open Scope list_scope.
Local Notation length := List.length.

(** ** Choice of partners *)
Lemma wrap64_small : forall x, (x < two64)%N -> wrap64 x = x.
Proof. intros. unfold wrap64. apply N.mod_small. assumption. Qed.
Ltac n64 := let H := fresh in assert (H : two64 = 18446744073709551616%N) by reflexivity; lia.
Lemma minus64_small : forall a b, (b <= a)%N -> (a < two64)%N -> (0 < b)%N -> minus64 a b = (a - b)%N.
Proof.
  intros a b H1 H2 H3. unfold minus64, wrap64. replace (a + (two64 - b))%N with ((a - b) + 1 * two64)%N by lia.
  rewrite N.mod_add by discriminate. apply N.mod_small. lia.
Qed.
Lemma partner_a_ok : forall n chain da, (3 <= n < two64)%N -> (chain < n)%N -> (da <= n - 2)%N ->
  (partner_a chain da < n)%N /\ partner_a chain da <> chain.
Proof.
  intros n chain da Hn Hc Hd. unfold partner_a. destruct (N.leb_spec chain da); [rewrite wrap64_small by n64|]; n64.
Qed.
Lemma partner_b_ok : forall n chain a db, (3 <= n < two64)%N -> (chain < n)%N -> (a < n)%N -> a <> chain -> (db <= n - 3)%N ->
  (partner_b chain a db < n)%N /\ partner_b chain a db <> N.min a chain.
Proof.
  intros n chain a db Hn Hc Ha Hne Hd. unfold partner_b.
  destruct (N.leb_spec (N.max a chain) db); [rewrite wrap64_small by n64; n64|].
  destruct (N.leb_spec (N.min a chain) db); [rewrite wrap64_small by n64|]; n64.
Qed.
(** the first partner is any other chain, each for exactly one of the equally likely draws *)
Theorem partner_a_bijective : forall n chain a, (3 <= n < two64)%N -> (chain < n)%N -> (a < n)%N -> a <> chain ->
  exists! d, (d <= n - 2)%N /\ partner_a chain d = a.
Proof.
  intros n chain a Hn Hc Ha Hac. exists (if a <? chain then a else a - 1)%N. unfold partner_a. split.
  - destruct (N.ltb_spec a chain); match goal with |- context [N.leb ?x ?y] => destruct (N.leb_spec x y) end;
    rewrite ?wrap64_small by n64; n64.
  - intros d (H1 & H2). destruct (N.leb_spec chain d); [rewrite wrap64_small in H2 by n64|]; destruct (N.ltb_spec a chain); n64.
Qed.
(** the second one is right only if the larger one of the two others is the last chain *)
Theorem partner_b_bijective : forall n chain a b, (3 <= n < two64)%N -> (chain < n)%N -> (a < n)%N -> a <> chain ->
  N.max a chain = (n - 1)%N -> (b < n)%N -> b <> a -> b <> chain ->
  exists! d, (d <= n - 3)%N /\ partner_b chain a d = b.
Proof.
  intros n chain a b Hn Hc Ha Hac Hmax Hb Hba Hbc. exists (if b <? N.min a chain then b else b - 1)%N. unfold partner_b. split.
  - destruct (N.ltb_spec b (N.min a chain));
    repeat match goal with |- context [N.leb ?x ?y] => destruct (N.leb_spec x y) end; rewrite ?wrap64_small by n64; n64.
  - intros d (H1 & H2). revert H2. repeat match goal with |- context [N.leb ?x ?y] => destruct (N.leb_spec x y) end;
    rewrite ?wrap64_small by n64; intros; destruct (N.ltb_spec b (N.min a chain)); n64.
Qed.
Theorem partner_b_wrong : forall n chain a, (3 <= n < two64)%N -> (chain < n)%N -> (a < n)%N -> a <> chain ->
  (N.max a chain < n - 1)%N ->
  (exists d, (d <= n - 3)%N /\ partner_b chain a d = N.max a chain) /\
  (forall d, (d <= n - 3)%N -> partner_b chain a d <> N.max a chain + 1)%N.
Proof.
  intros n chain a Hn Hc Ha Hac Hmax. unfold partner_b. split.
  - exists (N.max a chain - 1)%N. split; [lia|].
    repeat match goal with |- context [N.leb ?x ?y] => destruct (N.leb_spec x y) end; rewrite ?wrap64_small by n64; n64.
  - intros d Hd. repeat match goal with |- context [N.leb ?x ?y] => destruct (N.leb_spec x y) end; rewrite ?wrap64_small by n64; n64.
Qed.

Lemma do_crossover_due : forall gap g, do_crossover (N.of_nat gap) (N.of_nat g) = true <-> crossover_due gap g.
Proof.
  intros gap g. unfold do_crossover, crossover_due. rewrite andb_true_iff, orb_true_iff, N.eqb_eq, N.ltb_lt.
  destruct (Nat.eq_dec gap 0) as [->|Hg].
  - split; [intros [_ H]; split; [lia|now left]|intros [H _]; split; [now left|lia]].
  - rewrite N.eqb_eq. split.
    + intros [[H|H] H0]; (split; [lia|]); [lia|]. right. apply N.mod_divide in H; [|lia]. destruct H as [z Hz].
      exists (N.to_nat z). lia.
    + intros [H0 [H|[m Hm]]]; (split; [|lia]); [lia|]. right. apply N.mod_divide; [lia|]. exists (N.of_nat m). lia.
Qed.

(** ** lists *)
Lemma upd_length : forall T (l : list T) i v, length (upd l i v) = length l.
Proof.
  intros T l i v. unfold upd. rewrite <- (firstn_skipn i l) at 3. rewrite !app_length. f_equal. destruct (skipn i l); reflexivity.
Qed.
Lemma nth_upd_same : forall T (l : list T) i v, i < length l -> nth_error (upd l i v) i = Some v.
Proof.
  intros T l i v. revert l. induction i as [|i IH]; intros [|x l] H; cbn in H; try lia; [reflexivity|].
  change (upd (x :: l) (S i) v) with (x :: upd l i v). cbn. apply IH. lia.
Qed.
Lemma nth_upd_other : forall T (l : list T) i j v, i <> j -> nth_error (upd l i v) j = nth_error l j.
Proof.
  intros T l i. revert l. induction i as [|i IH]; intros [|x l] j v H.
  - reflexivity.
  - destruct j; [lia|reflexivity].
  - reflexivity.
  - change (upd (x :: l) (S i) v) with (x :: upd l i v). destruct j; cbn; [reflexivity|]. apply IH. lia.
Qed.
Lemma nth_some : forall T (l : list T) i, i < length l -> exists x, nth_error l i = Some x.
Proof. intros T l i H. destruct (nth_error l i) eqn:He; [eauto|]. apply nth_error_None in He. lia. Qed.

Section P.
Context {X D : Type}.
Variable (O : dops D).
Variable (E : env X D).
Implicit Types (t d b : trace X D).
(** the random number generator returns numbers in the requested range *)
Hypothesis uint_ok : forall t hi, (e_uint E t hi <= hi)%N.
(** the acceptance test *)
Definition de_test (tl cl q u : D) : bool := d_ge O (d_div O (d_exp O (d_sub O tl cl)) q) u.
Definition fyq (p : X * list X * (X * D)) : X * (X * D) := (fst (fst p), snd p).

Lemma at_val : forall T (l : list T) i t x, nth_error l (N.to_nat i) = Some x -> at_ l i t = (t, @RVal T x) :> (trace X D * res T).
Proof. intros. unfold at_. now rewrite H. Qed.

Lemma de_trial_spec : forall gap g n chain (current : list X) t t' r,
  length current = n -> 3 <= n -> (N.of_nat n < two64)%N -> chain < n ->
  de_trial E (N.of_nat gap) (N.of_nat g) (N.of_nat n) chain current t = (t', r) ->
  exists d, t' = t ++ d /\ flush_free d /\ issued d = [] /\ evals_from E t d = [] /\ draws_from E t d = [] /\ okres r /\
  forall y q, r = RVal (y, q) ->
  exists from xc, props_from E t d = [(from, [], (y, q))] /\ nth_error current chain = Some xc /\
   (~ crossover_due gap g -> from = xc /\ cross_from E t d = []) /\
   (crossover_due gap g -> exists c1 c2 x1 x2, c1 < n /\ c2 < n /\ c1 <> chain /\ c2 <> Nat.min c1 chain /\
      nth_error current c1 = Some x1 /\ nth_error current c2 = Some x2 /\ cross_from E t d = [(xc, x1, x2, from)]).
Proof.
  intros gap g n chain current t t' r Hlen Hn Hn64 Hc H. unfold de_trial in H.
  destruct (nth_some _ current chain ltac:(lia)) as (xc & Hxc).
  destruct (do_crossover (N.of_nat gap) (N.of_nat g)) eqn:Hdo.
  - apply do_crossover_due in Hdo.
    unfold mbind at 1 in H. unfold uniform_int at 1, call in H.
    rewrite (minus64_small _ 2), (minus64_small _ 3) in H by lia.
    set (e1 := EUInt (N.of_nat n - 2)) in *. set (da := e_uint E t (N.of_nat n - 2)) in *.
    pose proof (uint_ok t (N.of_nat n - 2)) as Hda. fold da in Hda.
    destruct (partner_a_ok (N.of_nat n) (N.of_nat chain) da) as [Ha1 Ha2]; [lia|lia|exact Hda|].
    set (a := partner_a (N.of_nat chain) da) in *.
    destruct (nth_some _ current (N.to_nat a) ltac:(lia)) as (xa & Hxa).
    unfold mbind at 1 in H. rewrite (at_val _ _ _ _ _ Hxa) in H.
    unfold mbind at 1 in H. unfold uniform_int at 1, call in H.
    set (e2 := EUInt (N.of_nat n - 3)) in *. set (db := e_uint E (t ++ [e1]) (N.of_nat n - 3)) in *.
    pose proof (uint_ok (t ++ [e1]) (N.of_nat n - 3)) as Hdb. fold db in Hdb.
    destruct (partner_b_ok (N.of_nat n) (N.of_nat chain) a db) as (Hb1 & Hb2); [lia|lia|exact Ha1|exact Ha2|exact Hdb|].
    set (bb := partner_b (N.of_nat chain) a db) in *.
    destruct (nth_some _ current (N.to_nat bb) ltac:(lia)) as (xb & Hxb).
    unfold mbind at 1 in H. rewrite (at_val _ _ _ _ _ Hxb) in H.
    unfold mbind at 1 in H. rewrite (at_val _ _ _ _ xc) in H by (now rewrite Nnat.Nat2N.id).
    unfold mbind, crossover, call in H.
    set (t2 := (t ++ [e1]) ++ [e2]) in *.
    destruct (e_cross E t2 xc xa xb) as [c|] eqn:Hcr.
    2:{ inversion H; subst t' r. exists [e1; e2; ECross xc xa xb]. unfold t2. rewrite <- !app_assoc.
        split; [reflexivity|]. split; [repeat constructor; discriminate|]. repeat split; [right; reflexivity|discriminate]. }
    unfold propose_sample, call in H. set (t3 := t2 ++ [ECross xc xa xb]) in *.
    inversion H; subst t' r; clear H.
    exists [e1; e2; ECross xc xa xb; EPropose c []]. unfold t3, t2. rewrite <- !app_assoc.
    split; [reflexivity|]. split; [repeat constructor; discriminate|]. split; [reflexivity|]. split; [reflexivity|]. split; [reflexivity|].
    split; [destruct (e_prop E _ c []); [left; eauto|right; reflexivity]|].
    intros y q Hr. destruct (e_prop E (t ++ [e1] ++ [e2] ++ [ECross xc xa xb]) c []) as [[y' q']|] eqn:Hp; inversion Hr; subst y' q'.
    exists c, xc. split; [|split; [exact Hxc|split; [tauto|]]].
    + unfold props_from. cbn [collect e1 e2 app].
      replace (((t ++ [e1]) ++ [e2]) ++ [ECross xc xa xb]) with (t ++ [e1] ++ [e2] ++ [ECross xc xa xb]) by (now rewrite <- !app_assoc).
      change (t ++ [e1; e2; ECross xc xa xb]) with (t ++ [e1] ++ [e2] ++ [ECross xc xa xb]).
      rewrite Hp. reflexivity.
    + intros _. exists (N.to_nat a), (N.to_nat bb), xa, xb. repeat split; auto; try lia.
      unfold cross_from. cbn [collect e1 e2 app]. fold e1 e2 t2. rewrite Hcr. reflexivity.
  - assert (Hnd : ~ crossover_due gap g) by (intros H'; apply do_crossover_due in H'; congruence).
    unfold mbind in H. rewrite (at_val _ _ _ _ xc) in H by (now rewrite Nnat.Nat2N.id).
    unfold propose_sample, call in H. inversion H; subst t' r. exists [EPropose xc []].
    split; [reflexivity|]. split; [repeat constructor; discriminate|]. split; [reflexivity|]. split; [reflexivity|]. split; [reflexivity|].
    split; [destruct (e_prop E t xc []); [left; eauto|right; reflexivity]|].
    intros y q Hr. destruct (e_prop E t xc []) as [[y' q']|] eqn:Hp; inversion Hr; subst y' q'.
    exists xc, xc. split; [|split; [exact Hxc|split; [auto|tauto]]].
    unfold props_from. cbn. rewrite Hp. reflexivity.
Qed.

(** ** One generation *)
(** what happened to chain [c], whose proposal is number [i] of the generation *)
Definition step_ok (gap g n : nat) (current : list X) (lls : list D) (cr : list (X * X * X * X))
    (pr : list (X * list X * (X * D))) (ev : list (X * D)) (dw : list D) (s' : gstate) (i c : nat) : Prop :=
  exists from y q ly (rep : bool) curx curl u,
    nth_error pr i = Some (from, [], (y, q)) /\ nth_error ev i = Some (y, ly) /\
    nth_error dw i = Some u /\ rep = negb (de_test ly curl q u) /\
    nth_error current c = Some curx /\ nth_error lls c = Some curl /\
    nth_error (g_fut s') c = Some (Some (negb rep)) /\
    nth_error (g_next s') c = Some (if rep then curx else y) /\
    nth_error (g_ll s') c = Some (if rep then curl else ly) /\
    (~ crossover_due gap g -> from = curx) /\
    (crossover_due gap g -> exists c1 c2 x1 x2, c1 < n /\ c2 < n /\ c1 <> c /\ c2 <> Nat.min c1 c /\
       nth_error current c1 = Some x1 /\ nth_error current c2 = Some x2 /\ In (curx, x1, x2, from) cr).

Lemma de_launch_spec : forall gap g n N0 (current : list X) k chain s t t' r,
  length current = n -> 3 <= n -> (N.of_nat (g * n + n) < two64)%N -> chain + k = n ->
  length (g_next s) = n -> length (g_ll s) = n -> length (g_fut s) = chain ->
  de_launch O E (N.of_nat gap) (N.of_nat g) (N.of_nat n) (N.of_nat N0) current k chain s t = (t', r) ->
  exists d, t' = t ++ d /\ flush_free d /\ issued d = [] /\ okres r /\
  forall s', r = RVal s' ->
   let j := Nat.min k (N0 - (g * n + chain)) in
   length (g_next s') = n /\ length (g_ll s') = n /\ length (g_fut s') = chain + j /\
   (forall c, c < chain -> nth_error (g_next s') c = nth_error (g_next s) c /\
       nth_error (g_ll s') c = nth_error (g_ll s) c /\ nth_error (g_fut s') c = nth_error (g_fut s) c) /\
   length (props_from E t d) = j /\ length (draws_from E t d) = j /\
   ((forall c, chain <= c < chain + j -> nth_error (g_fut s') c <> Some None) -> length (evals_from E t d) = j) /\
   (forall m, m <= j -> (forall c, chain <= c < chain + m -> nth_error (g_fut s') c <> Some None) ->
     (forall i, i < m -> step_ok gap g n current (g_ll s) (cross_from E t d) (props_from E t d) (evals_from E t d) (draws_from E t d) s' i (chain + i))).
Proof.
  intros gap g n N0 current k. induction k as [|k IH]; intros chain s t t' r Hcur Hn H64 Hck Hnx Hll Hfut H; cbn [de_launch] in H.
  - inversion H; subst t' r. exists []. rewrite app_nil_r. split; [reflexivity|]. split; [constructor|]. split; [reflexivity|].
    split; [left; eauto|]. intros s' Hs. inversion Hs; subst s'. cbn. repeat split; auto; try lia. 
  - rewrite wrap64_small in H by lia.
    destruct (N.leb_spec (N.of_nat N0) (N.of_nat g * N.of_nat n + N.of_nat chain)) as [Hge|Hlt].
    { inversion H; subst t' r. exists []. rewrite app_nil_r. split; [reflexivity|]. split; [constructor|]. split; [reflexivity|].
      split; [left; eauto|]. intros s' Hs. inversion Hs; subst s'.
      replace (N0 - (g * n + chain)) with 0 by lia. rewrite Nat.min_0_r. cbn. repeat split; auto; try lia. }
    unfold mbind at 1 in H.
    destruct (de_trial E (N.of_nat gap) (N.of_nat g) (N.of_nat n) chain current t) as [t1 r1] eqn:Htr.
    apply de_trial_spec in Htr; [|exact Hcur|exact Hn|lia|lia].
    destruct Htr as (d1 & -> & Hf1 & Hi1 & Hev1 & Hdw1 & Hok1 & Hval1).
    destruct Hok1 as [[[y q] ->]| ->].
    2:{ inversion H; subst t' r. exists d1. split; [reflexivity|]. split; [exact Hf1|]. split; [exact Hi1|]. split; [right; reflexivity|discriminate]. }
    destruct (Hval1 y q eq_refl) as (from & xc & Hpr1 & Hxc & Hnc & Hcr). clear Hval1.
    unfold mbind at 1 in H. unfold uniform at 1, call in H.
    set (t2 := (t ++ d1) ++ [EUnif]) in *. set (u := e_unif E (t ++ d1)) in *.
    unfold mbind in H. unfold de_task, log_likelihood, call in H.
    destruct (nth_some _ (g_ll s) chain ltac:(lia)) as (curl & Hcurl).
    set (h := d1 ++ [EUnif; EEval y]).
    assert (Hth : t2 ++ [EEval y] = t ++ h) by (unfold t2, h; now rewrite <- !app_assoc).
    assert (Hprh : forall d2, props_from E t (h ++ d2) = (from, [], (y, q)) :: props_from E (t ++ h) d2).
    { intros d2. unfold props_from at 1. rewrite collect_app. unfold h at 1. rewrite collect_app. fold (props_from E t d1). rewrite Hpr1. reflexivity. }
    assert (Hdwh : forall d2, draws_from E t (h ++ d2) = u :: draws_from E (t ++ h) d2).
    { intros d2. unfold draws_from at 1. rewrite collect_app. unfold h at 1. rewrite collect_app. fold (draws_from E t d1). rewrite Hdw1. reflexivity. }
    assert (Hcrh : forall d2, cross_from E t (h ++ d2) = cross_from E t d1 ++ cross_from E (t ++ h) d2).
    { intros d2. unfold cross_from at 1. rewrite collect_app. unfold h at 1. rewrite collect_app. cbn [collect app].
      rewrite app_nil_r. reflexivity. }
    assert (Hffh : flush_free h) by (apply Forall_app; split; [exact Hf1|repeat constructor; discriminate]).
    assert (Hish : issued h = []) by (unfold h; rewrite issued_app, Hi1; reflexivity).
    destruct (e_ll E t2 y) as [ly|] eqn:Hly.
    + rewrite Hxc, Hcurl in H.
      destruct (de_decide O y q u ly xc curl) as [[acc nx] nl] eqn:Hdec.
      assert (Hdec' : nx = (if negb acc then xc else y) /\ nl = (if negb acc then curl else ly) /\ acc = de_test ly curl q u).
      { unfold de_decide in Hdec. unfold de_test. destruct (d_ge O _ u); inversion Hdec; subst; auto. }
      destruct Hdec' as (Hnxv & Hnlv & Hacc).
      rewrite Hth in H. apply IH in H; [|exact Hcur|exact Hn|exact H64|lia|cbn; now rewrite upd_length|cbn; now rewrite upd_length|cbn; rewrite app_length; cbn; lia].
      destruct H as (d & -> & Hff & His & Hok & Hrest).
      exists (h ++ d). rewrite app_assoc. split; [reflexivity|]. split; [now apply Forall_app|].
      split; [now rewrite issued_app, Hish, His|]. split; [exact Hok|].
      intros s' Hs'. destruct (Hrest s' Hs') as (Hl1 & Hl2 & Hl3 & Hkeep & Hsteps). clear Hrest. cbn [g_next g_ll g_fut] in *.
      cbv zeta. set (j' := Nat.min k (N0 - (g * n + S chain))) in *.
      assert (Hj : Nat.min (S k) (N0 - (g * n + chain)) = S j') by (unfold j'; lia). rewrite Hj.
      split; [exact Hl1|]. split; [exact Hl2|]. split; [lia|]. split.
      * intros c Hc. destruct (Hkeep c ltac:(lia)) as (K1 & K2 & K3). rewrite K1, K2, K3.
        rewrite !nth_upd_other by lia. rewrite nth_error_app1 by lia. auto.
      * destruct Hsteps as (S1 & Sd & S2 & S3).
        rewrite Hprh, Hcrh, Hdwh.
        assert (Hevh : evals_from E t (h ++ d) = (y, ly) :: evals_from E (t ++ h) d).
        { unfold evals_from at 1. rewrite collect_app. unfold h at 1. rewrite collect_app. fold (evals_from E t d1). rewrite Hev1. cbn [collect app].
          unfold t2 in Hly. rewrite Hly. reflexivity. }
        rewrite Hevh. cbn [length]. split; [lia|]. split; [lia|].
        split; [intros Hall; rewrite S2; [reflexivity|intros c Hc; apply Hall; lia]|].
        intros m Hm Hall [|i] Hi.
        -- destruct (Hkeep chain ltac:(lia)) as (K1 & K2 & K3). rewrite Nat.add_0_r.
           exists from, y, q, ly, (negb acc), xc, curl, u. cbn [nth_error]. rewrite K1, K2, K3.
           rewrite !nth_upd_same by lia. rewrite nth_error_app2, Hfut, Nat.sub_diag by lia. cbn [nth_error].
           rewrite negb_involutive, Hnxv, Hnlv. repeat split; auto.
           ++ now rewrite Hacc.
           ++ intros Hd. apply (Hnc Hd).
           ++ intros Hd. destruct (Hcr Hd) as (c1 & c2 & x1 & x2 & ? & ? & ? & ? & ? & ? & Hx). exists c1, c2, x1, x2.
              repeat split; auto. rewrite Hx. now left.
        -- destruct (S3 (m - 1) ltac:(lia) ltac:(intros c Hc; apply Hall; lia) i ltac:(lia)) as (from' & y' & q' & ly' & rep' & cx' & cl' & u' & T1 & T2 & Tu & Tr & T3 & T4 & T5 & T6 & T7 & T8 & T9).
           replace (chain + S i) with (S chain + i) by lia.
           exists from', y', q', ly', rep', cx', cl', u'. cbn [nth_error]. rewrite nth_upd_other in T4 by lia. repeat split; auto.
           intros Hd. destruct (T9 Hd) as (c1 & c2 & x1 & x2 & ? & ? & ? & ? & ? & ? & Hx). exists c1, c2, x1, x2.
           repeat split; auto. apply in_or_app. now right.
    + rewrite Hth in H. apply IH in H; [|exact Hcur|exact Hn|exact H64|lia|cbn; auto|cbn; auto|cbn; rewrite app_length; cbn; lia].
      destruct H as (d & -> & Hff & His & Hok & Hrest).
      exists (h ++ d). rewrite app_assoc. split; [reflexivity|]. split; [now apply Forall_app|].
      split; [now rewrite issued_app, Hish, His|]. split; [exact Hok|].
      intros s' Hs'. destruct (Hrest s' Hs') as (Hl1 & Hl2 & Hl3 & Hkeep & Hsteps). clear Hrest. cbn [g_next g_ll g_fut] in *.
      cbv zeta. set (j' := Nat.min k (N0 - (g * n + S chain))) in *.
      assert (Hj : Nat.min (S k) (N0 - (g * n + chain)) = S j') by (unfold j'; lia). rewrite Hj.
      split; [exact Hl1|]. split; [exact Hl2|]. split; [lia|]. split.
      * intros c Hc. destruct (Hkeep c ltac:(lia)) as (K1 & K2 & K3). rewrite K1, K2, K3.
        rewrite nth_error_app1 by lia. auto.
      * destruct Hsteps as (S1 & Sd & _ & _).
        assert (Hn0 : nth_error (g_fut s') chain = Some None).
        { destruct (Hkeep chain ltac:(lia)) as (_ & _ & ->). rewrite nth_error_app2, Hfut, Nat.sub_diag by lia. reflexivity. }
        rewrite Hprh, Hdwh. cbn [length]. split; [lia|]. split; [lia|]. split.
        -- intros Hall. exfalso. apply (Hall chain ltac:(lia)). exact Hn0.
        -- intros [|m] Hm Hall i Hi; [lia|]. exfalso. apply (Hall chain ltac:(lia)). exact Hn0.
Qed.

Lemma de_issue_spec : forall (bd : build) g n N0 k chain (s : gstate) t t' r,
  (N.of_nat (g * n + n) < two64)%N -> chain + k = n ->
  length (g_next s) = n -> length (g_ll s) = n -> length (g_fut s) = Nat.min n (N0 - g * n) ->
  de_issue (X := X) (D := D) E bd (N.of_nat g) (N.of_nat n) (N.of_nat N0) k chain s t = (t', r) ->
  exists d, t' = t ++ d /\ flush_free d /\ okres r /\ props_from E t d = [] /\ evals_from E t d = [] /\ cross_from E t d = [] /\ draws_from E t d = [] /\
  let j := Nat.min k (N0 - (g * n + chain)) in
  length (issued d) <= j /\
  (r = RVal tt -> length (issued d) = j) /\ (forall i, i < length (issued d) -> exists acc x l,
     nth_error (g_fut s) (chain + i) = Some (Some acc) /\ nth_error (g_next s) (chain + i) = Some x /\
     nth_error (g_ll s) (chain + i) = Some l /\ nth_error (issued d) i = Some (x, de_aux l (negb acc) (chain + i))).
Proof.
  intros bd g n N0 k. induction k as [|k IH]; intros chain s t t' r H64 Hck Hnx Hll Hfut H; cbn [de_issue] in H.
  - inversion H; subst t' r. exists []. rewrite app_nil_r. split; [reflexivity|]. split; [constructor|]. split; [left; eauto|].
    repeat split; cbn; auto; try lia.
  - rewrite wrap64_small in H by lia.
    destruct (N.leb_spec (N.of_nat N0) (N.of_nat g * N.of_nat n + N.of_nat chain)) as [Hge|Hlt].
    { inversion H; subst t' r. exists []. rewrite app_nil_r. split; [reflexivity|]. split; [constructor|]. split; [left; eauto|].
      replace (N0 - (g * n + chain)) with 0 by lia. rewrite Nat.min_0_r. repeat split; cbn; auto; try lia. }
    destruct (nth_some _ (g_fut s) chain ltac:(lia)) as (f & Hf). rewrite Hf in H.
    destruct f as [acc|].
    2:{ inversion H; subst t' r. exists []. rewrite app_nil_r. split; [reflexivity|]. split; [constructor|]. split; [right; reflexivity|].
        repeat split; cbn; auto; try lia; discriminate. }
    destruct (nth_some _ (g_next s) chain ltac:(lia)) as (x & Hx).
    destruct (nth_some _ (g_ll s) chain ltac:(lia)) as (l & Hl).
    unfold mbind at 1 in H. rewrite (at_val _ _ _ _ x) in H by (now rewrite Nnat.Nat2N.id).
    unfold mbind at 1 in H. rewrite (at_val _ _ _ _ l) in H by (now rewrite Nnat.Nat2N.id).
    unfold mbind, issue_sample, call in H.
    change [(ll_key, PDouble l); (rep_key, PBool (negb acc)); (chain_key, PUInt chain)] with (de_aux l (negb acc) chain) in H.
    set (j' := Nat.min k (N0 - (g * n + S chain))) in *.
    assert (Hj : Nat.min (S k) (N0 - (g * n + chain)) = S j') by (unfold j'; lia). cbv zeta. rewrite Hj.
    destruct (e_issue E t x _).
    + inversion H; subst t' r. eexists. split; [reflexivity|]. split; [repeat constructor; discriminate|]. split; [right; reflexivity|].
      repeat split; try (cbn; lia); [discriminate|].
      intros [|i] Hi; [|cbn in Hi; lia]. exists acc, x, l. rewrite Nat.add_0_r. repeat split; auto.
    + apply IH in H; [|exact H64|lia|exact Hnx|exact Hll|exact Hfut]. destruct H as (d & -> & Hff & Hok & P1 & P2 & P3 & P4 & Hle & HL & HI). fold j' in Hle, HL.
      exists ([EIssue x (de_aux l (negb acc) chain)] ++ d). rewrite app_assoc. split; [reflexivity|].
      split; [apply Forall_app; split; [repeat constructor; discriminate|exact Hff]|]. split; [exact Hok|].
      unfold props_from, evals_from, cross_from, draws_from in *. rewrite !collect_app, P1, P2, P3, P4. repeat split; try reflexivity.
      * rewrite issued_app. cbn. lia.
      * rewrite issued_app. intros Hr. rewrite app_length, (HL Hr). reflexivity.
      * rewrite issued_app. intros [|i] Hi.
        -- exists acc, x, l. rewrite Nat.add_0_r. repeat split; auto.
        -- cbn in Hi. destruct (HI i ltac:(lia)) as (acc' & x' & l' & ? & ? & ? & Hq). exists acc', x', l'.
           replace (chain + S i) with (S chain + i) by lia. repeat split; auto.
Qed.

(** ** All generations *)
Lemma nth_error_firstn : forall T (l : list T) i k, i < k -> nth_error (firstn k l) i = nth_error l i.
Proof. intros T l. induction l as [|x l IH]; intros i [|k] H; try lia; destruct i; cbn; try reflexivity. apply IH. lia. Qed.
Lemma nth_error_combine : forall A B (l : list A) (l' : list B) i a v,
  nth_error l i = Some a -> nth_error l' i = Some v -> nth_error (combine l l') i = Some (a, v).
Proof. intros A B l. induction l as [|x l IH]; intros [|y l'] [|i] a v H1 H2; cbn in *; try discriminate; [congruence|]. now apply IH. Qed.
Lemma list_build : forall T (P : nat -> T -> Prop) j, (forall i, i < j -> exists x, P i x) ->
  exists l, length l = j /\ forall i x, nth_error l i = Some x -> P i x.
Proof.
  intros T P j. induction j as [|j IH]; intros H.
  - exists []. split; [reflexivity|]. intros [|i] x Hx; discriminate.
  - destruct IH as (l & Hl & Hp); [intros; apply H; lia|]. destruct (H j ltac:(lia)) as (x & Hx).
    exists (l ++ [x]). split; [rewrite app_length; cbn; lia|]. intros i z Hz.
    destruct (Nat.lt_ge_cases i (length l)) as [Hi|Hi].
    + rewrite nth_error_app1 in Hz by exact Hi. auto.
    + rewrite nth_error_app2 in Hz by exact Hi. destruct (i - length l) as [|m] eqn:Hm; [|destruct m; discriminate].
      cbn in Hz. inversion Hz; subst z. replace i with j by lia. exact Hx.
Qed.

Lemma div_mod_unique' : forall n g c, c < n -> (g * n + c) / n = g /\ (g * n + c) mod n = c.
Proof.
  intros n g c Hc. split; symmetry.
  - apply Nat.div_unique with c; [exact Hc|lia].
  - apply Nat.mod_unique with g; [exact Hc|lia].
Qed.


Lemma nth_app_some : forall T (l l' : list T) i x, nth_error l i = Some x -> nth_error (l ++ l') i = Some x.
Proof. intros T l l' i x H. rewrite nth_error_app1; [exact H|]. apply nth_error_Some. congruence. Qed.
Lemma elem_mono : forall gap n pr ev dw cr hist k z (a : paux D) pr' ev' dw' cr' hist',
  de_elem_ok (X := X) de_test gap n pr ev dw cr hist k z a ->
  de_elem_ok de_test gap n (pr ++ pr') (ev ++ ev') (dw ++ dw') (cr ++ cr') (hist ++ hist') k z a.
Proof.
  intros gap n pr ev dw cr hist k z a pr' ev' dw' cr' hist' (from & y & q & ly & u & prev & new & H1 & H2 & H3 & H4 & H5 & H6 & H7 & H8 & H9 & H10).
  exists from, y, q, ly, u, prev, new. repeat split; auto using nth_app_some.
  intros Hd. destruct (H10 Hd) as (c1 & c2 & s1 & s2 & ? & ? & ? & ? & ? & ? & ?). exists c1, c2, s1, s2.
  repeat split; auto using nth_app_some. apply in_or_app. now left.
Qed.

(** what is known before generation [g]: [inits ++ states] contains all states so far, the last n of them are current *)
Definition loop_inv (gap n g : nat) (current : list X) (lls : list D) inits states pr ev dw cr out : Prop :=
  length inits = n /\ length states = g * n /\ length current = n /\ length lls = n /\
  length pr = g * n /\ length ev = g * n /\ length dw = g * n /\ length out = g * n /\
  (forall c, c < n -> exists x l, nth_error current c = Some x /\ nth_error lls c = Some l /\
                                 nth_error (inits ++ states) (g * n + c) = Some (x, l)) /\
  (forall k z a, nth_error out k = Some (z, a) -> de_elem_ok de_test gap n pr ev dw cr (inits ++ states) k z a).

(** one more (part of a) generation *)
Lemma extend : forall gap n g current lls inits states pr ev dw cr out prd evd dwd crd iss s' m,
  loop_inv gap n g current lls inits states pr ev dw cr out ->
  length (g_next s') = n -> length (g_ll s') = n ->
  m <= n -> length iss = m ->
  (forall i, i < m -> step_ok gap g n current lls crd prd evd dwd s' i i) ->
  (forall i, i < m -> exists acc x l, nth_error (g_fut s') i = Some (Some acc) /\ nth_error (g_next s') i = Some x /\
     nth_error (g_ll s') i = Some l /\ nth_error iss i = Some (x, de_aux l (negb acc) i)) ->
  let states' := states ++ firstn m (combine (g_next s') (g_ll s')) in
  length states' = g * n + m /\
  (forall k z a, nth_error (out ++ iss) k = Some (z, a) ->
     de_elem_ok de_test gap n (pr ++ map fyq prd) (ev ++ evd) (dw ++ dwd) (cr ++ crd) (inits ++ states') k z a).
Proof.
  intros gap n g current lls inits states pr ev dw cr out prd evd dwd crd iss s' m
    (Li & Ls & Lc & Ll & Lp & Le & Ld & Lo & Hcur & Hold) Hnx Hll Hm Liss Hstep Hiss states'.
  assert (Lst : length states' = g * n + m).
  { unfold states'. rewrite app_length, firstn_length, combine_length. lia. }
  split; [exact Lst|].
  intros k z a Hk. destruct (Nat.lt_ge_cases k (g * n)) as [Hlt|Hge].
  { rewrite nth_error_app1 in Hk by lia. unfold states'. rewrite app_assoc. apply elem_mono. auto. }
  rewrite nth_error_app2, Lo in Hk by lia.
  set (i := k - g * n) in *. assert (Hki : k = g * n + i) by lia.
  assert (Hi : i < m) by (rewrite <- Liss; apply nth_error_Some; congruence).
  destruct (Hiss i Hi) as (acc & x & l & F1 & F2 & F3 & F4).
  destruct (Hstep i Hi) as (from & y & q & ly & rep & curx & curl & u & S1 & S2 & Su & Sr & S3 & S4 & S5 & S6 & S7 & S8 & S9).
  assert (acc = negb rep) by congruence. subst acc. rewrite negb_involutive in F4.
  rewrite F4 in Hk. inversion Hk; subst z a. clear Hk.
  destruct (div_mod_unique' n g i ltac:(lia)) as [Hdiv Hmod]. rewrite <- Hki in Hdiv, Hmod.
  assert (Hhist : forall c x0, nth_error current c = Some x0 -> exists l0, nth_error lls c = Some l0 /\
     nth_error (inits ++ states') (g * n + c) = Some (x0, l0)).
  { intros c x0 Hx0. assert (c < n) by (rewrite <- Lc; apply nth_error_Some; congruence).
    destruct (Hcur c H) as (x1 & l1 & C1 & C2 & C3). exists l1. split; [exact C2|]. replace x0 with x1 by congruence.
    unfold states'. rewrite app_assoc. now apply nth_app_some. }
  destruct (Hhist i curx S3) as (l0 & Hl0 & Hprev). rewrite S4 in Hl0. inversion Hl0; subst l0.
  exists from, y, q, ly, u, (curx, curl), (x, l). cbn [snd].
  rewrite !nth_error_app2 by lia. rewrite Lp, Le, Ld. fold i. rewrite Hdiv, Hmod.
  split; [rewrite nth_error_map, S1; reflexivity|]. split; [exact S2|]. split; [exact Su|]. split; [rewrite Hki; exact Hprev|].
  split.
  { unfold states'. rewrite nth_error_app2 by lia. rewrite nth_error_app2 by lia.
    replace (n + k - length inits - length states) with i by lia.
    rewrite nth_error_firstn by exact Hi. now apply nth_error_combine. }
  split; [rewrite S6 in F2; rewrite S7 in F3; destruct (de_test ly curl q u); subst rep; cbn [negb] in *; congruence|].
  split; [reflexivity|]. split; [now rewrite <- Sr|].
  split; [exact S8|].
  intros Hd. destruct (S9 Hd) as (c1 & c2 & x1 & x2 & ? & ? & ? & ? & Hx1 & Hx2 & ?).
  destruct (Hhist c1 x1 Hx1) as (l1 & _ & HH1). destruct (Hhist c2 x2 Hx2) as (l2 & _ & HH2).
  exists c1, c2, (x1, l1), (x2, l2). repeat split; auto. apply in_or_app. now right.
Qed.

Lemma de_loop_spec : forall (bd : build) gap n N0, 3 <= n -> (N.of_nat (N0 + n) < two64)%N ->
  forall fuel g (current : list X) (lls : list D) inits states pr ev dw cr out t t' r,
  g * n < N0 + n ->
  loop_inv gap n g current lls inits states pr ev dw cr out ->
  de_loop O E bd fuel (N.of_nat gap) (N.of_nat n) (N.of_nat N0) (N.of_nat g) current current lls t = (t', r) ->
  exists d, t' = t ++ d /\ flush_free d /\ (okres r \/ r = RLoop) /\
   (N0 - g * n < fuel -> r <> RLoop) /\
   (g * n <= N0 -> length out + length (issued d) <= N0) /\
   is_de_run de_test gap inits (pr ++ map fyq (props_from E t d)) (ev ++ evals_from E t d) (dw ++ draws_from E t d) (cr ++ cross_from E t d) (out ++ issued d) /\
   (r = RVal tt -> g * n <= N0 ->
     length out + length (issued d) = N0 /\
     length (pr ++ map fyq (props_from E t d)) = N0 /\ length (ev ++ evals_from E t d) = N0).
Proof.
  intros bd gap n N0 Hn H64 fuel. induction fuel as [|fuel IH]; intros g current lls inits states pr ev dw cr out t t' r Hg Hinv H;
    assert (Hrefl : is_de_run de_test gap inits (pr ++ []) (ev ++ []) (dw ++ []) (cr ++ []) (out ++ []))
      by (destruct Hinv as (Li & Ls & Lc & Ll & Lp & Le & Ld & Lo & Hcur & Hold); exists states; rewrite !app_nil_r; split;
          [congruence|]; rewrite Li; exact Hold);
    cbn [de_loop] in H.
  - inversion H; subst t' r. exists []. rewrite app_nil_r. split; [reflexivity|]. split; [constructor|]. split; [now right|].
    split; [lia|]. cbn [length]. destruct Hinv as (Li & Ls & Lc & Ll & Lp & Le & Ld & Lo & Hcur & Hold).
    split; [cbn; lia|]. split; [exact Hrefl|discriminate].
  - rewrite <- Nnat.Nat2N.inj_mul in H. rewrite wrap64_small in H by lia.
    pose proof Hinv as Hinv'. destruct Hinv' as (Li & Ls & Lc & Ll & Lp & Le & Ld & Lo & Hcur & Hold).
    destruct (N.ltb_spec (N.of_nat (g * n)) (N.of_nat N0)) as [Hlt|Hge].
    2:{ inversion H; subst t' r. exists []. rewrite app_nil_r. split; [reflexivity|]. split; [constructor|]. split; [left; left; eauto|].
        split; [discriminate|]. split; [cbn; lia|]. split; [exact Hrefl|]. intros _ Hle. cbn. rewrite !app_length. cbn. lia. }
    unfold mbind at 1 in H. rewrite Nnat.Nat2N.id in H.
    destruct (de_launch _ _ _ _ _ _ _ _ _ _ _) as [t1 r1] eqn:Hla.
    apply de_launch_spec in Hla; [|exact Lc|exact Hn|lia|reflexivity|exact Lc|exact Ll|reflexivity].
    destruct Hla as (d1 & -> & Hf1 & Hi1 & Hok1 & Hv1). rewrite Nat.add_0_r in Hv1. cbv zeta in Hv1.
    set (j := Nat.min n (N0 - g * n)) in *.
    destruct Hok1 as [[s ->]| ->].
    2:{ inversion H; subst t' r. exists d1. split; [reflexivity|]. split; [exact Hf1|]. split; [left; right; reflexivity|].
        split; [discriminate|]. split; [rewrite Hi1; cbn; lia|]. split; [|discriminate].
        rewrite Hi1. exists states. split; [rewrite app_nil_r; congruence|]. rewrite app_nil_r, Li.
        intros k z a Hk. rewrite <- (app_nil_r (inits ++ states)). apply elem_mono. auto. }
    destruct (Hv1 s eq_refl) as (Hl1 & Hl2 & Hl3 & _ & Hpl & Hdl & Hel & Hst). clear Hv1. cbn [g_ll] in Hst.
    unfold mbind at 1 in H.
    destruct (de_issue _ _ _ _ _ _ _ _ _) as [t2 r2] eqn:His.
    apply de_issue_spec in His; [|lia|reflexivity|exact Hl1|exact Hl2|exact Hl3].
    destruct His as (d2 & -> & Hf2 & Hok2 & P1 & P2 & P3 & P4 & Hle2 & HL & HI). rewrite Nat.add_0_r in *. fold j in Hle2, HL.
    cbn [plus] in HI.
    assert (Hfut : forall c, 0 <= c < 0 + length (issued d2) -> nth_error (g_fut s) c <> Some None).
    { intros c Hc. destruct (HI c ltac:(lia)) as (acc & x & l & Hq & _). congruence. }
    pose proof (Hst (length (issued d2)) Hle2 Hfut) as Hstep. cbn [plus] in Hstep.
    destruct (extend gap n g current lls inits states pr ev dw cr out (props_from E t d1) (evals_from E t d1) (draws_from E t d1) (cross_from E t d1)
      (issued d2) s (length (issued d2)) Hinv Hl1 Hl2 ltac:(lia) eq_refl Hstep HI) as [Hls' Hnew].
    assert (Hpr12 : props_from E t (d1 ++ d2) = props_from E t d1).
    { unfold props_from in *. rewrite collect_app, P1. apply app_nil_r. }
    assert (Hev12 : evals_from E t (d1 ++ d2) = evals_from E t d1).
    { unfold evals_from in *. rewrite collect_app, P2. apply app_nil_r. }
    assert (Hcr12 : cross_from E t (d1 ++ d2) = cross_from E t d1).
    { unfold cross_from in *. rewrite collect_app, P3. apply app_nil_r. }
    assert (Hdw12 : draws_from E t (d1 ++ d2) = draws_from E t d1).
    { unfold draws_from in *. rewrite collect_app, P4. apply app_nil_r. }
    assert (Hff : flush_free (d1 ++ d2)) by (apply Forall_app; split; assumption).
    assert (Hrun : is_de_run de_test gap inits (pr ++ map fyq (props_from E t (d1 ++ d2))) (ev ++ evals_from E t (d1 ++ d2))
                     (dw ++ draws_from E t (d1 ++ d2)) (cr ++ cross_from E t (d1 ++ d2)) (out ++ issued (d1 ++ d2))).
    { rewrite Hpr12, Hev12, Hcr12, Hdw12, issued_app, Hi1. cbn [app]. eexists. split; [|rewrite Li; exact Hnew].
      rewrite Hls', app_length. lia. }
    rewrite <- app_assoc in H.
    destruct Hok2 as [[[] ->]| ->].
    2:{ inversion H; subst t' r. exists (d1 ++ d2). split; [reflexivity|]. split; [exact Hff|]. split; [left; right; reflexivity|].
        split; [discriminate|]. split; [rewrite issued_app, Hi1; cbn; lia|]. split; [exact Hrun|discriminate]. }
    specialize (HL eq_refl). rewrite HL in *.
    assert (Hevl : length (evals_from E t d1) = j) by (apply Hel; exact Hfut).
    replace (wrap64 (N.of_nat g + 1)) with (N.of_nat (S g)) in H by (rewrite wrap64_small by nia; lia).
    destruct (Nat.eq_dec j n) as [Hjn|Hjn].
    + apply (IH (S g) _ _ inits (states ++ firstn j (combine (g_next s) (g_ll s))) (pr ++ map fyq (props_from E t d1)) (ev ++ evals_from E t d1)
          (dw ++ draws_from E t d1) (cr ++ cross_from E t d1) (out ++ issued d2)) in H; [|lia|].
      2:{ repeat split; auto; rewrite ?app_length, ?map_length; try lia.
          - rewrite app_length in Hls'. lia.
          - intros c Hc. destruct (nth_some _ (g_next s) c ltac:(lia)) as (x & Hx). destruct (nth_some _ (g_ll s) c ltac:(lia)) as (l & Hl).
            exists x, l. split; [exact Hx|]. split; [exact Hl|]. rewrite nth_error_app2 by lia. rewrite nth_error_app2 by lia.
            replace (S g * n + c - length inits - length states) with c by lia.
            rewrite nth_error_firstn by lia. now apply nth_error_combine. }
      destruct H as (d & -> & Hffd & Hok & Hloop & Hle & Hrun' & Hval).
      exists ((d1 ++ d2) ++ d). split; [now rewrite !app_assoc|]. split; [apply Forall_app; now split|].
      split; [exact Hok|]. split; [intros; apply Hloop; lia|].
      rewrite issued_app, issued_app, Hi1. cbn [app].
      assert (Hpra : props_from E t ((d1 ++ d2) ++ d) = props_from E t d1 ++ props_from E (t ++ d1 ++ d2) d).
      { rewrite <- Hpr12. unfold props_from. rewrite collect_app. reflexivity. }
      assert (Heva : evals_from E t ((d1 ++ d2) ++ d) = evals_from E t d1 ++ evals_from E (t ++ d1 ++ d2) d).
      { rewrite <- Hev12. unfold evals_from. rewrite collect_app. reflexivity. }
      assert (Hcra : cross_from E t ((d1 ++ d2) ++ d) = cross_from E t d1 ++ cross_from E (t ++ d1 ++ d2) d).
      { rewrite <- Hcr12. unfold cross_from. rewrite collect_app. reflexivity. }
      assert (Hdwa : draws_from E t ((d1 ++ d2) ++ d) = draws_from E t d1 ++ draws_from E (t ++ d1 ++ d2) d).
      { rewrite <- Hdw12. unfold draws_from. rewrite collect_app. reflexivity. }
      set (t12 := t ++ d1 ++ d2) in *. rewrite Hpra, Heva, Hcra, Hdwa, map_app, !app_assoc.
      split.
      { intros _. assert (S g * n <= N0) by lia. specialize (Hle H). rewrite !app_length in *. lia. }
      split; [exact Hrun'|].
      intros Hr _. assert (S g * n <= N0) by lia. specialize (Hval Hr H). rewrite !app_length in *. lia.
    + assert (Hend : N0 <= S g * n) by lia.
      destruct fuel as [|fuel].
      * cbn [de_loop] in H. inversion H; subst t' r. exists (d1 ++ d2). split; [reflexivity|]. split; [exact Hff|]. split; [right; reflexivity|].
        split; [lia|]. split; [rewrite issued_app, Hi1; cbn; lia|]. split; [exact Hrun|discriminate].
      * cbn [de_loop] in H. rewrite <- Nnat.Nat2N.inj_mul in H. rewrite wrap64_small in H by lia.
        destruct (N.ltb_spec (N.of_nat (S g * n)) (N.of_nat N0)) as [Hlt'|_]; [lia|].
        inversion H; subst t' r. exists (d1 ++ d2). split; [reflexivity|]. split; [exact Hff|]. split; [left; left; eauto|].
        split; [discriminate|]. split; [rewrite issued_app, Hi1; cbn; lia|]. split; [exact Hrun|].
        intros _ _. rewrite Hpr12, Hev12, issued_app, Hi1, !app_length, map_length. cbn. lia.
Qed.
End P.

Section Q.
Context {X D : Type}.
Variable (O : dops D).
Variable (E : env X D).
Implicit Types (t d : trace X D).

Lemma de_init_spec : forall (xs : list X) t t' r, de_init E xs t = (t', r) ->
  exists d, t' = t ++ d /\ flush_free d /\ issued d = [] /\ props_from E t d = [] /\ cross_from E t d = [] /\ draws_from E t d = [] /\ okres r /\
  (forall ls, r = RVal ls -> evals_from E t d = combine xs ls /\ length ls = length xs).
Proof.
  intros xs. induction xs as [|x xs IH]; intros t t' r H; cbn [de_init] in H.
  - inversion H; subst t' r. exists []. rewrite app_nil_r. split; [reflexivity|]. split; [constructor|].
    repeat split; [left; eauto|inversion H0; reflexivity].
  - unfold mbind at 1 in H. unfold log_likelihood, call in H.
    destruct (e_ll E t x) as [l|] eqn:Hl.
    2:{ inversion H; subst t' r. exists [EEval x]. split; [reflexivity|]. split; [repeat constructor; discriminate|].
        repeat split; [right; reflexivity|discriminate|discriminate]. }
    unfold mbind at 1 in H. destruct (de_init E xs (t ++ [EEval x])) as [t1 r1] eqn:Hi.
    apply IH in Hi. destruct Hi as (d & -> & Hff & His & Hp & Hc & Hw & Hok & Hval).
    assert (Hgen : (t ++ [EEval x]) ++ d = t ++ [EEval x] ++ d) by (now rewrite <- app_assoc). rewrite Hgen in H.
    assert (Hc1 : flush_free ([EEval x] ++ d) /\ issued ([EEval x] ++ d) = [] /\ props_from E t ([EEval x] ++ d) = [] /\ cross_from E t ([EEval x] ++ d) = [] /\ draws_from E t ([EEval x] ++ d) = []
                 /\ evals_from E t ([EEval x] ++ d) = (x, l) :: evals_from E (t ++ [EEval x]) d).
    { split; [constructor; [discriminate|exact Hff]|]. split; [rewrite issued_app, His; reflexivity|].
      unfold props_from, cross_from, evals_from, draws_from in *. rewrite !collect_app, Hp, Hc, Hw. cbn. rewrite Hl. auto. }
    destruct Hc1 as (C1 & C2 & C3 & C4 & C6 & C5).
    destruct Hok as [[ls ->]| ->]; inversion H; subst t' r; exists ([EEval x] ++ d);
      (split; [reflexivity|split; [exact C1|split; [exact C2|split; [exact C3|split; [exact C4|split; [exact C6|]]]]]]).
    + split; [left; eauto|]. intros ls' Hls. inversion Hls; subst ls'. destruct (Hval ls eq_refl) as [H1 H2]. rewrite C5, H1. cbn. auto.
    + split; [right; reflexivity|discriminate].
Qed.

(** what a run which gets past the assertion looks like: everything, then one flush *)
Lemma de_sample_run : forall (bd : build) fuel (xs : list X) gap N0 t r,
  (forall b hi, (e_uint E b hi <= hi)%N) ->
  3 <= length xs -> (N.of_nat (N0 + length xs) < two64)%N -> N0 < fuel ->
  de_sample O E bd fuel xs (N.of_nat gap) (N.of_nat N0) [] = (t, r) ->
  exists d, t = d ++ [EFlush] /\ flush_free d /\ (r = RVal tt \/ r = RExc \/ r = RTerm) /\
   (r = RTerm -> e_flush E d = true) /\
   length (issued d) <= N0 /\
   (r = RVal tt -> length (issued d) = N0 /\ length (props_from E [] d) = N0) /\
   (issued d = [] \/
    exists inits ev, map fst inits = xs /\ evals_from E [] d = inits ++ ev /\
     is_de_run (de_test O) gap inits (map fyq (props_from E [] d)) ev (draws_from E [] d) (cross_from E [] d) (issued d)).
Proof.
  intros bd fuel xs gap N0 t r Hu Hn H64 Hfuel H. unfold de_sample in H.
  replace (match bd with Debug => negb (3 <=? N.of_nat (length xs))%N | Release => false end) with false in H.
  2:{ destruct bd; [|reflexivity]. destruct (N.leb_spec 3 (N.of_nat (length xs))); [reflexivity|lia]. }
  unfold with_scope_exit in H. destruct (mbind _ _ _) as [t1 r1] eqn:Hb. unfold mbind in Hb.
  assert (Hbody : exists d, t1 = d /\ flush_free d /\ okres r1 /\ length (issued d) <= N0 /\
     (r1 = RVal tt -> length (issued d) = N0 /\ length (props_from E [] d) = N0) /\
     (issued d = [] \/
      exists inits ev, map fst inits = xs /\ evals_from E [] d = inits ++ ev /\
      is_de_run (de_test O) gap inits (map fyq (props_from E [] d)) ev (draws_from E [] d) (cross_from E [] d) (issued d))).
  { destruct (de_init E xs []) as [t0 r0] eqn:Hi. apply de_init_spec in Hi.
    destruct Hi as (d0 & -> & Hf0 & Hi0 & Hp0 & Hc0 & Hw0 & Hok0 & Hval0). cbn [app] in *.
    destruct Hok0 as [[lls ->]| ->].
    2:{ inversion Hb; subst t1 r1. exists d0. repeat split; auto; [right; reflexivity|rewrite Hi0; cbn; lia|discriminate|discriminate]. }
    destruct (Hval0 lls eq_refl) as [Hev0 Hlls]. change 0%N with (N.of_nat 0) in Hb.
    apply (de_loop_spec O E Hu bd gap (length xs) N0 Hn H64 fuel 0 xs lls (combine xs lls) [] [] [] [] [] []) in Hb; [|lia|].
    2:{ repeat split; cbn; auto.
        - rewrite combine_length. lia.
        - intros c Hc. destruct (nth_some _ xs c Hc) as (x & Hx). destruct (nth_some _ lls c ltac:(lia)) as (l & Hl).
          exists x, l. rewrite app_nil_r. repeat split; auto. now apply nth_error_combine.
        - intros [|k] z a Hk; discriminate. }
    destruct Hb as (d & -> & Hff & Hok & Hloop & Hle & Hrun & Hval). cbn [app length plus Nat.mul] in *.
    assert (Hok' : okres r1) by (destruct Hok as [Hok|Hok]; [exact Hok|exfalso; apply Hloop; [lia|exact Hok]]).
    exists (d0 ++ d). rewrite !issued_app, Hi0. cbn [app].
    assert (Hpa : props_from E [] (d0 ++ d) = props_from E d0 d).
    { unfold props_from in *. rewrite collect_app, Hp0. reflexivity. }
    assert (Hea : evals_from E [] (d0 ++ d) = combine xs lls ++ evals_from E d0 d).
    { unfold evals_from in *. rewrite collect_app, Hev0. reflexivity. }
    assert (Hca : cross_from E [] (d0 ++ d) = cross_from E d0 d).
    { unfold cross_from in *. rewrite collect_app, Hc0. reflexivity. }
    assert (Hwa : draws_from E [] (d0 ++ d) = draws_from E d0 d).
    { unfold draws_from in *. rewrite collect_app, Hw0. reflexivity. }
    rewrite Hpa, Hea, Hca, Hwa. split; [reflexivity|]. split; [apply Forall_app; now split|]. split; [exact Hok'|].
    split; [apply Hle; lia|]. split; [intros Hr; destruct (Hval Hr ltac:(lia)) as (V1 & V2 & V3); rewrite map_length in V2; split; assumption|].
    right. exists (combine xs lls), (evals_from E d0 d). split; [|split; [reflexivity|exact Hrun]].
    clear -Hlls. revert lls Hlls. induction xs as [|x xs IH]; intros [|l lls] H; cbn in *; try discriminate; [reflexivity|].
    f_equal. apply IH. lia. }
  destruct Hbody as (d & -> & Hff & Hok & Hle & Hval & Hrun).
  unfold flush_consumers, call in H.
  exists d. destruct Hok as [[[] ->]| ->]; cbn in H; destruct (e_flush E d) eqn:Hfl; inversion H; subst t r; repeat split; auto;
    try discriminate; try (intros; destruct Hval; auto; fail).
Qed.
End Q.
