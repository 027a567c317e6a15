(** Proofs about DelayedRejectionMetropolisHastings. *)
From Coq Require Import String.
From Verif Require Import Prelude ProducerModel ProducerSpec ProducerProofs.
Local Open Scope string_scope.
Local Open Scope list_scope.
Local Notation length := List.length.

Section P.
Context {X D : Type}.
Implicit Types (E : env X D) (O : dops D) (t d b : trace X D).

Lemma dr_accept_spec : forall O E a t t' r,
  dr_accept O E a t = (t', r) ->
  exists d (acc : bool), t' = t ++ d /\ r = RVal acc /\ (d = [] \/ d = [EUnif]).
Proof.
  intros O E a t t' r. unfold dr_accept, mbind, uniform, call, ret. destruct (d_gt O a (d_one O)); intros H; inversion H; subst.
  - exists [], true. rewrite app_nil_r. auto.
  - eexists [EUnif], _. auto.
Qed.

Definition okres3 {A} (r : res A) : Prop := (exists a, r = RVal a) \/ r = RExc \/ r = RUB.
Definition p3 (p : X * list X * (X * D)) : X * list X * X := (fst p, fst (snd p)).

(** the delayed rejection loop, started with [proposed] already rejected *)
Lemma dr_stages_spec : forall O E strict stages cur proposed t t' r,
  dr_stages O E strict stages cur proposed t = (t', r) ->
  exists d, t' = t ++ d /\ flush_free d /\ issued d = [] /\ okres3 r /\
   length (props_from E t d) <= stages /\
   (forall i p, nth_error (props_from E t d) i = Some p ->
      fst (fst p) = fst cur /\ snd (fst p) = map fst proposed ++ map (fun q => fst (snd q)) (firstn i (props_from E t d))) /\
   (forall o, r = RVal o ->
      map (fun q => fst (snd q)) (props_from E t d) = map fst (evals_from E t d) /\
      match o with
      | None => length (props_from E t d) = stages
      | Some y => exists ev, evals_from E t d = ev ++ [y]
      end).
Proof.
  intros O E strict stages. induction stages as [|stages IH]; intros cur proposed t t' r H; cbn [dr_stages] in H.
  - inversion H; subst. exists []. rewrite app_nil_r.
    split; [reflexivity|]. split; [constructor|]. split; [reflexivity|]. split; [left; eauto|]. split; [cbn; lia|]. split.
    + intros [|i] p Hp; discriminate.
    + intros o Ho. inversion Ho; subst. cbn. auto.
  - unfold mbind at 1 in H. unfold propose_sample, call in H.
    destruct (e_prop E t (fst cur) (map fst proposed)) as [[y q]|] eqn:Hp.
    2:{ inversion H; subst. exists [EPropose (fst cur) (map fst proposed)].
        split; [reflexivity|]. split; [repeat constructor; discriminate|]. split; [reflexivity|]. split; [right; left; reflexivity|].
        cbn. rewrite Hp. cbn. split; [lia|]. split; [intros [|i] p Hq; discriminate|discriminate]. }
    unfold mbind at 1 in H. unfold log_likelihood, call in H.
    set (e1 := EPropose (fst cur) (map fst proposed)) in *.
    destruct (e_ll E (t ++ [e1]) y) as [ly|] eqn:Hl.
    2:{ inversion H; subst. exists [e1; EEval y]. rewrite <- app_assoc.
        split; [reflexivity|]. split; [repeat constructor; discriminate|]. split; [reflexivity|]. split; [right; left; reflexivity|].
        cbn. rewrite Hp. cbn. split; [lia|]. split; [|discriminate].
        intros [|[|i]] p Hq; try discriminate. inversion Hq; subst. cbn. now rewrite app_nil_r. }
    assert (Hpr1 : forall d2, props_from E t ([e1; EEval y] ++ d2) = (fst cur, map fst proposed, (y, q)) :: props_from E (t ++ [e1; EEval y]) d2).
    { intros d2. unfold props_from at 1. rewrite collect_app. unfold e1 at 1. cbn [collect app]. rewrite Hp. reflexivity. }
    assert (Hev1 : forall d2, evals_from E t ([e1; EEval y] ++ d2) = (y, ly) :: evals_from E (t ++ [e1; EEval y]) d2).
    { intros d2. unfold evals_from at 1. rewrite collect_app. unfold e1 at 1. cbn [collect app]. fold e1; rewrite Hl. reflexivity. }
    assert (Hone : forall p i, nth_error [(fst cur, map fst proposed, (y, q))] i = Some p ->
       fst (fst p) = fst cur /\ snd (fst p) = map fst proposed ++ map (fun q => fst (snd q)) (firstn i [(fst cur, map fst proposed, (y, q))])).
    { intros p [|[|i]] Hq; try discriminate. inversion Hq; subst. cbn. now rewrite app_nil_r. }
    replace ((t ++ [e1]) ++ [EEval y]) with (t ++ [e1; EEval y]) in H by now rewrite <- app_assoc.
    destruct (alpha_fn O strict _ cur (proposed ++ [(y, ly)])) as [ratio|].
    2:{ cbn in H. inversion H; subst. exists [e1; EEval y].
        split; [reflexivity|]. split; [repeat constructor; discriminate|]. split; [reflexivity|]. split; [right; right; reflexivity|].
        rewrite <- (app_nil_r [e1; EEval y]), Hpr1, Hev1. cbn [props_from collect length].
        split; [lia|]. split; [|discriminate]. intros i p Hq. now apply Hone. }
    unfold mbind at 1 in H.
    destruct (dr_accept O E ratio (t ++ [e1; EEval y])) as [t1 ra] eqn:Ha.
    apply dr_accept_spec in Ha. destruct Ha as (da & acc & -> & -> & Hda).
    set (h := [e1; EEval y] ++ da).
    assert (Hpr : forall d2, props_from E t (h ++ d2) = (fst cur, map fst proposed, (y, q)) :: props_from E (t ++ h) d2).
    { intros d2. unfold h. rewrite <- app_assoc, Hpr1. f_equal. unfold props_from. rewrite collect_app.
      destruct Hda as [->| ->]; cbn [collect app]; rewrite <- ?app_assoc, ?app_nil_r; reflexivity. }
    assert (Hev : forall d2, evals_from E t (h ++ d2) = (y, ly) :: evals_from E (t ++ h) d2).
    { intros d2. unfold h. rewrite <- app_assoc, Hev1. f_equal. unfold evals_from. rewrite collect_app.
      destruct Hda as [->| ->]; cbn [collect app]; rewrite <- ?app_assoc, ?app_nil_r; reflexivity. }
    assert (Hff : flush_free h).
    { unfold h. destruct Hda as [->| ->]; repeat constructor; discriminate. }
    assert (His : issued h = []).
    { unfold h. destruct Hda as [->| ->]; reflexivity. }
    assert (Hth : (t ++ [e1; EEval y]) ++ da = t ++ h) by (unfold h; now rewrite <- app_assoc).
    rewrite Hth in H. destruct acc.
    + inversion H; subst. exists h. split; [reflexivity|]. split; [exact Hff|]. split; [exact His|].
      split; [left; eauto|]. rewrite <- (app_nil_r h), Hpr, Hev. cbn [props_from evals_from collect length].
      split; [lia|]. split; [intros i p Hq; now apply Hone|].
      intros o Ho. inversion Ho; subst. cbn. split; [reflexivity|]. now exists [].
    + apply IH in H. destruct H as (d & -> & Hf & Hi & Hok & Hle & Hall & Hend).
      exists (h ++ d). rewrite app_assoc. split; [reflexivity|]. split; [now apply Forall_app|].
      split; [now rewrite issued_app, His, Hi|]. split; [exact Hok|]. rewrite Hpr, Hev. cbn [length].
      split; [lia|]. split.
      * intros [|i] p Hq.
        -- apply (Hone p 0). exact Hq.
        -- cbn in Hq. destruct (Hall i p Hq) as [H1 H2]. split; [exact H1|]. rewrite H2, map_app, <- app_assoc. reflexivity.
      * intros o Ho. destruct (Hend o Ho) as [H1 H2]. cbn [map fst snd]. split; [now rewrite H1|].
        destruct o as [yy|]; [|lia]. destruct H2 as (ev & ->). exists ((y, ly) :: ev). reflexivity.
Qed.

Lemma dr_loop_spec : forall O E strict m n cur t t' r,
  dr_loop O E strict m n cur t = (t', r) ->
  exists d, t' = t ++ d /\ flush_free d /\ okres3 r /\ length (issued d) <= n /\
    is_dr_chain m cur (map p3 (props_from E t d)) (evals_from E t d) (issued d) /\
    (r = RVal tt -> length (issued d) = n).
Proof.
  intros O E strict m n. induction n as [|n IH]; intros cur t t' r H; cbn [dr_loop] in H.
  - inversion H; subst. exists []. rewrite app_nil_r. repeat split; auto; [constructor|left; eauto].
  - unfold mbind at 1 in H. destruct (dr_stages O E strict (m + 1) cur [] t) as [t1 r1] eqn:Hs.
    apply dr_stages_spec in Hs. destruct Hs as (d1 & -> & Hff1 & Hi1 & Hok1 & Hle1 & Hall & Hend).
    destruct Hok1 as [[o ->]|[->| ->]].
    2,3: inversion H; subst; exists d1; rewrite Hi1; split; [reflexivity|]; split; [exact Hff1|];
        split; [right; auto|]; split; [cbn; lia|]; split; [exact I|discriminate].
    destruct (Hend o eq_refl) as [Hpe Ho]. clear Hend.
    set (new := match o with Some y => y | None => cur end) in *.
    set (rep := match o with Some _ => false | None => true end) in *.
    assert (Hlen : length (props_from E t d1) = length (evals_from E t d1)).
    { erewrite <- (map_length _ (props_from E t d1)), Hpe, map_length. reflexivity. }
    set (a := [(ll_key, PDouble (snd new)); (rep_key, PBool rep)]) in *.
    set (h := d1 ++ [EIssue (fst new) a]).
    assert (Hh : (t ++ d1) ++ [EIssue (fst new) a] = t ++ h) by (unfold h; now rewrite <- app_assoc).
    assert (Hpr : forall d2, props_from E t (h ++ d2) = props_from E t d1 ++ props_from E (t ++ h) d2).
    { intros d2. unfold h, props_from. rewrite !collect_app. cbn [collect]. now rewrite app_nil_r. }
    assert (Hev : forall d2, evals_from E t (h ++ d2) = evals_from E t d1 ++ evals_from E (t ++ h) d2).
    { intros d2. unfold h, evals_from. rewrite !collect_app. cbn [collect]. now rewrite app_nil_r. }
    assert (His : issued h = [(fst new, a)]) by (unfold h; now rewrite issued_app, Hi1).
    assert (Hff : flush_free h) by (apply Forall_app; split; [exact Hff1|repeat constructor; discriminate]).
    assert (Hch : forall pr ev out, is_dr_chain m new pr ev out ->
       is_dr_chain m cur (map p3 (props_from E t d1) ++ pr) (evals_from E t d1 ++ ev) ((fst new, a) :: out)).
    { intros pr ev out Hc. cbn [is_dr_chain].
      exists (map p3 (props_from E t d1)), pr, (evals_from E t d1), ev. split; [reflexivity|]. split; [reflexivity|].
      split; [|split].
      - split; [rewrite map_map; exact Hpe|]. intros i p Hp. rewrite nth_error_map in Hp.
        destruct (nth_error (props_from E t d1) i) as [p'|] eqn:Hq; [|discriminate]. cbn in Hp. inversion Hp; subst p. cbn.
        destruct (Hall i p' Hq) as [H1 H2]. split; [exact H1|]. rewrite H2. cbn. rewrite firstn_map, map_map. reflexivity.
      - rewrite map_length. split; [|exact Hle1]. destruct o as [yy|].
        + destruct Ho as (ev' & He). rewrite Hlen, He, app_length. cbn. lia.
        + lia.
      - exists rep, new. split; [reflexivity|]. split; [reflexivity|]. split; [|exact Hc]. unfold rep, new.
        destruct o as [yy|]; [|split; [reflexivity|rewrite map_length; exact Ho]].
        destruct Ho as (ev' & ->). rewrite app_length. cbn [length]. rewrite nth_error_app2 by lia.
        replace (length ev' + 1 - 1 - length ev') with 0 by lia. reflexivity. }
    unfold mbind, issue_sample, call in H. rewrite Hh in H.
    destruct (e_issue E (t ++ d1) (fst new) a).
    + inversion H; subst. exists h. split; [reflexivity|]. split; [exact Hff|]. split; [right; auto|].
      specialize (Hpr []). specialize (Hev []). cbn [props_from evals_from collect] in Hpr, Hev. rewrite !app_nil_r in Hpr, Hev.
      rewrite Hpr, Hev, His. split; [cbn; lia|]. split; [|discriminate].
      rewrite <- (app_nil_r (map p3 _)), <- (app_nil_r (evals_from E t d1)). apply Hch. exact I.
    + apply IH in H. destruct H as (d & -> & Hf & Hok & Hle & Hc & Hn).
      exists (h ++ d). rewrite app_assoc. split; [reflexivity|]. split; [now apply Forall_app|]. split; [exact Hok|].
      rewrite Hpr, Hev, issued_app, His, map_app. cbn [app length]. split; [lia|]. split; [apply Hch; exact Hc|].
      intros Hr. now rewrite (Hn Hr).
Qed.

Lemma dr_sample_run : forall O E strict x0 m n t r,
  dr_sample O E strict x0 m n [] = (t, r) ->
  exists d, flush_free d /\
   ((r = RVal tt /\ t = d ++ [EFlush; EFlush] /\ e_flush E d = false) \/
    (r = RExc /\ t = d ++ [EFlush]) \/
    (r = RExc /\ t = d ++ [EFlush; EFlush] /\ e_flush E d = true) \/
    (r = RTerm /\ t = d ++ [EFlush] /\ e_flush E d = true) \/
    (r = RTerm /\ t = d ++ [EFlush; EFlush] /\ e_flush E (d ++ [EFlush]) = true) \/
    (r = RUB /\ t = d)) /\
   ((e_ll E [] x0 = None /\ d = [EEval x0] /\ r <> RVal tt) \/
    exists l d', e_ll E [] x0 = Some l /\ d = EEval x0 :: d' /\
    length (issued d') <= n /\
    is_dr_chain m (x0, l) (map p3 (props_from E [EEval x0] d')) (evals_from E [EEval x0] d') (issued d') /\
    (r = RVal tt -> length (issued d') = n)).
Proof.
  intros O E strict x0 m n t r H. apply scope_exit_inv in H. destruct H as (t1 & r1 & Hb & Hr & Hr').
  unfold mbind at 1 in Hb. unfold log_likelihood, call in Hb. cbn in Hb.
  destruct (e_ll E [] x0) as [l|] eqn:Hl.
  - unfold mbind in Hb. destruct (dr_loop O E strict m n (x0, l) [EEval x0]) as [t2 r2] eqn:Hloop.
    apply dr_loop_spec in Hloop. destruct Hloop as (d & -> & Hff & Hok & Hle & Hc & Hn).
    exists (EEval x0 :: d). split; [constructor; [discriminate|exact Hff]|].
    destruct Hok as [[[] ->]|[->| ->]].
    + unfold flush_consumers, call in Hb. cbn in Hb.
      destruct (e_flush E (EEval x0 :: d)) eqn:Hf1; inversion Hb; subst t1 r1; clear Hb.
      * destruct (Hr (or_intror eq_refl)) as [-> ->]. split.
        -- cbn [app]. rewrite <- app_assoc. cbn.
           destruct (e_flush E (EEval x0 :: d ++ [EFlush])) eqn:Hf2; [do 4 right; left|do 2 right; left]; auto.
        -- right. exists l, d. repeat split; auto.
      * destruct (Hr (or_introl (ex_intro _ tt eq_refl))) as [-> ->]. split.
        -- cbn [app]. rewrite <- app_assoc. cbn.
           destruct (e_flush E (EEval x0 :: d ++ [EFlush])) eqn:Hf2; [do 4 right; left|left]; auto.
        -- right. exists l, d. repeat split; auto.
    + inversion Hb; subst t1 r1; clear Hb. destruct (Hr (or_intror eq_refl)) as [-> ->]. cbn [app].
      split.
      * destruct (e_flush E (EEval x0 :: d)) eqn:Hf2; [do 3 right; left|right; left]; auto.
      * right. exists l, d. repeat split; auto; destruct (e_flush E _); discriminate.
    + inversion Hb; subst t1 r1; clear Hb. destruct (Hr' (or_introl eq_refl)) as [-> ->]. split.
      * do 5 right. auto.
      * right. exists l, d. repeat split; auto; discriminate.
  - inversion Hb; subst t1 r1; clear Hb. destruct (Hr (or_intror eq_refl)) as [-> ->]. exists [EEval x0].
    split; [repeat constructor; discriminate|]. split.
    + destruct (e_flush E [EEval x0]) eqn:Hf2; [do 3 right; left|right; left]; auto.
    + left. repeat split; auto. destruct (e_flush E _); discriminate.
Qed.

Theorem dr_flush : forall O E strict x0 m n t r,
  dr_sample O E strict x0 m n [] = (t, r) ->
  (r = RVal tt \/ r = RExc \/ r = RTerm \/ r = RUB) /\
  (r <> RUB -> exists t', t = t' ++ [EFlush]) /\
  (r = RVal tt -> exists d, t = d ++ [EFlush; EFlush] /\ flushes d = 0) /\
  (r = RExc -> exists d, (t = d ++ [EFlush] \/ (t = d ++ [EFlush; EFlush] /\ e_flush E d = true)) /\ flushes d = 0) /\
  (r = RTerm -> exists t', t = t' ++ [EFlush] /\ e_flush E t' = true).
Proof.
  intros O E strict x0 m n t r H. apply dr_sample_run in H. destruct H as (d & Hff & H & _).
  pose proof (flush_free_flushes d Hff) as H0.
  destruct H as [(-> & -> & ?)|[(-> & ->)|[(-> & -> & ?)|[(-> & -> & ?)|[(-> & -> & ?)|(-> & ->)]]]]];
  (split; [auto|]); (split; [intros Hub; try (now contradiction Hub); first [exists d; reflexivity| exists (d ++ [EFlush]); now rewrite <- app_assoc]|]);
  repeat split; try discriminate; intros _; try (exists d; auto; fail).
  exists (d ++ [EFlush]). rewrite <- app_assoc. auto.
Qed.

Theorem dr_chain_thm : forall O E strict x0 m n t r,
  dr_sample O E strict x0 m n [] = (t, r) ->
  (length (issued t) <= n) /\
  (r = RVal tt -> length (issued t) = n) /\
  (issued t = [] \/
   exists l0 ev, e_ll E [] x0 = Some l0 /\ evaluations E t = (x0, l0) :: ev /\
   is_dr_chain m (x0, l0) (map (fun p => (fst p, fst (snd p))) (proposals E t)) ev (issued t)).
Proof.
  intros O E strict x0 m n t r H. apply dr_sample_run in H. destruct H as (d & Hff & Ht & H).
  assert (exists k, t = d ++ repeat EFlush k) as (k & ->).
  { destruct Ht as [(? & -> & ?)|[(? & ->)|[(? & -> & ?)|[(? & -> & ?)|[(? & -> & ?)|(? & ->)]]]]]; [exists 2|exists 1|exists 2|exists 1|exists 2|exists 0; cbn; now rewrite app_nil_r]; reflexivity. }
  clear Ht. unfold proposals, evaluations. rewrite issued_tail_flush, !collect_tail_flush by reflexivity.
  destruct H as [(Hl & -> & Hr)|(l & d' & Hl & -> & Hle & Hc & Hn)].
  - cbn. repeat split; try lia; try contradiction. left. reflexivity.
  - change (EEval x0 :: d') with ([EEval x0] ++ d'). rewrite issued_app, !collect_app.
    change (issued [EEval x0] : list (X * paux D)) with (@nil (X * paux D)). cbn [app].
    cbn [collect]. rewrite Hl. cbn [option_map app].
    fold (props_from E [EEval x0] d') (evals_from E [EEval x0] d').
    split; [exact Hle|]. split; [exact Hn|].
    right. exists l, (evals_from E [EEval x0] d'). repeat split; auto.
Qed.

(** ** The out-of-range iterator *)
Lemma num_yvec_strict : forall (l : list (X * D)), num_yvec true l = None.
Proof.
  intros l. unfold num_yvec. cbn [andb].
  match goal with |- (if negb ?c then _ else _) = _ => assert (c = false) as -> end; [|reflexivity].
  apply not_true_is_false. intros H. rewrite forallb_forall in H.
  assert (Hin : In (-1)%Z (map (fun k => (Z.of_nat (length l) - 1 - Z.of_nat k)%Z) (seq 0 (length l + 1)))).
  { apply in_map_iff. exists (length l). split; [lia|]. apply in_seq. lia. }
  apply H in Hin. discriminate.
Qed.
Lemma alpha_fn_strict : forall O fuel x (y : list (X * D)), 2 <= length y -> alpha_fn O true fuel x y = None.
Proof.
  intros O fuel x y Hy. destruct fuel as [|fuel]; [reflexivity|]. cbn [alpha_fn].
  destruct (length y) as [|[|k]] eqn:Hl; try lia.
  destruct (nth_error y (S (S k) - 1)) as [yi|]; [|reflexivity]. cbn [Nat.eqb seq fold_left].
  rewrite num_yvec_strict. match goal with |- fold_left ?f ?l None = None => generalize l end.
  intros l. induction l as [|j l IH]; cbn [fold_left]; auto.
Qed.

(** one proposal rejected and a second one evaluated: undefined behaviour *)
Lemma dr_stages_ub : forall O E stages cur p0 proposed t t' r,
  dr_stages O E true (S stages) cur (p0 :: proposed) t = (t', r) -> r = RExc \/ r = RUB.
Proof.
  intros O E stages cur p0 proposed t t' r H. cbn [dr_stages] in H.
  unfold mbind at 1 in H. unfold propose_sample, call in H.
  destruct (e_prop E t (fst cur) _) as [[y q]|]; [|inversion H; auto].
  unfold mbind, log_likelihood, call in H. destruct (e_ll E _ y) as [ly|]; [|inversion H; auto].
  rewrite alpha_fn_strict in H; [inversion H; auto|]. cbn. rewrite app_length. cbn. lia.
Qed.
Lemma dr_stages_no_reject : forall O E stages cur t t' r,
  dr_stages O E true (S (S stages)) cur [] t = (t', r) -> (exists y, r = RVal (Some y)) \/ r = RExc \/ r = RUB.
Proof.
  intros O E stages cur t t' r H. cbn [dr_stages] in H.
  unfold mbind at 1 in H. unfold propose_sample, call in H.
  destruct (e_prop E t (fst cur) _) as [[y q]|]; [|inversion H; auto].
  unfold mbind at 1 in H. unfold log_likelihood, call in H. destruct (e_ll E _ y) as [ly|]; [|inversion H; auto].
  destruct (alpha_fn O true _ cur ([] ++ [(y, ly)])) as [ratio|]; [|inversion H; auto].
  unfold mbind at 1 in H.
  destruct (dr_accept O E ratio _) as [t1 ra] eqn:Ha.
  apply dr_accept_spec in Ha. destruct Ha as (da & acc & -> & -> & Hda).
  destruct acc; [inversion H; subst; left; eauto|].
  change (dr_stages O E true (S stages) cur ([] ++ [(y, ly)])) with (dr_stages O E true (S stages) cur ((y, ly) :: [])) in H.
  right. exact (dr_stages_ub O E stages cur (y, ly) [] _ _ _ H).
Qed.
Lemma dr_loop_no_reject : forall O E m n cur t t' r,
  dr_loop O E true (S m) n cur t = (t', r) -> r = RVal tt ->
  exists d, t' = t ++ d /\ forall z a, In (z, a) (issued d) -> In ("sample is repeated", PBool false) a.
Proof.
  intros O E m n. induction n as [|n IH]; intros cur t t' r H Hr; cbn [dr_loop] in H.
  - inversion H; subst. exists []. rewrite app_nil_r. split; [reflexivity|]. cbn; tauto.
  - unfold mbind at 1 in H. destruct (dr_stages O E true (S m + 1) cur [] t) as [t1 r1] eqn:Hs.
    replace (S m + 1) with (S (S m)) in Hs by lia.
    pose proof (dr_stages_no_reject _ _ _ _ _ _ _ Hs) as Hnr.
    apply dr_stages_spec in Hs. destruct Hs as (d1 & -> & _ & Hi1 & _).
    destruct Hnr as [[y ->]|[->| ->]]; [|inversion H; subst; discriminate|inversion H; subst; discriminate].
    unfold mbind, issue_sample, call in H. destruct (e_issue E _ _ _); [inversion H; subst; discriminate|].
    apply IH in H; [|exact Hr]. destruct H as (d & -> & Hd). set (a := [_; _]) in *.
    exists ((d1 ++ [EIssue (fst y) a]) ++ d). split; [now rewrite <- !app_assoc|].
    rewrite issued_app, issued_app, Hi1. cbn [app]. intros z b [Hz|Hz]; [|eauto].
    inversion Hz; subst. cbn. auto.
Qed.
Theorem dr_ub : forall O E x0 m n t r, 1 <= m ->
  dr_sample O E true x0 m n [] = (t, r) -> r = RVal tt ->
  forall z a, In (z, a) (issued t) -> In ("sample is repeated", PBool false) a.
Proof.
  intros O E x0 m n t r Hm H Hr. destruct m as [|m]; [lia|]. apply scope_exit_inv in H. destruct H as (t1 & r1 & Hb & H1 & H2).
  unfold mbind at 1 in Hb. unfold log_likelihood, call in Hb. cbn [app] in Hb.
  destruct (e_ll E [] x0) as [l|] eqn:Hl.
  2:{ inversion Hb; subst t1 r1. destruct (H1 (or_intror eq_refl)) as [_ Hx]. subst r.
      match type of Hx with _ = (if ?c then _ else _) => destruct c end; discriminate Hx. }
  unfold mbind in Hb. destruct (dr_loop O E true (S m) n (x0, l) [EEval x0]) as [t2 r2] eqn:Hloop.
  assert (r2 = RVal tt) as ->.
  { destruct (dr_loop_spec _ _ _ _ _ _ _ _ _ Hloop) as (? & _ & _ & [[[] Hok]|[Hok|Hok]] & _); [exact Hok| |].
    - subst r2. inversion Hb; subst t1 r1. destruct (H1 (or_intror eq_refl)) as [_ Hx]. subst r.
      match type of Hx with _ = (if ?c then _ else _) => destruct c end; discriminate Hx.
    - subst r2. inversion Hb; subst t1 r1. destruct (H2 (or_introl eq_refl)) as [_ Hx]. subst r. discriminate. }
  destruct (dr_loop_no_reject _ _ _ _ _ _ _ _ Hloop eq_refl) as (d & -> & Hd).
  assert (exists k, t = ([EEval x0] ++ d) ++ repeat EFlush k) as (k & ->).
  { unfold flush_consumers, call in Hb. destruct (e_flush E ([EEval x0] ++ d)); inversion Hb; subst t1 r1.
    - destruct (H1 (or_intror eq_refl)) as [-> _]. exists 2. cbn. now rewrite <- app_assoc.
    - destruct (H1 (or_introl (ex_intro _ tt eq_refl))) as [-> _]. exists 2. cbn. now rewrite <- app_assoc. }
  rewrite issued_tail_flush, issued_app. intros z a Hz. apply (Hd z a). exact Hz.
Qed.
(** and it does happen: the first proposal is rejected, callbacks do not throw *)
Theorem dr_ub_happens : forall O E m n x0 l y q ly y2 q2 ly2,
  e_ll E [] x0 = Some l -> e_prop E [EEval x0] x0 [] = Some (y, q) ->
  e_ll E [EEval x0; EPropose x0 []] y = Some ly ->
  d_gt O (d_exp O (d_sub O ly l)) (d_one O) = false ->
  d_ge O (d_exp O (d_sub O ly l)) (e_unif E [EEval x0; EPropose x0 []; EEval y]) = false ->
  let h := [EEval x0; EPropose x0 []; EEval y; EUnif] in
  e_prop E h x0 [y] = Some (y2, q2) -> e_ll E (h ++ [EPropose x0 [y]]) y2 = Some ly2 ->
  1 <= m -> 1 <= n ->
  snd (dr_sample O E true x0 m n []) = RUB.
Proof.
  intros O E m n x0 l y q ly y2 q2 ly2 Hl Hp Hly Hgt Hge h Hp2 Hly2 Hm Hn.
  destruct m as [|m]; [lia|]. destruct n as [|n]; [lia|].
  unfold dr_sample, with_scope_exit, mbind at 1, log_likelihood at 1, call. cbn [app]. rewrite Hl.
  unfold mbind at 1. cbn [dr_loop Nat.add]. unfold mbind at 1. cbn [dr_stages].
  unfold mbind at 1, propose_sample at 1, call. cbn [fst map app]. rewrite Hp.
  unfold mbind at 1, log_likelihood at 1, call. cbn [app]. rewrite Hly.
  cbn [length alpha_fn nth_error Nat.sub Nat.eqb snd]. unfold mbind at 1. unfold dr_accept at 1. rewrite Hgt.
  unfold mbind at 1, uniform, call. cbn [app]. unfold ret. rewrite Hge.
  replace (m + 1) with (S m) by lia. cbn [dr_stages].
  unfold mbind at 1, propose_sample at 1, call. cbn [fst map app]. fold h. rewrite Hp2.
  unfold mbind at 1, log_likelihood at 1, call. cbn [app h] in Hly2. cbn [app]. unfold h in *. cbn [app] in *. rewrite Hly2.
  rewrite alpha_fn_strict by (cbn; lia). reflexivity.
Qed.
End P.
