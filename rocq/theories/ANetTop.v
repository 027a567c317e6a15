(** The theorems about asynchronous networks. *)
From Coq Require Import Permutation.
From Verif Require Import Prelude ANetModel ANetBase ANetInv ANetSpec ANetFlow ANetFlush ANetExc.
Local Open Scope nat_scope.

Section Top.
Context {X St : Type}.
Variable edges : list edge.
Variable filt : nat -> option (St -> X -> St * option X).
Variable s0 : nat -> St.
Variable programs : list (list (op X)).
Implicit Types (s : state X St) (k : list (instr X)) (i j : instr X) (tr : list (event X)).
Ltac split_step R NT X1 :=
  let P := fresh "P" in pose proof X1 as P; eapply exec_split in P; [|exact R|exact NT];
  destruct P as [[EXC P]|(EXC & -> & -> & lu & U1 & U2 & U)]; [clear X1; rename P into X1|].
Notation exec1 := (exec1 edges filt).
Notation step := (step edges filt).
Notation run := (run edges filt).
Notation reach := (reach edges filt s0 programs).

Lemma reach_prefix : forall tr s, reach tr s -> forall tr1 tr2, tr = tr1 ++ tr2 -> exists s1, reach tr1 s1.
Proof.
  induction 1 as [|tr s im t ev s' R IH E]; intros tr1 tr2 Q.
  - destruct tr1; [|discriminate]. exists (initial s0 programs). constructor.
  - destruct tr2 as [|x tr2 _] using rev_ind.
    + rewrite app_nil_r in Q. subst tr1. exists s'. econstructor; eauto.
    + rewrite app_assoc in Q. apply app_inj_tail in Q as [Q _]. eauto.
Qed.
Lemma waits_starts : forall tr s f o b, reach tr s -> waits_for edges tr f (o, b) -> starts_at edges filt tr f o b.
Proof.
  intros tr s f o b R H. destruct f; cbn [waits_for starts_at fst snd] in *; try assumption.
  destruct H as (a & b' & e & t & x & -> & H1 & H2 & H3 & H4). exists a, b', e. repeat split; auto.
  pose proof (over_at _ _ _ _ _ _ _ _ _ R H4) as A. rewrite <- H2.
  apply (at_next edges filt tr (o, b') a e (g_from e)); auto. cbn [snd]. intros N.
  pose proof (sound_in _ _ _ _ _ _ _ R H3) as S'. cbn [sound_event] in S'. unfold given in S'. cbn [snd] in S'. destruct b'; [contradiction|]. destruct S' as (f & S' & _). congruence.
Qed.
Lemma return_closed : forall tr s tr1 t n f tr2 t' f' tr3 o b, reach tr s -> tr = tr1 ++ ECall t n f :: tr2 ++ EReturn t' n f' :: tr3 -> waits_for edges tr1 f (o, b) ->
  exists s', reach (tr1 ++ ECall t n f :: tr2 ++ [EReturn t' n f']) s' /\ (forall r j, somewhere s' j -> ~ closes j (o, r ++ b)) /\ (forall r e, In e tr3 -> ~ about (o, r ++ b) e).
Proof.
  intros tr s tr1 t n f tr2 t' f' tr3 o b R Q H.
  destruct (reach_prefix _ _ R _ _ Q) as (s1 & R1). pose proof (waits_starts _ _ _ _ _ R1 H) as HS.
  destruct (reach_prefix _ _ R (tr1 ++ ECall t n f :: tr2 ++ [EReturn t' n f']) tr3) as (s2 & R2). { rewrite Q. rewrite <- app_assoc. cbn [app]. now rewrite <- app_assoc. }
  exists s2. split; [assumption|]. split.
  - intros r j. eapply (quiet edges filt s0 programs n o b f _ _ R2 _ _ _ _ _ eq_refl); [|exact HS]. apply in_or_app; right; now left.
  - intros r e. eapply (silence edges filt s0 programs n o b f _ _ R _ _ _ _ _ _ Q HS).
Qed.
Lemma times_drop : forall (P : event X -> bool) tr1 e tr2, P e = false -> times P (tr1 ++ tr2 ++ [e]) = times P (tr1 ++ tr2).
Proof. intros P tr1 e tr2 H. rewrite !times_cnt. rewrite app_assoc, !cnt_app. unfold cnt at 3. cbn. rewrite H. cbn. lia. Qed.
Lemma in_drop : forall (e0 e : event X) tr1 tr2, e0 <> e -> In e0 (tr1 ++ tr2 ++ [e]) -> In e0 (tr1 ++ tr2).
Proof. intros e0 e tr1 tr2 N H. rewrite app_assoc in H. apply in_app_or in H as [H|[H|[]]]; [assumption|congruence]. Qed.

Theorem completely_consumed : forall sched tr s tr1 t n f tr2 t' f' tr3 o b,
  run sched (initial s0 programs) = (tr, s) -> tr = tr1 ++ ECall t n f :: tr2 ++ EReturn t' n f' :: tr3 -> waits_for edges tr1 f (o, b) ->
  forall r, times (starts (o, r ++ b)) (tr1 ++ ECall t n f :: tr2) = times (finishes (o, r ++ b)) (tr1 ++ ECall t n f :: tr2) /\ forall e, In e tr3 -> ~ about (o, r ++ b) e.
Proof.
  intros sched tr s tr1 t n f tr2 t' f' tr3 o b RUN Q H r. pose proof (run_reach _ _ _ _ _ _ _ RUN) as R.
  destruct (return_closed _ _ _ _ _ _ _ _ _ _ _ _ R Q H) as (s' & R' & C & S'). split; [|intros e; apply S'].
  pose proof (closed_finished _ _ _ _ _ _ _ _ R' (C r)) as F.
  change (ECall t n f :: tr2 ++ [EReturn t' n f']) with ((ECall t n f :: tr2) ++ [EReturn t' n f']) in F. now rewrite !times_drop in F.
Qed.
Lemma in_keep : forall (e0 e : event X) tr1 tr2, In e0 (tr1 ++ tr2) -> In e0 (tr1 ++ tr2 ++ [e]).
Proof. intros e0 e tr1 tr2 H. rewrite app_assoc. apply in_or_app; now left. Qed.
Lemma threw_drop : forall tr1 tr2 t n f o b, slot_threw edges (tr1 ++ tr2 ++ [EReturn t n f]) o b <-> slot_threw edges (tr1 ++ tr2) o b.
Proof.
  intros tr1 tr2 t n f o [|a b]; [reflexivity|]. cbn [slot_threw]. split; (intros [(H1 & t0 & c & H)|(t0 & c & H)]; [left; split; [assumption|]|right]; exists t0, c).
  1-2: eapply in_drop; [|exact H]; discriminate.
  1-2: now apply in_keep.
Qed.
Lemma hindered_drop : forall tr1 tr2 t n f o a b, hindered edges (tr1 ++ tr2 ++ [EReturn t n f]) o a b <-> hindered edges (tr1 ++ tr2) o a b.
Proof.
  intros tr1 tr2 t n f o a b. unfold hindered. split; (intros [(t0 & c & H)|(a' & L & H)]; [left; exists t0, c|right; exists a'; split; [assumption|]]).
  - eapply in_drop; [|exact H]; discriminate.
  - now apply threw_drop in H.
  - now apply in_keep.
  - now apply threw_drop.
Qed.
Theorem served : forall sched tr s tr1 t n f tr2 t' f' tr3 o b,
  run sched (initial s0 programs) = (tr, s) -> tr = tr1 ++ ECall t n f :: tr2 ++ EReturn t' n f' :: tr3 -> waits_for edges tr1 f (o, b) ->
  forall r t0 p y a e, In (EIssue t0 (o, r ++ b) p y) tr -> nth_error edges a = Some e -> g_from e = p ->
  (~ hindered edges (tr1 ++ ECall t n f :: tr2) o a (r ++ b) /\ times (starts (o, a :: r ++ b)) (tr1 ++ ECall t n f :: tr2) = 1 /\ given_to (tr1 ++ ECall t n f :: tr2) (o, a :: r ++ b) (g_to e) y) \/
  (hindered edges (tr1 ++ ECall t n f :: tr2) o a (r ++ b) /\ times (starts (o, a :: r ++ b)) tr = 0).
Proof.
  intros sched tr s tr1 t n f tr2 t' f' tr3 o b RUN Q H r t0 p y a e HI HE HP. pose proof (run_reach _ _ _ _ _ _ _ RUN) as R.
  destruct (return_closed _ _ _ _ _ _ _ _ _ _ _ _ R Q H) as (s' & R' & C & S').
  assert (HI' : In (EIssue t0 (o, r ++ b) p y) (tr1 ++ ECall t n f :: tr2 ++ [EReturn t' n f'])).
  { rewrite Q in HI. apply in_app_or in HI as [HI|[HI|HI]]; [apply in_or_app; now left|discriminate|]. apply in_or_app; right; right. apply in_app_or in HI as [HI|[HI|HI]]; [apply in_or_app; now left|discriminate|].
    exfalso. exact (S' r _ HI eq_refl). }
  pose proof (closed_served edges filt s0 programs _ _ o a (r ++ b) t0 p y e R' (C r) (C (a :: r)) HI' HE HP) as D.
  pose proof (hindered_not_started edges filt s0 programs _ _ o a (r ++ b) e t0 p y R' HI' HE HP) as HN. rewrite <- times_cnt in HN.
  assert (REST : times (starts (o, a :: r ++ b)) tr = times (starts (o, a :: r ++ b)) (tr1 ++ ECall t n f :: tr2 ++ [EReturn t' n f'])).
  { rewrite Q. replace (tr1 ++ ECall t n f :: tr2 ++ EReturn t' n f' :: tr3) with ((tr1 ++ ECall t n f :: tr2 ++ [EReturn t' n f']) ++ tr3) by (rewrite <- !app_assoc; cbn [app]; rewrite <- !app_assoc; reflexivity).
    rewrite !times_cnt. rewrite cnt_app. match goal with |- ?u + ?v = ?u => assert (Z : v = 0); [|lia] end.
    destruct (cnt _ tr3) eqn:EZ; [reflexivity|]. exfalso. destruct (cnt_pos (fun e => b2n (starts (o, a :: r ++ b) e)) tr3) as (ev & H1 & H2); [lia|]. apply (S' (a :: r) _ H1).
    destruct ev; cbn in H2; try lia; (destruct (is_label (o, a :: r ++ b) l) eqn:EL; [|cbn in H2; lia]); apply is_label_true in EL; now subst l. }
  rewrite REST. change (ECall t n f :: tr2 ++ [EReturn t' n f']) with ((ECall t n f :: tr2) ++ [EReturn t' n f']) in *.
  rewrite <- (hindered_drop tr1 (ECall t n f :: tr2) t' n f').
  destruct D as [(D1 & (t1 & D2) & D3)|(D1 & D2)].
  - left. split; [intros HH; specialize (HN HH); congruence|]. rewrite times_drop in D1 by reflexivity. split; [assumption|]. exists t1. destruct D2 as [D2|D2]; [left|right]; (eapply in_drop; [|exact D2]; discriminate).
  - right. split; [|assumption]. eapply (passed_hindered _ _ _ _ _ _ _ _ _ R'). rewrite D2. lia.
Qed.
Theorem delivered : forall sched tr s tr1 t n f tr2 t' f' tr3 o b,
  run sched (initial s0 programs) = (tr, s) -> tr = tr1 ++ ECall t n f :: tr2 ++ EReturn t' n f' :: tr3 -> waits_for edges tr1 f (o, b) -> no_exception o (tr1 ++ ECall t n f :: tr2) ->
  forall r t0 p y a e, In (EIssue t0 (o, r ++ b) p y) tr -> nth_error edges a = Some e -> g_from e = p ->
  times (starts (o, a :: r ++ b)) (tr1 ++ ECall t n f :: tr2) = 1 /\ exists t1, In (EStart t1 (o, a :: r ++ b) (g_to e) y) (tr1 ++ ECall t n f :: tr2).
Proof.
  intros sched tr s tr1 t n f tr2 t' f' tr3 o b RUN Q H NE r t0 p y a e HI HE HP. pose proof (run_reach _ _ _ _ _ _ _ RUN) as R.
  destruct (served _ _ _ _ _ _ _ _ _ _ _ _ _ RUN Q H r t0 p y a e HI HE HP) as [(_ & D1 & (t1 & D2))|(D & _)].
  - split; [assumption|]. exists t1. destruct D2 as [D2|D2]; [assumption|]. exfalso. eapply NE. left. eauto.
  - exfalso. destruct (reach_prefix _ _ R (tr1 ++ ECall t n f :: tr2) (EReturn t' n f' :: tr3)) as (s2 & R2); [rewrite Q, <- app_assoc; reflexivity|].
    destruct (hindered_raised _ _ _ _ _ _ _ _ _ R2 D) as (b' & D'). exact (NE _ D').
Qed.
Lemma replay_return : forall (f : St -> X -> St * option X) c v tr t n (o : op X), snd (replay f c v (tr ++ [EReturn t n o])) = snd (replay f c v tr).
Proof. intros. rewrite replay_app. destruct (replay f c v tr). cbn. now rewrite app_nil_r. Qed.
Theorem filtered : forall sched tr s tr1 t n f tr2 t' f' tr3 o b,
  run sched (initial s0 programs) = (tr, s) -> tr = tr1 ++ ECall t n f :: tr2 ++ EReturn t' n f' :: tr3 -> waits_for edges tr1 f (o, b) ->
  forall r c g y, r ++ b <> [] -> filt c = Some g ->
  ((exists t0, In (EIssue t0 (o, r ++ b) c y) (tr1 ++ ECall t n f :: tr2)) <-> In ((o, r ++ b), y) (snd (replay g c (s0 c) (tr1 ++ ECall t n f :: tr2)))).
Proof.
  intros sched tr s tr1 t n f tr2 t' f' tr3 o b RUN Q H r c g y NE F. pose proof (run_reach _ _ _ _ _ _ _ RUN) as R.
  destruct (return_closed _ _ _ _ _ _ _ _ _ _ _ _ R Q H) as (s' & R' & C & S').
  destruct (r ++ b) as [|a r'] eqn:ER; [congruence|]. split.
  - intros (t0 & HI). destruct (reach_prefix _ _ R' (tr1 ++ ECall t n f :: tr2) [EReturn t' n f']) as (s2 & R2); [rewrite <- app_assoc; reflexivity|].
    pose proof (sound_in _ _ _ _ _ _ _ R2 HI) as S2. cbn [sound_event] in S2. unfold given in S2. cbn [snd] in S2. destruct S2 as (g' & F' & S2). rewrite F in F'. injection F' as <-. exact S2.
  - intros HO. destruct (closed_filtered edges filt s0 programs _ _ o a r' c g y R') as (t0 & HI).
    + intros j. rewrite <- ER. apply C.
    + exact F.
    + unfold outputs. change (ECall t n f :: tr2 ++ [EReturn t' n f']) with ((ECall t n f :: tr2) ++ [EReturn t' n f']). rewrite app_assoc, replay_return. exact HO.
    + exists t0. eapply in_drop; [|change (ECall t n f :: tr2 ++ [EReturn t' n f']) with ((ECall t n f :: tr2) ++ [EReturn t' n f']) in HI; exact HI]. discriminate.
Qed.
Theorem at_most_once : forall sched tr s l, run sched (initial s0 programs) = (tr, s) -> times (starts l) tr <= 1 /\ times (issues l) tr <= 1 /\ times (finishes l) tr <= times (starts l) tr.
Proof.
  intros sched tr s [o r] RUN. pose proof (run_reach _ _ _ _ _ _ _ RUN) as R. rewrite !times_cnt. destruct (once _ _ _ _ _ _ R o r) as [H1 H2]. split; [assumption|]. split; [assumption|].
  pose proof (end_reach _ _ _ _ _ _ R (o, r)) as E.
  assert (W : tot (w_begin (o, r)) s <= tot (w_end (o, r)) s); [|lia].
  pose proof (okk_reach _ _ _ _ _ _ R) as HO. unfold stacks in HO. unfold tot. clear -HO.
  assert (G : forall k, okk edges k -> wt (w_begin (o, r)) k <= wt (w_end (o, r)) k /\ wt (w_begin (o, r)) (tl k) <= wt (w_end (o, r)) (tl k)).
  { induction k as [|i k IH]; intros K; [now split|]. destruct K as [[_ N] K]. specialize (IH K). cbn [tl]. split; [|apply IH]. destruct IH as [IH1 IH2]. rewrite !wt_cons.
    destruct i; cbn [w_begin w_end]; try lia. destruct N as [(d & k' & ->) _]. cbn [tl] in IH2. rewrite !wt_cons. cbn [w_begin w_end]. lia. }
  induction HO as [|k ks K HO IH]; [reflexivity|]. rewrite !wts_cons. destruct (G k K). lia.
Qed.

(** ** The samples of the thread that calls *)
Lemma own_reach : forall tr s, reach tr s -> forall t n o, In (ECall t n o) tr -> (In (EReturn t n o) tr \/ In (EThrew t n o) tr) \/ exists k, nth_error (a_threads s) t = Some k /\ In (IReturn n o) k.
Proof.
  induction 1 as [|tr s im t ev s' R IH E]; intros t0 n o H; [destruct H|].
  destruct (step_inv _ _ _ _ _ _ _ E) as (A & i & k & B & e & sp & s1 & Q & L & X1 & S').
  assert (NT : nth_error (a_threads s') t = Some (e ++ k)). { rewrite S'. cbn [set_threads a_threads]. rewrite nth_error_app2 by lia. rewrite L, Nat.sub_diag. reflexivity. }
  assert (NO : forall t1 k1, t1 <> t -> nth_error (a_threads s) t1 = Some k1 -> nth_error (a_threads s') t1 = Some k1).
  { intros t1 k1 N1. rewrite Q, S'. cbn [set_threads a_threads]. intros HH.
    destruct (Nat.lt_ge_cases t1 (length A)) as [LT|GE]; [rewrite nth_error_app1 in * by assumption; assumption|]. rewrite nth_error_app2 in * by assumption.
    destruct (t1 - length A) as [|m] eqn:EM; [exfalso; apply N1; lia|]. cbn [nth_error] in *. rewrite nth_error_app1; [assumption|]. apply nth_error_Some. congruence. }
  apply in_app_or in H as [H|[H|[]]].
  - destruct (IH _ _ _ H) as [[H1|H1]|(k1 & H1 & H2)]; [left; left; apply in_or_app; now left|left; right; apply in_or_app; now left|].
    destruct (Nat.eq_dec t0 t) as [->|N]; [|right; exists k1; split; [now apply NO|assumption]].
    assert (k1 = i :: k). { rewrite Q, nth_error_app2 in H1 by lia. rewrite L, Nat.sub_diag in H1. cbn in H1. congruence. } subst k1.
    destruct H2 as [->|H2]; [|right; exists (e ++ k); split; [assumption|apply in_or_app; now right]].
    left. unfold ANetModel.exec1 in X1. destruct (a_exc s t); cbn in X1; injection X1 as <- _ _ _; [right|left]; apply in_or_app; right; now left.
  - subst ev. right. exists (e ++ k). clear S' NO E.
    pose proof (mid_nth _ _ _ _ _ Q L) as NT0. split_step R NT0 X1; [|inversion U].
    exec_cases X1; subst; (split; [exact NT|]). apply in_or_app; left. apply in_or_app; right; now left.
Qed.
Lemma calls_in_order : forall tr s, reach tr s -> forall tr1 t n f tr2, tr = tr1 ++ ECall t n f :: tr2 -> forall o op, In (ECall t o op) tr1 -> In (EReturn t o op) tr1 \/ In (EThrew t o op) tr1.
Proof.
  intros tr s R tr1 t n f tr2 Q o op H.
  destruct (reach_prefix _ _ R (tr1 ++ [ECall t n f]) tr2) as (s' & R'); [rewrite Q, <- app_assoc; reflexivity|].
  inversion R' as [E1|tr0 s1 im t1 e s2 R1 E1 E2]; [destruct tr1; discriminate|]. apply app_inj_tail in E2 as [-> ->].
  subst s2. destruct (own_reach _ _ R1 _ _ _ H) as [H1|(k & H1 & H2)]; [assumption|exfalso].
  destruct (step_inv _ _ _ _ _ _ _ E1) as (A & i & k1 & B & e & sp & s3 & Q1 & L & X1 & S').
  assert (t1 = t /\ exists o', i = ICall o') as [-> (o' & ->)].
  { pose proof (mid_nth _ _ _ _ _ Q1 L) as NT0. split_step R1 NT0 X1; [|inversion U]. clear -X1. destruct i; cbn [ANetModel.normal] in X1; repeat match type of X1 with context [match ?z with _ => _ end] => destruct z eqn:? end; try discriminate X1. injection X1 as -> _ _ _ _ _. split; [reflexivity|]. now exists o. }
  assert (HI : In (ICall o' :: k1) (a_threads s1)) by (rewrite Q1; apply in_or_app; right; now left).
  assert (K : k = ICall o' :: k1). { rewrite Q1, nth_error_app2 in H1 by lia. rewrite L, Nat.sub_diag in H1. cbn in H1. congruence. }
  subst k. destruct H2 as [H2|H2]; [discriminate|]. destruct (stack_need _ _ _ _ _ _ _ _ R1 HI) as [_ N]. cbn [need] in N. rewrite Forall_forall in N. exact (N _ H2).
Qed.
Theorem own_samples : forall sched tr s tr1 t n p tr2 tr3 o x,
  run sched (initial s0 programs) = (tr, s) -> tr = tr1 ++ ECall t n (OFlushConsumers p) :: tr2 ++ EReturn t n (OFlushConsumers p) :: tr3 -> In (ECall t o (OSend p x)) tr1 ->
  forall r, times (starts (o, r)) (tr1 ++ ECall t n (OFlushConsumers p) :: tr2) = times (finishes (o, r)) (tr1 ++ ECall t n (OFlushConsumers p) :: tr2) /\ forall e, In e tr3 -> ~ about (o, r) e.
Proof.
  intros sched tr s tr1 t n p tr2 tr3 o x RUN Q H r. pose proof (run_reach _ _ _ _ _ _ _ RUN) as R.
  pose proof (calls_in_order _ _ R _ _ _ _ _ Q _ _ H) as H1.
  rewrite <- (app_nil_r r). eapply completely_consumed; [exact RUN|exact Q|]. cbn. exists t, x. exact H1.
Qed.
(** ** Exceptions *)
Theorem call_throws : forall sched tr s t n o, run sched (initial s0 programs) = (tr, s) -> In (EReturn t n o) tr \/ In (EThrew t n o) tr ->
  (In (EThrew t n o) tr <-> exists b, synchronous edges b /\ raised tr n b) /\ (In (EThrew t n o) tr -> exists p x, o = OSend p x).
Proof.
  intros sched tr s t n o RUN H. pose proof (run_reach _ _ _ _ _ _ _ RUN) as R. split; [split|].
  - intros HT. destruct (exc_events _ _ _ _ _ _ R _ HT) as [_ (c & C1 & C2)]. cbn [fst snd] in C2. rewrite app_nil_r in C2. now exists c.
  - intros (b & H1 & H2). destruct H as [H|H]; [exfalso|assumption]. rewrite <- (app_nil_r b) in H2.
    destruct (propagates _ _ _ _ _ _ _ _ _ _ R H1 H2 H) as (t0 & o0 & EQ); [cbn; now rewrite Nat.eqb_refl|discriminate].
  - intros HT. now destruct (exc_events _ _ _ _ _ _ R _ HT).
Qed.
Theorem consume_throws : forall sched tr s t o a b q, run sched (initial s0 programs) = (tr, s) -> In (EEnd t (o, a :: b) q) tr \/ In (EAbort t (o, a :: b) q) tr ->
  (In (EAbort t (o, a :: b) q) tr <-> exists c, synchronous edges c /\ raised tr o (c ++ a :: b)).
Proof.
  intros sched tr s t o a b q RUN H. pose proof (run_reach _ _ _ _ _ _ _ RUN) as R. split.
  - intros HT. destruct (exc_events _ _ _ _ _ _ R _ HT) as (c & C1 & C2). now exists c.
  - intros (c & H1 & H2). destruct H as [H|H]; [exfalso|assumption].
    destruct (propagates _ _ _ _ _ _ _ _ _ _ R H1 H2 H) as (t0 & o0 & EQ); [cbn [leaves finishes]; now rewrite is_label_refl|discriminate].
Qed.
End Top.

(** ** Filters without member variables *)
Section Stateless.
Context {X : Type}.
Variable edges : list edge.
Variable g : nat -> option (X -> option X).
Variable programs : list (list (op X)).
Notation filt := (@stateless X unit g).
Notation s0 := (fun _ : nat => tt).
Notation run := (run edges filt).
Notation reach := (reach edges filt s0 programs).
Implicit Types (tr : list (event X)).

Lemma stateless_output : forall c f tr l y, g c = Some f -> In (l, y) (snd (replay (fun (v : unit) x => (v, f x)) c tt tr)) -> exists t x, In (EStart t l c x) tr /\ f x = Some y.
Proof.
  intros c f tr l y G. induction tr as [|e tr IH]; cbn [replay]; [intros []|].
  assert (IH' : In (l, y) (snd (replay (fun (v : unit) x => (v, f x)) c tt tr)) -> exists t x, In (EStart t l c x) (e :: tr) /\ f x = Some y).
  { intros H. destruct (IH H) as (t & x & H1 & H2). exists t, x. split; [now right|assumption]. }
  destruct e as [| | | | t0 l0 c0 x0 | | | | | |]; auto. destruct (Nat.eqb_spec c0 c) as [->|]; [|auto].
  destruct (replay _ c tt tr) as [w out] eqn:E. destruct (f x0) as [z|] eqn:F; cbn [snd] in *; [|auto].
  intros [H|H]; [|auto]. injection H as -> ->. exists t0, x0. split; [now left|assumption].
Qed.
Lemma stateless_output_inv : forall c f tr t l x y, In (EStart t l c x) tr -> f x = Some y -> In (l, y) (snd (replay (fun (v : unit) x => (v, f x)) c tt tr)).
Proof.
  intros c f tr t l x y. induction tr as [|e tr IH]; cbn [replay]; [intros []|]. intros [->|H] F.
  - rewrite Nat.eqb_refl. destruct (replay _ c tt tr). rewrite F. now left.
  - specialize (IH H F). destruct e as [| | | | t0 l0 c0 x0 | | | | | |]; auto. destruct (Nat.eqb_spec c0 c) as [->|]; [|auto].
    destruct (replay _ c tt tr) as [w out]. cbn [snd] in *. destruct (f x0); [now right|assumption].
Qed.
Lemma arrives_sound : forall tr s o p x, reach tr s -> sent tr o p x ->
  forall r, (forall t c y, In (EStart t (o, r) c y) tr -> arrives edges g p x r = Some (c, y)) /\ (forall t c y, In (EIssue t (o, r) c y) tr -> issued edges g p x r = Some (c, y)).
Proof.
  intros tr s o p x R S. induction r as [|a r IH].
  - split.
    + intros t c y H. destruct (sound_in _ _ _ _ _ _ _ R H) as (? & ? & ? & ? & ? & E & _). discriminate.
    + intros t c y H. pose proof (sound_in _ _ _ _ _ _ _ R H) as K. cbn in K. destruct (sent_unique _ _ _ _ _ _ _ _ _ _ _ R S K) as [-> ->]. reflexivity.
  - destruct IH as [_ IH]. assert (H1 : forall t c y, In (EStart t (o, a :: r) c y) tr -> arrives edges g p x (a :: r) = Some (c, y)).
    { intros t c y H. destruct (sound_in _ _ _ _ _ _ _ R H) as (o1 & a1 & r1 & e & t1 & E & HE & HT & HI). injection E as <- <- <-.
      cbn [arrives]. unfold over_edge. rewrite (IH _ _ _ HI), HE, Nat.eqb_refl. now subst c. }
    split; [assumption|]. intros t c y H. pose proof (sound_in _ _ _ _ _ _ _ R H) as K. cbn [sound_event] in K. unfold given in K. cbn [snd] in K. destruct K as (f & F & K).
    unfold stateless in F. destruct (g c) as [f0|] eqn:G; [|discriminate]. injection F as <-. unfold outputs in K.
    destruct (stateless_output _ _ _ _ _ G K) as (t1 & x1 & K1 & K2). specialize (H1 _ _ _ K1). cbn [issued]. cbn [arrives] in H1. rewrite H1. cbn. now rewrite G, K2.
Qed.
Lemma root_issue_reach : forall tr s, reach tr s -> forall o, tot (w_issue (o, [])) s + cnt (fun e => b2n (issues (o, []) e)) tr = cnt (sends (o, [])) tr.
Proof.
  induction 1 as [|tr s im t ev s' R IH E]; intros o; [rewrite init_tot by reflexivity; reflexivity|].
  specialize (IH o). rewrite !cnt_snoc.
  destruct (tot_step edges filt (w_issue (o, [])) _ _ _ _ _ E) as (i & e & sp & s1 & X1 & T & (k & Hk & NT) & _).
  pose proof (placed_reach _ _ _ _ _ _ R _ (head_somewhere _ _ _ Hk)) as HP.
  pose proof X1 as P; eapply exec_split in P; [|exact R|exact NT].
  destruct P as [[EXC P]|(EXC & -> & -> & lu & U1 & U2 & U)]; [clear X1; rename P into X1|destruct U; rewrite ?wts_nil, ?wt_nil in *; cbn [w_issue issues sends b2n] in *; lia].
  exec_cases X1; try (match goal with o' : op X |- _ => destruct o' end); unfold code, consume_code in *; rewrite ?wts_cons, ?wts_nil, ?wt_app, ?wt_cons, ?wt_nil in *;
    try (rewrite wt_map0 in T by reflexivity);
    cbn [w_issue issues sends b2n] in *; try lia.
  all: destruct HP as [_ HP]; destruct (is_label (o, []) l) eqn:EL; [apply is_label_true in EL; subst l; now elim HP|cbn in *; lia].
Qed.
Section Closed.
Variables (tr : list (event X)) (s : state X unit) (o p : nat) (x : X).
Hypothesis R : reach tr s.
Hypothesis SENT : sent tr o p x.
Hypothesis NOEXC : no_exception o tr.
Hypothesis CLOSED : forall r j, somewhere s j -> ~ closes j (o, r).
Lemma arrives_complete : forall r, (forall c y, issued edges g p x r = Some (c, y) -> exists t, In (EIssue t (o, r) c y) tr) /\
  (forall c y, arrives edges g p x r = Some (c, y) -> exists t, In (EStart t (o, r) c y) tr).
Proof.
  induction r as [|a r [IH _]].
  - split; [|discriminate]. intros c y H. cbn in H. injection H as <- <-. pose proof (root_issue_reach _ _ R o) as C. destruct (closed_no_begin _ _ _ _ _ _ _ _ R (CLOSED [])) as (_ & _ & Z). rewrite Z in C.
    destruct SENT as (t & SE). pose proof (cnt_in (sends (o, [])) _ _ SE) as G. cbn [sends] in G. rewrite is_label_refl in G. cbn in G.
    destruct (cnt_pos (fun e => b2n (issues (o, []) e)) tr) as (ev & H1 & H2); [lia|]. destruct ev; cbn in H2; try lia. destruct (is_label (o, []) l) eqn:EL; [|cbn in H2; lia]. apply is_label_true in EL. subst l.
    destruct (arrives_sound _ _ _ _ _ R SENT []) as [_ AS]. specialize (AS _ _ _ H1). cbn in AS. injection AS as <- <-. now exists t0.
  - assert (ARR : forall c y, arrives edges g p x (a :: r) = Some (c, y) -> exists t, In (EStart t (o, a :: r) c y) tr).
    { intros c y H. cbn [arrives] in H. unfold over_edge in H. destruct (issued edges g p x r) as [[q z]|] eqn:EI; [|discriminate]. destruct (nth_error edges a) as [e|] eqn:EE; [|discriminate].
      destruct (Nat.eqb_spec (g_from e) q) as [EQ|]; [|discriminate]. injection H as <- <-. destruct (IH _ _ eq_refl) as (t & HI).
      destruct (closed_served edges filt s0 programs _ _ o a r t q z e R (CLOSED r) (CLOSED (a :: r)) HI EE EQ) as [(_ & (t1 & [D|D]) & _)|(_ & D)].
      - now exists t1.
      - exfalso. eapply NOEXC. left. eauto.
      - exfalso. destruct (hindered_raised edges filt s0 programs tr s o a r R) as (b' & D'); [|exact (NOEXC _ D')]. eapply (passed_hindered edges filt); [exact R|lia]. }
    split; [|assumption]. intros c y H. cbn [issued] in H. unfold through in H. change (over_edge edges a (issued edges g p x r)) with (arrives edges g p x (a :: r)) in H.
    destruct (arrives edges g p x (a :: r)) as [[c' z]|] eqn:EA; [|discriminate]. destruct (g c') as [f|] eqn:G; [|discriminate]. destruct (f z) as [w|] eqn:F; [|discriminate]. injection H as -> ->.
    destruct (ARR _ _ eq_refl) as (t & HS). eapply (closed_filtered edges filt s0 programs _ _ o a r c (fun v x => (v, f x)) y R (CLOSED (a :: r))).
    + unfold stateless. now rewrite G.
    + unfold outputs. eapply stateless_output_inv; eauto.
Qed.
End Closed.
Theorem every_trail_once : forall sched tr s tr1 t n p tr2 t' f' tr3 o x,
  run sched (initial s0 programs) = (tr, s) -> tr = tr1 ++ ECall t n (OFlushConsumers p) :: tr2 ++ EReturn t' n f' :: tr3 -> sent tr1 o p x -> over tr1 o [] p -> no_exception o (tr1 ++ ECall t n (OFlushConsumers p) :: tr2) ->
  forall r, times (starts (o, r)) (tr1 ++ ECall t n (OFlushConsumers p) :: tr2) = match arrives edges g p x r with Some _ => 1 | None => 0 end /\
    forall c y, (exists t0, In (EStart t0 (o, r) c y) (tr1 ++ ECall t n (OFlushConsumers p) :: tr2)) <-> arrives edges g p x r = Some (c, y).
Proof.
  intros sched tr s tr1 t n p tr2 t' f' tr3 o x RUN Q HS HO NE r. pose proof (run_reach _ _ _ _ _ _ _ RUN) as R.
  destruct (return_closed edges filt s0 programs _ _ _ _ _ _ _ _ _ _ o [] R Q) as (s' & R' & C & _); [exact HO|].
  assert (C' : forall r0 (j : instr X), somewhere s' j -> ~ closes j (o, r0)). { intros r0 j. rewrite <- (app_nil_r r0). apply C. }
  pose proof (sent_app tr1 (ECall t n (OFlushConsumers p) :: tr2 ++ [EReturn t' n f']) _ _ _ HS) as HS'.
  assert (NE' : no_exception o (tr1 ++ ECall t n (OFlushConsumers p) :: tr2 ++ [EReturn t' n f'])).
  { intros b [(t0 & c & z & H)|(a & t0 & c & H)]; apply (NE b); [left; exists t0, c, z|right; exists a, t0, c];
      (apply (in_drop _ (EReturn t' n f') tr1 (ECall t n (OFlushConsumers p) :: tr2)); [discriminate|exact H]). }
  pose proof (arrives_complete _ _ _ _ _ R' HS' NE' C' r) as [_ AC]. pose proof (arrives_sound _ _ _ _ _ R' HS' r) as [AS _].
  destruct (once _ _ _ _ _ _ R' o r) as [ON _]. rewrite <- times_cnt in ON.
  change (ECall t n (OFlushConsumers p) :: tr2 ++ [EReturn t' n f']) with ((ECall t n (OFlushConsumers p) :: tr2) ++ [EReturn t' n f']) in *.
  rewrite times_drop in ON by reflexivity.
  assert (IFF : forall c y, (exists t0, In (EStart t0 (o, r) c y) (tr1 ++ ECall t n (OFlushConsumers p) :: tr2)) <-> arrives edges g p x r = Some (c, y)).
  { intros c y. split.
    - intros (t0 & H). apply (AS t0). rewrite app_assoc. apply in_or_app; now left.
    - intros H. destruct (AC _ _ H) as (t0 & H'). exists t0. eapply in_drop; [|exact H']. discriminate. }
  split; [|exact IFF].
  rewrite times_cnt in *. destruct (arrives edges g p x r) as [[c y]|] eqn:EA.
  - destruct (proj2 (IFF c y) eq_refl) as (t0 & H). pose proof (cnt_in (fun e => b2n (starts (o, r) e)) _ _ H) as G. cbn [starts] in G. rewrite is_label_refl in G. cbn in G. lia.
  - match goal with |- ?z = 0 => destruct z eqn:EZ; [reflexivity|] end. exfalso. destruct (cnt_pos (fun e => b2n (starts (o, r) e)) (tr1 ++ ECall t n (OFlushConsumers p) :: tr2)) as (ev & H1 & H2); [lia|].
    destruct ev; cbn in H2; try lia; (destruct (is_label (o, r) l) eqn:EL; [|cbn in H2; lia]); apply is_label_true in EL; subst l; [|exfalso; eapply NE; left; eauto]. assert (H : None = Some (c, x0)) by (apply IFF; eauto). discriminate.
Qed.
End Stateless.

Lemma consumed_in {X} : forall o (tr : list (event X)) r c y, In (r, (c, y)) (consumed_from o tr) <-> exists t, In (EStart t (o, r) c y) tr.
Proof.
  intros o tr r c y. induction tr as [|e tr IH]; cbn [consumed_from]; [split; [intros []|intros (t & [])]|].
  assert (D : (forall t, e <> EStart t (o, r) c y) -> (exists t, In (EStart t (o, r) c y) tr) <-> (exists t, In (EStart t (o, r) c y) (e :: tr))).
  { intros N. split; intros (t & H); exists t; [now right|]. destruct H as [H|H]; [now elim (N t)|assumption]. }
  destruct e as [| | | | t0 [o0 r0] c0 y0 | | | | | |]; try (rewrite IH; apply D; discriminate). cbn [fst snd]. destruct (Nat.eqb_spec o0 o) as [->|N].
  - cbn [In]. rewrite IH. split.
    + intros [H|(t & H)]; [injection H as -> -> ->; exists t0; now left|exists t; now right].
    + intros (t & [H|H]); [injection H as -> -> -> ->; now left|right; now exists t].
  - rewrite IH. apply D. congruence.
Qed.
Lemma consumed_nodup {X} : forall o (tr : list (event X)), (forall r, times (starts (o, r)) tr <= 1) -> NoDup (consumed_from o tr).
Proof.
  intros o tr. induction tr as [|e tr IH]; intros H; cbn [consumed_from]; [constructor|].
  assert (H' : forall r, times (starts (o, r)) tr <= 1). { intros r. specialize (H r). unfold times in *. cbn [filter] in H. destruct (starts (o, r) e); cbn [length] in H; lia. }
  destruct e as [| | | | t0 [o0 r0] c0 y0 | | | | | |]; auto. cbn [fst snd]. destruct (Nat.eqb_spec o0 o) as [->|N]; [|auto]. constructor; [|auto].
  intros HI. apply consumed_in in HI as (t & HI). specialize (H r0). unfold times in H. cbn [filter] in H. cbn [starts] in H. rewrite is_label_refl in H. cbn [length] in H.
  assert (L : In (EStart t (o, r0) c0 y0) (filter (starts (o, r0)) tr)) by (apply filter_In; split; [assumption|apply is_label_refl]). destruct (filter _ tr); [destruct L|cbn in H; lia].
Qed.
Lemma same_arrives {X} : forall E E' (g : nat -> option (X -> option X)) p x, same_connections E E' -> forall r, arrives E g p x r = arrives E' g p x r.
Proof.
  intros E E' g p x S.
  assert (O : forall a i, over_edge E a i = over_edge E' a i :> option (nat * X)).
  { intros a i. unfold over_edge. destruct i as [[q y]|]; [|reflexivity]. assert (N : nth_error (map (fun e => (g_from e, g_to e)) E) a = nth_error (map (fun e => (g_from e, g_to e)) E') a) by (unfold same_connections in S; now rewrite S).
    rewrite !nth_error_map in N. destruct (nth_error E a), (nth_error E' a); cbn in N; try discriminate; [|reflexivity]. injection N as -> ->. reflexivity. }
  assert (I : forall r, issued E g p x r = issued E' g p x r). { induction r as [|a r IH]; [reflexivity|]. cbn [issued]. now rewrite IH, O. }
  intros [|a r]; [reflexivity|]. cbn [arrives]. now rewrite I, O.
Qed.
Theorem consumed_members {X} : forall edges (g : nat -> option (X -> option X)) programs sched tr s tr1 t n p tr2 t' f' tr3 o x,
  run edges (@stateless X unit g) sched (initial (fun _ => tt) programs) = (tr, s) -> tr = tr1 ++ ECall t n (OFlushConsumers p) :: tr2 ++ EReturn t' n f' :: tr3 -> sent tr1 o p x -> over tr1 o [] p -> no_exception o (tr1 ++ ECall t n (OFlushConsumers p) :: tr2) ->
  NoDup (consumed_from o tr) /\ forall r c y, In (r, (c, y)) (consumed_from o tr) <-> arrives edges g p x r = Some (c, y).
Proof.
  intros edges g programs sched tr s tr1 t n p tr2 t' f' tr3 o x RUN Q HS HO NE. split.
  - apply consumed_nodup. intros r. now destruct (at_most_once _ _ _ _ _ _ _ (o, r) RUN).
  - intros r c y. destruct (every_trail_once _ _ _ _ _ _ _ _ _ _ _ _ _ _ _ _ RUN Q HS HO NE r) as [_ <-]. rewrite consumed_in.
    pose proof (run_reach _ _ _ _ _ _ _ RUN) as R. destruct (return_closed _ _ _ _ _ _ _ _ _ _ _ _ _ _ o [] R Q HO) as (_ & _ & _ & SI).
    split; intros (t0 & H); exists t0; [|rewrite Q; apply in_app_or in H as [H|[H|H]]; [apply in_or_app; now left|discriminate|apply in_or_app; right; right; apply in_or_app; now left]].
    rewrite Q in H. apply in_app_or in H as [H|[H|H]]; [apply in_or_app; now left|discriminate|]. apply in_app_or in H as [H|[H|H]]; [apply in_or_app; right; now right|discriminate|].
    exfalso. apply (SI r _ H). cbn. now rewrite app_nil_r.
Qed.
Theorem mode_irrelevant {X} : forall edges edges' (g : nat -> option (X -> option X)) programs programs' sched sched' tr s tr' s' tr1 t n p tr2 t1 f1 tr3 o x tr1' t' n' tr2' t1' f1' tr3' o',
  same_connections edges edges' ->
  run edges (@stateless X unit g) sched (initial (fun _ => tt) programs) = (tr, s) -> tr = tr1 ++ ECall t n (OFlushConsumers p) :: tr2 ++ EReturn t1 n f1 :: tr3 -> sent tr1 o p x -> over tr1 o [] p -> no_exception o (tr1 ++ ECall t n (OFlushConsumers p) :: tr2) ->
  run edges' (@stateless X unit g) sched' (initial (fun _ => tt) programs') = (tr', s') -> tr' = tr1' ++ ECall t' n' (OFlushConsumers p) :: tr2' ++ EReturn t1' n' f1' :: tr3' -> sent tr1' o' p x -> over tr1' o' [] p -> no_exception o' (tr1' ++ ECall t' n' (OFlushConsumers p) :: tr2') ->
  Permutation (consumed_from o tr) (consumed_from o' tr').
Proof.
  intros edges edges' g programs programs' sched sched' tr s tr' s' tr1 t n p tr2 t1 f1 tr3 o x tr1' t' n' tr2' t1' f1' tr3' o' SC RUN Q HS HO NE RUN' Q' HS' HO' NE'.
  destruct (consumed_members _ _ _ _ _ _ _ _ _ _ _ _ _ _ _ _ RUN Q HS HO NE) as [N1 M1]. destruct (consumed_members _ _ _ _ _ _ _ _ _ _ _ _ _ _ _ _ RUN' Q' HS' HO' NE') as [N2 M2].
  apply NoDup_Permutation; auto. intros [r [c y]]. rewrite M1, M2, (same_arrives _ _ _ _ _ SC). reflexivity.
Qed.
