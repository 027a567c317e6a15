(** How samples travel: every sample that is issued is delivered over every connection exactly once, on valid paths, with the right value. *)
From Verif Require Import Prelude ANetModel ANetBase ANetInv ANetSpec.
Local Open Scope nat_scope.

Section Flow.
Context {X St : Type}.
Variable edges : list edge.
Variable filt : nat -> option (St -> X -> St * option X).
Variable s0 : nat -> St.
Variable programs : list (list (op X)).
Implicit Types (s : state X St) (k : list (instr X)) (i j : instr X) (tr : list (event X)).
Notation exec1 := (exec1 edges filt).
Notation step := (step edges filt).
Notation reach := (reach edges filt s0 programs).
Notation slots := (slots edges).

Lemma cnt_two : forall (f : event X -> nat) tr e1 e2, In e1 tr -> In e2 tr -> 0 < f e1 -> 0 < f e2 -> cnt f tr <= 1 -> e1 = e2.
Proof.
  intros f tr. induction tr as [|a tr IH]; intros e1 e2 H1 H2 P1 P2 C; [destruct H1|].
  unfold cnt in C. cbn [map] in C. change (f a + cnt f tr <= 1) in C.
  destruct H1 as [<-|H1], H2 as [<-|H2]; auto.
  - pose proof (cnt_in f _ _ H2). lia.
  - pose proof (cnt_in f _ _ H1). lia.
  - apply IH; auto. lia.
Qed.
Lemma call_unique : forall tr s t o n t' o', reach tr s -> In (ECall t n o) tr -> In (ECall t' n o') tr -> t = t' /\ o = o'.
Proof.
  intros tr s t o n t' o' R H H'. assert (E : ECall t n o = ECall t' n o').
  { apply (cnt_two (called n) tr); auto; cbn [called]; rewrite ?Nat.eqb_refl; cbn; try lia.
    destruct (call_reach _ _ _ _ _ _ R n) as [_ ->]. apply b2n_le. }
  injection E; auto.
Qed.
Lemma sent_unique : forall tr s o p x p' x', reach tr s -> sent tr o p x -> sent tr o p' x' -> p = p' /\ x = x'.
Proof. intros tr s o p x p' x' R (t & H) (t' & H'). destruct (call_unique _ _ _ _ _ _ _ R H H') as [_ E]. injection E; auto. Qed.
Lemma sent_app : forall tr tr' o p x, sent tr o p x -> sent (tr ++ tr') o p x.
Proof. intros tr tr' o p x (t & H). exists t. apply in_or_app; now left. Qed.

(** ** Paths *)
Inductive okp (p : nat) : trail -> nat -> Prop :=
| okp0 : okp p [] p
| okpS a e r : okp p r (g_from e) -> nth_error edges a = Some e -> (r <> [] -> filt (g_from e) <> None) -> okp p (a :: r) (g_to e).
Lemma okp_fun : forall p r c, okp p r c -> forall c', okp p r c' -> c = c'.
Proof. intros p r c H c' H'. destruct H; inversion H'; subst; [reflexivity|congruence]. Qed.
Lemma okp_app : forall p u r c, okp p (u ++ r) c -> exists q, okp p r q /\ okp q u c /\ (u <> [] -> r <> [] -> filt q <> None).
Proof.
  intros p u r. induction u as [|a u IH]; intros c H; cbn [app] in H.
  - exists c. repeat split; [assumption|constructor|congruence].
  - inversion H as [|? e ? H1 H2 H3]; subst. destruct (IH _ H1) as (q & A1 & A2 & A3). exists q. split; [assumption|]. split.
    + constructor; [assumption..|]. intros N. apply H3. intros E. apply app_eq_nil in E as [E _]. contradiction.
    + intros _ N. destruct u as [|b u]; [|apply A3; [discriminate|assumption]]. cbn in H1. rewrite (okp_fun _ _ _ A1 _ H1). now apply H3.
Qed.
(** The valid paths of a label. *)
Definition at_ tr (l : label) (c : nat) := exists q x, sent tr (fst l) q x /\ okp q (snd l) c.
Definition mode_is (r : trail) (m : mode) := match r with a :: _ => exists e, nth_error edges a = Some e /\ g_mode e = m | [] => False end.
Definition flush_at tr (n : nat) (r : trail) (c : nat) :=
  exists t q, okp q r c /\ ((In (ECall t n (OFlushConsumers q)) tr /\ r <> []) \/ In (ECall t n (OFlush q)) tr).
Definition placed tr j : Prop :=
  match j with
  | IEmit l p _ => at_ tr l p /\ (snd l <> [] -> filt p <> None)
  | ISlot l c m _ => at_ tr l c /\ mode_is (snd l) m
  | IAsync l c _ => at_ tr l c /\ mode_is (snd l) Async
  | IConsume l c _ => at_ tr l c /\ snd l <> []
  | IEnd l c d => at_ tr l c /\ mode_is (snd l) (match d with Some _ => Async | None => Sync end)
  | IReturn n o => exists t, In (ECall t n o) tr
  | IEmitFlush n r p => (flush_at tr n r p /\ filt p <> None) \/ (exists t, In (ECall t n (OFlushConsumers p)) tr /\ r = [])
  | ISlotFlush n r c | IFlush n r c | IWaits n r c _ => flush_at tr n r c
  | _ => True
  end.
Lemma at_app : forall tr tr' l c, at_ tr l c -> at_ (tr ++ tr') l c.
Proof. intros tr tr' l c (q & x & H & K). exists q, x. split; [now apply sent_app|assumption]. Qed.
Lemma flush_at_app : forall tr tr' n r c, flush_at tr n r c -> flush_at (tr ++ tr') n r c.
Proof. intros tr tr' n r c (t & q & H & K). exists t, q. split; [assumption|]. destruct K as [[K N]|K]; [left; split; [|assumption]|right]; apply in_or_app; now left. Qed.
Lemma placed_app : forall tr tr' j, placed tr j -> placed (tr ++ tr') j.
Proof.
  intros tr tr' j H. destruct j; cbn [placed] in *; try exact I; try (destruct H; split; [now apply at_app|assumption]); try now apply flush_at_app.
  - destruct H as [t H]. exists t. apply in_or_app; now left.
  - destruct H as [[H K]|(t & H & K)]; [left; split; [now apply flush_at_app|assumption]|]. right. exists t. split; [apply in_or_app; now left|assumption].
Qed.
Lemma at_next : forall tr l a e c, at_ tr l c -> nth_error edges a = Some e -> g_from e = c -> (snd l <> [] -> filt c <> None) -> at_ tr (fst l, a :: snd l) (g_to e).
Proof. intros tr l a e c (q & x & H & K) E F N. exists q, x. split; [assumption|]. cbn [snd]. subst c. now constructor. Qed.
Lemma placed_reach : forall tr s, reach tr s -> all (placed tr) s.
Proof.
  induction 1 as [|tr s im t ev s' R IH E].
  - intros j (k & Hk & Hj). cbn in Hk. apply in_map_iff in Hk as (p & <- & _). apply in_map_iff in Hj as (o & <- & _). exact I.
  - apply (all_step edges filt (placed (tr ++ [ev])) im t s ev s'); [|intros j Hj; apply placed_app; now apply IH|exact E].
    intros i k e sp s1 Hk NT HP EXC X1 j Hj. assert (HP' : placed (tr ++ [ev]) i) by assumption. clear HP.
    exec_cases X1; try destruct o; unfold code, consume_code in Hj; cbn [app concat In] in Hj; rewrite ?app_nil_r in Hj;
      try (apply in_map_iff in Hj; destruct Hj as ([a e] & <- & Hj); apply in_slots in Hj; destruct Hj as [Hj1 Hj2]; cbn [fst snd]);
      repeat (destruct Hj as [<-|Hj]); try contradiction; cbn [placed] in *; try exact I; try assumption; try tauto.
    + split; [|easy]. exists p, x. split; [|constructor]. exists t. apply in_or_app; right; now left.
    + exists t. apply in_or_app; right; now left.
    + right. exists t. split; [apply in_or_app; right; now left|reflexivity].
    + exists t. apply in_or_app; right; now left.
    + exists t, c. split; [constructor|]. right. apply in_or_app; right; now left.
    + exists t. apply in_or_app; right; now left.
    + destruct HP' as [H1 H2]. cbn [snd]. split; [eapply at_next; eauto|]. exists e. now split.
    + destruct HP' as [H1 H2]. split; [assumption|]. intros E0. rewrite E0 in H2. exact H2.
    + destruct HP' as [H1 H2]. split; [assumption|]. intros E0. rewrite E0 in H2. exact H2.
    + destruct HP' as [H1 H2]. split; [assumption|]. intros E0. rewrite E0 in H2. exact H2.
    + destruct HP' as [H1 H2]. split; [assumption|]. congruence.
    + destruct HP' as [H1 H2]. split; [assumption|]. congruence.
    + destruct HP' as [[(t' & q & H1 & H2) H3]|(t' & H1 & ->)].
      * exists t', q. split; [subst p; constructor; auto|]. destruct H2 as [[H2 H4]|H2]; [left; split; [assumption|discriminate]|now right].
      * exists t', p. split; [subst p; constructor; [constructor|assumption|congruence]|]. left. split; [assumption|discriminate].
    + left. split; [assumption|congruence].
Qed.

(** ** Counting what happens to the sample with one label *)
Lemma is_label_true : forall l l', is_label l l' = true <-> l = l'.
Proof.
  intros [o r] [o' r']. unfold is_label. cbn [fst snd]. destruct (list_eq_dec Nat.eq_dec r r') as [->|N].
  - rewrite Nat.eqb_eq. split; congruence.
  - split; [discriminate|congruence].
Qed.
Lemma is_label_refl : forall l, is_label l l = true.
Proof. intros l. now apply is_label_true. Qed.
Lemma is_label_cons : forall o a r o' a' r', is_label (o, a :: r) (o', a' :: r') = (a =? a') && is_label (o, r) (o', r').
Proof.
  intros. destruct (is_label (o, a :: r) (o', a' :: r')) eqn:E.
  - apply is_label_true in E. injection E as -> -> ->. now rewrite Nat.eqb_refl, is_label_refl.
  - destruct (Nat.eqb_spec a a') as [->|]; [|reflexivity]. destruct (is_label (o, r) (o', r')) eqn:E'; [|reflexivity]. apply is_label_true in E'. injection E' as -> ->.
    now rewrite is_label_refl in E.
Qed.
Lemma times_cnt : forall P tr, times P tr = cnt (fun e : event X => b2n (P e)) tr.
Proof. intros P tr. unfold times. induction tr as [|e tr IH]; [reflexivity|]. unfold cnt in *. cbn [filter map]. cbn [list_sum fold_right]. destruct (P e); cbn [length b2n]; unfold list_sum in IH; lia. Qed.

Definition w_coming (l : label) i : nat := match i with ISlot l' _ _ _ | IAsync l' _ _ | IConsume l' _ _ => b2n (is_label l l') | _ => 0 end.
Definition w_issue (l : label) i : nat := match i with IEmit l' _ _ => b2n (is_label l l') | _ => 0 end.
Definition w_end (l : label) i : nat := match i with IEnd l' _ _ => b2n (is_label l l') | _ => 0 end.
Definition w_begin (l : label) i : nat := match i with IConsume l' _ _ => b2n (is_label l l') | _ => 0 end.
Definition from (a p : nat) : bool := match nth_error edges a with Some e => g_from e =? p | None => false end.
(** The slot is not called because of an exception, or std::async throws. *)
Definition passed_by (l : label) (e : event X) : nat := match e with ESkip _ l' _ | ERefuse _ l' _ => b2n (is_label l l') | _ => 0 end.
Definition goes_over (l : label) (e : event X) : nat :=
  match e, snd l with EIssue _ l' p _, a :: r => b2n (is_label (fst l, r) l' && from a p) | _, _ => 0 end.
Definition sends (l : label) (e : event X) : nat := match e with ECall _ n (OSend _ _) => b2n (is_label l (n, [])) | _ => 0 end.

Ltac split_step R NT X1 :=
  let P := fresh "P" in pose proof X1 as P; eapply exec_split in P; [|exact R|exact NT];
  destruct P as [[EXC P]|(EXC & -> & -> & lu & U1 & U2 & U)]; [clear X1; rename P into X1|].
Ltac wsimp := unfold code, consume_code in *; rewrite ?wts_cons, ?wts_nil, ?wt_app, ?wt_cons, ?wt_nil in *;
  cbn [new_call set_lock set_queue set_stat new_task set_st set_exc a_lock a_queue a_stat a_next a_calls a_st holds b2n app] in *;
  repeat match goal with T : context [wt _ (map _ (slots _))] |- _ => rewrite wt_map0 in T by reflexivity end.
Ltac step_cases E w :=
  let i := fresh "i" in let e := fresh "e" in let sp := fresh "sp" in let s1 := fresh "s1" in let X1 := fresh "X1" in let T := fresh "T" in
  let k := fresh "k" in let Hk := fresh "Hk" in let NT := fresh "NT" in
  destruct (tot_step edges filt w _ _ _ _ _ E) as (i & e & sp & s1 & X1 & T & (k & Hk & NT) & HLock & HQueue & HStat & HNext & HCalls & HSt);
  rewrite ?HLock, ?HQueue, ?HStat, ?HNext, ?HCalls, ?HSt in *; clear HLock HQueue HStat HNext HCalls HSt.

Lemma count_slots : forall o a r l p x,
  wt (w_coming (o, a :: r)) (map (fun ie : nat * edge => ISlot (fst l, fst ie :: snd l) (g_to (snd ie)) (g_mode (snd ie)) x) (slots p)) = b2n (is_label (o, r) l && from a p).
Proof.
  intros o a r l p x.
  assert (G : forall L : list (nat * edge), NoDup (map fst L) ->
    wt (w_coming (o, a :: r)) (map (fun ie : nat * edge => ISlot (fst l, fst ie :: snd l) (g_to (snd ie)) (g_mode (snd ie)) x) L)
    = b2n (is_label (o, r) l && existsb (fun ie => fst ie =? a) L)).
  { induction L as [|[b e] L IH]; intros ND; [now rewrite andb_false_r|]. cbn [map] in *. rewrite wt_cons. cbn [w_coming fst snd existsb].
    inversion ND as [|? ? N1 N2]; subst. rewrite IH by assumption. rewrite is_label_cons. destruct l as [o' r']. cbn [fst snd] in *. rewrite (Nat.eqb_sym a b).
    destruct (Nat.eqb_spec b a) as [->|]; cbn [andb orb b2n]; [|lia].
    assert (F : existsb (fun ie : nat * edge => fst ie =? a) L = false).
    { destruct (existsb _ L) eqn:EX; [|reflexivity]. exfalso. apply existsb_exists in EX as ([a' e'] & H1 & H2). cbn in H2. apply Nat.eqb_eq in H2. subst. apply N1. apply in_map_iff. now exists (a, e'). }
    rewrite F. rewrite andb_true_r, andb_false_r. cbn. lia. }
  rewrite G by apply slots_nodup. f_equal. f_equal. unfold from. destruct (nth_error edges a) as [e|] eqn:E.
  - destruct (existsb _ _) eqn:EX.
    + apply existsb_exists in EX as ([a' e'] & H1 & H2). cbn in H2. apply Nat.eqb_eq in H2. subst a'. apply in_slots in H1 as [H1 H2]. rewrite E in H1. injection H1 as ->. symmetry. now apply Nat.eqb_eq.
    + symmetry. apply Nat.eqb_neq. intros <-. assert (C : existsb (fun ie : nat * edge => fst ie =? a) (slots (g_from e)) = true).
      { apply existsb_exists. exists (a, e). split; [now apply in_slots|apply Nat.eqb_refl]. } congruence.
  - destruct (existsb _ _) eqn:EX; [|reflexivity]. apply existsb_exists in EX as ([a' e'] & H1 & H2). cbn in H2. apply Nat.eqb_eq in H2. subst a'. apply in_slots in H1 as [H1 _]. congruence.
Qed.
Lemma coming_reach : forall tr s, reach tr s -> forall o a r,
  tot (w_coming (o, a :: r)) s + cnt (fun e => b2n (starts (o, a :: r) e)) tr + cnt (passed_by (o, a :: r)) tr = cnt (goes_over (o, a :: r)) tr.
Proof.
  induction 1 as [|tr s im t ev s' R IH E]; intros o a r; [rewrite init_tot by reflexivity; reflexivity|].
  specialize (IH o a r). step_cases E (w_coming (o, a :: r)). rewrite !cnt_snoc.
  split_step R NT X1; [|destruct U; wsimp; cbn [w_coming starts goes_over passed_by b2n fst snd] in *; lia].
  exec_cases X1; try destruct o0; wsimp; cbn [w_coming starts goes_over passed_by b2n fst snd] in *; rewrite ?count_slots in *; lia.
Qed.
Lemma issue_reach : forall tr s, reach tr s -> forall l,
  tot (w_issue l) s + cnt (fun e => b2n (issues l e)) tr <= cnt (fun e => b2n (starts l e)) tr + cnt (sends l) tr.
Proof.
  induction 1 as [|tr s im t ev s' R IH E]; intros l; [rewrite init_tot by reflexivity; cbn; lia|].
  specialize (IH l). step_cases E (w_issue l). rewrite !cnt_snoc.
  split_step R NT X1; [|destruct U; wsimp; cbn [w_issue starts issues sends b2n] in *; lia].
  exec_cases X1; try destruct o; wsimp; cbn [w_issue starts issues sends b2n] in *; lia.
Qed.
Lemma end_reach : forall tr s, reach tr s -> forall l,
  tot (w_end l) s + cnt (fun e => b2n (finishes l e)) tr = tot (w_begin l) s + cnt (fun e => b2n (starts l e)) tr.
Proof.
  induction 1 as [|tr s im t ev s' R IH E]; intros l; [rewrite !init_tot by reflexivity; reflexivity|].
  specialize (IH l). rewrite !cnt_snoc.
  destruct (step_inv _ _ _ _ _ _ _ E) as (A & i & k & B & e & sp & s1 & Q & L & X1 & ->). unfold tot in *. rewrite Q in IH. cbn [set_threads a_threads].
  rewrite ?wts_app, ?wts_cons, ?wts_app, ?wt_app, ?wt_cons in *. pose proof (mid_nth _ _ _ _ _ Q L) as NT.
  split_step R NT X1; [|destruct U; wsimp; cbn [w_end w_begin starts finishes b2n] in *; lia].
  exec_cases X1; try destruct o; wsimp; cbn [w_end w_begin starts finishes b2n] in *; try lia.
  all: rewrite ?(wt_map0 (w_end l)), ?(wt_map0 (w_begin l)) by reflexivity; lia.
Qed.
Lemma send_once : forall tr s, reach tr s -> forall l, cnt (sends l) tr <= 1.
Proof.
  intros tr s R [o r]. destruct (call_reach _ _ _ _ _ _ R o) as [_ C]. pose proof (b2n_le (o <? a_calls s)) as B. rewrite <- C in B. clear C. etransitivity; [|exact B]. clear B R.
  unfold cnt. induction tr as [|e tr IH]; [cbn; lia|]. cbn [map]. cbn [list_sum fold_right]. apply Nat.add_le_mono; [|exact IH].
  destruct e as [? n [] | | | | | | | | | |]; cbn [sends called]; try lia. destruct (is_label (o, r) (n, [])) eqn:E; [|cbn; lia]. apply is_label_true in E. injection E as -> ->. rewrite Nat.eqb_refl. lia.
Qed.

(** ** Where samples come from *)
Definition arrived tr (l : label) (c : nat) (x : X) := exists o a r e t, l = (o, a :: r) /\ nth_error edges a = Some e /\ g_to e = c /\ In (EIssue t (o, r) (g_from e) x) tr.
Definition outputs tr (f : St -> X -> St * option X) (c : nat) := snd (replay f c (s0 c) tr).
Definition given tr (l : label) (p : nat) (y : X) :=
  match snd l with [] => sent tr (fst l) p y | _ => exists f, filt p = Some f /\ In (l, y) (outputs tr f p) end.
Definition sound tr j : Prop :=
  match j with
  | ISlot l c _ x | IAsync l c x | IConsume l c x => arrived tr l c x
  | IEmit l p y => given tr l p y
  | _ => True
  end.
Definition sound_event tr (e : event X) : Prop :=
  match e with
  | EStart _ l c x | EFail _ l c x => arrived tr l c x
  | EIssue _ l p y => given tr l p y
  | EEnd _ l c | EAbort _ l c | ERefuse _ l c => at_ tr l c /\ snd l <> []
  | EReturn _ n o | EThrew _ n o => exists t, In (ECall t n o) tr
  | _ => True
  end.
Lemma replay_app : forall f c tr v tr', replay f c v (tr ++ tr') = let (w, o1) := replay f c v tr in let (w', o2) := replay f c w tr' in (w', o1 ++ o2) :> St * list (label * X).
Proof.
  intros f c. induction tr as [|e tr IH]; intros v tr'; cbn [app replay].
  - now destruct (replay f c v tr').
  - destruct e as [| | | | t l c' x | | | | | |]; try apply IH. destruct (c' =? c); [|apply IH]. destruct (f v x) as [v' o]. rewrite IH.
    destruct (replay f c v' tr) as [w o1]. destruct (replay f c w tr') as [w' o2]. now destruct o.
Qed.
Lemma arrived_app : forall tr tr' l c x, arrived tr l c x -> arrived (tr ++ tr') l c x.
Proof. intros tr tr' l c x (o & a & r & e & t & H1 & H2 & H3 & H4). exists o, a, r, e, t. repeat split; auto. apply in_or_app; now left. Qed.
Lemma outputs_app : forall tr tr' f c z, In z (outputs tr f c) -> In z (outputs (tr ++ tr') f c).
Proof. intros tr tr' f c z H. unfold outputs in *. rewrite replay_app. destruct (replay f c (s0 c) tr) as [w o1]. destruct (replay f c w tr'). cbn in *. apply in_or_app; now left. Qed.
Lemma given_app : forall tr tr' l p y, given tr l p y -> given (tr ++ tr') l p y.
Proof. intros tr tr' l p y H. unfold given in *. destruct (snd l); [now apply sent_app|]. destruct H as (f & F & H). exists f. split; [assumption|now apply outputs_app]. Qed.
Lemma sound_app : forall tr tr' j, sound tr j -> sound (tr ++ tr') j.
Proof. intros tr tr' j H. destruct j; cbn [sound] in *; try exact I; try now apply arrived_app. now apply given_app. Qed.
Lemma sound_event_app : forall tr tr' e, sound_event tr e -> sound_event (tr ++ tr') e.
Proof. intros tr tr' e H. destruct e; cbn [sound_event] in *; try exact I; try (now apply given_app); try (now apply arrived_app); try (destruct H; split; [now apply at_app|assumption]);
  destruct H as [t' H]; exists t'; apply in_or_app; now left. Qed.
Lemma st_reach : forall tr s, reach tr s -> forall c f, filt c = Some f -> a_st s c = fst (replay f c (s0 c) tr).
Proof.
  induction 1 as [|tr s im t ev s' R IH E]; intros c f F; [reflexivity|]. specialize (IH c f F). rewrite replay_app. destruct (replay f c (s0 c) tr) as [w o1]. cbn [fst] in IH. subst w.
  step_cases E (fun _ : instr X => 0). clear T.
  split_step R NT X1; [|destruct U; wsimp; reflexivity].
  exec_cases X1; wsimp; cbn [replay]; try reflexivity; try (destruct d; reflexivity).
  - destruct (Nat.eqb_spec c c0) as [EQ|EQ], (Nat.eqb_spec c0 c) as [EQ'|EQ']; try congruence; try reflexivity; [subst c0]. match goal with H : filt c = Some ?z |- _ => rewrite F in H; injection H as <- end. match goal with H : f _ _ = _ |- _ => rewrite H end. reflexivity.
  - destruct (Nat.eqb_spec c c0) as [EQ|EQ], (Nat.eqb_spec c0 c) as [EQ'|EQ']; try congruence; try reflexivity; [subst c0]. match goal with H : filt c = Some ?z |- _ => rewrite F in H; injection H as <- end. match goal with H : f _ _ = _ |- _ => rewrite H end. reflexivity.
  - destruct (Nat.eqb_spec c0 c); [subst; congruence|reflexivity].
Qed.
Lemma init_all : forall P : instr X -> Prop, (forall o, P (ICall o)) -> all P (initial s0 programs).
Proof. intros P H j (k & Hk & Hj). cbn in Hk. apply in_map_iff in Hk as (p & <- & _). apply in_map_iff in Hj as (o & <- & _). apply H. Qed.
Lemma sound_reach : forall tr s, reach tr s -> all (sound tr) s /\ Forall (sound_event tr) tr.
Proof.
  induction 1 as [|tr s im t ev s' R IH E]; [split; [now apply init_all|constructor]|]. destruct IH as [IH1 IH2]. split.
  - apply (all_step edges filt (sound (tr ++ [ev])) im t s ev s'); [|intros j Hj; apply sound_app; now apply IH1|exact E].
    intros i k e sp s1 Hk NT _ EXC X1 j Hj. pose proof (IH1 _ (head_somewhere _ _ _ Hk)) as HP. pose proof (placed_reach _ _ R _ (head_somewhere _ _ _ Hk)) as HW.
    pose proof (st_reach _ _ R) as HST.
    exec_cases X1; try (match goal with o : op X |- _ => destruct o end); unfold code, consume_code in Hj; cbn [app concat In] in Hj; rewrite ?app_nil_r in Hj;
      try (apply in_map_iff in Hj; destruct Hj as ([a e] & <- & Hj); apply in_slots in Hj; destruct Hj as [Hj1 Hj2]; cbn [fst snd]);
      repeat (destruct Hj as [<-|Hj]); try contradiction; try exact I; try (apply sound_app; exact HP).
    + exists t. apply in_or_app; right; now left.
    + exists (fst l), a, (snd l), e, t. repeat split; auto. subst p. apply in_or_app; right. left. now destruct l.
    + cbn [sound]. unfold given. destruct HW as [_ HW]. destruct (snd l) as [|a r] eqn:SL; [congruence|].
      match goal with H : filt c = Some ?z |- _ => exists z; split; [exact H|]; specialize (HST _ _ H) end. unfold outputs. rewrite replay_app.
      destruct (replay _ c (s0 c) tr) as [w o1] eqn:RE. cbn [replay]. rewrite Nat.eqb_refl. cbn [fst] in HST. subst w.
      match goal with H : _ (a_st s c) x = _ |- _ => rewrite H end. cbn. apply in_or_app; right; now left.
  - apply Forall_app; split; [eapply Forall_impl; [|exact IH2]; intros; now apply sound_event_app|]. constructor; [|constructor]. apply sound_event_app.
    destruct (step_inv _ _ _ _ _ _ _ E) as (A & i & k & B & e & sp & s1 & Q & L & X1 & _).
    assert (HI : somewhere s i) by (exists (i :: k); split; [rewrite Q; apply in_or_app; right; now left|now left]).
    pose proof (IH1 _ HI) as HP. pose proof (placed_reach _ _ R _ HI) as HW. pose proof (mid_nth _ _ _ _ _ Q L) as NT.
    split_step R NT X1.
    2:{ destruct U; cbn [sound_event] in *; try exact I; try assumption; destruct HW as [HW1 HW2]; (split; [assumption|discriminate]). }
    exec_cases X1; try exact I; try assumption.
    all: destruct HW as [HW1 HW2]; split; [assumption|]; intros E0; rewrite E0 in HW2; exact HW2.
Qed.
Lemma sound_in : forall tr s e, reach tr s -> In e tr -> sound_event tr e.
Proof. intros tr s e R H. destruct (sound_reach _ _ R) as [_ F]. rewrite Forall_forall in F. now apply F. Qed.

(** ** Every label at most once *)
Lemma no_root_start : forall tr s, reach tr s -> forall o, cnt (fun e => b2n (starts (o, []) e)) tr = 0.
Proof.
  intros tr s R o. destruct (cnt _ tr) eqn:E; [reflexivity|]. destruct (cnt_pos (fun e : event X => b2n (starts (o, []) e)) tr) as (e & He & P); [lia|].
  pose proof (sound_in _ _ _ R He) as S'. destruct e; cbn in P; try lia; (destruct (is_label (o, []) l) eqn:EL; [|cbn in P; lia]); apply is_label_true in EL; subst l;
  destruct S' as (? & ? & ? & ? & ? & S' & _); discriminate.
Qed.
Lemma once : forall tr s, reach tr s -> forall o r, cnt (fun e => b2n (starts (o, r) e)) tr <= 1 /\ cnt (fun e => b2n (issues (o, r) e)) tr <= 1.
Proof.
  intros tr s R o. induction r as [|a r IH].
  - pose proof (no_root_start _ _ R o) as N. split; [lia|]. pose proof (issue_reach _ _ R (o, [])) as H. pose proof (send_once _ _ R (o, [])). lia.
  - destruct IH as [_ IH]. pose proof (coming_reach _ _ R o a r) as C.
    assert (G : cnt (goes_over (o, a :: r)) tr <= cnt (fun e => b2n (issues (o, r) e)) tr).
    { clear. unfold cnt. induction tr as [|e tr IH]; [cbn; lia|]. cbn [map]. cbn [list_sum fold_right]. apply Nat.add_le_mono; [|exact IH]. destruct e; cbn; try lia. destruct (is_label (o, r) l); cbn; [|lia]. apply b2n_le. }
    assert (S1 : cnt (fun e => b2n (starts (o, a :: r) e)) tr <= 1) by lia. split; [assumption|].
    pose proof (issue_reach _ _ R (o, a :: r)) as H.
    assert (Z : cnt (sends (o, a :: r)) tr = 0).
    { destruct (cnt (sends (o, a :: r)) tr) eqn:E; [reflexivity|]. destruct (cnt_pos (sends (o, a :: r)) tr) as (e & He & P); [lia|]. destruct e as [? ? []| | | | | | | | | |]; cbn in P; try lia.
      }
    lia.
Qed.
(** A sample whose consume() is over is not open any more. *)
Lemma ended_closed : forall tr s ev l, reach tr s -> In ev tr -> finishes l ev = true -> snd l <> [] -> forall j, somewhere s j -> ~ closes j l.
Proof.
  intros tr s ev l R H HF SN j Hj C.
  destruct j; cbn in C; try contradiction.
  - destruct o; try contradiction. subst l. now apply SN.
  - subst l0. pose proof (end_reach _ _ R l) as E. destruct l as [o r]. pose proof (once _ _ R o r) as [O1 _].
    pose proof (tot_ge (w_end (o, r)) _ _ Hj) as G1. cbn [w_end] in G1. rewrite is_label_refl in G1. cbn in G1.
    pose proof (cnt_in (fun e => b2n (finishes (o, r) e)) _ _ H) as G2. cbn beta in G2. rewrite HF in G2. cbn in G2.
    assert (G3 : tot (w_begin (o, r)) s + cnt (fun e => b2n (starts (o, r) e)) tr <= 1); [|lia].
    destruct r as [|a r]; [now elim SN|].
    pose proof (coming_reach _ _ R o a r) as CR. pose proof (once _ _ R o r) as [_ O2].
    assert (G : cnt (goes_over (o, a :: r)) tr <= cnt (fun e => b2n (issues (o, r) e)) tr).
    { clear. unfold cnt. induction tr as [|e tr IH]; [cbn; lia|]. cbn [map]. cbn [list_sum fold_right]. apply Nat.add_le_mono; [|exact IH]. destruct e; cbn; try lia. destruct (is_label (o, r) l); cbn; [|lia]. apply b2n_le. }
    assert (W : tot (w_begin (o, a :: r)) s <= tot (w_coming (o, a :: r)) s).
    { clear. unfold tot. induction (a_threads s) as [|k ks IH]; [reflexivity|]. rewrite !wts_cons. apply Nat.add_le_mono; [|exact IH]. induction k as [|i k IHk]; [reflexivity|]. rewrite !wt_cons. apply Nat.add_le_mono; [|exact IHk].
      destruct i; cbn; lia. }
    lia.
Qed.
Lemma returned_closed : forall tr s ev n, reach tr s -> In ev tr -> returned n ev = 1 -> forall j, somewhere s j -> ~ closes j (n, []).
Proof.
  intros tr s ev n R H HV j Hj C.
  destruct (call_reach _ _ _ _ _ _ R n) as [C1 C2]. pose proof (b2n_le (n <? a_calls s)) as B.
  pose proof (cnt_in (returned n) _ _ H) as G1. rewrite HV in G1.
  destruct j; cbn in C; try contradiction.
  - destruct o; try contradiction. injection C as <-. pose proof (tot_ge (returns n) _ _ Hj) as G2. cbn [returns] in G2. rewrite Nat.eqb_refl in G2. cbn in G2. lia.
  - subst l. pose proof (placed_reach _ _ R _ Hj) as [_ W]. exact W.
Qed.
Lemma over_closed : forall tr s o b p, reach tr s -> over tr o b p -> forall j, somewhere s j -> ~ closes j (o, b).
Proof.
  intros tr s o b p R H. destruct b as [|a b].
  - destruct H as (t & x & [H|H]); (eapply returned_closed; [exact R|exact H|]); cbn; now rewrite Nat.eqb_refl.
  - destruct H as (t & [H|H]); (eapply ended_closed; [exact R|exact H|apply is_label_refl|discriminate]).
Qed.
Lemma over_at : forall tr s o b p, reach tr s -> over tr o b p -> at_ tr (o, b) p.
Proof.
  intros tr s o b p R H. destruct b as [|a b].
  - destruct H as (t & x & [H|H]); (destruct (sound_in _ _ _ R H) as (t' & H'); exists p, x; split; [now exists t'|constructor]).
  - destruct H as (t & [H|H]); now destruct (sound_in _ _ _ R H) as [H' _].
Qed.
End Flow.
