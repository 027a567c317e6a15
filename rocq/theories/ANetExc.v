(** Where exceptions go, and what they prevent. *)
From Verif Require Import Prelude ANetModel ANetBase ANetInv ANetSpec ANetFlow ANetFlush.
Local Open Scope nat_scope.

Section Exc.
Context {X St : Type}.
Variable edges : list edge.
Variable filt : nat -> option (St -> X -> St * option X).
Variable s0 : nat -> St.
Variable programs : list (list (op X)).
Implicit Types (s : state X St) (k : list (instr X)) (i j : instr X) (tr : list (event X)).
Notation exec1 := (exec1 edges filt).
Notation step := (step edges filt).
Notation reach := (reach edges filt s0 programs).
Notation unwinding := (unwinding edges).
Notation cause := (cause edges).
Ltac split_step R NT X1 :=
  let P := fresh "P" in pose proof X1 as P; eapply exec_split in P; [|exact R|exact NT];
  destruct P as [[EXC P]|(EXC & -> & -> & lu & U1 & U2 & U)]; [clear X1; rename P into X1|].

(** ** What events tell *)
Definition exc_event tr (e : event X) : Prop :=
  match e with
  | ESkip _ l _ => exists a r a', snd l = a :: r /\ a' < a /\ slot_threw edges tr (fst l) (a' :: r)
  | EAbort _ l _ => cause tr l
  | EThrew _ n o => (exists p x, o = OSend p x) /\ cause tr (n, [])
  | _ => True
  end.
Lemma exc_event_app : forall tr tr' e, exc_event tr e -> exc_event (tr ++ tr') e.
Proof.
  intros tr tr' e H. destruct e; cbn [exc_event] in *; try exact I.
  - destruct H. split; [assumption|now apply cause_app].
  - now apply cause_app.
  - destruct H as (a & r & a' & H1 & H2 & H3). exists a, r, a'. repeat split; auto. now apply slot_threw_app.
Qed.
Lemma exc_events : forall tr s, reach tr s -> forall e, In e tr -> exc_event tr e.
Proof.
  induction 1 as [|tr s im t ev s' R IH E]; intros e0 H; [destruct H|]. apply exc_event_app. apply in_app_or in H as [H|[<-|[]]]; [now apply IH|].
  destruct (step_inv _ _ _ _ _ _ _ E) as (A & i & k & B & e & sp & s1 & Q & L & X1 & S'). pose proof (mid_nth _ _ _ _ _ Q L) as NT.
  split_step R NT X1; [exec_cases X1; exact I|].
  destruct U as [o r a c m x k H1 (a' & H2 & H3)|o a r ed x k|o a r ed d|n p x k]; cbn [exc_event fst snd]; auto.
  - exists a, r, a'. auto.
  - split; [now exists p, x|assumption].
Qed.
Lemma threw_raised : forall tr s o b, reach tr s -> slot_threw edges tr o b -> exists b', raised tr o b'.
Proof.
  intros tr s o [|a b] R H; [destruct H|]. destruct H as [(_ & t & c & H)|(t & c & H)].
  - destruct (exc_events _ _ R _ H) as (c' & _ & H'). exists (c' ++ a :: b). exact H'.
  - exists b. right. now exists a, t, c.
Qed.
Lemma passed_hindered : forall tr s o a r, reach tr s -> 0 < cnt (passed_by (o, a :: r)) tr -> hindered edges tr o a r.
Proof.
  intros tr s o a r R H. destruct (cnt_pos _ _ H) as (ev & H1 & H2). destruct ev; cbn in H2; try lia; (destruct (is_label (o, a :: r) l) eqn:EL; [|cbn in H2; lia]); apply is_label_true in EL; subst l.
  - left. now exists t, c.
  - right. destruct (exc_events _ _ R _ H1) as (a1 & r1 & a' & E & H3 & H4). cbn [fst snd] in *. injection E as <- <-. now exists a'.
Qed.
Lemma hindered_raised : forall tr s o a r, reach tr s -> hindered edges tr o a r -> exists b, raised tr o b.
Proof.
  intros tr s o a r R [(t & c & H)|(a' & _ & H)]; [exists r; right; now exists a, t, c|]. eapply threw_raised; eauto.
Qed.
Lemma issue_place : forall tr s, reach tr s -> forall t l p y, In (EIssue t l p y) tr -> at_ edges filt tr l p.
Proof.
  induction 1 as [|tr s im t ev s' R IH E]; intros t0 l p y H; [destruct H|]. apply at_app. apply in_app_or in H as [H|[->|[]]]; [eapply IH; eauto|].
  destruct (step_inv _ _ _ _ _ _ _ E) as (A & i & k & B & e & sp & s1 & Q & L & X1 & S'). pose proof (mid_nth _ _ _ _ _ Q L) as NT.
  assert (HI : somewhere s i) by (exists (i :: k); split; [rewrite Q; apply in_or_app; right; now left|now left]). pose proof (placed_reach _ _ _ _ _ _ R _ HI) as HW.
  split_step R NT X1; [|inversion U]. clear S' E. remember (EIssue t0 l p y) as ev0 eqn:EE. exec_cases X1; try discriminate EE. injection EE as _ <- <- <-. now destruct HW.
Qed.

(** ** The slots after one that was left by an exception are not called *)
Definition doomed s (o a : nat) (r : trail) := exists t x L k e, a_exc s t = true /\ nth_error (a_threads s) t = Some (slot_code (o, r) x L ++ k) /\ In (a, e) L.
Lemma threads_other : forall im t s ev s', step im t s = Some (ev, s') -> forall t0 k0, t0 <> t -> nth_error (a_threads s) t0 = Some k0 -> nth_error (a_threads s') t0 = Some k0 /\ a_exc s' t0 = a_exc s t0.
Proof.
  intros im t s ev s' E t0 k0 N H. destruct (step_inv _ _ _ _ _ _ _ E) as (A & i & k & B & e & sp & s1 & Q & L & X1 & ->). cbn [set_threads a_threads a_exc]. split.
  - rewrite <- H, Q. apply (nth_new A (i :: k) (e ++ k) B sp t); auto. rewrite <- Q. apply nth_error_Some. congruence.
  - exact (exec1_exc edges filt _ _ _ _ _ _ _ _ _ X1 N).
Qed.
Lemma in_rest : forall p a a' e, nth_error edges a = Some e -> g_from e = p -> a' < a -> In (a, e) (rest edges p a').
Proof. intros p a a' e H1 H2 H3. unfold rest. apply filter_In. split; [now apply in_slots|]. now apply Nat.ltb_lt. Qed.
Lemma doomed_reach : forall tr s, reach tr s -> forall o a' r a e' e, slot_threw edges tr o (a' :: r) -> nth_error edges a' = Some e' -> nth_error edges a = Some e -> g_from e = g_from e' -> a' < a ->
  0 < cnt (passed_by (o, a :: r)) tr \/ doomed s o a r.
Proof.
  induction 1 as [|tr s im t ev s' R IH E]; intros o a' r a e' e TH HE' HE HF LT.
  { destruct TH as [(_ & t & c & [])|(t & c & [])]. }
  destruct (step_inv _ _ _ _ _ _ _ E) as (A & i & k & B & e0 & sp & s1 & Q & L & X1 & S'). pose proof (mid_nth _ _ _ _ _ Q L) as NT.
  assert (HIn : In (i :: k) (a_threads s)) by (rewrite Q; apply in_or_app; right; now left).
  assert (NT' : nth_error (a_threads s') t = Some (e0 ++ k)) by (rewrite S'; cbn [set_threads a_threads]; rewrite <- L, nth_error_app2, Nat.sub_diag; [reflexivity|lia]).
  assert (EX' : a_exc s' = a_exc s1) by now rewrite S'.
  assert (D : slot_threw edges tr o (a' :: r) \/ (exists c, ev = EAbort t (o, a' :: r) c /\ synchronous edges [a']) \/ exists c, ev = ERefuse t (o, a' :: r) c).
  { assert (T : forall t0 l c, ev = EAbort t0 l c \/ ev = ERefuse t0 l c -> t0 = t).
    { intros t0 l c H. clear S' E EX' NT'. unfold ANetModel.exec1 in X1. destruct (a_exc s t).
      - unfold unwind in X1. destruct i; try destruct d; injection X1 as <- <- <- <-; destruct H as [H|H]; try discriminate H; injection H; congruence.
      - exec_cases X1; destruct H as [H|H]; try discriminate H; injection H; congruence. }
    destruct TH as [(SY & t0 & c & H)|(t0 & c & H)]; apply in_app_or in H as [H|[H|[]]].
    - left. left. split; [assumption|]. now exists t0, c.
    - right. left. exists c. rewrite (T t0 (o, a' :: r) c) in H by auto. now split.
    - left. right. now exists t0, c.
    - right. right. exists c. rewrite (T t0 (o, a' :: r) c) in H by auto. assumption. }
  destruct D as [D|D].
  - destruct (IH _ _ _ _ _ _ D HE' HE HF LT) as [P|(t0 & x & L0 & k0 & e1 & P1 & P2 & P3)]; [left; rewrite cnt_snoc; lia|].
    destruct (Nat.eq_dec t0 t) as [->|N].
    + rewrite NT in P2. injection P2 as P2. destruct L0 as [|[b eb] L0]; [destruct P3|]. cbn [slot_code map app] in P2. injection P2 as -> ->.
      unfold ANetModel.exec1 in X1. rewrite P1 in X1. cbn in X1. injection X1 as <- <- <- <-. cbn [app] in NT'. destruct P3 as [P3|P3].
      * injection P3 as <- <-. left. rewrite cnt_snoc. cbn [passed_by]. rewrite is_label_refl. cbn. lia.
      * right. exists t, x, L0, k0, e1. split; [now rewrite EX'|]. split; assumption.
    + right. destruct (threads_other _ _ _ _ _ E _ _ N P2) as [Q1 Q2]. exists t0, x, L0, k0, e1. split; [now rewrite Q2|]. split; assumption.
  - right. split_step R NT X1.
    + destruct D as [(c & -> & _)|(c & ->)]; clear S' E.
      * remember (EAbort t (o, a' :: r) c) as ev0 eqn:EE. exec_cases X1; discriminate EE.
      * destruct (stack_need _ _ _ _ _ _ _ _ R HIn) as [_ HN]. remember (ERefuse t (o, a' :: r) c) as ev0 eqn:EE. exec_cases X1; try discriminate EE. injection EE as -> <-.
        destruct HN as [_ (o1 & a1 & r1 & ed & k' & HL1 & HL2 & HL3 & HL4 & HL5 & HL6)]. injection HL1 as <- <- <-. rewrite HE' in HL2. injection HL2 as <-. cbn [app] in NT'. subst k.
        exists t, x, (rest edges (g_from e') a'), k', e. split; [rewrite EX'; cbn; now rewrite Nat.eqb_refl|]. split; [assumption|]. now apply in_rest.
    + clear L S' E Q. destruct D as [(c & -> & SY)|(c & ->)]; inversion U; subst.
      * match goal with H : nth_error edges a' = Some ?z |- _ => rewrite HE' in H; injection H as <- end. cbn [app] in NT'.
        match type of NT' with nth_error _ t = Some (slot_code _ ?x _ ++ ?k0) => exists t, x, (rest edges (g_from e') a'), k0, e end. split; [now rewrite EX'|]. split; [assumption|]. now apply in_rest.
      * inversion SY as [|? ? (ed & S1 & S2) _]; subst. congruence.
Qed.
Lemma hindered_not_started : forall tr s o a r e t p y, reach tr s -> In (EIssue t (o, r) p y) tr -> nth_error edges a = Some e -> g_from e = p -> hindered edges tr o a r ->
  cnt (fun e => b2n (starts (o, a :: r) e)) tr = 0.
Proof.
  intros tr s o a r e t p y R HI HE HP HH.
  pose proof (coming_reach _ _ _ _ _ _ R o a r) as C. pose proof (goes_once _ _ _ _ _ _ R o a r) as G.
  assert (D : 0 < cnt (passed_by (o, a :: r)) tr \/ doomed s o a r).
  { destruct HH as [(t0 & c & H)|(a' & LT & H)].
    - left. pose proof (cnt_in (passed_by (o, a :: r)) _ _ H) as P. cbn [passed_by] in P. rewrite is_label_refl in P. cbn in P. lia.
    - assert (AT : exists c, at_ edges filt tr (o, a' :: r) c).
      { destruct H as [(_ & t0 & c & H)|(t0 & c & H)]; exists c; now destruct (sound_in _ _ _ _ _ _ _ R H). }
      destruct AT as (c & q & x & S1 & K1). destruct (issue_place _ _ R _ _ _ _ HI) as (q' & x' & S2 & K2). cbn [fst snd] in *.
      destruct (sent_unique _ _ _ _ _ _ _ _ _ _ _ R S1 S2) as [<- <-]. inversion K1 as [|? e' ? K3 K4 K5]; subst.
      eapply doomed_reach; eauto. symmetry. exact (okp_fun _ _ _ _ _ K3 _ K2). }
  destruct D as [D|(t0 & x & L & k & e1 & D1 & D2 & D3)]; [lia|].
  assert (W : somewhere s (ISlot (o, a :: r) (g_to e1) (g_mode e1) x)).
  { exists (slot_code (o, r) x L ++ k). split; [eapply nth_error_In; eauto|]. apply in_or_app; left. unfold slot_code. apply in_map_iff. exists (a, e1). split; [reflexivity|assumption]. }
  pose proof (tot_ge (w_coming (o, a :: r)) _ _ W) as TG. cbn [w_coming] in TG. rewrite is_label_refl in TG. cbn in TG. lia.
Qed.

(** ** An exception passes through synchronous connections, up to the user's call or the beginning of the task *)
Definition arrived_at tr (n : nat) (b : trail) := match b with [] => exists t o, In (EThrew t n o) tr | _ => exists t c, In (EAbort t (n, b) c) tr end.
Lemma arrived_at_app : forall tr tr' n b, arrived_at tr n b -> arrived_at (tr ++ tr') n b.
Proof. intros tr tr' n [|a b] (t & o & H); exists t, o; apply in_or_app; now left. Qed.
Lemma raise_reach : forall tr s, reach tr s -> forall n b c, synchronous edges c -> raised tr n (c ++ b) ->
  arrived_at tr n b \/ exists t c' k, a_exc s t = true /\ nth_error (a_threads s) t = Some k /\ unwinding tr (n, c' ++ b) k /\ synchronous edges c'.
Proof.
  induction 1 as [|tr s im t ev s' R IH E]; intros n b cc SY RA.
  { destruct RA as [(t & c & x & [])|(a & t & c & [])]. }
  destruct (step_inv _ _ _ _ _ _ _ E) as (A & i & k & B & e0 & sp & s1 & Q & L & X1 & S'). pose proof (mid_nth _ _ _ _ _ Q L) as NT.
  assert (HIn : In (i :: k) (a_threads s)) by (rewrite Q; apply in_or_app; right; now left).
  assert (NT' : nth_error (a_threads s') t = Some (e0 ++ k)) by (rewrite S'; cbn [set_threads a_threads]; rewrite <- L, nth_error_app2, Nat.sub_diag; [reflexivity|lia]).
  assert (EX' : a_exc s' = a_exc s1) by now rewrite S'.
  assert (LAST : In ev (tr ++ [ev])) by (apply in_or_app; right; now left).
  assert (D : raised tr n (cc ++ b) \/ (exists t0 c x, ev = EFail t0 (n, cc ++ b) c x) \/ exists t0 a c, ev = ERefuse t0 (n, a :: cc ++ b) c).
  { destruct RA as [(t0 & c & x & H)|(a & t0 & c & H)]; apply in_app_or in H as [H|[H|[]]].
    - left. left. now exists t0, c, x.
    - right. left. now exists t0, c, x.
    - left. right. now exists a, t0, c.
    - right. right. now exists t0, a, c. }
  destruct D as [D|D].
  - destruct (IH _ _ _ SY D) as [P|(t0 & c' & k0 & P1 & P2 & P3 & P4)]; [left; now apply arrived_at_app|].
    destruct (Nat.eq_dec t0 t) as [->|N].
    + rewrite NT in P2. injection P2 as <-. unfold ANetModel.exec1 in X1. rewrite P1 in X1. pose proof (unwind_nil _ _ _ _ _ _ _ X1) as [-> ->]. cbn [app] in NT'.
      pose proof (unwind_head _ _ _ _ _ _ _ _ _ _ _ P3 X1) as U. remember (n, c' ++ b) as l eqn:El. destruct U as [o r1 a c m x k H4 H5|o a r1 ed x k H4 H5 H6|o a r1 ed d H4 H5|n1 p x k H4]; injection El as -> El.
      * right. exists t, c', k. split; [now rewrite EX'|]. split; [assumption|]. split; [rewrite El in P3, H4; now apply unwinding_app|assumption].
      * destruct c' as [|a0 c']; cbn [app] in El.
        -- left. subst b. exists t, (g_to ed). assumption.
        -- injection El as <- ->. right. exists t, c', (slot_code (n, c' ++ b) x (rest edges (g_from ed) a) ++ k). split; [now rewrite EX'|]. split; [assumption|]. split; [|now inversion P4].
           apply un_slots with a; auto.
           ++ left. split; [constructor; [exists ed; now split|constructor]|]. exists t, (g_to ed). assumption.
           ++ intros z Hz. apply filter_In in Hz as [_ Hz]. now apply Nat.ltb_lt.
      * destruct c' as [|a0 c']; cbn [app] in El.
        -- left. subst b. exists t, (g_to ed). assumption.
        -- exfalso. injection El as <- _. inversion P4 as [|? ? (ed' & S1 & S2) _]; subst. congruence.
      * left. symmetry in El. apply app_eq_nil in El as [-> ->]. exists t, (OSend p x). assumption.
    + right. destruct (threads_other _ _ _ _ _ E _ _ N P2) as [Q1 Q2]. exists t0, c', k0. split; [now rewrite Q2|]. split; [assumption|]. split; [now apply unwinding_app|assumption].
  - right. destruct (stack_need _ _ _ _ _ _ _ _ R HIn) as [_ HN]. split_step R NT X1.
    + clear S' E. destruct D as [(t0 & c & x & EV)|(t0 & a & c & EV)]; exec_cases X1; try discriminate EV.
      * injection EV as <- -> <- <-. destruct HN as [_ HN]. exists t, cc, k. split; [rewrite EX'; cbn; now rewrite Nat.eqb_refl|]. split; [assumption|]. split; [eapply un_here; eauto|assumption].
      * injection EV as <- -> <-. destruct HN as [_ (o1 & a1 & r1 & ed & k' & HL1 & HL2 & HL3 & HL4 & HL5 & HL6)]. injection HL1 as <- <- <-. cbn [app] in NT'.
        exists t, cc, k. split; [rewrite EX'; cbn; now rewrite Nat.eqb_refl|]. split; [assumption|]. split; [|assumption]. rewrite HL5. apply un_slots with a; auto.
        -- right. now exists t, c0.
        -- intros z Hz. apply filter_In in Hz as [_ Hz]. now apply Nat.ltb_lt.
    + destruct D as [(t0 & c & x & ->)|(t0 & a & c & ->)]; inversion U.
Qed.
Lemma frame_closes : forall l k, frame edges l k -> forall c b, snd l = c ++ b -> synchronous edges c -> exists j, In j k /\ closes j (fst l, b).
Proof.
  induction 1 as [o a r e x k H1 H2 H3 IH|o a r e d H1 H2|o p x k H]; intros c b El SY; cbn [fst snd] in *.
  - destruct c as [|a' c]; cbn [app] in El.
    + subst b. exists (IEnd (o, a :: r) (g_to e) None). split; [now left|reflexivity].
    + injection El as <- El. inversion SY as [|? ? _ SY']; subst. destruct (IH c b eq_refl SY') as (j & J1 & J2). exists j. split; [right; apply in_or_app; now right|assumption].
  - destruct c as [|a' c]; cbn [app] in El.
    + subst b. exists (IEnd (o, a :: r) (g_to e) (Some d)). split; [now left|reflexivity].
    + injection El as <- El. inversion SY as [|? ? (e' & S1 & S2) _]; subst. congruence.
  - symmetry in El. apply app_eq_nil in El as [-> ->]. exists (IReturn o (OSend p x)). split; [now left|reflexivity].
Qed.
Lemma unwinding_closes : forall tr n c b k, unwinding tr (n, c ++ b) k -> synchronous edges c -> exists j, In j k /\ closes j (n, b).
Proof.
  intros tr n c b k H SY. remember (n, c ++ b) as l eqn:El. destruct H as [l k t1 c1 x H1 H2|o1 r1 a x L k H1 H2 H3].
  - subst l. exact (frame_closes _ _ H2 c b eq_refl SY).
  - injection El as -> El. subst r1. destruct (frame_closes _ _ H3 c b eq_refl SY) as (j & J1 & J2). exists j. split; [apply in_or_app; now right|assumption].
Qed.
(** The ends of the work at one place. *)
Definition leaves (n : nat) (b : trail) (e : event X) : nat := match b with [] => returned n e | _ => b2n (finishes (n, b) e) end.
Lemma leaves_once : forall tr s n b, reach tr s -> cnt (leaves n b) tr <= 1 /\ (0 < cnt (leaves n b) tr -> forall j, somewhere s j -> ~ closes j (n, b)).
Proof.
  intros tr s n b R. destruct b as [|a b]; cbn [leaves].
  - change (fun e => leaves n [] e) with (returned (X := X) n). destruct (call_reach _ _ _ _ _ _ R n) as [C1 C2]. pose proof (b2n_le (n <? a_calls s)) as B.
    change (cnt (leaves n []) tr) with (cnt (returned n) tr). split; [lia|]. intros P. destruct (cnt_pos _ _ P) as (ev & H1 & H2). eapply returned_closed; [exact R|exact H1|].
    destruct ev; cbn in *; try lia; match goal with |- context [b2n ?z] => destruct z end; cbn in *; lia.
  - change (cnt (leaves n (a :: b)) tr) with (cnt (fun e => b2n (finishes (n, a :: b) e)) tr). split.
    + pose proof (end_reach _ _ _ _ _ _ R (n, a :: b)) as E. pose proof (once _ _ _ _ _ _ R n (a :: b)) as [O _].
      pose proof (coming_reach _ _ _ _ _ _ R n a b) as CR. pose proof (goes_once _ _ _ _ _ _ R n a b) as G.
      assert (W : tot (w_begin (n, a :: b)) s <= tot (w_coming (n, a :: b)) s).
      { clear. unfold tot. induction (a_threads s) as [|k ks IH]; [reflexivity|]. rewrite !wts_cons. apply Nat.add_le_mono; [|exact IH]. induction k as [|i k IHk]; [reflexivity|]. rewrite !wt_cons. apply Nat.add_le_mono; [|exact IHk].
        destruct i; cbn; lia. }
      lia.
    + intros P. destruct (cnt_pos _ _ P) as (ev & H1 & H2). eapply ended_closed; [exact R|exact H1| |discriminate]. destruct (finishes (n, a :: b) ev); [reflexivity|cbn in H2; lia].
Qed.
Lemma propagates : forall tr s ev n c b, reach tr s -> synchronous edges c -> raised tr n (c ++ b) -> In ev tr -> leaves n b ev = 1 ->
  match b with [] => exists t o, ev = EThrew t n o | _ => exists t q, ev = EAbort t (n, b) q end.
Proof.
  intros tr s ev n c b R SY RA HI HV. destruct (leaves_once tr s n b R) as [LO LC].
  assert (P : 0 < cnt (leaves n b) tr) by (pose proof (cnt_in (leaves n b) _ _ HI); lia). specialize (LC P).
  destruct (raise_reach _ _ R _ _ _ SY RA) as [AR|(t0 & c' & k & P1 & P2 & P3 & P4)].
  - destruct b as [|a b]; destruct AR as (t & q & AR).
    + exists t, q. apply (cnt_two (leaves n []) tr); auto; [lia|]. cbn. rewrite Nat.eqb_refl. cbn. lia.
    + exists t, q. apply (cnt_two (leaves n (a :: b)) tr); auto; [lia|]. cbn [leaves finishes]. rewrite is_label_refl. cbn. lia.
  - exfalso. destruct (unwinding_closes _ _ _ _ _ P3 P4) as (j & J1 & J2). apply (LC j); [|assumption]. exists k. split; [eapply nth_error_In; eauto|assumption].
Qed.
End Exc.
