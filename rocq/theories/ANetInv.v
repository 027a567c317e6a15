(** Invariants of ANetModel: how the instructions of a thread are nested, locks, tasks, calls. *)
From Verif Require Import Prelude ANetModel ANetBase ANetSpec.
Local Open Scope nat_scope.

Definition b2n (b : bool) : nat := if b then 1 else 0.
Definition label_eq_dec : forall l l' : label, {l = l'} + {l <> l'}.
Proof. repeat decide equality. Defined.
Definition lab_eqb (l l' : label) : bool := if label_eq_dec l l' then true else false.
Lemma lab_eqb_refl : forall l, lab_eqb l l = true.
Proof. intros l. unfold lab_eqb. now destruct (label_eq_dec l l). Qed.
Lemma lab_eqb_true : forall l l', lab_eqb l l' = true <-> l = l'.
Proof. intros l l'. unfold lab_eqb. now destruct (label_eq_dec l l'). Qed.
Definition suffix {A} (a b : list A) := exists c, b = c ++ a.
Lemma suffix_refl {A} : forall a : list A, suffix a a.
Proof. intros a. now exists []. Qed.
Lemma suffix_cons {A} : forall (x : A) a b, suffix (x :: a) b -> suffix a b.
Proof. intros x a b [c ->]. exists (c ++ [x]). now rewrite <- app_assoc. Qed.
Lemma suffix_of_cons {A} : forall (x : A) a b, suffix a (x :: b) -> a = x :: b \/ suffix a b.
Proof. intros x a b [[|y c] E]; [now left|]. injection E as -> ->. right. now exists c. Qed.
Lemma suffix_len {A} : forall (a b : list A), suffix a b -> length a <= length b.
Proof. intros a b [c ->]. rewrite app_length. lia. Qed.
Lemma suffix_same {A} : forall (a b : list A), suffix a b -> length a = length b -> a = b.
Proof. intros a b [[|x c] ->] H; [reflexivity|]. cbn in H. rewrite app_length in H. lia. Qed.

Lemma b2n_le : forall b, b2n b <= 1.
Proof. intros []; cbn; lia. Qed.

Lemma in_slots : forall edges p a e, In (a, e) (slots edges p) <-> nth_error edges a = Some e /\ g_from e = p.
Proof.
  intros edges p a e. unfold ANetModel.slots. rewrite filter_In. cbn [snd]. rewrite Nat.eqb_eq.
  assert (G : forall (l : list edge) b, In (a, e) (combine (seq b (length l)) l) <-> b <= a /\ nth_error l (a - b) = Some e).
  { induction l as [|e' l IH]; intros b; cbn [length seq combine].
    - split; [intros []|]. intros [_ H]. now destruct (a - b).
    - cbn [In]. rewrite IH. split.
      + intros [H|[H1 H2]]; [injection H as -> ->; split; [lia|]; now rewrite Nat.sub_diag|]. split; [lia|]. replace (a - b) with (S (a - S b)) by lia. assumption.
      + intros [H1 H2]. destruct (Nat.eq_dec a b) as [->|N].
        * rewrite Nat.sub_diag in H2. injection H2 as ->. now left.
        * right. split; [lia|]. replace (a - b) with (S (a - S b)) in H2 by lia. assumption. }
  rewrite G. rewrite Nat.sub_0_r. intuition lia.
Qed.
Lemma slots_nodup : forall edges p, NoDup (map fst (slots edges p)).
Proof.
  intros edges p. unfold ANetModel.slots. generalize 0 as b. induction edges as [|e l IH]; intros b; cbn [length seq combine filter map].
  - constructor.
  - cbn [snd]. destruct (g_from e =? p); [|apply IH]. cbn [map fst]. constructor; [|apply IH].
    intros H. apply in_map_iff in H as ([a e'] & E & Hi). cbn in E. subst a. apply filter_In in Hi as [Hi _]. apply in_combine_l in Hi. apply in_seq in Hi. lia.
Qed.
(** The slots of [p] that were connected after number [a]. *)
Definition rest (edges : list edge) (p a : nat) : list (nat * edge) := filter (fun ie => a <? fst ie) (slots edges p).
Lemma slots_sorted : forall edges p L1 b L2, slots edges p = L1 ++ b :: L2 -> (forall z, In z L1 -> fst z < fst b) /\ (forall z, In z L2 -> fst b < fst z).
Proof.
  intros edges p. unfold ANetModel.slots. generalize 0 as n. induction edges as [|e l IH]; intros n L1 b L2 H; cbn [length seq combine filter] in H.
  - destruct L1; discriminate.
  - cbn [snd] in H. assert (GE : forall z, In z (filter (fun ie : nat * edge => g_from (snd ie) =? p) (combine (seq (S n) (length l)) l)) -> n < fst z).
    { intros [a e'] Hz. apply filter_In in Hz as [Hz _]. apply in_combine_l in Hz. apply in_seq in Hz. cbn. lia. }
    destruct (g_from e =? p); [|eauto]. destruct L1 as [|b' L1]; cbn [app] in H; injection H as <- H.
    + split; [intros z []|]. subst L2. exact GE.
    + destruct (IH _ _ _ _ H) as [H1 H2]. split; [|assumption]. intros z [<-|Hz]; [|auto]. apply GE. rewrite H. apply in_or_app; right; now left.
Qed.
Lemma filter_all {A} : forall (P : A -> bool) l, (forall z, In z l -> P z = true) -> filter P l = l.
Proof. intros P l H. induction l as [|a l IH]; [reflexivity|]. cbn [filter]. rewrite (H a (or_introl eq_refl)), IH; [reflexivity|]. intros; apply H; now right. Qed.
Lemma filter_none {A} : forall (P : A -> bool) l, (forall z, In z l -> P z = false) -> filter P l = [].
Proof. intros P l H. induction l as [|a l IH]; [reflexivity|]. cbn [filter]. rewrite (H a (or_introl eq_refl)), IH; [reflexivity|]. intros; apply H; now right. Qed.
Lemma slots_rest : forall edges p L1 a e L2, slots edges p = L1 ++ (a, e) :: L2 -> rest edges p a = L2.
Proof.
  intros edges p L1 a e L2 H. destruct (slots_sorted _ _ _ _ _ H) as [H1 H2]. unfold rest. rewrite H, filter_app. cbn [filter fst] in *. rewrite Nat.ltb_irrefl.
  rewrite filter_none, filter_all; [reflexivity| |].
  - intros z Hz. apply Nat.ltb_lt. exact (H2 _ Hz).
  - intros z Hz. apply Nat.ltb_ge. specialize (H1 _ Hz). lia.
Qed.
Definition slot_code {X} (l : label) (x : X) (L : list (nat * edge)) : list (instr X) :=
  map (fun ie : nat * edge => ISlot (fst l, fst ie :: snd l) (g_to (snd ie)) (g_mode (snd ie)) x) L.

Section Inv.
Context {X St : Type}.
Variable edges : list edge.
Variable filt : nat -> option (St -> X -> St * option X).
Variable s0 : nat -> St.
Variable programs : list (list (op X)).
Implicit Types (s : state X St) (k : list (instr X)) (i j : instr X) (tr : list (event X)).
Notation exec1 := (exec1 edges filt).
Notation step := (step edges filt).
Notation reach := (reach edges filt s0 programs).
Notation slots := (slots edges).

(** ** Nesting *)
Definition closes j (l : label) : Prop :=
  match j with
  | IEnd l' _ _ => l' = l
  | IReturn n (OSend _ _) => l = (n, [])
  | _ => False
  end.
Definition parent k (l : label) := exists a p j, snd l = a :: p /\ In j k /\ closes j (fst l, p).
Definition is_call i : Prop := match i with ICall _ => True | _ => False end.
Definition is_send (o : op X) : bool := match o with OSend _ _ => true | _ => false end.
Definition holds (c : nat) i : bool :=
  match i with
  | IAsync _ c' _ | IUnlock c' | ITrim c' | IFlush _ _ c' | IWaits _ _ c' _ => c' =? c
  | _ => false
  end.
Definition holding i : bool :=
  match i with
  | IAsync _ _ _ | IUnlock _ | ITrim _ | IFlush _ _ _ | IWaits _ _ _ _ => true
  | _ => false
  end.
(** The number and the path of an instruction of a flush. *)
Definition flushing i : option (nat * trail) :=
  match i with
  | IEmitFlush n r _ | ISlotFlush n r _ | IFlush n r _ | IWaits n r _ _ => Some (n, r)
  | _ => None
  end.
(** The stack of a thread that works on the sample with this label: first it ends the call of consume() (or the task, or the user's call), and if that was on the stack of an emission, the
    slots connected later are called, and so on. *)
Inductive frame : label -> list (instr X) -> Prop :=
| fr_end o a r e x k : nth_error edges a = Some e -> g_mode e = Sync -> frame (o, r) k ->
    frame (o, a :: r) (IEnd (o, a :: r) (g_to e) None :: slot_code (o, r) x (rest edges (g_from e) a) ++ k)
| fr_task o a r e d : nth_error edges a = Some e -> g_mode e = Async -> frame (o, a :: r) [IEnd (o, a :: r) (g_to e) (Some d)]
| fr_call o p x k : Forall is_call k -> frame (o, []) (IReturn o (OSend p x) :: k).
Definition later (l : label) (c : nat) (m : mode) (x : X) k :=
  exists o a r e k', l = (o, a :: r) /\ nth_error edges a = Some e /\ c = g_to e /\ m = g_mode e /\ k = slot_code (o, r) x (rest edges (g_from e) a) ++ k' /\ frame (o, r) k'.
Definition apart k n r := forall j r', In j k -> flushing j = Some (n, r') -> ~ suffix r r' /\ ~ suffix r' r.
Definition need i k : Prop :=
  (forall j, In j k -> holding j = false) /\
  match i with
  | ICall _ | IReturn _ _ => Forall is_call k
  | IEmit l _ _ => (exists j, In j k /\ closes j l) /\ frame l k
  | ISlot l c m x => parent k l /\ later l c m x k
  | IAsync l c x => parent k l /\ later l c Async x k
  | IEnd l c None => parent k l /\ frame l (IEnd l c None :: k)
  | IConsume l c _ => (exists d k', k = IEnd l c d :: k') /\ frame l k
  | IEnd l c (Some d) => k = []
  | IParked d => exists l c x, k = consume_code l c x (Some d)
  | IEmitFlush n r _ | ISlotFlush n r _ | IFlush n r _ | IWaits n r _ _ => (exists o, In (IReturn n o) k /\ is_send o = false) /\ apart k n r
  | _ => True
  end.
Fixpoint okk k : Prop := match k with [] => True | i :: k' => need i k' /\ okk k' end.

Lemma okk_calls : forall k, Forall is_call k -> okk k.
Proof.
  induction 1 as [|i k H HF IH]; [exact I|]. cbn [okk]. split; [|assumption]. destruct i; try destruct H. split; [|assumption].
  intros j Hj. rewrite Forall_forall in HF. specialize (HF _ Hj). now destruct j.
Qed.
Lemma okk_init : stacks okk (initial s0 programs).
Proof.
  unfold stacks. cbn [initial a_threads]. apply Forall_forall. intros k H. apply in_map_iff in H as (p & <- & _).
  apply okk_calls. apply Forall_forall. intros j H. apply in_map_iff in H as (o & <- & _). exact I.
Qed.
Lemma okk_slots : forall l x p L1 L k, slots p = L1 ++ L -> (forall j, In j k -> holding j = false) -> (exists j, In j k /\ closes j l) -> frame l k -> okk k -> okk (slot_code l x L ++ k).
Proof.
  intros l x p L1 L k HL H0 (j & Hj & Hc) HF Hk. revert L1 HL. induction L as [|[a e] L IH]; intros L1 HL; [assumption|]. cbn [slot_code map app okk]. split.
  - split.
    + intros j' Hj'. apply in_app_or in Hj' as [Hj'|Hj']; [|now apply H0]. apply in_map_iff in Hj' as (z & <- & _). reflexivity.
    + split; [exists a, (snd l), j; cbn [fst snd]; split; [reflexivity|]; split; [apply in_or_app; now right|]; now destruct l|].
      assert (HI : In (a, e) (slots p)) by (rewrite HL; apply in_or_app; right; now left). apply in_slots in HI as [HI1 HI2].
      exists (fst l), a, (snd l), e, k. cbn [fst snd]. repeat split; auto; [|now destruct l]. f_equal. rewrite HI2, (slots_rest _ _ _ _ _ _ HL). now destruct l.
  - apply (IH (L1 ++ [(a, e)])). now rewrite <- app_assoc.
Qed.
Lemma okk_slot_flushes : forall n r L k, NoDup (map fst L) -> (forall j, In j k -> holding j = false) -> (exists o, In (IReturn n o) k /\ is_send o = false) -> apart k n r -> okk k ->
  okk (map (fun ie : nat * edge => ISlotFlush n (fst ie :: r) (g_to (snd ie))) L ++ k).
Proof.
  intros n r L k ND H0 (o & Ho & Hs) Ha Hk. induction L as [|[a e] L IH]; [assumption|]. cbn [map app okk]. cbn [map fst] in ND. inversion ND as [|? ? N1 N2]; subst. split; [|now apply IH]. split.
  - intros j' Hj'. apply in_app_or in Hj' as [Hj'|Hj']; [|now apply H0]. apply in_map_iff in Hj' as (z & <- & _). reflexivity.
  - split; [exists o; split; [apply in_or_app; now right|assumption]|]. cbn [fst]. intros j r' Hj Hf. apply in_app_or in Hj as [Hj|Hj].
    + apply in_map_iff in Hj as ([b eb] & <- & Hb). cbn in Hf. injection Hf as <-.
      assert (N : a <> b). { intros ->. apply N1. apply in_map_iff. exists (b, eb). now split. }
      split; intros S'; apply suffix_same in S'; try reflexivity; injection S' as E; congruence.
    + destruct (Ha _ _ Hj Hf) as [A1 A2]. split.
      * intros S'. apply suffix_cons in S'. contradiction.
      * intros S'. apply suffix_of_cons in S' as [->|S']; [|contradiction]. apply A1. now exists [a].
Qed.
Lemma okk_exec : forall im t s i k ev e sp s1, okk (i :: k) -> exec1 im t s i = Some (ev, e, sp, s1) -> okk (e ++ k) /\ Forall okk sp.
Proof.
  intros im t s i k ev e sp s1 H E. unfold ANetModel.exec1 in E. destruct (a_exc s t).
  { destruct (unwind_nil _ _ _ _ _ _ _ E) as [-> ->]. destruct H as [_ H]. split; [exact H|constructor]. }
  cbn [okk] in H. destruct H as [[H0 HN] HK].
  assert (HC : forall j1 j2 : instr X, holding j1 = false -> holding j2 = false -> forall j, In j ([j1; j2] ++ k) -> holding j = false).
  { intros j1 j2 A1 A2 j [<-|[<-|Hj]]; auto. }
  assert (HC1 : forall j1 : instr X, holding j1 = false -> forall j, In j ([j1] ++ k) -> holding j = false).
  { intros j1 A1 j [<-|Hj]; auto. }
  assert (NILH : forall j : instr X, In j [] -> holding j = false) by (intros ? []).
  exec_cases E; cbn [app okk]; try (split; [|now constructor]); try assumption;
    try solve [repeat split; try assumption; try exact I].
  - (* ICall *)
    assert (NH : forall j, In j (IReturn (a_calls s) o :: k) -> holding j = false) by (intros j [<-|Hj]; auto).
    destruct o; cbn [code app okk]; (split; [split; [exact NH|]|split; [split; [exact H0|exact HN]|exact HK]]); cbn.
    + split; [eexists; split; [now left|]; reflexivity|now constructor].
    + split; [eexists; split; [now left|reflexivity]|]. intros j r' [<-|Hj] Hf; [discriminate|]. rewrite Forall_forall in HN. specialize (HN _ Hj). now destruct j.
    + split; [eexists; split; [now left|reflexivity]|]. intros j r' [<-|Hj] Hf; [discriminate|]. rewrite Forall_forall in HN. specialize (HN _ Hj). now destruct j.
  - (* IEmit *) destruct HN as [HN1 HN2]. apply (okk_slots l x p [] (slots p)); auto.
  - (* ISlot Sync *)
    destruct HN as [HN1 (o & a & r & e & k' & HL1 & HL2 & HL3 & HL4 & HL5 & HL6)].
    assert (FR : frame l (IEnd l c None :: k)) by (rewrite HL1, HL3, HL5; constructor; auto).
    unfold consume_code. cbn [app okk]. split; [split; [intros j [<-|Hj]; [reflexivity|now apply H0]|split; [exists None, k; reflexivity|exact FR]]|]. split; [split; [assumption|split; assumption]|assumption].
  - (* ISlot Async *) split; [split; [exact H0|exact HN]|exact HK].
  - (* IAsync *)
    destruct HN as [HN1 (o & a & r & e & k' & HL1 & HL2 & HL3 & HL4 & HL5 & HL6)].
    split; [split; [split; [intros j [<-|Hj]; [reflexivity|now apply H0]|exact I]|split; [split; [assumption|exact I]|assumption]]|].
    assert (FR : frame l [IEnd l c (Some (a_next s))]) by (rewrite HL1, HL3; constructor; auto).
    constructor; [|constructor]. unfold consume_code; cbn [okk].
    split; [split; [intros j [<-|[]]; reflexivity|split; [exists (Some (a_next s)), []; reflexivity|exact FR]]|]. split; [split; [exact NILH|reflexivity]|exact I].
  - destruct HN as [HN1 (o & a & r & e & k' & HL1 & HL2 & HL3 & HL4 & HL5 & HL6)].
    split; [split; [split; [intros j [<-|Hj]; [reflexivity|now apply H0]|exact I]|split; [split; [assumption|exact I]|assumption]]|].
    assert (FR : frame l [IEnd l c (Some (a_next s))]) by (rewrite HL1, HL3; constructor; auto).
    constructor; [|constructor]. unfold consume_code; cbn [okk].
    split; [split; [intros j [<-|[<-|[]]]; reflexivity|exists l, c, x; reflexivity]|].
    split; [split; [intros j [<-|[]]; reflexivity|split; [exists (Some (a_next s)), []; reflexivity|exact FR]]|]. split; [split; [exact NILH|reflexivity]|exact I].
  - (* IConsume *) destruct HN as [(d & k' & ->) HF]. split; [split; [assumption|]|assumption]. split; [|exact HF]. exists (IEnd l c d). split; [now left|reflexivity].
  - (* IEmitFlush *) destruct HN as [HN1 HN2]. apply okk_slot_flushes; try assumption. apply slots_nodup.
  - split; [split|]; assumption.
  - split; [split|]; assumption.
  - (* IWaits [] *) destruct HN as [(o & Ho & Hs) HN2]. split; [split; [intros j [<-|Hj]; [reflexivity|now apply H0]|exact I]|].
    split; [|assumption]. split; [assumption|]. split; [exists o; now split|assumption].
  - split; [split|]; assumption.
  - split; [split|]; assumption.
Qed.
Lemma okk_reach : forall tr s, reach tr s -> stacks okk s.
Proof.
  induction 1 as [|tr s im t e s' R IH E]; [apply okk_init|]. eapply stacks_step; [|exact IH|exact E]. intros. eapply okk_exec; eauto.
Qed.
Lemma okk_in : forall k i, okk k -> In i k -> exists k1 k2, k = k1 ++ i :: k2 /\ need i k2.
Proof.
  induction k as [|a k IH]; intros i H Hi; [destruct Hi|]. destruct H as [H1 H2]. destruct Hi as [->|Hi]; [now exists [], k|].
  destruct (IH _ H2 Hi) as (k1 & k2 & -> & N). now exists (a :: k1), k2.
Qed.
(** Whatever holds a lock is the first instruction of its thread. *)
Lemma holding_head : forall tr s i, reach tr s -> somewhere s i -> holding i = true -> exists k, In (i :: k) (a_threads s).
Proof.
  intros tr s i R (k & Hk & Hi) Hh. pose proof (okk_reach _ _ R) as HO. unfold stacks in HO. rewrite Forall_forall in HO. specialize (HO _ Hk).
  destruct k as [|a k]; [destruct Hi|]. destruct Hi as [->|Hi]; [now exists k|]. destruct HO as [[H0 _] _]. rewrite (H0 _ Hi) in Hh. discriminate.
Qed.

(** ** Exceptions *)
(** The stack of a thread with an exception on its way: it comes from consume() of the sample with label [l], or from one of the slots that were given what was made of it. *)
Inductive unwinding tr : label -> list (instr X) -> Prop :=
| un_here l k t c x : In (EFail t l c x) tr -> frame l k -> unwinding tr l k
| un_slots o r a x L k : slot_threw edges tr o (a :: r) -> (forall z, In z L -> a < fst z) -> frame (o, r) k -> unwinding tr (o, r) (slot_code (o, r) x L ++ k).
Definition cause tr (l : label) := exists b, synchronous edges b /\ raised tr (fst l) (b ++ snd l).
Lemma slot_threw_app : forall tr tr' o b, slot_threw edges tr o b -> slot_threw edges (tr ++ tr') o b.
Proof.
  intros tr tr' o [|a b] H; [destruct H|]. destruct H as [(H1 & t & c & H)|(t & c & H)]; [left; split; [assumption|]|right]; exists t, c; apply in_or_app; now left.
Qed.
Lemma unwinding_app : forall tr tr' l k, unwinding tr l k -> unwinding (tr ++ tr') l k.
Proof.
  intros tr tr' l k [l' k' t c x H1 H2|o r a x L k' H1 H2 H3].
  - econstructor; [apply in_or_app; left; exact H1|assumption].
  - eapply un_slots; eauto. now apply slot_threw_app.
Qed.
Lemma raised_app : forall tr tr' o b, raised tr o b -> raised (tr ++ tr') o b.
Proof.
  intros tr tr' o b [(t & c & x & H)|(a & t & c & H)]; [left; exists t, c, x|right; exists a, t, c]; apply in_or_app; now left.
Qed.
Lemma cause_app : forall tr tr' l, cause tr l -> cause (tr ++ tr') l.
Proof. intros tr tr' l (b & H1 & H2). exists b. split; [assumption|]. now apply raised_app. Qed.
(** What an unwinding thread does next. *)
Inductive unwinds tr (t : nat) s : label -> instr X -> list (instr X) -> event X -> state X St -> Prop :=
| uw_skip o r a c m x k : unwinding tr (o, r) k -> (exists a', a' < a /\ slot_threw edges tr o (a' :: r)) -> unwinds tr t s (o, r) (ISlot (o, a :: r) c m x) k (ESkip t (o, a :: r) c) s
| uw_end o a r e x k : nth_error edges a = Some e -> g_mode e = Sync -> frame (o, r) k ->
    unwinds tr t s (o, a :: r) (IEnd (o, a :: r) (g_to e) None) (slot_code (o, r) x (rest edges (g_from e) a) ++ k) (EAbort t (o, a :: r) (g_to e)) s
| uw_task o a r e d : nth_error edges a = Some e -> g_mode e = Async ->
    unwinds tr t s (o, a :: r) (IEnd (o, a :: r) (g_to e) (Some d)) [] (EAbort t (o, a :: r) (g_to e)) (set_stat (set_exc s t false) d SDone)
| uw_call n p x k : Forall is_call k -> unwinds tr t s (n, []) (IReturn n (OSend p x)) k (EThrew t n (OSend p x)) (set_exc s t false).
Lemma unwind_frame : forall tr t s l i k ev e sp s1, frame l (i :: k) -> unwind t s i = Some (ev, e, sp, s1) -> unwinds tr t s l i k ev s1.
Proof.
  intros tr t s l i k ev e sp s1 H E. remember (i :: k) as k0 eqn:Ek. destruct H; injection Ek as <- <-; cbn in E; injection E as <- <- <- <-; now constructor.
Qed.
Lemma unwind_head : forall tr t s l i k ev e sp s1, unwinding tr l (i :: k) -> unwind t s i = Some (ev, e, sp, s1) -> unwinds tr t s l i k ev s1.
Proof.
  intros tr t s l i k ev e sp s1 H E. remember (i :: k) as k0 eqn:Ek. destruct H as [l k1 t' c x H1 H2|o r a x L k1 H1 H2 H3].
  - subst k1. eapply unwind_frame; eauto.
  - destruct L as [|[b eb] L]; cbn [slot_code map app] in Ek; [subst k1; eapply unwind_frame; eauto|]. injection Ek as <- <-. cbn in E. injection E as <- <- <- <-.
    cbn [fst snd]. constructor.
    + eapply un_slots; eauto. intros z Hz. apply H2. now right.
    + exists a. split; [apply (H2 (b, eb)); now left|assumption].
Qed.
Lemma nth_new : forall (A : list (list (instr X))) k k' B sp t t0, length A = t -> t0 <> t -> t0 < length (A ++ k :: B) -> nth_error (A ++ k' :: B ++ sp) t0 = nth_error (A ++ k :: B) t0.
Proof.
  intros A k k' B sp t t0 HL N H. rewrite app_length in H. cbn [length] in H. destruct (Nat.lt_ge_cases t0 (length A)) as [H1|H1].
  - rewrite !nth_error_app1 by lia. reflexivity.
  - rewrite !nth_error_app2 by lia. destruct (t0 - length A) as [|m] eqn:E; [lia|]. cbn [nth_error]. apply nth_error_app1. lia.
Qed.
Lemma exec1_exc : forall im t s i ev e sp s1 t0, exec1 im t s i = Some (ev, e, sp, s1) -> t0 <> t -> a_exc s1 t0 = a_exc s t0.
Proof.
  intros im t s i ev e sp s1 t0 H N. apply Nat.eqb_neq in N. unfold ANetModel.exec1 in H. destruct (a_exc s t).
  - unfold unwind in H. destruct i; try destruct d; injection H as <- <- <- <-; cbn; rewrite ?N; reflexivity.
  - exec_cases H; cbn; rewrite ?N; reflexivity.
Qed.
Lemma exc_reach : forall tr s, reach tr s -> forall t, a_exc s t = true -> exists l k, nth_error (a_threads s) t = Some k /\ unwinding tr l k /\ cause tr l.
Proof.
  induction 1 as [|tr s im t ev s' R IH E]; intros t0 EX; [discriminate|].
  destruct (step_inv _ _ _ _ _ _ _ E) as (A & i & k & B & e & sp & s1 & Q & L & X1 & S').
  assert (NT : nth_error (a_threads s') t = Some (e ++ k)) by (rewrite S'; cbn [set_threads a_threads]; rewrite <- L, nth_error_app2, Nat.sub_diag; [reflexivity|lia]).
  assert (OK : okk (i :: k)). { pose proof (okk_reach _ _ R) as HO. unfold stacks in HO. rewrite Forall_forall in HO. apply HO. rewrite Q. apply in_or_app; right; now left. }
  assert (EX1 : a_exc s1 t0 = true) by (rewrite S' in EX; exact EX). clear EX.
  assert (OLD : t0 <> t -> exists l k0, nth_error (a_threads s') t0 = Some k0 /\ unwinding (tr ++ [ev]) l k0 /\ cause (tr ++ [ev]) l).
  { intros N. rewrite (exec1_exc _ _ _ _ _ _ _ _ _ X1 N) in EX1. destruct (IH _ EX1) as (l & k0 & H1 & H2 & H3). exists l, k0. split; [|split; [now apply unwinding_app|now apply cause_app]].
    rewrite S'. cbn [set_threads a_threads]. rewrite <- H1, Q. apply (nth_new _ (i :: k) _ _ _ t); auto. rewrite <- Q. apply nth_error_Some. congruence. }
  destruct (Nat.eq_dec t0 t) as [->|N]; [clear OLD|now apply OLD].
  assert (LAST : In ev (tr ++ [ev])) by (apply in_or_app; right; now left).
  unfold ANetModel.exec1 in X1. destruct (a_exc s t) eqn:EX.
  - destruct (IH _ EX) as (l & k0 & H1 & H2 & H3). rewrite (mid_nth _ _ _ _ _ Q L) in H1. injection H1 as <-.
    pose proof (unwind_nil _ _ _ _ _ _ _ X1) as [-> ->]. cbn [app] in NT. pose proof (unwind_head _ _ _ _ _ _ _ _ _ _ H2 X1) as U.
    destruct U as [o r a c m x k H4 H5|o a r e x k H4 H5 H6|o a r e d H4 H5|n p x k H4].
    + exists (o, r), k. split; [assumption|]. split; [now apply unwinding_app|now apply cause_app].
    + exists (o, r), (slot_code (o, r) x (rest edges (g_from e) a) ++ k). split; [assumption|]. split.
      * apply un_slots with a; auto.
        -- left. split; [constructor; [exists e; now split|constructor]|]. exists t, (g_to e). assumption.
        -- intros z Hz. apply filter_In in Hz as [_ Hz]. now apply Nat.ltb_lt.
      * destruct H3 as (b & Hb & Hr). exists (b ++ [a]). split; [apply Forall_app; split; [assumption|constructor; [exists e; now split|constructor]]|].
        cbn [fst snd] in *. rewrite <- app_assoc. now apply raised_app.
    + cbn in EX1. rewrite Nat.eqb_refl in EX1. discriminate.
    + cbn in EX1. rewrite Nat.eqb_refl in EX1. discriminate.
  - destruct OK as [[_ HN] _]. exec_cases X1; cbn [a_exc new_call set_lock set_queue set_stat new_task set_st set_exc] in EX1; rewrite ?EX in EX1; try discriminate EX1.
    + destruct HN as [HN1 (o & a & r & ed & k' & HL1 & HL2 & HL3 & HL4 & HL5 & HL6)]. cbn [app] in NT. exists (o, r), k. split; [assumption|]. split.
      * rewrite HL5. apply un_slots with a; [right; exists t, c; now rewrite <- HL1| |assumption]. intros z Hz. apply filter_In in Hz as [_ Hz]. now apply Nat.ltb_lt.
      * exists []. split; [constructor|]. right. exists a, t, c. cbn [app fst snd]. now rewrite <- HL1.
    + destruct HN as [_ HN]. exists l, k. split; [assumption|]. split; [econstructor; eauto|]. exists []. split; [constructor|]. left. exists t, c, x. now destruct l.
Qed.
(** What a step consists of. *)
Lemma exec_split : forall tr s im t i k ev e sp s1, reach tr s -> nth_error (a_threads s) t = Some (i :: k) -> exec1 im t s i = Some (ev, e, sp, s1) ->
  (a_exc s t = false /\ normal edges filt im t s i = Some (ev, e, sp, s1)) \/
  (a_exc s t = true /\ e = [] /\ sp = [] /\ exists l, unwinding tr l (i :: k) /\ cause tr l /\ unwinds tr t s l i k ev s1).
Proof.
  intros tr s im t i k ev e sp s1 R NT X1. unfold ANetModel.exec1 in X1. destruct (a_exc s t) eqn:EX; [right|left; now split].
  destruct (exc_reach _ _ R _ EX) as (l & k0 & H1 & H2 & H3). rewrite NT in H1. injection H1 as <-.
  destruct (unwind_nil _ _ _ _ _ _ _ X1) as [-> ->]. repeat (split; [reflexivity|]). exists l. split; [assumption|]. split; [assumption|]. eapply unwind_head; eauto.
Qed.

(** ** Counting *)
Lemma wt_map0 : forall {A} w (f : A -> instr X) L, (forall a, w (f a) = 0) -> wt w (map f L) = 0.
Proof. intros A w f L H. apply wt_0. intros i Hi. apply in_map_iff in Hi as (a & <- & _). apply H. Qed.
Ltac split_step R NT X1 :=
  let P := fresh "P" in pose proof X1 as P; eapply exec_split in P; [|exact R|exact NT];
  destruct P as [[EXC P]|(EXC & -> & -> & lu & U1 & U2 & U)]; [clear X1; rename P into X1|].
Ltac wsimp := unfold code, consume_code in *; rewrite ?wts_cons, ?wts_nil, ?wt_app, ?wt_cons, ?wt_nil in *;
  cbn [new_call set_lock set_queue set_stat new_task set_st set_exc a_lock a_queue a_stat a_next a_calls a_st holds b2n app] in *;
  repeat match goal with T : context [wt _ (map _ (slots _))] |- _ => rewrite wt_map0 in T by reflexivity end.
(** ** Locks *)
Lemma lock_reach : forall tr s, reach tr s -> forall c, tot (fun i => b2n (holds c i)) s = b2n (a_lock s c).
Proof.
  induction 1 as [|tr s im t ev s' R IH E]; intros c.
  - cbn [initial a_lock b2n]. unfold tot, wts. cbn [initial a_threads]. induction programs as [|p ps IH]; [reflexivity|]. cbn [map list_sum fold_right]. 
    change (wt (fun i : instr X => b2n (holds c i)) (map ICall p) + list_sum (map (wt (fun i : instr X => b2n (holds c i))) (map (map ICall) ps)) = 0). rewrite IH, wt_map0; reflexivity.
  - specialize (IH c). destruct (tot_step edges filt (fun i => b2n (holds c i)) _ _ _ _ _ E) as (i & e & sp & s1 & X1 & T & (k & Hk & NT) & -> & _).
    assert (HL : b2n (holds c i) <= b2n (a_lock s c)). { rewrite <- IH. apply (tot_ge (fun i => b2n (holds c i))). eapply head_somewhere; eauto. }
    pose proof (b2n_le (a_lock s c)) as HB.
    split_step R NT X1; [|destruct U; wsimp; lia].
    exec_cases X1; try destruct o; wsimp; try lia;
      try (rewrite (Nat.eqb_sym c)); try (destruct (Nat.eqb_spec c0 c); [subst|]; wsimp; rewrite ?Heqb in *; wsimp); try lia.
Qed.
Lemma holder_unique : forall tr s i k j c, reach tr s -> In (i :: k) (a_threads s) -> holds c i = true -> somewhere s j -> holds c j = true -> j = i.
Proof.
  intros tr s i k j c R Hi Hh (k' & Hk' & Hj) Hh'. eapply (tot_two (fun i => b2n (holds c i))); try eassumption.
  - cbn beta. rewrite Hh. cbn. lia.
  - rewrite (lock_reach _ _ R). apply b2n_le.
  - cbn beta. rewrite Hh'. cbn. lia.
Qed.

(** ** Tasks *)
Definition ends (d : nat) i : nat := match i with IEnd _ _ (Some d') => b2n (d' =? d) | _ => 0 end.
Definition pending (v : stat) : nat := match v with SDeferred | SActive => 1 | _ => 0 end.
Ltac step_cases E w :=
  let i := fresh "i" in let e := fresh "e" in let sp := fresh "sp" in let s1 := fresh "s1" in let X1 := fresh "X1" in let T := fresh "T" in
  let k := fresh "k" in let Hk := fresh "Hk" in let NT := fresh "NT" in
  destruct (tot_step edges filt w _ _ _ _ _ E) as (i & e & sp & s1 & X1 & T & (k & Hk & NT) & HLock & HQueue & HStat & HNext & HCalls & HSt);
  rewrite ?HLock, ?HQueue, ?HStat, ?HNext, ?HCalls, ?HSt in *; clear HLock HQueue HStat HNext HCalls HSt.
Lemma init_tot : forall w, (forall o, w (ICall o) = 0) -> tot w (initial s0 programs) = 0.
Proof.
  intros w H. unfold tot. cbn [initial a_threads]. induction programs as [|p ps IH]; [reflexivity|]. cbn [map]. rewrite wts_cons, IH, wt_map0; auto.
Qed.
Lemma task_reach : forall tr s, reach tr s -> forall d, tot (ends d) s = pending (a_stat s d) /\ (a_stat s d = SFresh <-> a_next s <= d).
Proof.
  induction 1 as [|tr s im t ev s' R IH E]; intros d.
  - split; [apply init_tot; reflexivity|]. cbn. split; [lia|reflexivity].
  - specialize (IH d). destruct IH as [IH1 IH2]. step_cases E (ends d).
    assert (HL : ends d i <= pending (a_stat s d)). { rewrite <- IH1. apply tot_ge. eapply head_somewhere; eauto. }
    split_step R NT X1.
    2:{ destruct U as [| | |]; wsimp; cbn [ends] in *; try (split; [lia|assumption]). rewrite (Nat.eqb_sym d). destruct (Nat.eqb_spec d0 d); [subst|cbn [b2n] in *; split; [lia|assumption]].
        cbn [b2n pending] in *. assert (F : a_stat s d <> SFresh) by (intros F; rewrite F in HL; cbn in HL; lia).
        assert (F2 : pending (a_stat s d) <= 1) by (destruct (a_stat s d); cbn; lia).
        split; [lia|]. split; [discriminate|]. intros HH. apply IH2 in HH. contradiction. }
    exec_cases X1; try destruct o; wsimp; cbn [ends] in *; rewrite ?(Nat.eqb_sym d);
    repeat match goal with |- context [if (?a =? ?b) then _ else _] => destruct (Nat.eqb_spec a b); [subst|] end; cbn [b2n pending] in *; rewrite ?Nat.eqb_refl in *; cbn [b2n] in *;
    try (split; [lia|assumption]); try (split; [lia|]; try (intuition (try discriminate; try lia); fail)).

    + assert (F : a_stat s (a_next s) = SFresh) by (apply IH2; lia). rewrite F in IH1. cbn in IH1. split; [lia|]. split; [discriminate|lia].
    + rewrite IH2. lia.
    + assert (F : a_stat s (a_next s) = SFresh) by (apply IH2; lia). rewrite F in IH1. cbn in IH1. split; [lia|]. split; [discriminate|lia].
    + rewrite IH2. lia.
    + assert (F : a_stat s d <> SFresh) by (intros F; rewrite F in HL; cbn in HL; lia).
      assert (F2 : pending (a_stat s d) <= 1) by (destruct (a_stat s d); cbn; lia).
      split; [lia|]. split; [discriminate|]. intros H. apply IH2 in H. contradiction.
    + match goal with H : a_stat s d = _ |- _ => rewrite H in * end. cbn in *. split; [lia|]. split; [discriminate|]. intros H. apply IH2 in H. discriminate.
Qed.

(** A task that is not done yet is in the list of its consumer, or somebody is about to wait for it. *)
Definition tracked s i : Prop :=
  match i with
  | IEnd _ c (Some d) => In (c, d) (a_queue s) \/ exists n r L, somewhere s (IWaits n r c L) /\ In d L
  | _ => True
  end.
Lemma in_queue : forall s c d, In d (queue s c) <-> In (c, d) (a_queue s).
Proof.
  intros s c d. unfold queue. rewrite in_map_iff. split.
  - intros ([c' d'] & E & H). cbn in E. subst. apply filter_In in H as [H E]. cbn in E. apply Nat.eqb_eq in E. now subst.
  - intros H. exists (c, d). split; [reflexivity|]. apply filter_In. split; [assumption|]. apply Nat.eqb_refl.
Qed.
Lemma done_no_end : forall tr s l c d, reach tr s -> a_stat s d = SDone -> ~ somewhere s (IEnd l c (Some d)).
Proof.
  intros tr s l c d R H HS. destruct (task_reach _ _ R d) as [T _]. rewrite H in T. cbn in T. pose proof (tot_ge (ends d) _ _ HS) as G. cbn [ends] in G. rewrite Nat.eqb_refl in G. cbn in G. lia.
Qed.
Lemma tracked_reach : forall tr s, reach tr s -> all (tracked s) s.
Proof.
  induction 1 as [|tr s im t ev s' R IH E]; intros j Hj.
  - destruct Hj as (k & Hk & Hj). cbn in Hk. apply in_map_iff in Hk as (p & <- & _). apply in_map_iff in Hj as (o & <- & _). exact I.
  - destruct (step_inv _ _ _ _ _ _ _ E) as (A & i & k & B & e & sp & s1 & Q & L & X1 & S').
    assert (HIn : In (i :: k) (a_threads s)) by (rewrite Q; apply in_or_app; right; now left).
    assert (QQ : a_queue s' = a_queue s1) by now rewrite S'.
    destruct j; try exact I. destruct d as [d|]; [|exact I]. cbn [tracked]. rewrite QQ.
    pose proof (mid_nth _ _ _ _ _ Q L) as NT.
    destruct (somewhere_new _ _ _ _ _ _ _ _ _ _ _ _ _ _ _ Q X1 S' Hj) as [Hn|Ho].
    + (* a new task *)
      assert (G : In (c, d) (a_queue s1)); [|now left].
      split_step R NT X1; [|destruct Hn].
      clear S' Hj QQ E. exec_cases X1; try destruct o; unfold code, consume_code in Hn; cbn [app concat In] in Hn; rewrite ?app_nil_r in Hn;
        try (apply in_map_iff in Hn as (? & Hn & _)); repeat (destruct Hn as [Hn|Hn]); try discriminate; try contradiction.
      * injection Hn as -> -> ->. cbn. apply in_or_app. right. now left.
      * injection Hn as -> -> ->. cbn. apply in_or_app. right. now left.
    + (* an old one *)
      assert (KEEP : forall j0, somewhere s j0 -> j0 = i \/ somewhere s' j0) by (intros j0 H0; exact (somewhere_old _ _ _ _ _ _ _ _ _ _ Q S' H0)).
      assert (NEW : forall j0, In j0 e -> somewhere s' j0).
      { intros j0 H0. rewrite S'. exists (e ++ k). cbn [set_threads a_threads]. split; [apply in_or_app; right; now left|apply in_or_app; now left]. }
      pose proof (IH _ Ho) as HT. cbn [tracked] in HT.
      assert (OLD : (forall n r L0, i <> IWaits n r c L0) -> (In (c, d) (a_queue s) -> In (c, d) (a_queue s1)) -> In (c, d) (a_queue s1) \/ exists n r L0, somewhere s' (IWaits n r c L0) /\ In d L0).
      { intros H1 H2. destruct HT as [HT|(n & r & L0 & HW & HD)]; [left; now apply H2|]. destruct (KEEP _ HW) as [HE|HW']; [exfalso; apply (H1 n r L0); now symmetry|]. right. now exists n, r, L0. }
      pose proof (done_no_end _ _ l c d R) as DN.
      split_step R NT X1.
      2:{ destruct U; cbn [set_stat set_exc a_queue] in *; apply OLD; try congruence; auto. }
      exec_cases X1; cbn [new_call set_lock set_queue set_stat new_task set_st set_exc a_queue] in *; try (apply OLD; [congruence|tauto]).
      * apply OLD; [congruence|]. intros; apply in_or_app; now left.
      * apply OLD; [congruence|]. intros; apply in_or_app; now left.
      * apply OLD; [congruence|]. intros H. apply filter_In. split; [assumption|]. cbn [snd]. destruct (Nat.eqb_spec d n); [|reflexivity]. subst. exfalso. now apply DN.
      * (* IFlush *)
        destruct HT as [HT|(n0 & r0 & L0 & HW & HD)].
        -- destruct (Nat.eq_dec c c0) as [<-|N].
           ++ right. exists n, r, (queue s c). split; [apply NEW; now left|now apply in_queue].
           ++ left. apply filter_In. split; [assumption|]. cbn [fst]. destruct (Nat.eqb_spec c c0); [contradiction|reflexivity].
        -- destruct (KEEP _ HW) as [HW'|HW']; [discriminate|]. right. now exists n0, r0, L0.
      * (* IWaits [] , filter *)
        destruct HT as [HT|(n0 & r0 & L0 & HW & HD)]; [now left|]. destruct (KEEP _ HW) as [HW'|HW']; [injection HW' as -> -> -> ->; destruct HD|]. right. now exists n0, r0, L0.
      * destruct HT as [HT|(n0 & r0 & L0 & HW & HD)]; [now left|]. destruct (KEEP _ HW) as [HW'|HW']; [injection HW' as -> -> -> ->; destruct HD|]. right. now exists n0, r0, L0.
      * (* IWaits, deferred *)
        destruct HT as [HT|(n1 & r0 & L0 & HW & HD)]; [now left|]. destruct (KEEP _ HW) as [HW'|HW']; [injection HW' as -> -> -> ->|right; now exists n1, r0, L0].
        right. exists n, r, (n0 :: l1). split; [apply NEW; now left|assumption].
      * (* IWaits, done *)
        destruct HT as [HT|(n1 & r0 & L0 & HW & HD)]; [now left|]. destruct (KEEP _ HW) as [HW'|HW']; [injection HW' as -> -> -> ->|right; now exists n1, r0, L0].
        right. exists n, r, l1. split; [apply NEW; now left|]. destruct HD as [->|HD]; [exfalso; now apply DN|assumption].
Qed.

(** ** Calls *)
Definition cnt (f : event X -> nat) tr : nat := list_sum (map f tr).
Lemma cnt_snoc : forall f tr e, cnt f (tr ++ [e]) = cnt f tr + f e.
Proof. intros. unfold cnt. rewrite map_app, list_sum_app. cbn. lia. Qed.
Lemma cnt_app : forall f tr tr', cnt f (tr ++ tr') = cnt f tr + cnt f tr'.
Proof. intros. unfold cnt. now rewrite map_app, list_sum_app. Qed.
Lemma cnt_in : forall f tr e, In e tr -> f e <= cnt f tr.
Proof. intros f tr e H. induction tr as [|a tr IH]; [destruct H|]. unfold cnt in *. cbn [map]. cbn [list_sum fold_right]. destruct H as [<-|H]; [lia|]. specialize (IH H). unfold list_sum in IH. lia. Qed.
Lemma cnt_pos : forall f tr, 0 < cnt f tr -> exists e, In e tr /\ 0 < f e.
Proof.
  intros f tr. induction tr as [|a tr IH]; [cbn; lia|]. unfold cnt in *. cbn [map]. cbn [list_sum fold_right]. intros H. destruct (f a) eqn:E; [|exists a; split; [now left|lia]].
  destruct IH as (e & He & P); [unfold list_sum; lia|]. exists e. split; [now right|assumption].
Qed.
Definition returns (n : nat) i : nat := match i with IReturn n' _ => b2n (n' =? n) | _ => 0 end.
Definition called (n : nat) (e : event X) : nat := match e with ECall _ n' _ => b2n (n' =? n) | _ => 0 end.
Definition returned (n : nat) (e : event X) : nat := match e with EReturn _ n' _ | EThrew _ n' _ => b2n (n' =? n) | _ => 0 end.
Lemma call_reach : forall tr s, reach tr s -> forall n, tot (returns n) s + cnt (returned n) tr = cnt (called n) tr /\ cnt (called n) tr = b2n (n <? a_calls s).
Proof.
  induction 1 as [|tr s im t ev s' R IH E]; intros n.
  - split; [rewrite init_tot; reflexivity|reflexivity].
  - specialize (IH n). destruct IH as [IH1 IH2]. step_cases E (returns n). rewrite !cnt_snoc.
    split_step R NT X1; [|destruct U; wsimp; cbn [returns called returned] in *; split; lia].
    exec_cases X1; try destruct o; wsimp; cbn [returns called returned] in *; try (split; [lia|]); try lia;
      destruct (Nat.eqb_spec (a_calls s) n); destruct (Nat.ltb_spec n (a_calls s)); destruct (Nat.ltb_spec n (S (a_calls s))); cbn [b2n] in *; try lia.
Qed.
End Inv.
