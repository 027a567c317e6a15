(** When flush_consumers() or flush() returns, nothing that was on its way downstream is left. *)
From Verif Require Import Prelude ANetModel ANetBase ANetInv ANetSpec ANetFlow.
Local Open Scope nat_scope.

Section Flush.
Context {X St : Type}.
Variable edges : list edge.
Variable filt : nat -> option (St -> X -> St * option X).
Variable s0 : nat -> St.
Variable programs : list (list (op X)).
Implicit Types (s : state X St) (k : list (instr X)) (i j : instr X) (tr : list (event X)).
Notation exec1 := (exec1 edges filt).
Notation step := (step edges filt).
Notation reach := (reach edges filt s0 programs).
Notation slots := (slots edges).

Ltac split_step R NT X1 :=
  let P := fresh "P" in pose proof X1 as P; eapply exec_split in P; [|exact R|exact NT];
  destruct P as [[EXC P]|(EXC & -> & -> & lu & U1 & U2 & U)]; [clear X1; rename P into X1|].
(** [q] is where the flush call starts: the samples in question are those that come from [(o, b)], the sample issued by [q] or (flush() of [q]) consumed by [q]. *)
Definition starts_at tr (f : op X) (o : nat) (b : trail) :=
  match f with
  | OSend _ _ => False
  | OFlushConsumers q => over tr o b q
  | OFlush q => exists a b' e, b = a :: b' /\ nth_error edges a = Some e /\ g_to e = q /\ over tr o b' (g_from e) /\ at_ edges filt tr (o, b) q
  end.
Lemma over_app : forall tr tr' o b p, over tr o b p -> over (tr ++ tr') o b p.
Proof.
  intros tr tr' o b p H. destruct b as [|a b]; cbn [over] in *.
  - destruct H as (t & x & [H|H]); exists t, x; [left|right]; apply in_or_app; now left.
  - destruct H as (t & [H|H]); exists t; [left|right]; apply in_or_app; now left.
Qed.
Lemma starts_at_app : forall tr tr' f o b, starts_at tr f o b -> starts_at (tr ++ tr') f o b.
Proof.
  intros tr tr' f o b H. destruct f; cbn [starts_at] in *; [assumption|now apply over_app|].
  destruct H as (a & b' & e & H1 & H2 & H3 & H4 & H5). exists a, b', e. repeat split; auto; [now apply over_app|now apply at_app].
Qed.
Definition covers (n : nat) (fi : instr X) (r : trail) j : Prop :=
  match fi with
  | IEmitFlush n' r' _ => n' = n /\ exists u, r = u ++ r' /\ u <> []
  | ISlotFlush n' r' _ | IFlush n' r' _ => n' = n /\ exists u, r = u ++ r'
  | IWaits n' r' _ L => n' = n /\ exists u, r = u ++ r' /\ (u = [] -> match j with IEnd _ _ (Some d) => In d L | _ => False end)
  | _ => False
  end.
Definition covered n o (b : trail) s := forall r j, somewhere s j -> closes j (o, r ++ b) -> exists fi, somewhere s fi /\ covers n fi r j.

Lemma covers_flushing : forall n fi r j, covers n fi r j -> exists r' u, flushing fi = Some (n, r') /\ r = u ++ r'.
Proof.
  intros n fi r j H. destruct fi; cbn [covers] in H; try contradiction; destruct H as [-> H].
  - destruct H as (u & -> & _). now exists r0, u.
  - destruct H as (u & ->). now exists r0, u.
  - destruct H as (u & ->). now exists r0, u.
  - destruct H as (u & -> & _). now exists r0, u.
Qed.
(** All instructions of one flush are in one thread. *)
Lemma flush_same_stack : forall tr s i k j n r r', reach tr s -> In (i :: k) (a_threads s) -> flushing i = Some (n, r) -> somewhere s j -> flushing j = Some (n, r') -> j = i \/ In j k.
Proof.
  intros tr s i k j n r r' R Hi Fi (k' & Hk' & Hj) Fj.
  pose proof (okk_reach _ _ _ _ _ _ R) as HO. unfold stacks in HO. rewrite Forall_forall in HO.
  assert (R1 : exists o, In (IReturn n o) (i :: k)).
  { destruct (HO _ Hi) as [[_ N] _]. destruct i; cbn in Fi; try discriminate; injection Fi as -> ->; destruct N as [(o & N & _) _]; exists o; now right. }
  assert (R2 : exists o, In (IReturn n o) k').
  { destruct (okk_in _ _ _ (HO _ Hk') Hj) as (k1 & k2 & -> & [_ N]). destruct j; cbn in Fj; try discriminate; injection Fj as -> ->; destruct N as [(o & N & _) _]; exists o; apply in_or_app; right; now right. }
  destruct R1 as (o1 & R1), R2 as (o2 & R2).
  assert (T : tot (returns n) s <= 1). { destruct (call_reach _ _ _ _ _ _ R n) as [C1 C2]. pose proof (b2n_le (n <? a_calls s)). lia. }
  assert (EQ : k' = i :: k).
  { destruct (in_split _ _ Hi) as (A & B & Q). unfold tot in T. rewrite Q in T, Hk'. rewrite wts_app, wts_cons in T.
    assert (G1 : 1 <= wt (returns n) (i :: k)). { pose proof (wt_ge (returns n) _ _ R1) as G. cbn [returns] in G. rewrite Nat.eqb_refl in G. exact G. }
    assert (G2 : 1 <= wt (returns n) k'). { pose proof (wt_ge (returns n) _ _ R2) as G. cbn [returns] in G. rewrite Nat.eqb_refl in G. exact G. }
    apply in_app_or in Hk' as [Hk'|[Hk'|Hk']]; [|now symmetry|]; pose proof (wts_ge (returns n) _ _ Hk'); lia. }
  subst k'. destruct Hj as [->|Hj]; [now left|now right].
Qed.
(** After the call has returned, no instruction of it is left. *)
Lemma flush_gone : forall tr s t n o j r, reach tr s -> In (EReturn t n o) tr -> somewhere s j -> flushing j <> Some (n, r).
Proof.
  intros tr s t n o j r R H (k & Hk & Hj) F.
  pose proof (okk_reach _ _ _ _ _ _ R) as HO. unfold stacks in HO. rewrite Forall_forall in HO.
  destruct (okk_in _ _ _ (HO _ Hk) Hj) as (k1 & k2 & -> & [_ N]).
  assert (R2 : exists o, somewhere s (IReturn n o)).
  { destruct j; cbn in F; try discriminate; injection F as -> ->; destruct N as [(o' & N & _) _]; exists o'; eexists; (split; [exact Hk|apply in_or_app; right; now right]). }
  destruct R2 as (o2 & R2). pose proof (tot_ge (returns n) _ _ R2) as G. cbn [returns] in G. rewrite Nat.eqb_refl in G.
  pose proof (cnt_in (returned n) _ _ H) as G1. cbn [returned] in G1. rewrite Nat.eqb_refl in G1.
  destruct (call_reach _ _ _ _ _ _ R n) as [C1 C2]. pose proof (b2n_le (n <? a_calls s)). cbn in G, G1. lia.
Qed.
Lemma stack_need : forall tr s i k, reach tr s -> In (i :: k) (a_threads s) -> need edges i k.
Proof.
  intros tr s i k R H. pose proof (okk_reach _ _ _ _ _ _ R) as HO. unfold stacks in HO. rewrite Forall_forall in HO. now destruct (HO _ H).
Qed.
Lemma parent_somewhere : forall s i k l, In (i :: k) (a_threads s) -> parent k l -> exists a p j, l = (fst l, a :: p) /\ somewhere s j /\ closes j (fst l, p).
Proof.
  intros s i k l H (a & p & j & H1 & H2 & H3). exists a, p, j. split; [destruct l; cbn in *; congruence|]. split; [|assumption]. exists (i :: k). split; [assumption|now right].
Qed.
Lemma closer_at : forall tr s j l, reach tr s -> somewhere s j -> closes j l -> exists c, at_ edges filt tr l c.
Proof.
  intros tr s j l R Hj C. pose proof (placed_reach _ _ _ _ _ _ R _ Hj) as P. destruct j; cbn in C; try contradiction.
  - destruct o; try contradiction. subst l. destruct P as (t & P). exists p, p, x. split; [now exists t|constructor].
  - subst l0. exists c. apply P.
Qed.
(** The place of a flush instruction on a path below the base is the place of the samples with that path. *)
Lemma same_place : forall tr s o b q u r c, reach tr s -> at_ edges filt tr (o, b) q -> at_ edges filt tr (o, u ++ r ++ b) c ->
  exists p, okp edges filt q r p /\ okp edges filt p u c /\ (u <> [] -> r ++ b <> [] -> filt p <> None).
Proof.
  intros tr s o b q u r c R (q0 & x & S0 & K0) (q1 & x1 & S1 & K1). cbn [fst snd] in *.
  destruct (sent_unique _ _ _ _ _ _ _ _ _ _ _ R S0 S1) as [<- <-].
  destruct (okp_app _ _ _ _ _ _ K1) as (p & A1 & A2 & A3). destruct (okp_app _ _ _ _ _ _ A1) as (q' & B1 & B2 & B3).
  rewrite (okp_fun _ _ _ _ _ K0 _ B1). now exists p.
Qed.
Lemma flush_place : forall tr s t n f q r c, reach tr s -> In (ECall t n f) tr -> (f = OFlushConsumers q \/ f = OFlush q) -> flush_at edges filt tr n r c -> okp edges filt q r c /\ (r = [] -> f = OFlush q).
Proof.
  intros tr s t n f q r c R H HF (t' & q' & K & D).
  destruct D as [[D N]|D]; destruct (call_unique _ _ _ _ _ _ _ _ _ _ _ R H D) as [_ E]; destruct HF as [HF|HF]; subst f; try discriminate; injection E as ->; repeat split; auto; contradiction.
Qed.

Section One.
Variable n o : nat.
Variable b : trail.
Variable f : op X.

Lemma covered_step : forall tr s im t ev s' tc, reach tr s -> In (ECall tc n f) tr -> starts_at tr f o b -> covered n o b s -> step im t s = Some (ev, s') -> covered n o b s'.
Proof.
  intros tr s im t ev s' tc R HC HS IH E r j Hj Cj.
  pose proof (reachS _ _ _ _ _ _ _ _ _ _ R E) as R'.
  assert (HQ : exists q, (f = OFlushConsumers q \/ f = OFlush q) /\ at_ edges filt tr (o, b) q).
  { destruct f as [p x|q|q]; cbn [starts_at] in HS; [destruct HS|..]; exists q.
    - split; [now left|]. eapply over_at; eauto.
    - split; [now right|]. destruct HS as (a & b' & e & _ & _ & _ & _ & HS). exact HS. }
  destruct HQ as (q & HF & HB).
  assert (SENT : exists qs xs, sent tr o qs xs). { destruct HB as (qs & xs & HB & _). now exists qs, xs. }
  assert (NOPAR : forall a b', b = a :: b' -> f = OFlush q -> forall s2 tr2, reach (tr ++ tr2) s2 -> forall j2, somewhere s2 j2 -> ~ closes j2 (o, b')).
  { intros a b' EB EF s2 tr2 R2. rewrite EF in HS. destruct HS as (a1 & b1 & e1 & H1 & _ & _ & H2 & _). rewrite EB in H1. injection H1 as <- <-. eapply over_closed; [exact R2|]. apply over_app. exact H2. }
  assert (BNIL : f = OFlush q -> b <> []). { intros EF. rewrite EF in HS. destruct HS as (a1 & b1 & e1 & H1 & _). congruence. }
  assert (NOBASE : forall q', f = OFlushConsumers q' -> forall s2 tr2, reach (tr ++ tr2) s2 -> forall j2, somewhere s2 j2 -> ~ closes j2 (o, b)).
  { intros q' EF s2 tr2 R2. rewrite EF in HS. eapply over_closed; [exact R2|]. apply over_app. exact HS. }
  destruct (step_inv _ _ _ _ _ _ _ E) as (A & i & k & B & e & sp & s1 & Q & L & X1 & S').
  assert (HIn : In (i :: k) (a_threads s)) by (rewrite Q; apply in_or_app; right; now left).
  pose proof (mid_nth _ _ _ _ _ Q L) as NT. pose proof (stack_need _ _ _ _ R HIn) as HN. destruct HN as [_ HN].
  pose proof (placed_reach _ _ _ _ _ _ R _ (head_somewhere _ _ _ HIn)) as HP.
  assert (KEEP : forall j0, somewhere s j0 -> j0 = i \/ somewhere s' j0) by (intros j0 H0; exact (somewhere_old _ _ _ _ _ _ _ _ _ _ Q S' H0)).
  assert (NEW : forall j0, In j0 e -> somewhere s' j0).
  { intros j0 H0. rewrite S'. exists (e ++ k). cbn [set_threads a_threads]. split; [apply in_or_app; right; now left|apply in_or_app; now left]. }
  (* a new sample on its way comes from one that is still being worked on *)
  assert (CHILD : forall l, parent k l -> l = (o, r ++ b) -> flushing i = None -> exists fi, somewhere s' fi /\ covers n fi r j).
  { intros l P -> FI. destruct (parent_somewhere _ _ _ _ HIn P) as (a & p & j0 & H1 & H2 & H3). cbn [fst] in *. injection H1 as H1.
    destruct r as [|a' r']; cbn [app] in H1.
    - exfalso. destruct HF as [HF|HF]; [|eapply (NOPAR a p H1 HF s []); [now rewrite app_nil_r|exact H2|exact H3]].
      eapply (NOBASE q HF s' [ev]); [exact R'|exact Hj|exact Cj].
    - injection H1 as <- <-. destruct (IH _ _ H2 H3) as (fi & F1 & F2). exists fi. split.
      + destruct (KEEP _ F1) as [->|F]; [|assumption]. destruct (covers_flushing _ _ _ _ F2) as (? & ? & F & _). congruence.
      + destruct fi; cbn [covers] in *; try contradiction.
        * destruct F2 as [F2 (u & -> & U)]. split; [assumption|]. exists (a' :: u). split; [reflexivity|discriminate].
        * destruct F2 as [F2 (u & ->)]. split; [assumption|]. now exists (a' :: u).
        * destruct F2 as [F2 (u & ->)]. split; [assumption|]. now exists (a' :: u).
        * destruct F2 as [F2 (u & -> & U)]. split; [assumption|]. exists (a' :: u). split; [reflexivity|discriminate]. }
  destruct (somewhere_new _ _ _ _ _ _ _ _ _ _ _ _ _ _ _ Q X1 S' Hj) as [Hn|Ho].
  - (* new *)
    clear S' NEW. split_step R NT X1; [|destruct Hn]. exec_cases X1; try (match goal with o : op X |- _ => destruct o end); unfold code, consume_code in Hn; cbn [app concat In] in Hn; rewrite ?app_nil_r in Hn;
      try (apply in_map_iff in Hn; destruct Hn as (z & <- & _)); repeat (destruct Hn as [<-|Hn]); try contradiction; cbn [closes] in Cj; try contradiction;
      try (subst l; eapply CHILD; [exact (proj1 HN)|reflexivity|reflexivity]).
    + injection Cj as EO _. destruct SENT as (qs & xs & ts & SENT). destruct (call_reach _ _ _ _ _ _ R o) as [_ C2].
      pose proof (cnt_in (called o) _ _ SENT) as G. cbn [called] in G. rewrite Nat.eqb_refl in G. cbn in G. destruct (Nat.ltb_spec o (a_calls s)); cbn in C2; lia.
  - (* old *)
    destruct (IH _ _ Ho Cj) as (fi & F1 & F2).
    destruct (KEEP _ F1) as [->|F]; [|now exists fi].
    destruct (closer_at _ _ _ _ R Ho Cj) as (cj & AJ).
    split_step R NT X1; [|destruct U; contradiction].
    exec_cases X1; cbn [covers] in F2; try contradiction; destruct F2 as [-> (u & F2)].
    + (* IEmitFlush *)
      destruct F2 as [-> U]. destruct (exists_last U) as (u' & a & ->).
      assert (PL : okp edges filt q r0 p).
      { destruct HP as [[HP _]|(t' & HP & ->)]; [now apply (flush_place _ _ _ _ _ _ _ _ R HC HF HP)|]. destruct (call_unique _ _ _ _ _ _ _ _ _ _ _ R HC HP) as [_ EF]. destruct HF as [HF|HF]; rewrite HF in EF; [|discriminate]. injection EF as ->. constructor. }
      rewrite <- !app_assoc in AJ. cbn [app] in AJ.
      destruct AJ as (q1 & x1 & S1 & K1). cbn [fst snd] in S1, K1.
      destruct (okp_app _ _ _ _ _ _ K1) as (p1 & A1 & A2 & A3). inversion A1 as [|? e1 ? A4 A5 A6]; subst.
      assert (PE : g_from e1 = p).
      { destruct (same_place _ _ o b q [] r0 (g_from e1) R HB) as (p' & B1 & B2 & _); [exists q1, x1; split; [exact S1|exact A4]|]. inversion B2; subst. exact (okp_fun _ _ _ _ _ B1 _ PL). }
      exists (ISlotFlush n (a :: r0) (g_to e1)). split.
      * apply NEW. apply in_map_iff. exists (a, e1). split; [reflexivity|]. now apply in_slots.
      * cbn [covers]. split; [reflexivity|]. exists u'. now rewrite <- app_assoc.
    + (* ISlotFlush *)
      exists (IFlush n r0 c). split; [apply NEW; now left|]. cbn [covers]. split; [reflexivity|]. now exists u.
    + (* IFlush *)
      exists (IWaits n r0 c (queue s c)). split; [apply NEW; now left|]. cbn [covers]. split; [reflexivity|]. exists u. split; [assumption|]. intros ->. cbn [app] in F2. subst r0.
      destruct (flush_place _ _ _ _ _ _ _ _ R HC HF HP) as (PL & PN).
      destruct j as [| |l0 p0 x0| | | | | | | |l0 c0 d| | | |]; cbn [closes] in Cj; try contradiction.
      { destruct o0; try contradiction. injection Cj as _ EB. apply app_eq_nil in EB as [ER EB]. apply (BNIL (PN ER)). assumption. }
      subst l0. destruct d as [d|].
      * pose proof (placed_reach _ _ _ _ _ _ R _ Ho) as [PJ _]. 
        destruct (same_place _ _ o b q [] r c0 R HB PJ) as (p' & B1 & B2 & _). inversion B2; subst. rewrite (okp_fun _ _ _ _ _ B1 _ PL) in *.
        pose proof (tracked_reach _ _ _ _ _ _ R _ Ho) as TR. cbn [tracked] in TR. destruct TR as [TR|(n1 & r1 & L1 & TR & _)]; [now apply in_queue|].
        exfalso. assert (EQ : (IWaits n1 r1 c L1 : instr X) = IFlush n r c); [|discriminate]. eapply (holder_unique _ _ _ _ _ _ _ _ _ c R HIn); [cbn; apply Nat.eqb_refl|exact TR|cbn; apply Nat.eqb_refl].
      * exfalso. destruct Ho as (kj & Hkj & Hjk). pose proof (okk_reach _ _ _ _ _ _ R) as HO. unfold stacks in HO. rewrite Forall_forall in HO.
        destruct (okk_in _ _ _ (HO _ Hkj) Hjk) as (k1 & k2 & EK & [_ [(a & p & j2 & P1 & P2 & P3) _]]). cbn [fst snd] in *.
        assert (HJ2 : somewhere s j2). { exists kj. split; [assumption|]. rewrite EK. apply in_or_app; right; now right. }
        destruct r as [|a' r'].
        -- cbn [app] in P1. eapply (NOPAR a p P1 (PN eq_refl) s []); [now rewrite app_nil_r|exact HJ2|exact P3].
        -- cbn [app] in P1. injection P1 as <- <-. destruct (IH _ _ HJ2 P3) as (fi & G1 & G2). destruct (covers_flushing _ _ _ _ G2) as (r1 & u1 & G3 & G4).
           destruct (flush_same_stack _ _ _ _ _ _ _ _ R HIn eq_refl G1 G3) as [->|G5].
           ++ cbn in G3. injection G3 as <-. assert (LL : length r' = length u1 + S (length r')) by (rewrite G4 at 1; rewrite app_length; reflexivity). lia.
           ++ destruct HN as [_ HN]. destruct (HN _ _ G5 G3) as [_ HN2]. apply HN2. exists (a' :: u1). rewrite G4. reflexivity.
    + (* IWaits [], filter *)
      destruct F2 as [-> U]. exists (IEmitFlush n r0 c). split; [apply NEW; right; now left|]. cbn [covers]. split; [reflexivity|]. exists u. split; [reflexivity|].
      intros ->. specialize (U eq_refl). destruct j; try contradiction. now destruct d.
    + (* IWaits [], consumer *)
      exfalso. destruct F2 as [-> U]. destruct (flush_place _ _ _ _ _ _ _ _ R HC HF HP) as (PL & PN).
      rewrite <- app_assoc in AJ. destruct (same_place _ _ o b q u r0 cj R HB AJ) as (p' & B1 & _ & B3). rewrite (okp_fun _ _ _ _ _ B1 _ PL) in *.
      destruct u as [|a u]; [specialize (U eq_refl); destruct j; try contradiction; now destruct d|]. apply B3; [discriminate| |assumption].
      intros EN. apply app_eq_nil in EN as [ER EB]. exact (BNIL (PN ER) EB).
    + (* deferred *)
      exists (IWaits n r0 c (n1 :: l0)). split; [apply NEW; now left|]. cbn [covers]. split; [reflexivity|]. now exists u.
    + (* done *)
      exists (IWaits n r0 c l0). split; [apply NEW; now left|]. cbn [covers]. split; [reflexivity|]. exists u. destruct F2 as [F2 U]. split; [assumption|]. intros EU. specialize (U EU).
      destruct j as [| | | | | | | | | |lj c0 d| | | |]; try contradiction. destruct d as [d|]; [|contradiction]. destruct U as [->|U]; [|assumption]. exfalso. eapply (done_no_end _ _ _ _ _ _ _ _ _ R); [|exact Ho]. assumption.
Qed.

Lemma covered_reach : forall tr s, reach tr s -> forall tr1 t tr2, tr = tr1 ++ ECall t n f :: tr2 -> starts_at tr1 f o b -> covered n o b s.
Proof.
  induction 1 as [|tr s im t ev s' R IH E]; intros tr1 tc tr2 Q HS; [now destruct tr1|].
  destruct tr2 as [|x tr2 _] using rev_ind.
  - apply app_inj_tail in Q as [-> ->].
    pose proof (reachS _ _ _ _ _ _ _ _ _ _ R E) as R'.
    assert (OV : forall q, f = OFlushConsumers q -> forall j, somewhere s' j -> ~ closes j (o, b)).
    { intros q EF j Hj. eapply over_closed; [exact R'|apply over_app|exact Hj]. rewrite EF in HS. exact HS. }
    destruct (step_inv _ _ _ _ _ _ _ E) as (A & i & k & B & e & sp & s1 & Q & L & X1 & S').
    assert (NEW : forall j0, In j0 e -> somewhere s' j0).
    { intros j0 H0. rewrite S'. exists (e ++ k). cbn [set_threads a_threads]. split; [apply in_or_app; right; now left|apply in_or_app; now left]. }
    intros r j Hj Cj. pose proof (mid_nth _ _ _ _ _ Q L) as NT. clear S' R' E. split_step R NT X1; [|inversion U].
    destruct f as [p x|q|q]; cbn [starts_at] in HS; [destruct HS| |]; destruct i; cbn [ANetModel.normal] in X1;
      repeat match type of X1 with context [match ?z with _ => _ end] => destruct z eqn:? end; try discriminate X1; injection X1 as Et En Eo Ee Esp Es1; subst e; rewrite Eo, En in NEW.
    + exists (IEmitFlush n [] q). split; [apply NEW; now left|]. cbn [covers]. split; [reflexivity|]. exists r. rewrite app_nil_r. split; [reflexivity|].
      intros ->. eapply OV; [reflexivity|exact Hj|exact Cj].
    + exists (ISlotFlush n [] q). split; [apply NEW; now left|]. cbn [covers]. split; [reflexivity|]. exists r. now rewrite app_nil_r.
  - change (ECall tc n f :: tr2 ++ [x]) with ((ECall tc n f :: tr2) ++ [x]) in Q. rewrite app_assoc in Q. apply app_inj_tail in Q as [-> <-].
    eapply covered_step; [exact R| | |eapply IH; [reflexivity|exact HS]|exact E].
    + apply in_or_app; right; now left.
    + now apply starts_at_app.
Qed.
(** Once the call has returned... *)
Lemma quiet : forall tr s, reach tr s -> forall tr1 t t' f' tr2, tr = tr1 ++ ECall t n f :: tr2 -> In (EReturn t' n f') tr2 -> starts_at tr1 f o b -> forall r j, somewhere s j -> ~ closes j (o, r ++ b).
Proof.
  intros tr s R tr1 t t' f' tr2 Q HR HS r j Hj C.
  destruct (covered_reach _ _ R _ _ _ Q HS r j Hj C) as (fi & F1 & F2). destruct (covers_flushing _ _ _ _ F2) as (r' & u & F3 & _).
  eapply flush_gone; [exact R| |exact F1|exact F3]. rewrite Q. apply in_or_app; right; right. exact HR.
Qed.
Lemma about_closer : forall tr s im t ev s' l, reach tr s -> step im t s = Some (ev, s') -> about l ev -> exists j, somewhere s j /\ closes j l.
Proof.
  intros tr s im t ev s' l R E AB. destruct (step_inv _ _ _ _ _ _ _ E) as (A & i & k & B & e & sp & s1 & Q & L & X1 & S').
  assert (HIn : In (i :: k) (a_threads s)) by (rewrite Q; apply in_or_app; right; now left).
  destruct (stack_need _ _ _ _ R HIn) as [_ HN].
  pose proof (mid_nth _ _ _ _ _ Q L) as NT. split_step R NT X1.
  2:{ destruct U as [| o1 a1 r1 ed x1 k1 ? ? ? | o1 a1 r1 ed d1 ? ? | ]; cbn [about] in AB; try contradiction; subst l;
        [exists (IEnd (o1, a1 :: r1) (g_to ed) None)|exists (IEnd (o1, a1 :: r1) (g_to ed) (Some d1))]; (split; [eapply head_somewhere; exact HIn|reflexivity]). }
  exec_cases X1; cbn [about] in AB; try contradiction; subst l.
  1: { destruct HN as [(j & H1 & H2) _]. exists j. split; [exists (IEmit l0 p x :: k); split; [assumption|now right]|assumption]. }
  1-4: destruct HN as [(d & k' & ->) _]; exists (IEnd l0 c d); (split; [exists (IConsume l0 c x :: IEnd l0 c d :: k'); split; [assumption|right; now left]|reflexivity]).
  - exists (IEnd l0 c (Some n0)). split; [eapply head_somewhere; exact HIn|reflexivity].
  - exists (IEnd l0 c None). split; [eapply head_somewhere; exact HIn|reflexivity].
Qed.
Lemma silence : forall tr s, reach tr s -> forall tr1 t t' f' tr2 tr3, tr = tr1 ++ ECall t n f :: tr2 ++ EReturn t' n f' :: tr3 -> starts_at tr1 f o b ->
  forall r e, In e tr3 -> ~ about (o, r ++ b) e.
Proof.
  induction 1 as [|tr s im t ev s' R IH E]; intros tr1 tc t' f' tr2 tr3 Q HS r e He AB; [now destruct tr1|].
  destruct tr3 as [|x tr3 _] using rev_ind; [destruct He|].
  assert (Q' : tr ++ [ev] = (tr1 ++ ECall tc n f :: tr2 ++ EReturn t' n f' :: tr3) ++ [x]) by (rewrite Q; rewrite <- app_assoc; cbn [app]; now rewrite <- app_assoc).
  apply app_inj_tail in Q' as [Q' <-]. apply in_app_or in He as [He|[<-|[]]]; [eapply IH; eauto|].
  destruct (about_closer _ _ _ _ _ _ _ R E AB) as (j & H1 & H2). eapply (quiet _ _ R _ _ _ _ _ Q'); [|exact HS|exact H1|exact H2]. apply in_or_app; right; now left.
Qed.
End One.

(** ** What has happened when nothing is left *)
Lemma goes_once : forall tr s, reach tr s -> forall o a r, cnt (goes_over edges (o, a :: r)) tr <= 1.
Proof.
  intros tr s R o a r. pose proof (once _ _ _ _ _ _ R o r) as [_ O2]. etransitivity; [|exact O2]. clear.
  unfold cnt. induction tr as [|e tr IH]; [cbn; lia|]. cbn [map]. cbn [list_sum fold_right]. apply Nat.add_le_mono; [|exact IH]. destruct e; cbn; try lia. destruct (is_label (o, r) l); cbn; [|lia]. apply b2n_le.
Qed.
Lemma closed_no_begin : forall tr s o r, reach tr s -> (forall j, somewhere s j -> ~ closes j (o, r)) -> tot (w_begin (o, r)) s = 0 /\ tot (w_end (o, r)) s = 0 /\ tot (w_issue (o, r)) s = 0.
Proof.
  intros tr s o r R H. pose proof (okk_reach _ _ _ _ _ _ R) as HO. unfold stacks in HO. rewrite Forall_forall in HO.
  repeat split; match goal with |- ?x = 0 => destruct x eqn:E; [reflexivity|exfalso] end.
  - destruct (tot_pos (w_begin (o, r)) s) as (i & (k & Hk & Hi) & P); [lia|]. destruct i; cbn in P; try lia. destruct (is_label (o, r) l) eqn:EL; [|cbn in P; lia]. apply is_label_true in EL. subst l.
    destruct (okk_in _ _ _ (HO _ Hk) Hi) as (k1 & k2 & -> & [_ [(d & k' & ->) _]]). apply (H (IEnd (o, r) c d)); [|reflexivity]. eexists. split; [exact Hk|]. apply in_or_app; right; right; now left.
  - destruct (tot_pos (w_end (o, r)) s) as (i & Hi & P); [lia|]. destruct i; cbn in P; try lia. destruct (is_label (o, r) l) eqn:EL; [|cbn in P; lia]. apply is_label_true in EL. subst l.
    eapply H; [exact Hi|]. reflexivity.
  - destruct (tot_pos (w_issue (o, r)) s) as (i & (k & Hk & Hi) & P); [lia|]. destruct i; cbn in P; try lia. destruct (is_label (o, r) l) eqn:EL; [|cbn in P; lia]. apply is_label_true in EL. subst l.
    destruct (okk_in _ _ _ (HO _ Hk) Hi) as (k1 & k2 & -> & [_ [(j & N1 & N2) _]]). eapply H; [|exact N2]. eexists. split; [exact Hk|]. apply in_or_app; right; right. exact N1.
Qed.
Lemma closed_no_coming : forall tr s o a r, reach tr s -> (forall j, somewhere s j -> ~ closes j (o, r)) -> (forall j, somewhere s j -> ~ closes j (o, a :: r)) -> tot (w_coming (o, a :: r)) s = 0.
Proof.
  intros tr s o a r R H H'. pose proof (okk_reach _ _ _ _ _ _ R) as HO. unfold stacks in HO. rewrite Forall_forall in HO.
  match goal with |- ?x = 0 => destruct x eqn:E; [reflexivity|exfalso] end.
  destruct (tot_pos (w_coming (o, a :: r)) s) as (i & (k & Hk & Hi) & P); [lia|]. 
  destruct (okk_in _ _ _ (HO _ Hk) Hi) as (k1 & k2 & -> & [_ N]).
  destruct i; cbn in P; try lia; (destruct (is_label (o, a :: r) l) eqn:EL; [|cbn in P; lia]); apply is_label_true in EL; subst l; cbn [need] in N.
  - destruct N as [(a1 & p1 & j & N1 & N2 & N3) _]. cbn [fst snd] in *. injection N1 as <- <-. eapply H; [|exact N3]. eexists. split; [exact Hk|]. apply in_or_app; right; right. exact N2.
  - destruct N as [(a1 & p1 & j & N1 & N2 & N3) _]. cbn [fst snd] in *. injection N1 as <- <-. eapply H; [|exact N3]. eexists. split; [exact Hk|]. apply in_or_app; right; right. exact N2.
  - destruct N as [(d & k' & ->) _]. apply (H' (IEnd (o, a :: r) c d)); [|reflexivity]. eexists. split; [exact Hk|]. apply in_or_app; right; right; now left.
Qed.
Lemma closed_finished : forall tr s o r, reach tr s -> (forall j, somewhere s j -> ~ closes j (o, r)) -> times (starts (o, r)) tr = times (finishes (o, r)) tr.
Proof. intros tr s o r R H. destruct (closed_no_begin _ _ _ _ R H) as (H1 & H2 & _). rewrite !times_cnt. pose proof (end_reach _ _ _ _ _ _ R (o, r)). lia. Qed.
(** Something on its way because of a sample that is not being worked on any more has been delivered, or an exception has prevented it. *)
Lemma closed_served : forall tr s o a r t p y e, reach tr s -> (forall j, somewhere s j -> ~ closes j (o, r)) -> (forall j, somewhere s j -> ~ closes j (o, a :: r)) ->
  In (EIssue t (o, r) p y) tr -> nth_error edges a = Some e -> g_from e = p ->
  (times (starts (o, a :: r)) tr = 1 /\ given_to tr (o, a :: r) (g_to e) y /\ cnt (passed_by (o, a :: r)) tr = 0) \/ (times (starts (o, a :: r)) tr = 0 /\ cnt (passed_by (o, a :: r)) tr = 1).
Proof.
  intros tr s o a r t p y e R H H' HI HE HP.
  pose proof (coming_reach _ _ _ _ _ _ R o a r) as C. rewrite (closed_no_coming _ _ _ _ _ R H H') in C.
  pose proof (cnt_in (goes_over edges (o, a :: r)) _ _ HI) as G. cbn [goes_over fst snd] in G. unfold from in G. rewrite HE, HP, is_label_refl, Nat.eqb_refl in G. cbn in G.
  pose proof (goes_once _ _ R o a r) as O1.
  destruct (times (starts (o, a :: r)) tr) as [|[|m]] eqn:T; rewrite times_cnt in T; [right; split; [reflexivity|lia]| |lia]. left. split; [reflexivity|]. split; [|lia].
  destruct (cnt_pos (fun e => b2n (starts (o, a :: r) e)) tr) as (ev & H1 & H2); [rewrite T; lia|].
  assert (AR : exists c x, (exists t', In (EStart t' (o, a :: r) c x) tr \/ In (EFail t' (o, a :: r) c x) tr) /\ arrived edges tr (o, a :: r) c x).
  { destruct ev; cbn in H2; try lia; (destruct (is_label (o, a :: r) l) eqn:EL; [|cbn in H2; lia]); apply is_label_true in EL; subst l; exists c, x; (split; [exists t0; auto|]); exact (sound_in _ _ _ _ _ _ _ R H1). }
  destruct AR as (c & x & H3 & (o1 & a1 & r1 & e1 & t1 & S1 & S2 & S3 & S4)). injection S1 as <- <- <-.
  rewrite HE in S2. injection S2 as <-.
  assert (EQ : EIssue t1 (o, r) (g_from e) x = EIssue t (o, r) p y).
  { apply (cnt_two (fun e => b2n (issues (o, r) e)) tr); auto; cbn [issues]; rewrite ?is_label_refl; cbn; try lia. apply (once _ _ _ _ _ _ R o r). }
  injection EQ as _ _ ->. subst c. exact H3.
Qed.
(** ** Filters *)
Definition w_issue_at (l : label) (c : nat) i : nat := match i with IEmit l' p _ => b2n (is_label l l' && (p =? c)) | _ => 0 end.
Definition issues_at (l : label) (c : nat) (e : event X) : nat := match e with EIssue _ l' p _ => b2n (is_label l l' && (p =? c)) | _ => 0 end.
Lemma issue_at_reach : forall tr s, reach tr s -> forall o a r c f, filt c = Some f ->
  tot (w_issue_at (o, a :: r) c) s + cnt (issues_at (o, a :: r) c) tr = length (filter (fun ly => is_label (o, a :: r) (fst ly)) (outputs s0 tr f c)).
Proof.
  induction 1 as [|tr s im t ev s' R IH E]; intros o a r c f F; [rewrite init_tot by reflexivity; reflexivity|].
  specialize (IH o a r c f F). pose proof (st_reach _ _ _ _ _ _ R c f F) as HST. rewrite cnt_snoc. unfold outputs in *. rewrite replay_app. destruct (replay f c (s0 c) tr) as [w o1]. cbn [fst snd] in HST, IH. subst w.
  destruct (tot_step edges filt (w_issue_at (o, a :: r) c) _ _ _ _ _ E) as (i & e & sp & s1 & X1 & T & (k & Hk & NT) & _).
  split_step R NT X1.
  { idtac.
  exec_cases X1; try (match goal with o' : op X |- _ => destruct o' end); unfold code, consume_code in *; rewrite ?wts_cons, ?wts_nil, ?wt_app, ?wt_cons, ?wt_nil in *;
    try (rewrite wt_map0 in T by reflexivity);
    cbn [w_issue_at issues_at replay app snd is_label b2n andb fst] in *; rewrite ?app_nil_r in *; try lia.

  - (* the call itself *) cbn [is_label fst snd] in T. destruct (list_eq_dec Nat.eq_dec (a :: r) []) as [EL|EL]; [discriminate|]. cbn in T. lia.
  - destruct (Nat.eqb_spec c0 c) as [->|N]; cbn [andb snd].
    + match goal with H : filt c = Some ?z |- _ => rewrite F in H; injection H as <- end. match goal with H : f _ _ = _ |- _ => rewrite H end. cbn [snd]. rewrite filter_app, app_length. cbn [filter fst].
      rewrite andb_true_r in T. destruct (is_label (o, a :: r) l); cbn [length b2n] in *; lia.
    + rewrite andb_false_r in T. cbn [snd b2n] in *. rewrite app_nil_r. lia.
  - destruct (Nat.eqb_spec c0 c) as [->|N]; cbn [andb snd].
    + match goal with H : filt c = Some ?z |- _ => rewrite F in H; injection H as <- end. match goal with H : f _ _ = _ |- _ => rewrite H end. cbn [snd]. rewrite app_nil_r. lia.
    + cbn [snd b2n] in *. rewrite app_nil_r. lia.
  - destruct (Nat.eqb_spec c0 c) as [->|N]; [congruence|]. cbn [snd]. rewrite app_nil_r. lia. }
  destruct U; rewrite ?wts_nil, ?wt_nil in T; cbn [w_issue_at issues_at replay app snd fst] in *; rewrite ?app_nil_r; lia.
Qed.
Lemma closed_filtered : forall tr s o a r c f y, reach tr s -> (forall j, somewhere s j -> ~ closes j (o, a :: r)) -> filt c = Some f -> In ((o, a :: r), y) (outputs s0 tr f c) ->
  exists t, In (EIssue t (o, a :: r) c y) tr.
Proof.
  intros tr s o a r c f y R H F HO. pose proof (issue_at_reach _ _ R o a r c f F) as I1.
  assert (Z : tot (w_issue_at (o, a :: r) c) s = 0).
  { destruct (closed_no_begin _ _ _ _ R H) as (_ & _ & Z). destruct (tot (w_issue_at (o, a :: r) c) s) eqn:E; [reflexivity|]. exfalso. destruct (tot_pos (w_issue_at (o, a :: r) c) s) as (i & Hi & P); [lia|].
    pose proof (tot_ge (w_issue (o, a :: r)) _ _ Hi) as G. rewrite Z in G. destruct i; cbn in P, G; try lia. destruct (is_label (o, a :: r) l); cbn in P, G; lia. }
  assert (L : In ((o, a :: r), y) (filter (fun ly : nat * list nat * X => is_label (o, a :: r) (fst ly)) (outputs s0 tr f c))) by (apply filter_In; split; [assumption|apply is_label_refl]).
  destruct (cnt_pos (issues_at (o, a :: r) c) tr) as (ev & H1 & H2). { destruct (filter _ _); [destruct L|cbn in I1; lia]. }
  destruct ev; cbn in H2; try lia. destruct (is_label (o, a :: r) l) eqn:EL; [|cbn in H2; lia]. apply is_label_true in EL. subst l. destruct (Nat.eqb_spec p c) as [->|]; [|cbn in H2; lia].
  pose proof (sound_in _ _ _ _ _ _ _ R H1) as S1. cbn [sound_event] in S1. unfold given in S1. cbn [snd] in S1. destruct S1 as (f' & F' & S1). rewrite F in F'. injection F' as <-.
  exists t. replace y with x; [assumption|].
  assert (L' : In ((o, a :: r), x) (filter (fun ly : nat * list nat * X => is_label (o, a :: r) (fst ly)) (outputs s0 tr f c))) by (apply filter_In; split; [assumption|apply is_label_refl]).
  assert (LEN : length (filter (fun ly : nat * list nat * X => is_label (o, a :: r) (fst ly)) (outputs s0 tr f c)) <= 1).
  { rewrite <- I1, Z. cbn. etransitivity; [|exact (proj2 (once _ _ _ _ _ _ R o (a :: r)))]. clear. unfold cnt. induction tr as [|e tr IH]; [cbn; lia|]. cbn [map]. cbn [list_sum fold_right]. apply Nat.add_le_mono; [|exact IH]. destruct e; cbn; try lia. destruct (is_label (o, a :: r) l); cbn; [apply b2n_le|lia]. }
  destruct (filter _ _) as [|z [|z' zs]]; [destruct L| |cbn in LEN; lia]. destruct L as [->|[]], L' as [L'|[]]. now injection L'.
Qed.
End Flush.
