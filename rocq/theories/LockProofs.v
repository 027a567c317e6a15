(** Linearizability of objects whose member functions lock their mutex. *)
From Verif Require Import Prelude LockModel LockSpec.
Local Open Scope nat_scope.

Section P.
Context {S L : Type}.
Variable programs : list (list (method S L * L)).
Variable s0 : S.
Implicit Types (st : lstate S L) (tr : list (levent L)) (th : lthread S L).

Definition begins (p : list (method S L * L)) : list (linstr S L) := map (fun ma => LBegin (fst ma) (snd ma)) p.
Definition lin_of (e : levent L) : list (nat * nat) := match e with VEnter t n _ | VNothing t n => [(t, n)] | _ => [] end.
Definition order tr : list (nat * nat) := flat_map lin_of tr.
Definition upto (t n : nat) : list (nat * nat) := map (fun k => (t, k)) (seq 0 n).
Definition prog (t : nat) := nth t programs [].
Local Notation methods := (methods programs).
Hypothesis frozen : look_fixed methods.

Lemma order_snoc : forall tr e, order (tr ++ [e]) = order tr ++ lin_of e.
Proof. intros. unfold order. rewrite flat_map_app. cbn. now rewrite app_nil_r. Qed.
Lemma one_snoc : forall o s t n m a s1 rs s2 l, one_by_one programs o s = (s1, rs) -> nth_error (prog t) n = Some (m, a) -> call_alone m a s1 = (s2, l) ->
  one_by_one programs (o ++ [(t, n)]) s = (s2, rs ++ [(t, n, l)]).
Proof.
  induction o as [|[t' n'] o IH]; intros s t n m a s1 rs s2 l H Hn Hc; cbn [app one_by_one] in *.
  - injection H as -> <-. unfold prog in Hn. rewrite Hn, Hc. reflexivity.
  - destruct (nth_error (nth t' programs []) n') as [[m' a']|]; [|eauto]. destruct (call_alone m' a' s) as [s3 l3]. destruct (one_by_one programs o s3) as [s4 rs4] eqn:E.
    injection H as -> <-. rewrite (IH _ _ _ _ _ _ _ _ _ E Hn Hc). reflexivity.
Qed.
Lemma in_prog : forall t n m a, nth_error (prog t) n = Some (m, a) -> In m methods.
Proof.
  intros t n m a H. unfold methods. apply in_map_iff. exists (m, a). split; [reflexivity|]. apply in_concat. exists (prog t). split; [|eapply nth_error_In; eauto].
  unfold prog in *. destruct (nth_in_or_default t programs []) as [HI|HD]; [exact HI|]. rewrite HD in H. destruct n; discriminate.
Qed.
Lemma look_alone : forall m m' gs, In m methods -> In m' methods -> incl gs (m_crit m') -> forall s l a, m_look m (fst (accesses_alone gs s l)) a = m_look m s a.
Proof.
  intros m m' gs Hm Hm'. induction gs as [|g gs IH]; intros HI s l a; cbn [accesses_alone]; [reflexivity|].
  destruct (g s l) as [s' l'] eqn:E. rewrite IH by (intros x Hx; apply HI; now right).
  pose proof (frozen m m' g Hm Hm' (HI g (or_introl eq_refl)) s l a) as HF. rewrite E in HF. exact HF.
Qed.

Definition known (rs : list (nat * nat * L)) (t n : nat) (r : L) : Prop := In (t, n, r) rs.
(** the state of one thread *)
Inductive shape st tr rs (t : nat) th : Prop :=
| ShIdle : th_code th = begins (skipn (th_n th) (prog t)) -> filter (mine t) (order tr) = upto t (th_n th) -> shape st tr rs t th
| ShLook : forall m, th_code th = LLook m :: begins (skipn (1 + th_n th) (prog t)) -> nth_error (prog t) (th_n th) = Some (m, th_local th) ->
    filter (mine t) (order tr) = upto t (th_n th) -> shape st tr rs t th
| ShWait : forall m a, th_code th = body_code m ++ LReturn :: begins (skipn (1 + th_n th) (prog t)) -> nth_error (prog t) (th_n th) = Some (m, a) ->
    th_local th = m_look m (l_obj st) a -> m_done m (th_local th) = false -> filter (mine t) (order tr) = upto t (th_n th) -> shape st tr rs t th
| ShIn : forall m a gs, th_code th = map LAccess gs ++ LUnlock :: LReturn :: begins (skipn (1 + th_n th) (prog t)) -> nth_error (prog t) (th_n th) = Some (m, a) ->
    incl gs (m_crit m) -> l_owner st = Some t -> filter (mine t) (order tr) = upto t (1 + th_n th) ->
    known rs t (th_n th) (snd (accesses_alone gs (l_obj st) (th_local th))) -> shape st tr rs t th
| ShOut : th_code th = LReturn :: begins (skipn (1 + th_n th) (prog t)) -> filter (mine t) (order tr) = upto t (1 + th_n th) -> l_owner st <> Some t ->
    known rs t (th_n th) (th_local th) -> shape st tr rs t th.
Record linv st tr s1 rs : Prop := {
  v_seq : one_by_one programs (order tr) s0 = (s1, rs);
  v_len : length (l_threads st) = length programs;
  v_shape : forall t th, nth_error (l_threads st) t = Some th -> shape st tr rs t th;
  v_free : l_owner st = None -> l_obj st = s1;
  v_held : forall u, l_owner st = Some u -> exists th gs m a, nth_error (l_threads st) u = Some th /\ nth_error (prog u) (th_n th) = Some (m, a) /\ incl gs (m_crit m) /\
    th_code th = map LAccess gs ++ LUnlock :: LReturn :: begins (skipn (1 + th_n th) (prog u)) /\ fst (accesses_alone gs (l_obj st) (th_local th)) = s1;
  v_ret : forall t n r, In (VReturn t n r) tr -> known rs t n r;
  v_valid : forall t n, In (t, n) (order tr) -> nth_error (prog t) n <> None }.

Lemma lupd_length : forall (l : list (lthread S L)) t a, length (lupd l t a) = length l.
Proof. induction l as [|b l IH]; intros [|t] a; cbn; auto. Qed.
Lemma lupd_nth : forall (l : list (lthread S L)) t a u b, nth_error (lupd l t a) u = Some b -> (u = t /\ b = a) \/ (u <> t /\ nth_error l u = Some b).
Proof.
  induction l as [|c l IH]; intros t a u b H; cbn [lupd] in H.
  - destruct t; destruct u; discriminate.
  - destruct t as [|t], u as [|u]; cbn in *.
    + left. split; congruence.
    + right. split; [lia|exact H].
    + right. split; [lia|exact H].
    + destruct (IH _ _ _ _ H) as [[-> ->]|[N H']]; [left; auto|right; split; [lia|exact H']].
Qed.
Lemma lupd_same : forall (l : list (lthread S L)) t a b, nth_error l t = Some b -> nth_error (lupd l t a) t = Some a.
Proof. induction l as [|c l IH]; intros [|t] a b H; cbn in *; try discriminate; eauto. Qed.
Lemma lupd_other : forall (l : list (lthread S L)) t u a, u <> t -> nth_error (lupd l t a) u = nth_error l u.
Proof. induction l as [|c l IH]; intros [|t] [|u] a H; cbn; try congruence; auto. Qed.
Lemma begins_skip : forall p n m a, nth_error p n = Some (m, a) -> begins (skipn n p) = LBegin m a :: begins (skipn (1 + n) p).
Proof.
  induction p as [|[m' a'] p IH]; intros n m a H; destruct n; cbn [nth_error] in H; try discriminate.
  - injection H as -> ->. reflexivity.
  - exact (IH _ _ _ H).
Qed.
Lemma upto_snoc : forall t n, upto t (1 + n) = upto t n ++ [(t, n)].
Proof. intros. unfold upto. replace (1 + n) with (n + 1) by lia. rewrite seq_app, map_app. reflexivity. Qed.
Lemma mine_snoc : forall tr t n e, lin_of e = [(t, n)] -> filter (mine t) (order tr) = upto t n -> filter (mine t) (order (tr ++ [e])) = upto t (1 + n).
Proof. intros tr t n e He H. rewrite order_snoc, He, filter_app, H, upto_snoc. cbn. unfold mine. cbn. now rewrite Nat.eqb_refl. Qed.
Lemma mine_other : forall tr t u n e, lin_of e = [] \/ lin_of e = [(t, n)] -> u <> t -> filter (mine u) (order (tr ++ [e])) = filter (mine u) (order tr).
Proof.
  intros tr t u n e [He|He] N; rewrite order_snoc, He, ?app_nil_r; [reflexivity|]. rewrite filter_app. cbn. unfold mine at 2. cbn. destruct (Nat.eqb_spec t u); [congruence|].
  now rewrite app_nil_r.
Qed.
(** other threads are not affected *)
Lemma shape_other : forall st st' tr rs rs' e t u n th, shape st tr rs u th -> u <> t -> (lin_of e = [] \/ lin_of e = [(t, n)]) ->
  (forall x, In x rs -> In x rs') -> (l_owner st' = Some u <-> l_owner st = Some u) ->
  (l_obj st' = l_obj st \/ (l_owner st <> Some u /\ exists m g l, In m methods /\ In g (m_crit m) /\ l_obj st' = fst (g (l_obj st) l))) ->
  shape st' (tr ++ [e]) rs' u th.
Proof.
  intros st st' tr rs rs' e t u n th H N He HR HO HS. destruct H as [H1 H2|m H1 H2 H3|m a H1 H2 H3 H4 H5|m a gs H1 H2 H3 H4 H5 H6|H1 H2 H3 H4].
  - apply ShIdle; [exact H1|]. rewrite (mine_other _ t _ n); auto.
  - apply (ShLook _ _ _ _ _ m); auto. rewrite (mine_other _ t _ n); auto.
  - apply (ShWait _ _ _ _ _ m a); auto.
    + rewrite H3. destruct HS as [->|(_ & m' & g & l & Hm & Hg & ->)]; [reflexivity|]. symmetry. eapply frozen; eauto. eapply in_prog; eauto.
    + rewrite (mine_other _ t _ n); auto.
  - apply (ShIn _ _ _ _ _ m a gs); auto.
    + now apply HO.
    + rewrite (mine_other _ t _ n); auto.
    + destruct HS as [->|(HS & _)]; [now apply HR|congruence].
  - apply ShOut; auto.
    + rewrite (mine_other _ t _ n); auto.
    + rewrite HO. exact H3.
    + now apply HR.
Qed.
Lemma code_head : forall gs k i k', map LAccess gs ++ LUnlock :: k = i :: k' -> (gs = [] /\ i = @LUnlock S L /\ k' = k) \/ exists g gs', gs = g :: gs' /\ i = LAccess g /\ k' = map LAccess gs' ++ LUnlock :: k.
Proof. intros [|g gs] k i k' H; cbn in H; injection H as <- <-; [left|right]; eauto 10. Qed.
Lemma linv_step : forall t st st' e tr s1 rs, linv st tr s1 rs -> lstep true t st = Some (e, st') -> exists s1' rs', linv st' (tr ++ [e]) s1' rs'.
Proof.
  intros t st st' e tr s1 rs [HQ HL HS HF HH HR HVd] H. unfold lstep in H. destruct (nth_error (l_threads st) t) as [th|] eqn:En; [|discriminate].
  pose proof (HS _ _ En) as HT.
  destruct (th_code th) as [|i k] eqn:Ek; [discriminate|].
  assert (Hret0 : forall t' n r e0, In (VReturn t' n r) (tr ++ [e0]) -> (forall l, e0 <> VReturn t' n l) -> known rs t' n r).
  { intros t' n r e0 Hi Hn. apply in_app_or in Hi. destruct Hi as [Hi|[Hi|[]]]; [auto|]. now destruct (Hn r). }
  assert (Hval0 : forall e0, lin_of e0 = [] -> forall t' n, In (t', n) (order (tr ++ [e0])) -> nth_error (prog t') n <> None).
  { intros e0 He t' n Hi. rewrite order_snoc, He, app_nil_r in Hi. auto. }
  assert (Hval1 : forall e0 m a, lin_of e0 = [(t, th_n th)] -> nth_error (prog t) (th_n th) = Some (m, a) -> forall t' n, In (t', n) (order (tr ++ [e0])) -> nth_error (prog t') n <> None).
  { intros e0 m a He Hm t' n Hi. rewrite order_snoc, He in Hi. apply in_app_or in Hi. destruct Hi as [Hi|[Hi|[]]]; [auto|]. injection Hi as <- <-. congruence. }
  destruct i as [m a|m| | |g|].
  - (* LBegin *)
    injection H as <- <-. exists s1, rs. destruct HT as [H1 H2|m' H1 H2 H3|m' a' H1 H2 H3 H4 H5|m' a' gs H1 H2 H3 H4 H5 H6|H1 H2 H3 H4]; rewrite Ek in H1; try discriminate.
    2:{ destruct gs; discriminate. }
    assert (HM : nth_error (prog t) (th_n th) = Some (m, a)).
    { destruct (nth_error (prog t) (th_n th)) as [[m' a']|] eqn:E.
      - rewrite (begins_skip _ _ _ _ E) in H1. injection H1 as <- <- _. reflexivity.
      - apply nth_error_None in E. rewrite skipn_all2 in H1 by exact E. discriminate. }
    rewrite (begins_skip _ _ _ _ HM) in H1. injection H1 as ->.
    constructor; cbn [l_threads l_obj l_owner].
    + rewrite order_snoc. cbn. now rewrite app_nil_r.
    + now rewrite lupd_length.
    + intros u th' Hu. apply lupd_nth in Hu. destruct Hu as [[-> ->]|[N Hu]].
      * apply (ShLook _ _ _ _ _ m); cbn; auto. rewrite order_snoc. cbn. now rewrite app_nil_r.
      * eapply (shape_other st _ tr rs rs _ t u 0); eauto; cbn; try tauto.
    + exact HF.
    + intros u Hu. destruct (HH u Hu) as (th' & gs & m' & a' & G1 & G2 & G3 & G4 & G5). exists th', gs, m', a'. split; [|auto].
      rewrite lupd_other; [exact G1|]. intros ->. rewrite En in G1. injection G1 as <-. rewrite Ek in G4. destruct gs; discriminate.
    + intros t' n r Hi. eapply Hret0; eauto. discriminate.
    + apply Hval0. reflexivity.
  - (* LLook *)
    destruct HT as [H1 H2|m' H1 H2 H3|m' a' H1 H2 H3 H4 H5|m' a' gs H1 H2 H3 H4 H5 H6|H1 H2 H3 H4]; rewrite Ek in H1; try discriminate.
    1:{ destruct (skipn (th_n th) (prog t)); discriminate. }
    2:{ destruct gs; discriminate. }
    injection H1 as <- ->.
    destruct (m_done m (m_look m (l_obj st) (th_local th))) eqn:Ed; injection H as <- <-.
    + (* returns at once *)
      assert (HC : call_alone m (th_local th) s1 = (s1, m_look m (l_obj st) (th_local th))).
      { unfold call_alone. replace (m_look m s1 (th_local th)) with (m_look m (l_obj st) (th_local th)); [now rewrite Ed|].
        destruct (l_owner st) as [u|] eqn:Eo; [|now rewrite (HF eq_refl)]. destruct (HH u eq_refl) as (th' & gs & m' & a' & G1 & G2 & G3 & G4 & <-).
        symmetry. eapply look_alone; [eapply in_prog; eauto|eapply in_prog; eauto|exact G3]. }
      exists s1, (rs ++ [(t, th_n th, m_look m (l_obj st) (th_local th))]).
      constructor; cbn [l_threads l_obj l_owner].
      * rewrite order_snoc. cbn [lin_of]. eapply one_snoc; eauto.
      * now rewrite lupd_length.
      * intros u th' Hu. apply lupd_nth in Hu. destruct Hu as [[-> ->]|[N Hu]].
        -- apply ShOut; cbn; auto.
           ++ now apply mine_snoc.
           ++ intros Ho. destruct (HH t Ho) as (th' & gs & m' & a' & G1 & G2 & G3 & G4 & G5). rewrite En in G1. injection G1 as <-. rewrite Ek in G4. destruct gs; discriminate.
           ++ apply in_or_app. right. now left.
        -- eapply (shape_other st _ tr rs _ _ t u (th_n th)); eauto; cbn; try tauto. intros x Hx. apply in_or_app. now left.
      * exact HF.
      * intros u Hu. destruct (HH u Hu) as (th' & gs & m' & a' & G1 & G2 & G3 & G4 & G5). exists th', gs, m', a'. split; [|auto].
        rewrite lupd_other; [exact G1|]. intros ->. rewrite En in G1. injection G1 as <-. rewrite Ek in G4. destruct gs; discriminate.
      * intros t' n r Hi. apply in_or_app. left. eapply Hret0; eauto. discriminate.
      * eapply Hval1; [reflexivity|exact H2].
    + exists s1, rs. constructor; cbn [l_threads l_obj l_owner].
      * rewrite order_snoc. cbn. now rewrite app_nil_r.
      * now rewrite lupd_length.
      * intros u th' Hu. apply lupd_nth in Hu. destruct Hu as [[-> ->]|[N Hu]].
        -- apply (ShWait _ _ _ _ _ m (th_local th)); cbn [th_code th_n th_local l_obj]; auto. rewrite order_snoc. cbn. now rewrite app_nil_r.
        -- eapply (shape_other st _ tr rs rs _ t u 0); eauto; cbn; try tauto.
      * exact HF.
      * intros u Hu. destruct (HH u Hu) as (th' & gs & m' & a' & G1 & G2 & G3 & G4 & G5). exists th', gs, m', a'. split; [|auto].
        rewrite lupd_other; [exact G1|]. intros ->. rewrite En in G1. injection G1 as <-. rewrite Ek in G4. destruct gs; discriminate.
      * intros t' n r Hi. eapply Hret0; eauto. discriminate.
      * apply Hval0. reflexivity.
  - (* LLock *)
    destruct (l_owner st) as [u0|] eqn:Eo; [discriminate|]. injection H as <- <-.
    destruct HT as [H1 H2|m' H1 H2 H3|m a H1 H2 H3 H4 H5|m' a' gs H1 H2 H3 H4 H5 H6|H1 H2 H3 H4]; rewrite Ek in H1; try discriminate.
    1:{ destruct (skipn (th_n th) (prog t)); discriminate. }
    2:{ destruct gs; discriminate. }
    cbn [body_code app] in H1. injection H1 as ->. rewrite <- app_assoc. cbn [app]. specialize (HF eq_refl). subst s1.
    set (res := accesses_alone (m_crit m) (l_obj st) (th_local th)).
    assert (HC : call_alone m a (l_obj st) = res) by (unfold call_alone; rewrite <- H3, H4; reflexivity).
    exists (fst res), (rs ++ [(t, th_n th, snd res)]).
    constructor; cbn [l_threads l_obj l_owner].
    + rewrite order_snoc. cbn [lin_of]. eapply one_snoc; eauto. rewrite HC. apply surjective_pairing.
    + now rewrite lupd_length.
    + intros u th' Hu. apply lupd_nth in Hu. destruct Hu as [[-> ->]|[N Hu]].
      * apply (ShIn _ _ _ _ _ m a (m_crit m)); cbn [th_code th_n th_local l_obj l_owner]; auto.
        -- apply incl_refl.
        -- now apply mine_snoc.
        -- apply in_or_app. right. now left.
      * eapply (shape_other st _ tr rs _ _ t u (th_n th)); eauto; cbn; try tauto.
        -- intros x Hx. apply in_or_app. now left.
        -- rewrite Eo. split; intros E; congruence.
    + discriminate.
    + intros u Hu. injection Hu as <-. eexists. exists (m_crit m), m, a. split; [eapply lupd_same; eauto|]. cbn [th_code th_n th_local]. repeat split; auto. apply incl_refl.
    + intros t' n r Hi. apply in_or_app. left. eapply Hret0; eauto. discriminate.
    + eapply Hval1; [reflexivity|exact H2].
  - (* LUnlock *)
    injection H as <- <-.
    destruct HT as [H1 H2|m' H1 H2 H3|m a H1 H2 H3 H4 H5|m a gs H1 H2 H3 H4 H5 H6|H1 H2 H3 H4]; rewrite Ek in H1; try discriminate.
    1:{ destruct (skipn (th_n th) (prog t)); discriminate. }
    symmetry in H1. apply code_head in H1. destruct H1 as [(-> & _ & ->)|(g & gs' & _ & HX & _)]; [|discriminate]. cbn [accesses_alone snd] in H6.
    exists s1, rs. constructor; cbn [l_threads l_obj l_owner].
    + rewrite order_snoc. cbn. now rewrite app_nil_r.
    + now rewrite lupd_length.
    + intros u th' Hu. apply lupd_nth in Hu. destruct Hu as [[-> ->]|[N Hu]].
      * apply ShOut; cbn; auto; [|discriminate]. rewrite order_snoc. cbn. now rewrite app_nil_r.
      * eapply (shape_other st _ tr rs rs _ t u 0); eauto; cbn; try tauto. rewrite H4. split; intros E; congruence.
    + intros _. destruct (HH t H4) as (th' & gs & m' & a' & G1 & G2 & G3 & G4 & G5). rewrite En in G1. injection G1 as <-. rewrite Ek in G4. destruct gs; [exact G5|discriminate].
    + discriminate.
    + intros t' n r Hi. eapply Hret0; eauto. discriminate.
    + apply Hval0. reflexivity.
  - (* LAccess *)
    destruct HT as [H1 H2|m' H1 H2 H3|m a H1 H2 H3 H4 H5|m a gs H1 H2 H3 H4 H5 H6|H1 H2 H3 H4]; rewrite Ek in H1; try discriminate.
    1:{ destruct (skipn (th_n th) (prog t)); discriminate. }
    symmetry in H1. apply code_head in H1. destruct H1 as [(_ & HX & _)|(g' & gs' & -> & HX & ->)]; [discriminate|]. injection HX as <-.
    destruct (g (l_obj st) (th_local th)) as [obj' l'] eqn:Eg. injection H as <- <-.
    cbn [accesses_alone] in H6. rewrite Eg in H6.
    exists s1, rs. constructor; cbn [l_threads l_obj l_owner].
    + rewrite order_snoc. cbn. now rewrite app_nil_r.
    + now rewrite lupd_length.
    + intros u th' Hu. apply lupd_nth in Hu. destruct Hu as [[-> ->]|[N Hu]].
      * apply (ShIn _ _ _ _ _ m a gs'); cbn [th_code th_n th_local l_obj l_owner]; auto.
        -- intros x Hx. apply H3. now right.
        -- rewrite order_snoc. cbn. now rewrite app_nil_r.
      * eapply (shape_other st _ tr rs rs _ t u 0); eauto; cbn; try tauto. right. split; [congruence|]. exists m, g, (th_local th). rewrite Eg. repeat split; auto.
        -- eapply in_prog; eauto.
        -- apply H3. now left.
    + congruence.
    + intros u Hu. rewrite H4 in Hu. injection Hu as <-. destruct (HH t H4) as (th' & gs & m' & a' & G1 & G2 & G3 & G4 & G5). rewrite En in G1. injection G1 as <-.
      rewrite Ek in G4. destruct gs as [|g2 gs]; [discriminate|]. cbn in G4. injection G4 as <- G4. cbn [accesses_alone] in G5. rewrite Eg in G5.
      eexists. exists gs, m', a'. split; [eapply lupd_same; eauto|]. cbn [th_code th_n th_local]. repeat split; auto. intros x Hx. apply G3. now right.
    + intros t' n r Hi. eapply Hret0; eauto. discriminate.
    + apply Hval0. reflexivity.
  - (* LReturn *)
    injection H as <- <-.
    destruct HT as [H1 H2|m' H1 H2 H3|m a H1 H2 H3 H4 H5|m a gs H1 H2 H3 H4 H5 H6|H1 H2 H3 H4]; rewrite Ek in H1; try discriminate.
    1:{ destruct (skipn (th_n th) (prog t)); discriminate. }
    1:{ destruct gs; discriminate. }
    injection H1 as ->. exists s1, rs. constructor; cbn [l_threads l_obj l_owner].
    + rewrite order_snoc. cbn. now rewrite app_nil_r.
    + now rewrite lupd_length.
    + intros u th' Hu. apply lupd_nth in Hu. destruct Hu as [[-> ->]|[N Hu]].
      * apply ShIdle; cbn [th_code th_n]; auto. rewrite order_snoc. cbn [lin_of]. now rewrite app_nil_r.
      * eapply (shape_other st _ tr rs rs _ t u 0); eauto; cbn; try tauto.
    + exact HF.
    + intros u Hu. destruct (HH u Hu) as (th' & gs & m' & a' & G1 & G2 & G3 & G4 & G5). exists th', gs, m', a'. split; [|auto].
      rewrite lupd_other; [exact G1|]. intros ->. rewrite En in G1. injection G1 as <-. rewrite Ek in G4. destruct gs; discriminate.
    + intros t' n r Hi. apply in_app_or in Hi. destruct Hi as [Hi|[Hi|[]]]; [auto|]. injection Hi as <- <- <-. exact H4.
    + apply Hval0. reflexivity.
Qed.
Lemma linv_run : forall sched st tr0 tr st' s1 rs, linv st tr0 s1 rs -> lrun true sched st = (tr, st') -> exists s1' rs', linv st' (tr0 ++ tr) s1' rs'.
Proof.
  induction sched as [|t r IH]; intros st tr0 tr st' s1 rs HI H; cbn [lrun] in H.
  - injection H as <- <-. rewrite app_nil_r. eauto.
  - destruct (lstep true t st) as [[e st1]|] eqn:E; [|eauto]. destruct (lrun true r st1) as [tr1 st2] eqn:E2. injection H as <- <-.
    destruct (linv_step _ _ _ _ _ _ _ HI E) as (s2 & rs2 & HI2). replace (tr0 ++ e :: tr1) with ((tr0 ++ [e]) ++ tr1) by (rewrite <- app_assoc; reflexivity). eauto.
Qed.
Lemma linv_init : forall l0, linv (linit s0 l0 programs) [] s0 [].
Proof.
  intros l0. constructor; cbn.
  - reflexivity.
  - apply map_length.
  - intros t th Hn. rewrite nth_error_map in Hn. destruct (nth_error programs t) as [p|] eqn:E; [|discriminate]. injection Hn as <-.
    apply ShIdle; cbn; [|reflexivity]. unfold begins, prog. rewrite (nth_error_nth _ _ _ E). reflexivity.
  - reflexivity.
  - discriminate.
  - intros t n r [].
  - intros t n [].
Qed.
End P.
