(** Emission of samples and flush signals through a network. *)
From Coq Require Import ZifyBool ZifyNat.
From Verif Require Import Prelude NetModel NetSpec NetProofs.

Lemma filter_stream_app {X St} (f : St -> X -> outcome (St * option X)) xs : forall s ys s1 o1 s2 o2,
  filter_stream f s xs = Ok (s1, o1) ->
  filter_stream f s1 ys = Ok (s2, o2) ->
  filter_stream f s (xs ++ ys) = Ok (s2, o1 ++ o2).
Proof.
  induction xs as [|x xs IH]; intros s ys s1 o1 s2 o2 H1 H2.
  - cbn in H1. injection H1 as <- <-. exact H2.
  - cbn [filter_stream app] in *.
    destruct (f s x) as [[s' o]| | |]; cbn [bind] in *; try discriminate.
    destruct (filter_stream f s' xs) as [[s'' ys']| | |] eqn:E; cbn [bind] in *; try discriminate.
    injection H1 as <- <-. rewrite (IH _ _ _ _ _ _ E H2). cbn [bind].
    destruct o; reflexivity.
Qed.

Section Emit.
  Context {X St : Type}.
  Variable filt : nat -> option (St -> X -> outcome (St * option X)).
  Variable rank : nat -> nat.
  Implicit Types (n m : net X St).

  Definition Rk n : Prop := forall e, In e (n_map n) -> rank (e_prod e) < rank (e_cons e).

  Lemma Rk_same n m : same n m -> Rk n -> Rk m.
  Proof. intros S R e He. rewrite (same_map _ _ S) in He. apply R, He. Qed.

  (** [D] is what was logged going from [n] to [n']; the wiring is unchanged. *)
  Record Em n n' (D : list (event X)) : Prop := {
    em_same : same n n';
    em_log : n_log n' = n_log n ++ D;
    em_noop : noop D;
    em_recv : forall k c x, In (ERecv k c x) D ->
              exists e, In e (n_map n) /\ e_sample e = k /\ e_cons e = c
  }.
  Lemma Em_refl n : Em n n [].
  Proof. constructor; [apply same_refl|rewrite app_nil_r; reflexivity|apply noop_nil|contradiction]. Qed.
  Lemma Em_trans n1 n2 n3 D1 D2 : Em n1 n2 D1 -> Em n2 n3 D2 -> Em n1 n3 (D1 ++ D2).
  Proof.
    intros [A1 A2 A3 A4] [B1 B2 B3 B4]. constructor.
    - eapply same_trans; eassumption.
    - rewrite B2, A2, app_assoc. reflexivity.
    - apply noop_app; assumption.
    - intros k c x H. apply in_app_or in H. destruct H as [H|H]; [apply (A4 _ _ _ H)|].
      destruct (B4 _ _ _ H) as (e & He & Hk). rewrite (same_map _ _ A1) in He. exists e. split; assumption.
  Qed.

  (** filter object [c] did to its stream what its filter function says *)
  Definition FS n n' (D : list (event X)) (c : nat) : Prop :=
    match filt c with
    | Some f => filter_stream f (n_st n c) (consumed c D) = Ok (n_st n' c, issued c D)
    | None => n_st n' c = n_st n c /\ issued c D = []
    end.
  Lemma FS_trans n1 n2 n3 D1 D2 c : FS n1 n2 D1 c -> FS n2 n3 D2 c -> FS n1 n3 (D1 ++ D2) c.
  Proof.
    unfold FS. rewrite consumed_app, issued_app. destruct (filt c) as [f|].
    - intros H1 H2. eapply filter_stream_app; eassumption.
    - intros [H1 H2] [H3 H4]. rewrite H2, H4. split; [congruence|reflexivity].
  Qed.
  Lemma FS_idle n n' D c : n_st n' c = n_st n c -> consumed c D = [] -> issued c D = [] -> FS n n' D c.
  Proof.
    intros H1 H2 H3. unfold FS. destruct (filt c); [|split; assumption].
    rewrite H2, H3, H1. reflexivity.
  Qed.

  Definition Sources (p : nat) (D : list (event X)) : Prop :=
    forall q, issued q D <> [] -> rank p < rank q.
  Definition Sinks (p : nat) (D : list (event X)) : Prop :=
    forall q, consumed q D <> [] -> rank p < rank q.

  Record IssueSpec n (p : nat) (x : X) n' (D : list (event X)) : Prop := {
    is_em : Em n n' D;
    is_conn : forall e, In e (n_map n) -> received (e_sample e) D = issued (e_prod e) D;
    is_self : issued p D = [x];
    is_src : forall q, q <> p -> issued q D <> [] -> rank p < rank q;
    is_snk : Sinks p D;
    is_st : n_st n' p = n_st n p;
    is_fs : forall c, c <> p -> FS n n' D c
  }.

  Record DeliverSpec n (p : nat) (x : X) (es : list entry) n' (D : list (event X)) : Prop := {
    ds_em : Em n n' D;
    ds_other : forall e, In e (n_map n) -> e_prod e <> p ->
                         received (e_sample e) D = issued (e_prod e) D;
    ds_mine : forall e, In e (n_map n) -> e_prod e = p ->
                        received (e_sample e) D =
                        if existsb (fun e' => e_sample e' =? e_sample e) es then [x] else [];
    ds_src : Sources p D;
    ds_snk : Sinks p D;
    ds_fs : forall c, FS n n' D c
  }.

  Definition issue_ok (iss : net X St -> nat -> X -> outcome (net X St)) : Prop :=
    forall n p x n', Inv n -> Rk n -> iss n p x = Ok n' -> exists D, IssueSpec n p x n' D.

  Lemma empty_or {A} (l : list A) : l = [] \/ l <> [].
  Proof. destruct l; [left; reflexivity|right; discriminate]. Qed.

  Lemma id_inj n e e' : Inv n -> In e (n_map n) -> In e' (n_map n) ->
    e_sample e = e_sample e' -> e = e'.
  Proof.
    intros I. pose proof (inv_nodup n I) as Hd. clear I. revert Hd.
    induction (n_map n) as [|a l IH]; intros Hd H1 H2 Heq; [contradiction|].
    cbn in Hd. inversion Hd as [|b l' Hn Hd' Eq]; subst.
    destruct H1 as [<-|H1]; destruct H2 as [<-|H2]; try reflexivity.
    - exfalso. apply Hn. rewrite Heq. apply in_map, H2.
    - exfalso. apply Hn. rewrite <- Heq. apply in_map, H1.
    - apply IH; assumption.
  Qed.

  Lemma deliver_spec iss n e x n' :
    issue_ok iss -> Inv n -> Rk n -> In e (n_map n) ->
    deliver filt iss n (mk e) x = Ok n' ->
    exists D, DeliverSpec n (e_prod e) x [e] n' D.
  Proof.
    intros Hiss I R He H. unfold deliver in H. cbn [mk s_cons s_conn] in H.
    destruct (dead n (e_cons e)) eqn:Hd; [discriminate|].
    assert (Hent : In e (entries_of n (e_cons e))).
    { unfold entries_of. apply filter_In. split; [exact He|apply Nat.eqb_refl]. }
    destruct (entries_of n (e_cons e)) as [|e1 es1]; [contradiction|]. clear e1 es1 Hent.
    set (c := e_cons e) in *. set (k := e_sample e) in *.
    set (n1 := log (ERecv k c x) n) in *.
    pose proof (R e He) as Hrank. fold c in Hrank.
    assert (E1 : Em n n1 [ERecv k c x]).
    { constructor.
      - apply same_log.
      - reflexivity.
      - apply noop_cons; [reflexivity|apply noop_nil].
      - intros k' c' x' [Heq|[]]. injection Heq as <- <- <-. exists e. auto. }
    assert (Hbase : forall n2, Em n n2 [ERecv k c x] ->
              (forall c', FS n n2 [ERecv k c x] c') -> n_map n2 = n_map n ->
              DeliverSpec n (e_prod e) x [e] n2 [ERecv k c x]).
    { intros n2 E2 Hfs Hmap. constructor; try assumption.
      - intros e' He' Hne. cbn. destruct (Nat.eqb_spec k (e_sample e')) as [Ek|Ek]; [|reflexivity].
        exfalso. apply Hne. f_equal. apply (id_inj n); auto.
      - intros e' He' Hp. cbn. rewrite orb_false_r.
        fold k. destruct (k =? e_sample e'); reflexivity.
      - intros q Hq. cbn in Hq. contradiction.
      - intros q Hq. cbn in Hq. destruct (Nat.eqb_spec c q) as [Eqc|Hc]; [rewrite <- Eqc; exact Hrank|contradiction]. }
    destruct (filt c) as [f|] eqn:Hf.
    - destruct (f (n_st n1 c) x) as [[s' o]| | |] eqn:Ef; cbn [bind] in H; try discriminate.
      set (n2 := set_st c s' n1) in *.
      assert (E2 : Em n n2 [ERecv k c x]).
      { destruct E1 as [A1 A2 A3 A4]. constructor; try assumption.
        eapply same_trans; [exact A1|]. apply same_set_st. }
      assert (Hst : forall c', c' <> c -> n_st n2 c' = n_st n c').
      { intros c' Hc. cbn. destruct (Nat.eqb_spec c' c); [contradiction|reflexivity]. }
      assert (Hstc : n_st n2 c = s') by (cbn; rewrite Nat.eqb_refl; reflexivity).
      assert (Ef' : f (n_st n c) x = Ok (s', o)) by exact Ef.
      destruct o as [y|].
      + assert (I2 : Inv n2) by (eapply Inv_same; [apply (em_same _ _ _ E2)|exact I]).
        assert (R2 : Rk n2) by (eapply Rk_same; [apply (em_same _ _ _ E2)|exact R]).
        destruct (Hiss n2 c y n' I2 R2 H) as (D & [Dem Dconn Dself Dsrc Dsnk Dst Dfs]).
        assert (Hmap : n_map n2 = n_map n) by reflexivity.
        exists ([ERecv k c x] ++ D). constructor.
        * eapply Em_trans; eassumption.
        * intros e' He' Hne. rewrite received_app, issued_app.
          rewrite (Dconn e') by (rewrite Hmap; exact He').
          cbn. destruct (Nat.eqb_spec k (e_sample e')) as [Ek|Ek]; [|reflexivity].
          exfalso. apply Hne. f_equal. apply (id_inj n); auto.
        * intros e' He' Hp. rewrite received_app.
          rewrite (Dconn e') by (rewrite Hmap; exact He'). rewrite Hp.
          assert (Hnil : issued (e_prod e) D = []).
          { destruct (empty_or (issued (e_prod e) D)) as [|Hn]; [assumption|].
            apply Dsrc in Hn; [lia|]. intros Heq. rewrite Heq in Hrank. lia. }
          rewrite Hnil, app_nil_r. cbn. rewrite orb_false_r.
          fold k. destruct (k =? e_sample e'); reflexivity.
        * intros q Hq. rewrite issued_app in Hq. cbn in Hq.
          destruct (Nat.eq_dec q c) as [Eqc|Hqc]; [rewrite Eqc; exact Hrank|].
          apply Dsrc in Hq; [lia|exact Hqc].
        * intros q Hq. rewrite consumed_app in Hq. cbn in Hq.
          destruct (Nat.eqb_spec c q) as [Eqc|Hqc]; [rewrite <- Eqc; exact Hrank|].
          cbn in Hq. apply Dsnk in Hq. lia.
        * intros c'. destruct (Nat.eq_dec c' c) as [->|Hc].
          { unfold FS. rewrite Hf, consumed_app, issued_app.
            assert (Hnil : consumed c D = []).
            { destruct (empty_or (consumed c D)) as [|Hn]; [assumption|]. apply Dsnk in Hn. lia. }
            rewrite Hnil, Dself. cbn. rewrite Nat.eqb_refl. cbn.
            rewrite Ef'. cbn. rewrite Dst, Hstc. reflexivity. }
          { eapply (FS_trans n n2).
            - apply FS_idle; [apply Hst, Hc| |reflexivity].
              cbn. destruct (Nat.eqb_spec c c'); [congruence|reflexivity].
            - apply Dfs, Hc. }
      + injection H as <-. exists [ERecv k c x]. apply Hbase; [exact E2| |reflexivity].
        intros c'. destruct (Nat.eq_dec c' c) as [->|Hc].
        * unfold FS. rewrite Hf. cbn. rewrite Nat.eqb_refl. cbn. rewrite Ef'. reflexivity.
        * apply FS_idle; [apply Hst, Hc| |reflexivity].
          cbn. destruct (Nat.eqb_spec c c'); [congruence|reflexivity].
    - injection H as <-. exists [ERecv k c x]. apply Hbase; [exact E1| |reflexivity].
      intros c'. destruct (Nat.eq_dec c' c) as [->|Hc].
      + unfold FS. rewrite Hf. split; reflexivity.
      + apply FS_idle; [reflexivity| |reflexivity].
        cbn. destruct (Nat.eqb_spec c c'); [congruence|reflexivity].
  Qed.

  Lemma deliver_all_spec iss p x (es : list entry) : forall n n',
    issue_ok iss -> Inv n -> Rk n ->
    (forall e, In e es -> In e (n_map n) /\ e_prod e = p) ->
    NoDup (map e_sample es) ->
    deliver_all filt iss n (map mk es) x = Ok n' ->
    exists D, DeliverSpec n p x es n' D.
  Proof.
    induction es as [|e es IH]; intros n n' Hiss I R Hin Hnd H.
    - cbn in H. injection H as <-. exists []. constructor.
      + apply Em_refl.
      + intros; reflexivity.
      + intros; reflexivity.
      + intros q Hq; cbn in Hq; contradiction.
      + intros q Hq; cbn in Hq; contradiction.
      + intros c. apply FS_idle; reflexivity.
    - cbn [map deliver_all] in H.
      destruct (deliver filt iss n (mk e) x) as [n1| | |] eqn:E1; cbn [bind] in H; try discriminate.
      destruct (Hin e (or_introl eq_refl)) as [He Hp].
      destruct (deliver_spec iss n e x n1 Hiss I R He E1) as (D1 & [A1 A2 A3 A4 A5 A6]).
      rewrite Hp in *. cbn in Hnd. inversion Hnd as [|k l Hk Hnd' Eq]; subst k l.
      pose proof (em_same _ _ _ A1) as S1.
      assert (I1 : Inv n1) by (eapply Inv_same; eassumption).
      assert (R1 : Rk n1) by (eapply Rk_same; eassumption).
      assert (Hin1 : forall e', In e' es -> In e' (n_map n1) /\ e_prod e' = p).
      { intros e' He'. rewrite (same_map _ _ S1). apply Hin. right; exact He'. }
      destruct (IH n1 n' Hiss I1 R1 Hin1 Hnd' H) as (D2 & [B1 B2 B3 B4 B5 B6]).
      rewrite (same_map _ _ S1) in B2, B3.
      exists (D1 ++ D2). constructor.
      + eapply Em_trans; eassumption.
      + intros e' He' Hne. rewrite received_app, issued_app, (A2 e'), (B2 e'); auto.
      + intros e' He' Hpe. rewrite received_app, (A3 e'), (B3 e') by assumption.
        cbn [existsb]. rewrite orb_false_r.
        destruct (Nat.eqb_spec (e_sample e) (e_sample e')) as [Ek|Ek]; [|reflexivity].
        cbn. destruct (existsb _ es) eqn:Ex; [|reflexivity].
        apply existsb_exists in Ex. destruct Ex as (e2 & He2 & E2). apply Nat.eqb_eq in E2.
        exfalso. apply Hk. rewrite Ek, <- E2. apply in_map, He2.
      + intros q Hq. rewrite issued_app in Hq.
        destruct (empty_or (issued q D1)) as [E|E]; [rewrite E in Hq; apply B4, Hq|apply A4, E].
      + intros q Hq. rewrite consumed_app in Hq.
        destruct (empty_or (consumed q D1)) as [E|E]; [rewrite E in Hq; apply B5, Hq|apply A5, E].
      + intros c. eapply FS_trans; [apply A6|apply B6].
  Qed.

  Lemma slots_of_map n p : slots_of (map mk (n_map n)) p =
    map mk (filter (fun e => e_prod e =? p) (n_map n)).
  Proof. unfold slots_of. rewrite filter_map. reflexivity. Qed.

  Lemma issue_spec fuel : issue_ok (issue filt fuel).
  Proof.
    induction fuel as [|fuel IH]; intros n p x n' I R H; [discriminate|].
    cbn [issue] in H. set (n1 := log (EIssue p x) n) in *.
    assert (I1 : Inv n1) by (eapply Inv_same; [apply same_log|exact I]).
    assert (R1 : Rk n1) by (eapply Rk_same; [apply same_log|exact R]).
    rewrite (inv_sample n1 I1), slots_of_map in H.
    apply deliver_all_spec with (p := p) in H; try assumption.
    - destruct H as (D & [A1 A2 A3 A4 A5 A6]).
      assert (Hnil : issued p D = []).
      { destruct (empty_or (issued p D)) as [|Hn]; [assumption|]. apply A4 in Hn. lia. }
      assert (Hc : consumed p D = []).
      { destruct (empty_or (consumed p D)) as [|Hn]; [assumption|]. apply A5 in Hn. lia. }
      assert (E0 : Em n n1 [EIssue p x]).
      { constructor; [apply same_log|reflexivity|apply noop_cons; [reflexivity|apply noop_nil]|].
        intros k c x' [Hq|[]]. discriminate. }
      exists ([EIssue p x] ++ D). constructor.
      + eapply Em_trans; eassumption.
      + intros e He. rewrite received_app, issued_app. cbn.
        destruct (Nat.eqb_spec p (e_prod e)) as [Ep|Ep].
        * rewrite (A3 e) by (auto; exact He). subst p. rewrite Hnil. cbn.
          assert (Ex : existsb (fun e' => e_sample e' =? e_sample e)
                               (filter (fun e0 => e_prod e0 =? e_prod e) (n_map n1)) = true).
          { apply existsb_exists. exists e. split; [|apply Nat.eqb_refl].
            apply filter_In. split; [exact He|apply Nat.eqb_refl]. }
          cbn in Ex |- *. rewrite Ex. reflexivity.
        * apply A2; [exact He|congruence].
      + rewrite issued_app, Hnil. cbn. rewrite Nat.eqb_refl. reflexivity.
      + intros q Hq Hn. rewrite issued_app in Hn. cbn in Hn.
        destruct (Nat.eqb_spec p q); [congruence|]. apply A4, Hn.
      + intros q Hq. rewrite consumed_app in Hq. cbn in Hq. apply A5, Hq.
      + pose proof (A6 p) as Hfs. unfold FS in Hfs. destruct (filt p) as [f|].
        * rewrite Hc in Hfs. cbn in Hfs. injection Hfs as Hst _. symmetry. exact Hst.
        * destruct Hfs as [Hst _]. exact Hst.
      + intros c Hcp. eapply (FS_trans n n1); [|apply A6].
        apply FS_idle; [reflexivity|reflexivity|].
        cbn. destruct (Nat.eqb_spec p c); [congruence|reflexivity].
    - intros e He. apply filter_In in He. destruct He as [He Ep]. apply Nat.eqb_eq in Ep. split; assumption.
    - apply NoDup_map_filter. apply (inv_nodup n1 I1).
  Qed.

  (** ** Sufficient fuel: nothing goes wrong in an acyclic network. *)
  Definition filters_total : Prop :=
    forall c f, filt c = Some f -> forall s x, exists r, f s x = Ok r.

  Lemma deliver_total iss n e x :
    filters_total -> Inv n -> In e (n_map n) ->
    (forall n' y, Inv n' -> n_map n' = n_map n -> exists n'', iss n' (e_cons e) y = Ok n'') ->
    exists n', deliver filt iss n (mk e) x = Ok n'.
  Proof.
    intros Hf I He Hiss. unfold deliver. cbn [mk s_cons s_conn].
    destruct (inv_live n I e He) as [_ Hd]. rewrite Hd.
    destruct (entries_of n (e_cons e)); [eexists; reflexivity|].
    destruct (filt (e_cons e)) as [f|] eqn:E; [|eexists; reflexivity].
    match goal with |- context [f ?s ?y] => destruct (Hf _ _ E s y) as [[s' o] Hr] end.
    rewrite Hr. cbn [bind]. destruct o as [y|]; [|eexists; reflexivity].
    apply Hiss; [|reflexivity].
    eapply Inv_same; [|exact I].
    eapply same_trans; [apply same_log|apply same_set_st].
  Qed.

  Lemma deliver_all_total fuel p x R es : forall n,
    (forall n p x, Inv n -> Rk n -> (forall i, rank i < R) -> R <= fuel + rank p ->
                   exists n', issue filt fuel n p x = Ok n') ->
    filters_total -> Inv n -> Rk n -> (forall i, rank i < R) -> R <= S fuel + rank p ->
    (forall e, In e es -> In e (n_map n) /\ e_prod e = p) ->
    NoDup (map e_sample es) ->
    exists n', deliver_all filt (issue filt fuel) n (map mk es) x = Ok n'.
  Proof.
    induction es as [|e es IHes]; intros n IHf Hf I Hr Hb Hfuel Hin Hnd; [eexists; reflexivity|].
    destruct (Hin e (or_introl eq_refl)) as [He Hp].
    destruct (deliver_total (issue filt fuel) n e x Hf I He) as [n1 H1].
    { intros n' y I' Hm. apply IHf; try assumption.
      - intros e' He'. rewrite Hm in He'. apply Hr, He'.
      - pose proof (Hr e He) as Hlt. rewrite Hp in Hlt. lia. }
    cbn [map deliver_all]. rewrite H1. cbn [bind].
    destruct (deliver_spec (issue filt fuel) n e x n1 (issue_spec fuel) I Hr He H1) as (D & [A1 _ _ _ _ _]).
    pose proof (em_same _ _ _ A1) as S1.
    cbn in Hnd. inversion Hnd as [|k l Hk Hnd' Eq]; subst.
    apply IHes; try assumption.
    - eapply Inv_same; eassumption.
    - eapply Rk_same; eassumption.
    - intros e' He'. rewrite (same_map _ _ S1). apply Hin. right; exact He'.
  Qed.

  Lemma issue_total R fuel : forall n p x,
    filters_total -> Inv n -> Rk n -> (forall i, rank i < R) -> R <= fuel + rank p ->
    exists n', issue filt fuel n p x = Ok n'.
  Proof.
    induction fuel as [|fuel IH]; intros n p x Hf I Hr Hb Hfuel.
    - specialize (Hb p). lia.
    - cbn [issue]. set (n1 := log (EIssue p x) n).
      assert (I1 : Inv n1) by (eapply Inv_same; [apply same_log|exact I]).
      assert (R1 : Rk n1) by (eapply Rk_same; [apply same_log|exact Hr]).
      rewrite (inv_sample n1 I1), slots_of_map.
      apply deliver_all_total with (p := p) (R := R); try assumption.
      + intros n2 p2 x2 I2 Hr2 Hb2 Hl2. apply IH; assumption.
      + intros e He. apply filter_In in He. destruct He as [He Ep].
        apply Nat.eqb_eq in Ep. split; assumption.
      + apply NoDup_map_filter, (inv_nodup n1 I1).
  Qed.

  (** ** Flush signals *)
  Definition is_flush (e : event X) : bool := match e with EFlush _ => true | _ => false end.
  Definition conn_rel n (p c : nat) : Prop :=
    exists e, In e (n_map n) /\ e_prod e = p /\ e_cons e = c.

  Record FlSpec n n' (D : list (event X)) : Prop := {
    fl_em : Em n n' D;
    fl_only : forall e, In e D -> is_flush e = true;
    fl_st : forall i, n_st n' i = n_st n i
  }.
  Lemma FlSpec_refl n : FlSpec n n [].
  Proof. constructor; [apply Em_refl|contradiction|reflexivity]. Qed.
  Lemma FlSpec_trans n1 n2 n3 D1 D2 : FlSpec n1 n2 D1 -> FlSpec n2 n3 D2 -> FlSpec n1 n3 (D1 ++ D2).
  Proof.
    intros [A1 A2 A3] [B1 B2 B3]. constructor.
    - eapply Em_trans; eassumption.
    - intros e He. apply in_app_or in He. destruct He; auto.
    - intros i. rewrite B3. apply A3.
  Qed.
  Lemma FlSpec_log n c : FlSpec n (log (EFlush c) n) [EFlush c].
  Proof.
    constructor.
    - constructor; [apply same_log|reflexivity|apply noop_cons; [reflexivity|apply noop_nil]|].
      intros k c' x [H|[]]; discriminate.
    - intros e [<-|[]]; reflexivity.
    - reflexivity.
  Qed.

  Definition flush_ok (fl : net X St -> nat -> outcome (net X St)) : Prop :=
    forall n p n', Inv n -> fl n p = Ok n' ->
      exists D, FlSpec n n' D /\
                forall c, In (EFlush c) D <-> reaches filt (conn_rel n) p c.

  Lemma conn_rel_same n m p c : same n m -> (conn_rel m p c <-> conn_rel n p c).
  Proof. intros S. unfold conn_rel. rewrite (same_map _ _ S). reflexivity. Qed.
  Lemma reaches_same n m p c : same n m -> (reaches filt (conn_rel m) p c <-> reaches filt (conn_rel n) p c).
  Proof.
    intros S. split; induction 1 as [p c H|p f c H1 H2 H3 IH].
    - apply reach_one. apply (conn_rel_same n m p c S). exact H.
    - eapply reach_step; [apply (conn_rel_same n m _ _ S); exact H1|exact H2|exact IH].
    - apply reach_one. apply (conn_rel_same n m p c S). exact H.
    - eapply reach_step; [apply (conn_rel_same n m _ _ S); exact H1|exact H2|exact IH].
  Qed.

  (** what [flush_one] reaches: the object itself and, for a filter, everything below *)
  Definition flushed_by n (c0 c : nat) : Prop :=
    c = c0 \/ (filt c0 <> None /\ reaches filt (conn_rel n) c0 c).

  Lemma flush_one_spec fl n c0 n' : flush_ok fl -> Inv n ->
    flush_one filt fl n c0 = Ok n' ->
    exists D, FlSpec n n' D /\ forall c, In (EFlush c) D <-> flushed_by n c0 c.
  Proof.
    intros Hfl I H. unfold flush_one in H. cbv zeta in H.
    assert (S1 : same n (log (EFlush c0) n)) by apply same_log.
    destruct (filt c0) as [f|] eqn:Hf.
    - destruct (Hfl (log (EFlush c0) n) c0 n') as (D & HD & Hr).
      { eapply Inv_same; eassumption. }
      { exact H. }
      exists ([EFlush c0] ++ D). split; [eapply FlSpec_trans; [apply FlSpec_log|exact HD]|].
      intros c. unfold flushed_by. rewrite in_app_iff, Hr, (reaches_same _ _ _ _ S1). cbn.
      split.
      + intros [[Hq|[]]|Hq]; [injection Hq as <-; left; reflexivity|].
        right. split; [congruence|exact Hq].
      + intros [->|[_ Hq]]; [left; left; reflexivity|right; exact Hq].
    - injection H as <-. exists [EFlush c0]. split; [apply FlSpec_log|].
      intros c. unfold flushed_by. cbn. split.
      + intros [Hq|[]]. injection Hq as <-. left; reflexivity.
      + intros [->|[Hq _]]; [left; reflexivity|congruence].
  Qed.

  Lemma flush_all_spec fl es : forall n n', flush_ok fl -> Inv n ->
    flush_all filt fl n (map mk es) = Ok n' ->
    exists D, FlSpec n n' D /\
      forall c, In (EFlush c) D <-> exists e, In e es /\ flushed_by n (e_cons e) c.
  Proof.
    induction es as [|e es IH]; intros n n' Hfl I H.
    - cbn in H. injection H as <-. exists []. split; [apply FlSpec_refl|].
      intros c. split; [contradiction|]. intros (e & [] & _).
    - cbn [map flush_all mk s_cons] in H. destruct (dead n (e_cons e)); [discriminate|].
      destruct (flush_one filt fl n (e_cons e)) as [n1| | |] eqn:E1; cbn [bind] in H; try discriminate.
      destruct (flush_one_spec fl n (e_cons e) n1 Hfl I E1) as (D1 & F1 & H1).
      pose proof (em_same _ _ _ (fl_em _ _ _ F1)) as S1.
      destruct (IH n1 n' Hfl) as (D2 & F2 & H2); [eapply Inv_same; eassumption|exact H|].
      exists (D1 ++ D2). split; [eapply FlSpec_trans; eassumption|].
      intros c. rewrite in_app_iff, H1, H2. split.
      + intros [Hq|(e' & He' & Hq)].
        * exists e. split; [left; reflexivity|exact Hq].
        * exists e'. split; [right; exact He'|]. unfold flushed_by in *.
          rewrite (reaches_same _ _ _ _ S1) in Hq. exact Hq.
      + intros (e' & [<-|He'] & Hq); [left; exact Hq|].
        right. exists e'. split; [exact He'|]. unfold flushed_by in *.
        rewrite (reaches_same _ _ _ _ S1). exact Hq.
  Qed.

  Lemma flush_sig_spec fuel : flush_ok (flush_sig filt fuel).
  Proof.
    induction fuel as [|fuel IH]; intros n p n' I H; [discriminate|].
    cbn [flush_sig] in H. rewrite (inv_flush n I), slots_of_map in H.
    destruct (flush_all_spec _ _ n n' IH I H) as (D & F & HD).
    exists D. split; [exact F|]. intros c. rewrite HD. split.
    - intros (e & He & Hq). apply filter_In in He. destruct He as [He Ep]. apply Nat.eqb_eq in Ep.
      assert (Hc : conn_rel n p (e_cons e)) by (exists e; auto).
      destruct Hq as [->|[Hf Hq]]; [apply reach_one, Hc|].
      eapply reach_step; eassumption.
    - intros Hq. inversion Hq as [p' c' Hc|p' f c' Hc Hf Hr]; subst.
      + destruct Hc as (e & He & Ep & Ec). exists e. split.
        * apply filter_In. split; [exact He|apply Nat.eqb_eq, Ep].
        * left. symmetry. exact Ec.
      + destruct Hc as (e & He & Ep & Ec). exists e. split.
        * apply filter_In. split; [exact He|apply Nat.eqb_eq, Ep].
        * right. subst f. split; assumption.
  Qed.

  Lemma flush_one_total fl n c :
    Inv n -> (forall n', Inv n' -> n_map n' = n_map n -> exists n'', fl n' c = Ok n'') ->
    exists n', flush_one filt fl n c = Ok n'.
  Proof.
    intros I H. unfold flush_one. destruct (filt c); [|eexists; reflexivity].
    apply H; [|reflexivity]. eapply Inv_same; [apply same_log|exact I].
  Qed.

  Lemma flush_sig_total R fuel : forall n p,
    Inv n -> Rk n -> (forall i, rank i < R) -> R <= fuel + rank p ->
    exists n', flush_sig filt fuel n p = Ok n'.
  Proof.
    induction fuel as [|fuel IH]; intros n p I Hr Hb Hfuel.
    - specialize (Hb p). lia.
    - cbn [flush_sig]. rewrite (inv_flush n I), slots_of_map.
      assert (Hin : forall e, In e (filter (fun e => e_prod e =? p) (n_map n)) ->
                              In e (n_map n) /\ e_prod e = p).
      { intros e He. apply filter_In in He. destruct He as [He Ep].
        apply Nat.eqb_eq in Ep. split; assumption. }
      revert Hin. generalize (filter (fun e => e_prod e =? p) (n_map n)) as es.
      intros es. revert n I Hr. induction es as [|e es IHes]; intros n I Hr Hin; [eexists; reflexivity|].
      cbn [map flush_all mk s_cons].
      destruct (Hin e (or_introl eq_refl)) as [He Hp].
      destruct (inv_live n I e He) as [_ ->].
      destruct (flush_one_total (flush_sig filt fuel) n (e_cons e) I) as [n1 H1].
      { intros n' I' Hm. apply IH; try assumption.
        - intros e' He'. rewrite Hm in He'. apply Hr, He'.
        - pose proof (Hr e He) as Hlt. rewrite Hp in Hlt. lia. }
      rewrite H1. cbn [bind].
      destruct (flush_one_spec _ _ _ _ (flush_sig_spec fuel) I H1) as (D & F & _).
      pose proof (em_same _ _ _ (fl_em _ _ _ F)) as S1.
      apply IHes.
      + eapply Inv_same; eassumption.
      + eapply Rk_same; eassumption.
      + intros e' He'. rewrite (same_map _ _ S1). apply Hin. right; exact He'.
  Qed.

  Lemma flush_no_recv n n' D : FlSpec n n' D -> forall k, received k D = [].
  Proof.
    intros [_ H _] k. induction D as [|e D IH]; [reflexivity|].
    assert (He : is_flush e = true) by (apply H; left; reflexivity).
    destruct e; try discriminate. cbn. apply IH. intros e' He'. apply H. right; exact He'.
  Qed.
  Lemma flush_no_issue n n' D : FlSpec n n' D -> forall k, issued k D = [].
  Proof.
    intros [_ H _] k. induction D as [|e D IH]; [reflexivity|].
    assert (He : is_flush e = true) by (apply H; left; reflexivity).
    destruct e; try discriminate. cbn. apply IH. intros e' He'. apply H. right; exact He'.
  Qed.
  Lemma flush_no_consume n n' D : FlSpec n n' D -> forall k, consumed k D = [].
  Proof.
    intros [_ H _] k. induction D as [|e D IH]; [reflexivity|].
    assert (He : is_flush e = true) by (apply H; left; reflexivity).
    destruct e; try discriminate. cbn. apply IH. intros e' He'. apply H. right; exact He'.
  Qed.
End Emit.
