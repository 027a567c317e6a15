(** Invariants of arbitrary histories of user calls. *)
From Coq Require Import ZifyBool ZifyNat.
From Verif Require Import Prelude NetModel NetSpec NetProofs NetEmit.

Lemma connections_app {X} (o1 o2 : list (op X)) : forall cur,
  connections (o1 ++ o2) cur = connections o2 (connections o1 cur).
Proof.
  induction o1 as [|o o1 IH]; intros cur; [reflexivity|].
  destruct o; cbn; apply IH.
Qed.

Section Hist.
  Context {X St : Type}.
  Variable filt : nat -> option (St -> X -> outcome (St * option X)).
  Variable rank : nat -> nat.
  Variable s0 : nat -> St.
  Implicit Types (n m : net X St).

  Definition ends n : list (nat * nat) := map (fun e => (e_prod e, e_cons e)) (n_map n).

  Record J (ops : list (op X)) n : Prop := {
    j_inv : Inv n;
    j_rk : Rk rank n;
    j_next : n_next n = nconn (n_log n);
    j_live : forall k p c, live k (n_log n) = Some (p, c) <->
                           exists e, In e (n_map n) /\ e_sample e = k /\ e_prod e = p /\ e_cons e = c;
    j_recv : forall k, received k (n_log n) = expected k (n_log n);
    j_ops : ops_of (n_log n) = ops;
    j_ends : ends n = connections ops [];
    j_dst : forall k c x, In (ERecv k c x) (n_log n) -> exists p, endpoints k ops = Some (p, c);
    j_dead : forall i, In i (n_dead n) <-> In i (destroyed ops);
    j_filter : forall c f, filt c = Some f -> sourced c ops = [] ->
               filter_stream f (s0 c) (consumed c (n_log n)) = Ok (n_st n c, issued c (n_log n));
    j_source : forall p, filt p = None -> issued p (n_log n) = sourced p ops
  }.

  Lemma J_init : J [] (init s0).
  Proof.
    constructor; cbn; try reflexivity; try contradiction.
    - apply Inv_init.
    - intros e [].
    - intros k p c. split; [discriminate|]. intros (e & [] & _).
  Qed.

  Lemma sourced_app p (o1 o2 : list (op X)) : sourced p (o1 ++ o2) = sourced p o1 ++ sourced p o2.
  Proof. apply flat_map_app. Qed.
  Lemma destroyed_app (o1 o2 : list (op X)) : destroyed (o1 ++ o2) = destroyed o1 ++ destroyed o2.
  Proof. apply flat_map_app. Qed.

  Lemma live_noconnect k (tr : list (event X)) o :
    (forall p c, o <> OConnect p c) ->
    live k (tr ++ [EOp o]) =
    match live k tr with
    | Some pc => if live_step o pc then Some pc else None
    | None => None
    end.
  Proof.
    intros H. rewrite live_snoc_op. destruct o; try reflexivity. exfalso. apply (H p c). reflexivity.
  Qed.

  Lemma nconn_noconnect (tr : list (event X)) o :
    (forall p c, o <> OConnect p c) -> nconn (tr ++ [EOp o]) = nconn tr.
  Proof.
    intros H. rewrite nconn_app. destruct o; cbn; try lia. exfalso. apply (H p c). reflexivity.
  Qed.

  Lemma ops_snoc_noop (tr D : list (event X)) o : noop D ->
    ops_of (tr ++ [EOp o] ++ D) = ops_of tr ++ [o].
  Proof.
    intros HD. rewrite !ops_of_app, (ops_of_noop D HD). reflexivity.
  Qed.

  Lemma connections_snoc (ops : list (op X)) o :
    connections (ops ++ [o]) [] = connections [o] (connections ops []).
  Proof. apply connections_app. Qed.

  Lemma ends_restrict P n : ends (restrict P n) =
    map (fun e => (e_prod e, e_cons e)) (filter P (n_map n)).
  Proof. reflexivity. Qed.

  (** A user call other than connect: the wiring is restricted to [P] (which is
      exactly what [live_step] says), then something is logged. *)
  Lemma J_step ops n o P n' D (dead' : list nat) :
    J ops n ->
    (forall p c, o <> OConnect p c) ->
    (forall e, In e (n_map n) -> P e = live_step o (e_prod e, e_cons e)) ->
    Em (restrict P (log (EOp o) n)) n' D ->
    (forall k p c, live k (n_log n ++ [EOp o]) = Some (p, c) -> received k D = issued p D) ->
    (forall k, live k (n_log n ++ [EOp o]) = None -> received k D = []) ->
    connections [o] (ends n) = ends (restrict P n) ->
    (forall i, In i dead' <-> In i (destroyed (ops ++ [o]))) ->
    (forall c f, filt c = Some f -> sourced c [o] = [] ->
       filter_stream f (n_st n c) (consumed c D) = Ok (n_st n' c, issued c D)) ->
    (forall p, filt p = None -> issued p D = sourced p [o]) ->
    forall m,
      n_next m = n_next n' -> n_sample m = n_sample n' -> n_flush m = n_flush n' ->
      n_disc m = n_disc n' -> n_map m = n_map n' -> n_st m = n_st n' ->
      n_dead m = dead' -> n_log m = n_log n' ->
      (forall e, In e (n_map m) -> dead m (e_prod e) = false /\ dead m (e_cons e) = false) ->
      J (ops ++ [o]) m.
  Proof.
    intros HJ Hno HP HE Hr1 Hr2 Hends Hdead Hfs Hsrc m M1 M2 M3 M4 M5 M6 M7 M8 Hlive.
    destruct HJ as [I R Hnext HL Hrecv Hops Hen Hdst Hdd Hf Hs].
    destruct HE as [ES EL EN ER].
    set (n1 := log (EOp o) n) in *.
    assert (I1 : Inv n1) by (eapply Inv_same; [apply same_log|exact I]).
    assert (I2 : Inv (restrict P n1)) by (apply Inv_restrict, I1).
    assert (I3 : Inv n') by (eapply Inv_same; eassumption).
    assert (Hmap : n_map m = filter P (n_map n)).
    { rewrite M5, (same_map _ _ ES). reflexivity. }
    assert (Hlog : n_log m = n_log n ++ [EOp o] ++ D).
    { rewrite M8, EL. cbn. rewrite <- app_assoc. reflexivity. }
    assert (Hlog' : n_log m = (n_log n ++ [EOp o]) ++ D).
    { rewrite Hlog. apply app_assoc. }
    assert (Hopsm : ops_of (n_log m) = ops ++ [o]).
    { rewrite Hlog, ops_snoc_noop by exact EN. rewrite Hops. reflexivity. }
    constructor.
    - destruct I3 as [A1 A2 A3 A4 A5 A6 A7]. constructor; rewrite ?M2, ?M3, ?M4, ?M5; try assumption.
      + intros e He. rewrite M1. apply A5, He.
      + rewrite <- M5. exact Hlive.
    - intros e He. rewrite Hmap in He. apply filter_In in He. apply R, He.
    - rewrite M1, (same_next _ _ ES). cbn. rewrite Hnext, Hlog', nconn_app, (nconn_noop D EN).
      rewrite nconn_noconnect by exact Hno. lia.
    - intros k p c. rewrite Hlog', live_app_noop by exact EN.
      rewrite live_noconnect by exact Hno. rewrite Hmap. split.
      + destruct (live k (n_log n)) as [[p' c']|] eqn:El; [|discriminate].
        destruct (live_step o (p', c')) eqn:Es; [|discriminate].
        intros H. injection H as <- <-. apply HL in El.
        destruct El as (e & He & E1 & E2 & E3). exists e. split; [|auto].
        apply filter_In. split; [exact He|]. rewrite HP by exact He. rewrite E2, E3. exact Es.
      + intros (e & He & E1 & E2 & E3). apply filter_In in He. destruct He as [He HPe].
        assert (El : live k (n_log n) = Some (p, c)) by (apply HL; exists e; auto).
        rewrite El. rewrite HP in HPe by exact He. rewrite E2, E3 in HPe. rewrite HPe. reflexivity.
    - intros k. rewrite Hlog', received_app, received_app, expected_app_noop by exact EN.
      rewrite expected_snoc_op, Hrecv. cbn [received flat_map]. rewrite app_nil_r. f_equal.
      destruct (live k (n_log n ++ [EOp o])) as [[p c]|] eqn:El.
      + apply (Hr1 k p c El).
      + apply (Hr2 k El).
    - exact Hopsm.
    - unfold ends. rewrite Hmap, connections_snoc, <- Hen, Hends. reflexivity.
    - intros k c x Hin. rewrite Hlog in Hin. rewrite !in_app_iff in Hin.
      destruct Hin as [Hin|[Hin|Hin]].
      + destruct (Hdst k c x Hin) as [p Hp]. exists p. apply endpoints_app, Hp.
      + destruct Hin as [Hin|[]]. discriminate.
      + destruct (ER k c x Hin) as (e & He & E1 & E2). cbn in He. apply filter_In in He.
        destruct He as [He _]. exists (e_prod e). apply endpoints_app. rewrite <- Hops.
        apply live_endpoints. apply HL. exists e. auto.
    - intros i. rewrite M7. apply Hdead.
    - intros c f Hfc Hso. rewrite sourced_app in Hso. apply app_eq_nil in Hso. destruct Hso as [Hs1 Hs2].
      rewrite Hlog', !consumed_app, !issued_app, M6. cbn [consumed issued flat_map]. rewrite !app_nil_r.
      eapply filter_stream_app; [apply Hf; assumption|apply Hfs; assumption].
    - intros p Hp. rewrite Hlog', !issued_app, sourced_app, (Hs p Hp), (Hsrc p Hp).
      cbn [issued flat_map]. rewrite app_nil_r. reflexivity.
  Qed.

  Lemma received_nil_of k (D : list (event X)) :
    (forall c x, ~ In (ERecv k c x) D) -> received k D = [].
  Proof.
    induction D as [|e D IH]; intros H; [reflexivity|].
    destruct e as [o|p x|k' c x|c]; cbn; try (apply IH; intros c' x' Hin; apply (H c' x'); right; exact Hin).
    destruct (Nat.eqb_spec k' k) as [->|Hk].
    - exfalso. apply (H c x). left; reflexivity.
    - apply IH. intros c' x' Hin. apply (H c' x'). right; exact Hin.
  Qed.

  Lemma restrict_true_log ops n o : J ops n -> restrict (fun _ => true) (log (EOp o) n) = log (EOp o) n.
  Proof. intros HJ. apply Inv_eta. eapply Inv_same; [apply same_log|apply (j_inv _ _ HJ)]. Qed.

  Lemma filter_true {A} (l : list A) : filter (fun _ => true) l = l.
  Proof. apply filter_all. reflexivity. Qed.

  Lemma dead_spec n i : dead n i = true <-> In i (n_dead n).
  Proof.
    unfold dead. rewrite existsb_exists. split.
    - intros (j & Hj & E). apply Nat.eqb_eq in E. subst. exact Hj.
    - intros H. exists i. split; [exact H|apply Nat.eqb_refl].
  Qed.

  Lemma J_issue ops n p x n' b fuel pol : J ops n ->
    step filt pol b fuel (OIssue p x) n = Ok n' -> J (ops ++ [OIssue p x]) n'.
  Proof.
    intros HJ H. unfold step in H. cbv zeta in H.
    destruct (dead (log (EOp (OIssue p x)) n) p) eqn:Hd; [discriminate|].
    set (n1 := log (EOp (OIssue p x)) n) in *.
    assert (I1 : Inv n1) by (eapply Inv_same; [apply same_log|apply (j_inv _ _ HJ)]).
    assert (R1 : Rk rank n1) by (eapply Rk_same; [apply same_log|apply (j_rk _ _ HJ)]).
    destruct (issue_spec filt rank fuel n1 p x n' I1 R1 H) as (D & [A1 A2 A3 A4 A5 A6 A7]).
    pose proof (em_same _ _ _ A1) as S1.
    assert (Hlive1 : forall k p' c', live k (n_log n ++ [EOp (OIssue p x)]) = Some (p', c') ->
              exists e, In e (n_map n1) /\ e_sample e = k /\ e_prod e = p' /\ e_cons e = c').
    { intros k p' c' Hl. rewrite live_noconnect in Hl by discriminate.
      destruct (live k (n_log n)) as [[q d]|] eqn:El; [|discriminate].
      cbn in Hl. injection Hl as <- <-. apply (j_live _ _ HJ) in El. exact El. }
    eapply (J_step ops n (OIssue p x) (fun _ => true) n' D (n_dead n')); try reflexivity.
    - exact HJ.
    - discriminate.
    - rewrite (restrict_true_log ops n _ HJ). exact A1.
    - intros k p' c' Hl. apply Hlive1 in Hl. destruct Hl as (e & He & E1 & E2 & E3).
      subst k p'. apply A2, He.
    - intros k Hl. apply received_nil_of. intros c' x' Hin.
      destruct (em_recv _ _ _ A1 k c' x' Hin) as (e & He & E1 & E2).
      rewrite live_noconnect in Hl by discriminate.
      assert (El : live k (n_log n) = Some (e_prod e, c')).
      { apply (j_live _ _ HJ). exists e. auto. }
      rewrite El in Hl. discriminate.
    - cbn. unfold ends. cbn. rewrite filter_true. reflexivity.
    - intros i. rewrite (same_dead _ _ S1), destroyed_app. cbn. rewrite app_nil_r.
      apply (j_dead _ _ HJ).
    - intros c f Hf Hs. cbn in Hs. destruct (Nat.eqb_spec p c) as [->|Hpc]; [discriminate|].
      assert (Hcp : c <> p) by congruence.
      specialize (A7 c Hcp). unfold FS in A7. rewrite Hf in A7. exact A7.
    - intros q Hq. cbn. destruct (Nat.eqb_spec p q) as [->|Hpq]; [exact A3|].
      assert (Hqp : q <> p) by congruence.
      specialize (A7 q Hqp). unfold FS in A7. rewrite Hq in A7. apply A7.
    - intros e He. apply (inv_live n' (Inv_same _ _ S1 I1) e He).
  Qed.

  Lemma flush_em_step ops n o P n' D dead' m :
    J ops n ->
    (forall p c, o <> OConnect p c) -> (forall p x, o <> OIssue p x) ->
    (forall e, In e (n_map n) -> P e = live_step o (e_prod e, e_cons e)) ->
    FlSpec (restrict P (log (EOp o) n)) n' D ->
    connections [o] (ends n) = ends (restrict P n) ->
    (forall i, In i dead' <-> In i (destroyed (ops ++ [o]))) ->
    n_next m = n_next n' -> n_sample m = n_sample n' -> n_flush m = n_flush n' ->
    n_disc m = n_disc n' -> n_map m = n_map n' -> n_st m = n_st n' ->
    n_dead m = dead' -> n_log m = n_log n' ->
    (forall e, In e (n_map m) -> dead m (e_prod e) = false /\ dead m (e_cons e) = false) ->
    J (ops ++ [o]) m.
  Proof.
    intros HJ H1 H1' H2 HF H3 H4 M1 M2 M3 M4 M5 M6 M7 M8 HL.
    eapply (J_step ops n o P n' D dead'); try eassumption.
    - apply (fl_em _ _ _ HF).
    - intros k p c _. rewrite (flush_no_recv _ _ _ HF), (flush_no_issue _ _ _ HF). reflexivity.
    - intros k _. apply (flush_no_recv _ _ _ HF).
    - intros c f _ _. rewrite (flush_no_consume _ _ _ HF), (flush_no_issue _ _ _ HF).
      cbn. rewrite (fl_st _ _ _ HF). reflexivity.
    - intros p _. rewrite (flush_no_issue _ _ _ HF). destruct o; try reflexivity.
      exfalso. apply (H1' p0 x). reflexivity.
  Qed.

  Lemma J_flush ops n p n' b fuel pol : J ops n ->
    step filt pol b fuel (OFlush p) n = Ok n' -> J (ops ++ [OFlush p]) n'.
  Proof.
    intros HJ H. unfold step in H. cbv zeta in H.
    destruct (dead (log (EOp (OFlush p)) n) p) eqn:Hd; [discriminate|].
    set (n1 := log (EOp (OFlush p)) n) in *.
    assert (I1 : Inv n1) by (eapply Inv_same; [apply same_log|apply (j_inv _ _ HJ)]).
    destruct (flush_sig_spec filt fuel n1 p n' I1 H) as (D & F & _).
    pose proof (em_same _ _ _ (fl_em _ _ _ F)) as S1.
    eapply (flush_em_step ops n (OFlush p) (fun _ => true) n' D (n_dead n')); try reflexivity.
    - exact HJ.
    - discriminate.
    - discriminate.
    - rewrite (restrict_true_log ops n _ HJ). exact F.
    - cbn. unfold ends. cbn. rewrite filter_true. reflexivity.
    - intros i. rewrite (same_dead _ _ S1), destroyed_app. cbn. rewrite app_nil_r.
      apply (j_dead _ _ HJ).
    - intros e He. apply (inv_live n' (Inv_same _ _ S1 I1) e He).
  Qed.

  Lemma J_disconnect ops n c n' b fuel pol : J ops n ->
    step filt pol b fuel (ODisconnect c) n = Ok n' -> J (ops ++ [ODisconnect c]) n'.
  Proof.
    intros HJ H. unfold step in H. cbv zeta in H.
    destruct (dead (log (EOp (ODisconnect c)) n) c) eqn:Hd; [discriminate|].
    set (n1 := log (EOp (ODisconnect c)) n) in *.
    assert (I1 : Inv n1) by (eapply Inv_same; [apply same_log|apply (j_inv _ _ HJ)]).
    unfold disconnect_and_flush in H. cbv zeta in H. rewrite (disconnect_core n1 c I1) in H.
    set (P := fun e : entry => negb (e_cons e =? c)) in *.
    assert (I2 : Inv (restrict P n1)) by (apply Inv_restrict, I1).
    destruct (flush_one_spec filt _ _ _ _ (flush_sig_spec filt fuel) I2 H) as (D & F & _).
    pose proof (em_same _ _ _ (fl_em _ _ _ F)) as S1.
    eapply (flush_em_step ops n (ODisconnect c) P n' D (n_dead n')); try reflexivity.
    - exact HJ.
    - discriminate.
    - discriminate.
    - exact F.
    - cbn. unfold ends. cbn. rewrite filter_map. reflexivity.
    - intros i. rewrite (same_dead _ _ S1), destroyed_app. cbn. rewrite app_nil_r.
      apply (j_dead _ _ HJ).
    - intros e He. apply (inv_live n' (Inv_same _ _ S1 I2) e He).
  Qed.

  Lemma kill_restricted n o :
    Inv n -> (forall e, In e (n_map n) -> e_prod e <> o) ->
    filter (fun s => negb (s_prod s =? o)) (map mk (n_map n)) = map mk (n_map n).
  Proof.
    intros I H. apply filter_all. intros s Hs. apply in_map_iff in Hs.
    destruct Hs as (e & <- & He). cbn. destruct (Nat.eqb_spec (e_prod e) o); [|reflexivity].
    exfalso. apply (H e He). assumption.
  Qed.

  (** Closed form of the destructor. *)
  Lemma destroy_closed b fuel o n n' : Inv n -> dead n o = false ->
    disconnect_and_flush filt fuel o n = Ok n' ->
    destroy filt FindFirst b fuel o n =
    Ok {| n_next := n_next n';
          n_sample := map mk (filter (fun e => negb (e_prod e =? o)) (n_map n'));
          n_flush := map mk (filter (fun e => negb (e_prod e =? o)) (n_map n'));
          n_disc := map mk (filter (fun e => negb (e_prod e =? o)) (n_map n'));
          n_map := filter (fun e => negb (e_prod e =? o)) (n_map n');
          n_st := n_st n'; n_dead := o :: n_dead n'; n_log := n_log n' |}.
  Proof.
    intros I Hd H. unfold destroy. rewrite Hd, H. cbn [bind].
    unfold disconnect_and_flush in H. cbv zeta in H. rewrite (disconnect_core n o I) in H.
    assert (I2 : Inv (restrict (fun e => negb (e_cons e =? o)) n)) by (apply Inv_restrict, I).
    destruct (flush_one_spec filt _ _ _ _ (flush_sig_spec filt fuel) I2 H) as (D & F & _).
    pose proof (em_same _ _ _ (fl_em _ _ _ F)) as S1.
    assert (I3 : Inv n') by (eapply Inv_same; eassumption).
    rewrite (disc_all_closed filt b o n' I3). cbn [bind].
    set (Q := fun e : entry => negb (e_prod e =? o)).
    assert (I4 : Inv (restrict Q n')) by (apply Inv_restrict, I3).
    assert (Hk : filter (fun s => negb (s_prod s =? o)) (map mk (filter Q (n_map n'))) =
                 map mk (filter Q (n_map n'))).
    { apply (kill_restricted (restrict Q n') o I4). cbn. intros e He. apply filter_In in He.
      destruct He as [_ He]. unfold Q in He. destruct (Nat.eqb_spec (e_prod e) o); [discriminate|assumption]. }
    unfold restrict. cbn [n_sample n_flush n_disc n_map n_next n_st n_dead n_log].
    rewrite Hk.
    assert (He : entries_of {| n_next := n_next n';
          n_sample := map mk (filter Q (n_map n'));
          n_flush := map mk (filter Q (n_map n'));
          n_disc := map mk (filter Q (n_map n'));
          n_map := filter Q (n_map n');
          n_st := n_st n'; n_dead := o :: n_dead n'; n_log := n_log n' |} o = []).
    { unfold entries_of. cbn [n_map]. rewrite (same_map _ _ S1). cbn [restrict n_map].
      rewrite !filter_filter. destruct (filter _ (n_map n)) as [|e l] eqn:E; [reflexivity|].
      assert (Hin : In e (e :: l)) by (left; reflexivity). rewrite <- E in Hin.
      apply filter_In in Hin. destruct Hin as [_ Hin].
      destruct (e_cons e =? o); cbn in Hin; rewrite ?andb_false_r in Hin; discriminate. }
    rewrite He. reflexivity.
  Qed.

  Lemma J_destroy ops n o n' b fuel : J ops n ->
    step filt FindFirst b fuel (ODestroy o) n = Ok n' -> J (ops ++ [ODestroy o]) n'.
  Proof.
    intros HJ H. unfold step in H. cbv zeta in H.
    set (n1 := log (EOp (ODestroy o)) n) in *.
    assert (I1 : Inv n1) by (eapply Inv_same; [apply same_log|apply (j_inv _ _ HJ)]).
    destruct (dead n1 o) eqn:Hd.
    { unfold destroy in H. rewrite Hd in H. discriminate. }
    destruct (disconnect_and_flush filt fuel o n1) as [n2| | |] eqn:E;
      try (unfold destroy in H; rewrite Hd, E in H; discriminate).
    rewrite (destroy_closed b fuel o n1 n2 I1 Hd E) in H. injection H as <-.
    unfold disconnect_and_flush in E. cbv zeta in E. rewrite (disconnect_core n1 o I1) in E.
    set (P1 := fun e : entry => negb (e_cons e =? o)) in *.
    set (P2 := fun e : entry => negb (e_prod e =? o)) in *.
    assert (I2 : Inv (restrict P1 n1)) by (apply Inv_restrict, I1).
    destruct (flush_one_spec filt _ _ _ _ (flush_sig_spec filt fuel) I2 E) as (D & F & _).
    pose proof (em_same _ _ _ (fl_em _ _ _ F)) as S1.
    set (P := fun e => P2 e && P1 e).
    (* the flush happened in the restricted network, then producer-side
       connections disappear *)
    assert (F' : FlSpec (restrict P n1) (restrict P2 n2) D).
    { destruct F as [[A1 A2 A3 A4] B C]. constructor.
      - constructor.
        + constructor; cbn; rewrite ?(same_next _ _ A1), ?(same_map _ _ A1), ?(same_dead _ _ A1);
            cbn; rewrite ?filter_filter; reflexivity.
        + cbn. rewrite A2. reflexivity.
        + exact A3.
        + intros k c x Hin. exfalso. apply B in Hin. discriminate.
      - exact B.
      - exact C. }
    eapply (flush_em_step ops n (ODestroy o) P (restrict P2 n2) D (o :: n_dead n2)); try reflexivity.
    - exact HJ.
    - discriminate.
    - discriminate.
    - intros e He. unfold P, P1, P2. cbn. apply andb_comm.
    - exact F'.
    - cbn. unfold ends. cbn. rewrite filter_map. f_equal. apply filter_ext.
      intros e. unfold P, P1, P2. cbn. apply andb_comm.
    - intros i. rewrite (same_dead _ _ S1), destroyed_app, in_app_iff. cbn.
      rewrite (j_dead _ _ HJ i). tauto.
    - intros e He. cbn [n_map] in He. apply filter_In in He. destruct He as [He HP2].
      pose proof He as He'. rewrite (same_map _ _ S1) in He'. cbn in He'. apply filter_In in He'.
      destruct He' as [He' HP1].
      destruct (inv_live n2 (Inv_same _ _ S1 I2) e He) as [L1 L2].
      unfold dead in *. cbn [n_dead existsb]. rewrite L1, L2. unfold P1, P2 in *.
      destruct (e_prod e =? o), (e_cons e =? o); try discriminate. split; reflexivity.
  Qed.

  Lemma J_connect ops n p c n' b fuel pol : J ops n -> rank p < rank c ->
    step filt pol b fuel (OConnect p c) n = Ok n' -> J (ops ++ [OConnect p c]) n'.
  Proof.
    intros HJ Hpc H. unfold step, connect in H. cbv zeta in H.
    destruct (dead (log (EOp (OConnect p c)) n) p || dead (log (EOp (OConnect p c)) n) c) eqn:Hd;
      [discriminate|].
    injection H as <-. apply orb_false_iff in Hd. destruct Hd as [Hd1 Hd2].
    destruct HJ as [[I1 I2 I3 I4 I5 I6 I7] R Hnext HL Hrecv Hops Hen Hdst Hdd Hf Hs].
    set (e0 := {| e_cons := c; e_prod := p; e_sample := n_next n; e_flush := n_next n;
                  e_disc := n_next n |}) in *.
    assert (Hin : forall e, In e (n_map n ++ [e0]) -> In e (n_map n) \/ e = e0).
    { intros e He. apply in_app_or in He. destruct He as [He|[<-|[]]]; auto. }
    constructor; cbn [n_map n_sample n_flush n_disc n_next n_log n_st n_dead log].
    - constructor; cbn [n_map n_sample n_flush n_disc n_next n_log n_st n_dead log].
      + rewrite I1, map_app. reflexivity.
      + rewrite I2, map_app. reflexivity.
      + rewrite I3, map_app. reflexivity.
      + intros e He. apply Hin in He. destruct He as [He| ->]; [apply I4, He|split; reflexivity].
      + intros e He. apply Hin in He. destruct He as [He| ->]; [apply I5 in He; lia|cbn; lia].
      + intros e He. apply Hin in He. destruct He as [He| ->]; [apply I6, He|split; assumption].
      + rewrite map_app. cbn [map].
        apply (NoDup_Add (a := n_next n) (l := map e_sample (n_map n))).
        * pose proof (Add_app (n_next n) (map e_sample (n_map n)) []) as Ha.
          rewrite app_nil_r in Ha. exact Ha.
        * split; [exact I7|]. intros Hc. apply in_map_iff in Hc.
          destruct Hc as (e & E & He). apply I5 in He. lia.
    - intros e He. cbn [n_map] in He. apply Hin in He. destruct He as [He| ->]; [apply R, He|exact Hpc].
    - rewrite Hnext, nconn_app. cbn. lia.
    - intros k p' c'. rewrite live_snoc_op, <- Hnext. split.
      + destruct (Nat.eqb_spec k (n_next n)) as [->|Hk].
        * intros H. injection H as <- <-. exists e0. split; [apply in_or_app; right; left; reflexivity|auto].
        * intros H. apply HL in H. destruct H as (e & He & H). exists e. split; [apply in_or_app; left; exact He|exact H].
      + intros (e & He & E1 & E2 & E3). apply Hin in He. destruct He as [He| ->].
        * assert (Hk : k <> n_next n) by (apply I5 in He; lia).
          destruct (Nat.eqb_spec k (n_next n)); [contradiction|]. apply HL. exists e. auto.
        * cbn in E1, E2, E3. subst. rewrite Nat.eqb_refl. reflexivity.
    - intros k. rewrite received_app, expected_snoc_op. cbn. rewrite app_nil_r. apply Hrecv.
    - rewrite ops_of_app, Hops. reflexivity.
    - unfold ends. cbn [n_map]. rewrite map_app, connections_snoc, <- Hen. reflexivity.
    - intros k c' x Hx. apply in_app_or in Hx. destruct Hx as [Hx|[Hx|[]]]; [|discriminate].
      destruct (Hdst k c' x Hx) as [q Hq]. exists q. apply endpoints_app, Hq.
    - intros i. rewrite destroyed_app. cbn. rewrite app_nil_r. apply Hdd.
    - intros q f Hq Hsq. rewrite sourced_app in Hsq. cbn in Hsq. rewrite app_nil_r in Hsq.
      rewrite consumed_app, issued_app. cbn. rewrite !app_nil_r. apply Hf; assumption.
    - intros q Hq. rewrite issued_app, sourced_app. cbn. rewrite !app_nil_r. apply Hs, Hq.
  Qed.

  Lemma J_any ops n o n' b fuel : J ops n ->
    (forall p c, o = OConnect p c -> rank p < rank c) ->
    step filt FindFirst b fuel o n = Ok n' -> J (ops ++ [o]) n'.
  Proof.
    intros HJ Hr H. destruct o.
    - eapply J_connect; eauto.
    - eapply J_issue; eauto.
    - eapply J_flush; eauto.
    - eapply J_disconnect; eauto.
    - eapply J_destroy; eauto.
  Qed.

  Lemma J_exec b fuel ops : forall done n n', J done n ->
    ranked rank ops ->
    exec filt FindFirst b fuel ops n = Ok n' -> J (done ++ ops) n'.
  Proof.
    induction ops as [|o ops IH]; intros done n n' HJ Hr H.
    - cbn in H. injection H as <-. rewrite app_nil_r. exact HJ.
    - cbn [exec] in H.
      destruct (step filt FindFirst b fuel o n) as [n1| | |] eqn:E; cbn [bind] in H; try discriminate.
      assert (HJ1 : J (done ++ [o]) n1).
      { eapply J_any; [exact HJ| |exact E]. intros p c ->. apply Hr. left; reflexivity. }
      replace (done ++ o :: ops) with ((done ++ [o]) ++ ops) by (rewrite <- app_assoc; reflexivity).
      eapply IH; [exact HJ1| |exact H]. intros p c Hin. apply Hr. right; exact Hin.
  Qed.
End Hist.
