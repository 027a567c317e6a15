(** Non-interference between parts of a network. *)
From Coq Require Import ZifyBool ZifyNat.
From Verif Require Import Prelude NetModel NetSpec NetProofs NetEmit NetHist.

Section Iso.
  Context {X St : Type}.
  Variable filt : nat -> option (St -> X -> outcome (St * option X)).
  Variable inD : nat -> bool.       (* the objects that are left out *)
  Implicit Types (n m : net X St).

  Local Notation touches := (mentions inD).
  Definition ev_in (e : event X) : bool :=
    match e with
    | EOp o => touches o
    | EIssue p _ => inD p
    | ERecv _ c _ => inD c
    | EFlush c => inD c
    end.
  Definition strip (e : event X) : event X :=
    match e with ERecv _ c x => ERecv 0 c x | _ => e end.
  Definition view (tr : list (event X)) : list (event X) :=
    map strip (filter (fun e => negb (ev_in e)) tr).
  Definition pc (e : entry) := (e_prod e, e_cons e).
  Definition kept n := filter (fun e => negb (inD (e_cons e))) (n_map n).

  Record Rel n m : Prop := {
    rel_map : map pc (kept n) = map pc (n_map m);
    rel_st : forall i, inD i = false -> n_st n i = n_st m i;
    rel_dead : forall i, inD i = false -> dead n i = dead m i;
    rel_log : view (n_log n) = map strip (n_log m);
    rel_cl : forall e, In e (n_map n) -> inD (e_prod e) = true -> inD (e_cons e) = true;
    rel_i1 : Inv n;
    rel_i2 : Inv m
  }.

  Lemma view_app t1 t2 : view (t1 ++ t2) = view t1 ++ view t2.
  Proof. unfold view. rewrite filter_app, map_app. reflexivity. Qed.

  Lemma Rel_log_in n m e : ev_in e = true -> Rel n m -> Rel (log e n) m.
  Proof.
    intros He [A1 A2 A3 A4 A5 A6 A7]. constructor; try assumption.
    - cbn [log n_log]. rewrite view_app. unfold view at 2. cbn. rewrite He. cbn.
      rewrite app_nil_r. exact A4.
    - eapply Inv_same; [apply same_log|exact A6].
  Qed.
  Lemma Rel_log_out n m e e' : ev_in e = false -> strip e = strip e' ->
    Rel n m -> Rel (log e n) (log e' m).
  Proof.
    intros He Hs [A1 A2 A3 A4 A5 A6 A7]. constructor; try assumption.
    - cbn [log n_log]. rewrite view_app, map_app, A4. unfold view. cbn. rewrite He. cbn.
      rewrite Hs. reflexivity.
    - eapply Inv_same; [apply same_log|exact A6].
    - eapply Inv_same; [apply same_log|exact A7].
  Qed.
  Lemma Rel_st_in n m i s : inD i = true -> Rel n m -> Rel (set_st i s n) m.
  Proof.
    intros Hi [A1 A2 A3 A4 A5 A6 A7]. constructor; try assumption.
    - intros j Hj. cbn. destruct (Nat.eqb_spec j i) as [->|]; [congruence|apply A2, Hj].
    - eapply Inv_same; [apply same_set_st|exact A6].
  Qed.
  Lemma Rel_st_out n m i s : Rel n m -> Rel (set_st i s n) (set_st i s m).
  Proof.
    intros [A1 A2 A3 A4 A5 A6 A7]. constructor; try assumption.
    - intros j Hj. cbn. destruct (Nat.eqb_spec j i) as [->|]; [reflexivity|apply A2, Hj].
    - eapply Inv_same; [apply same_set_st|exact A6].
    - eapply Inv_same; [apply same_set_st|exact A7].
  Qed.

  (** Inside the left-out part nothing visible happens. *)
  Definition quiet (iss : net X St -> nat -> X -> outcome (net X St)) : Prop :=
    forall n m p x n', inD p = true -> Rel n m -> iss n p x = Ok n' ->
                       Rel n' m /\ same n n'.

  Lemma deliver_quiet iss n m s x n' : quiet iss -> inD (s_cons s) = true -> Rel n m ->
    deliver filt iss n s x = Ok n' -> Rel n' m /\ same n n'.
  Proof.
    intros Hq Hc HR H. unfold deliver in H.
    destruct (dead n (s_cons s)); [discriminate|].
    destruct (entries_of n (s_cons s)); [injection H as <-; split; [exact HR|apply same_refl]|].
    cbv zeta in H.
    pose proof (Rel_log_in n m (ERecv (s_conn s) (s_cons s) x) Hc HR) as HR1.
    destruct (filt (s_cons s)) as [f|].
    - match type of H with context [f ?a ?b] => destruct (f a b) as [[s' o]| | |] end;
        cbn [bind] in H; try discriminate.
      pose proof (Rel_st_in _ _ (s_cons s) s' Hc HR1) as HR2.
      destruct o as [y|].
      + destruct (Hq _ _ _ _ _ Hc HR2 H) as [H1 H2]. split; [exact H1|].
        eapply same_trans; [|exact H2]. eapply same_trans; [apply same_log|apply same_set_st].
      + injection H as <-. split; [exact HR2|].
        eapply same_trans; [apply same_log|apply same_set_st].
    - injection H as <-. split; [exact HR1|apply same_log].
  Qed.

  Lemma deliver_all_quiet iss l x : forall n m n', quiet iss ->
    (forall s, In s l -> inD (s_cons s) = true) -> Rel n m ->
    deliver_all filt iss n l x = Ok n' -> Rel n' m /\ same n n'.
  Proof.
    induction l as [|s l IH]; intros n m n' Hq Hl HR H.
    - cbn in H. injection H as <-. split; [exact HR|apply same_refl].
    - cbn [deliver_all] in H.
      destruct (deliver filt iss n s x) as [n1| | |] eqn:E; cbn [bind] in H; try discriminate.
      destruct (deliver_quiet iss n m s x n1 Hq (Hl s (or_introl eq_refl)) HR E) as [HR1 S1].
      destruct (IH n1 m n' Hq (fun s' Hs' => Hl s' (or_intror Hs')) HR1 H) as [HR2 S2].
      split; [exact HR2|eapply same_trans; eassumption].
  Qed.

  Lemma issue_quiet fuel : quiet (issue filt fuel).
  Proof.
    induction fuel as [|fuel IH]; intros n m p x n' Hp HR H; [discriminate|].
    cbn [issue] in H.
    pose proof (Rel_log_in n m (EIssue p x) Hp HR) as HR1.
    eapply deliver_all_quiet in H; [|exact IH| |exact HR1].
    - destruct H as [H1 H2]. split; [exact H1|]. eapply same_trans; [apply same_log|exact H2].
    - intros s Hs. unfold slots_of in Hs. apply filter_In in Hs. destruct Hs as [Hs Ep].
      rewrite (inv_sample _ (rel_i1 _ _ HR1)) in Hs. apply in_map_iff in Hs.
      destruct Hs as (e & <- & He). cbn in Ep |- *. apply Nat.eqb_eq in Ep. subst p.
      apply (rel_cl _ _ HR e He Hp).
  Qed.

  (** Outside, the two networks do the same. *)
  Definition simulates (iss1 iss2 : net X St -> nat -> X -> outcome (net X St)) : Prop :=
    forall n m p x n', inD p = false -> Rel n m -> iss1 n p x = Ok n' ->
      exists m', iss2 m p x = Ok m' /\ Rel n' m' /\ same n n' /\ same m m'.

  Lemma entries_nil n m c : Rel n m -> inD c = false ->
    (entries_of n c = [] <-> entries_of m c = []).
  Proof.
    intros HR Hc.
    assert (H : map pc (entries_of n c) = map pc (entries_of m c)).
    { transitivity (filter (fun q => snd q =? c) (map pc (n_map m))).
      - rewrite <- (rel_map _ _ HR), filter_map. f_equal. unfold kept, entries_of.
        rewrite filter_filter. apply filter_ext. intros e. cbn.
        destruct (Nat.eqb_spec (e_cons e) c) as [->|]; [rewrite Hc|]; reflexivity.
      - rewrite filter_map. reflexivity. }
    split; intros E; rewrite E in H; [destruct (entries_of m c)|destruct (entries_of n c)];
      try reflexivity; discriminate.
  Qed.

  Lemma deliver_sim iss1 iss2 n m s s' x n' : simulates iss1 iss2 ->
    inD (s_cons s) = false -> s_cons s' = s_cons s -> Rel n m ->
    deliver filt iss1 n s x = Ok n' ->
    exists m', deliver filt iss2 m s' x = Ok m' /\ Rel n' m' /\ same n n' /\ same m m'.
  Proof.
    intros Hsim Hc Ec HR H. unfold deliver in *. rewrite Ec. cbv zeta in H |- *.
    rewrite <- (rel_dead _ _ HR _ Hc).
    destruct (dead n (s_cons s)); [discriminate|].
    pose proof (entries_nil n m (s_cons s) HR Hc) as Hen.
    destruct (entries_of n (s_cons s)) as [|e es].
    { injection H as <-. destruct (entries_of m (s_cons s)).
      - exists m. split; [reflexivity|]. split; [exact HR|split; apply same_refl].
      - exfalso. assert (Hf : e :: l = []) by (apply Hen; reflexivity). discriminate. }
    destruct (entries_of m (s_cons s)) as [|e' es'].
    { exfalso. assert (Hf : e :: es = []) by (apply Hen; reflexivity). discriminate. }
    set (ev := ERecv (s_conn s) (s_cons s) x) in *. set (ev' := ERecv (s_conn s') (s_cons s) x) in *.
    assert (HR1 : Rel (log ev n) (log ev' m)) by (apply Rel_log_out; [exact Hc|reflexivity|exact HR]).
    destruct (filt (s_cons s)) as [f|].
    - rewrite <- (rel_st _ _ HR1 _ Hc).
      destruct (f (n_st (log ev n) (s_cons s)) x) as [[t o]| | |]; cbn [bind] in H |- *; try discriminate.
      pose proof (Rel_st_out _ _ (s_cons s) t HR1) as HR2.
      assert (S1 : same n (set_st (s_cons s) t (log ev n)))
        by (eapply same_trans; [apply same_log|apply same_set_st]).
      assert (S2 : same m (set_st (s_cons s) t (log ev' m)))
        by (eapply same_trans; [apply same_log|apply same_set_st]).
      destruct o as [y|].
      + destruct (Hsim _ _ _ _ _ Hc HR2 H) as (m' & E & HR3 & T1 & T2).
        exists m'. split; [exact E|]. split; [exact HR3|].
        split; eapply same_trans; eassumption.
      + injection H as <-. eexists. split; [reflexivity|]. split; [exact HR2|split; assumption].
    - injection H as <-. eexists. split; [reflexivity|]. split; [exact HR1|split; apply same_log].
  Qed.

  Lemma deliver_all_sim iss1 iss2 x : simulates iss1 iss2 -> quiet iss1 ->
    forall l l' n m n',
    map s_cons (filter (fun s => negb (inD (s_cons s))) l) = map s_cons l' ->
    Rel n m ->
    deliver_all filt iss1 n l x = Ok n' ->
    exists m', deliver_all filt iss2 m l' x = Ok m' /\ Rel n' m' /\ same n n' /\ same m m'.
  Proof.
    intros Hsim Hq l. induction l as [|s l IH]; intros l' n m n' Hl HR H.
    - cbn in Hl. destruct l' as [|]; [|discriminate]. cbn in H. injection H as <-.
      exists m. split; [reflexivity|]. split; [exact HR|split; apply same_refl].
    - cbn [deliver_all] in H.
      destruct (deliver filt iss1 n s x) as [n1| | |] eqn:E; cbn [bind] in H; try discriminate.
      cbn in Hl. destruct (inD (s_cons s)) eqn:Hc; cbn in Hl.
      + destruct (deliver_quiet iss1 n m s x n1 Hq Hc HR E) as [HR1 S1].
        destruct (IH l' n1 m n' Hl HR1 H) as (m' & E' & HR' & T1 & T2).
        exists m'. split; [exact E'|]. split; [exact HR'|]. split; [eapply same_trans; eassumption|exact T2].
      + destruct l' as [|s' l']; [discriminate|]. cbn in Hl. injection Hl as Es Hl.
        destruct (deliver_sim iss1 iss2 n m s s' x n1 Hsim Hc (eq_sym Es) HR E) as (m1 & E1 & HR1 & T1 & T2).
        destruct (IH l' n1 m1 n' Hl HR1 H) as (m' & E' & HR' & T3 & T4).
        exists m'. cbn [deliver_all]. rewrite E1. cbn [bind]. split; [exact E'|].
        split; [exact HR'|]. split; eapply same_trans; eassumption.
  Qed.

  Lemma slots_corr n m p : Rel n m -> inD p = false ->
    map s_cons (filter (fun s => negb (inD (s_cons s))) (slots_of (map mk (n_map n)) p)) =
    map s_cons (slots_of (map mk (n_map m)) p).
  Proof.
    intros HR Hp. rewrite !slots_of_map.
    transitivity (map snd (filter (fun q => fst q =? p) (map pc (n_map m)))).
    - rewrite <- (rel_map _ _ HR), filter_map, filter_map, !map_map. cbn. f_equal.
      unfold kept. rewrite !filter_filter. apply filter_ext. intros e. cbn. apply andb_comm.
    - rewrite filter_map, !map_map. reflexivity.
  Qed.

  Lemma issue_sim fuel : simulates (issue filt fuel) (issue filt fuel).
  Proof.
    induction fuel as [|fuel IH]; intros n m p x n' Hp HR H; [discriminate|].
    cbn [issue] in H |- *.
    assert (HR1 : Rel (log (EIssue p x) n) (log (EIssue p x) m))
      by (apply Rel_log_out; [exact Hp|reflexivity|exact HR]).
    rewrite (inv_sample _ (rel_i1 _ _ HR1)) in H. rewrite (inv_sample _ (rel_i2 _ _ HR1)).
    eapply deliver_all_sim in H; [|exact IH|apply issue_quiet| |exact HR1].
    - destruct H as (m' & E & HR' & T1 & T2). exists m'. split; [exact E|]. split; [exact HR'|].
      split; (eapply same_trans; [apply same_log|]; eassumption).
    - apply (slots_corr _ _ p HR1 Hp).
  Qed.

  (** The same for flush signals. *)
  Definition fquiet (fl : net X St -> nat -> outcome (net X St)) : Prop :=
    forall n m p n', inD p = true -> Rel n m -> fl n p = Ok n' -> Rel n' m /\ same n n'.
  Definition fsimulates (fl : net X St -> nat -> outcome (net X St)) : Prop :=
    forall n m p n', inD p = false -> Rel n m -> fl n p = Ok n' ->
      exists m', fl m p = Ok m' /\ Rel n' m' /\ same n n' /\ same m m'.

  Lemma flush_one_quiet fl n m c n' : fquiet fl -> inD c = true -> Rel n m ->
    flush_one filt fl n c = Ok n' -> Rel n' m /\ same n n'.
  Proof.
    intros Hq Hc HR H. unfold flush_one in H. cbv zeta in H.
    pose proof (Rel_log_in n m (EFlush c) Hc HR) as HR1.
    destruct (filt c).
    - destruct (Hq _ _ _ _ Hc HR1 H) as [A B]. split; [exact A|].
      eapply same_trans; [apply same_log|exact B].
    - injection H as <-. split; [exact HR1|apply same_log].
  Qed.
  Lemma flush_one_sim fl n m c n' : fsimulates fl -> inD c = false -> Rel n m ->
    flush_one filt fl n c = Ok n' ->
    exists m', flush_one filt fl m c = Ok m' /\ Rel n' m' /\ same n n' /\ same m m'.
  Proof.
    intros Hq Hc HR H. unfold flush_one in *. cbv zeta in H |- *.
    assert (HR1 : Rel (log (EFlush c) n) (log (EFlush c) m))
      by (apply Rel_log_out; [exact Hc|reflexivity|exact HR]).
    destruct (filt c).
    - destruct (Hq _ _ _ _ Hc HR1 H) as (m' & A & B & C & D). exists m'. split; [exact A|].
      split; [exact B|]. split; (eapply same_trans; [apply same_log|eassumption]).
    - injection H as <-. eexists. split; [reflexivity|]. split; [exact HR1|split; apply same_log].
  Qed.

  Lemma flush_all_sim fl : fquiet fl -> fsimulates fl ->
    forall l l' n m n',
    map s_cons (filter (fun s => negb (inD (s_cons s))) l) = map s_cons l' ->
    Rel n m ->
    flush_all filt fl n l = Ok n' ->
    exists m', flush_all filt fl m l' = Ok m' /\ Rel n' m' /\ same n n' /\ same m m'.
  Proof.
    intros Hq Hsim l. induction l as [|s l IH]; intros l' n m n' Hl HR H.
    - cbn in Hl. destruct l' as [|]; [|discriminate]. cbn in H. injection H as <-.
      exists m. split; [reflexivity|]. split; [exact HR|split; apply same_refl].
    - cbn [flush_all] in H. destruct (dead n (s_cons s)) eqn:Hd; [discriminate|].
      destruct (flush_one filt fl n (s_cons s)) as [n1| | |] eqn:E; cbn [bind] in H; try discriminate.
      cbn in Hl. destruct (inD (s_cons s)) eqn:Hc; cbn in Hl.
      + destruct (flush_one_quiet fl n m _ n1 Hq Hc HR E) as [HR1 S1].
        destruct (IH l' n1 m n' Hl HR1 H) as (m' & E' & HR' & T1 & T2).
        exists m'. split; [exact E'|]. split; [exact HR'|]. split; [eapply same_trans; eassumption|exact T2].
      + destruct l' as [|s' l']; [discriminate|]. cbn in Hl. injection Hl as Es Hl.
        destruct (flush_one_sim fl n m _ n1 Hsim Hc HR E) as (m1 & E1 & HR1 & T1 & T2).
        destruct (IH l' n1 m1 n' Hl HR1 H) as (m' & E' & HR' & T3 & T4).
        exists m'. cbn [flush_all]. rewrite <- Es, <- (rel_dead _ _ HR _ Hc), Hd, E1. cbn [bind].
        split; [exact E'|]. split; [exact HR'|]. split; eapply same_trans; eassumption.
  Qed.

  Lemma flush_all_quiet fl : fquiet fl -> forall l n m n',
    (forall s, In s l -> inD (s_cons s) = true) -> Rel n m ->
    flush_all filt fl n l = Ok n' -> Rel n' m /\ same n n'.
  Proof.
    intros Hq l. induction l as [|s l IH]; intros n m n' Hin HR H.
    - cbn in H. injection H as <-. split; [exact HR|apply same_refl].
    - cbn [flush_all] in H. destruct (dead n (s_cons s)); [discriminate|].
      destruct (flush_one filt fl n (s_cons s)) as [n1| | |] eqn:E; cbn [bind] in H; try discriminate.
      destruct (flush_one_quiet fl n m _ n1 Hq (Hin s (or_introl eq_refl)) HR E) as [HR1 S1].
      destruct (IH n1 m n' (fun e' He' => Hin e' (or_intror He')) HR1 H) as [HR2 S2].
      split; [exact HR2|eapply same_trans; eassumption].
  Qed.

  Lemma flush_sig_quiet fuel : fquiet (flush_sig filt fuel).
  Proof.
    induction fuel as [|fuel IH]; intros n m p n' Hp HR H; [discriminate|].
    cbn [flush_sig] in H. rewrite (inv_flush _ (rel_i1 _ _ HR)), slots_of_map in H.
    refine (flush_all_quiet _ IH _ n m n' _ HR H).
    intros s Hs. apply in_map_iff in Hs. destruct Hs as (e & <- & He).
    apply filter_In in He. destruct He as [He Ep]. apply Nat.eqb_eq in Ep.
    subst p. apply (rel_cl _ _ HR e He Hp).
  Qed.

  Lemma flush_sig_sim fuel : fsimulates (flush_sig filt fuel).
  Proof.
    induction fuel as [|fuel IH]; intros n m p n' Hp HR H; [discriminate|].
    cbn [flush_sig] in H |- *.
    rewrite (inv_flush _ (rel_i1 _ _ HR)) in H. rewrite (inv_flush _ (rel_i2 _ _ HR)).
    eapply flush_all_sim in H; [exact H|apply flush_sig_quiet|exact IH|apply (slots_corr _ _ p HR Hp)|exact HR].
  Qed.

  (** Restricting both networks. *)
  Lemma Rel_restrict n m (P : nat * nat -> bool) : Rel n m ->
    Rel (restrict (fun e => P (pc e)) n) (restrict (fun e => P (pc e)) m).
  Proof.
    intros [A1 A2 A3 A4 A5 A6 A7]. constructor; try assumption.
    - unfold kept. cbn. rewrite filter_filter.
      rewrite (filter_ext _ (fun e => P (pc e) && negb (inD (e_cons e)))) by (intros; apply andb_comm).
      rewrite <- filter_filter.
      rewrite <- (filter_map pc P), <- (filter_map pc P). unfold kept in A1. rewrite A1. reflexivity.
    - cbn. intros e He. apply filter_In in He. apply A5, He.
    - apply Inv_restrict, A6.
    - apply Inv_restrict, A7.
  Qed.
  Lemma Rel_restrict_in n m (P : entry -> bool) : Rel n m ->
    (forall e, In e (n_map n) -> P e = false -> inD (e_cons e) = true) ->
    Rel (restrict P n) m.
  Proof.
    intros [A1 A2 A3 A4 A5 A6 A7] HP. constructor; try assumption.
    - unfold kept. cbn. rewrite filter_filter.
      rewrite <- A1. unfold kept. f_equal. apply filter_ext_in. intros e He.
      destruct (P e) eqn:E; [rewrite andb_true_r; reflexivity|]. rewrite (HP e He E). reflexivity.
    - cbn. intros e He. apply filter_In in He. apply A5, He.
    - apply Inv_restrict, A6.
  Qed.

  Lemma disconnect_quiet fuel c n m n' : inD c = true -> Rel n m ->
    disconnect_and_flush filt fuel c n = Ok n' -> Rel n' m.
  Proof.
    intros Hc HR H. unfold disconnect_and_flush in H. cbv zeta in H.
    rewrite (disconnect_core n c (rel_i1 _ _ HR)) in H.
    apply flush_one_quiet with (m := m) in H; [apply H|apply flush_sig_quiet|exact Hc|].
    apply Rel_restrict_in; [exact HR|]. intros e He Hf.
    destruct (Nat.eqb_spec (e_cons e) c) as [->|]; [exact Hc|discriminate].
  Qed.
  Lemma disconnect_sim fuel c n m n' : inD c = false -> Rel n m ->
    disconnect_and_flush filt fuel c n = Ok n' ->
    exists m', disconnect_and_flush filt fuel c m = Ok m' /\ Rel n' m'.
  Proof.
    intros Hc HR H. unfold disconnect_and_flush in *. cbv zeta in H |- *.
    rewrite (disconnect_core n c (rel_i1 _ _ HR)) in H.
    rewrite (disconnect_core m c (rel_i2 _ _ HR)).
    pose proof (Rel_restrict n m (fun q => negb (snd q =? c)) HR) as HR1.
    destruct (flush_one_sim _ _ _ _ _ (flush_sig_sim fuel) Hc HR1 H) as (m' & A & B & _).
    exists m'. split; assumption.
  Qed.

  Definition finish (o : nat) n : net X St :=
    {| n_next := n_next n;
       n_sample := map mk (filter (fun e => negb (e_prod e =? o)) (n_map n));
       n_flush := map mk (filter (fun e => negb (e_prod e =? o)) (n_map n));
       n_disc := map mk (filter (fun e => negb (e_prod e =? o)) (n_map n));
       n_map := filter (fun e => negb (e_prod e =? o)) (n_map n);
       n_st := n_st n; n_dead := o :: n_dead n; n_log := n_log n |}.

  Lemma finish_inv o n : Inv n -> (forall e, In e (n_map n) -> e_cons e <> o) -> Inv (finish o n).
  Proof.
    intros I Hc. destruct (Inv_restrict (fun e => negb (e_prod e =? o)) n I) as [A1 A2 A3 A4 A5 A6 A7].
    constructor; try assumption.
    intros e He. destruct (A6 e He) as [L1 L2]. cbn [n_map finish] in He. apply filter_In in He.
    destruct He as [He Hp]. specialize (Hc e He). unfold dead in *. cbn [n_dead finish existsb] in *.
    cbn [n_dead restrict] in L1, L2. rewrite L1, L2.
    destruct (e_prod e =? o); [discriminate|]. destruct (Nat.eqb_spec (e_cons e) o); [contradiction|].
    split; reflexivity.
  Qed.

  Lemma disconnect_gone fuel c n n' : Inv n ->
    disconnect_and_flush filt fuel c n = Ok n' -> Inv n' /\ forall e, In e (n_map n') -> e_cons e <> c.
  Proof.
    intros I H. unfold disconnect_and_flush in H. cbv zeta in H.
    rewrite (disconnect_core n c I) in H.
    assert (I2 : Inv (restrict (fun e => negb (e_cons e =? c)) n)) by (apply Inv_restrict, I).
    destruct (flush_one_spec filt _ _ _ _ (flush_sig_spec filt fuel) I2 H) as (D & F & _).
    pose proof (em_same _ _ _ (fl_em _ _ _ F)) as S1. split; [eapply Inv_same; eassumption|].
    intros e He. rewrite (same_map _ _ S1) in He. cbn in He. apply filter_In in He.
    destruct He as [_ He]. destruct (Nat.eqb_spec (e_cons e) c); [discriminate|assumption].
  Qed.

  Lemma Rel_finish_in o n m : inD o = true -> Rel n m ->
    (forall e, In e (n_map n) -> e_cons e <> o) -> Rel (finish o n) m.
  Proof.
    intros Ho HR Hg.
    assert (HR1 : Rel (restrict (fun e => negb (e_prod e =? o)) n) m).
    { apply Rel_restrict_in; [exact HR|]. intros e He Hf.
      destruct (Nat.eqb_spec (e_prod e) o) as [E|]; [|discriminate].
      apply (rel_cl _ _ HR e He). rewrite E. exact Ho. }
    destruct HR1 as [A1 A2 A3 A4 A5 A6 A7]. constructor; try assumption.
    - intros i Hi. specialize (A3 i Hi). unfold dead in *. cbn [n_dead finish restrict existsb] in *.
      destruct (Nat.eqb_spec i o) as [->|]; [congruence|exact A3].
    - apply finish_inv; [apply (rel_i1 _ _ HR)|exact Hg].
  Qed.
  Lemma Rel_finish_out o n m : Rel n m ->
    (forall e, In e (n_map n) -> e_cons e <> o) ->
    (forall e, In e (n_map m) -> e_cons e <> o) -> Rel (finish o n) (finish o m).
  Proof.
    intros HR Hg1 Hg2.
    pose proof (Rel_restrict n m (fun q => negb (fst q =? o)) HR) as HR1.
    destruct HR1 as [A1 A2 A3 A4 A5 A6 A7]. constructor; try assumption.
    - intros i Hi. specialize (A3 i Hi). unfold dead in *. cbn [n_dead finish restrict existsb] in *.
      destruct (i =? o); [reflexivity|exact A3].
    - apply finish_inv; [apply (rel_i1 _ _ HR)|exact Hg1].
    - apply finish_inv; [apply (rel_i2 _ _ HR)|exact Hg2].
  Qed.

  Lemma destroy_ok b fuel o n n' : Inv n -> destroy filt FindFirst b fuel o n = Ok n' ->
    exists n1, dead n o = false /\ disconnect_and_flush filt fuel o n = Ok n1 /\ n' = finish o n1.
  Proof.
    intros I H. destruct (dead n o) eqn:Hd; [unfold destroy in H; rewrite Hd in H; discriminate|].
    destruct (disconnect_and_flush filt fuel o n) as [n1| | |] eqn:E;
      try (unfold destroy in H; rewrite Hd, E in H; discriminate).
    rewrite (destroy_closed filt b fuel o n n1 I Hd E) in H. injection H as <-.
    exists n1. auto.
  Qed.

  Lemma Inv_connect p c n n' : Inv n -> connect p c n = Ok n' -> Inv n'.
  Proof.
    intros [I1 I2 I3 I4 I5 I6 I7] H. unfold connect in H.
    destruct (dead n p || dead n c) eqn:Hd; [discriminate|]. injection H as <-.
    apply orb_false_iff in Hd. destruct Hd as [Hd1 Hd2].
    assert (Hin : forall e, In e (n_map n ++ [{| e_cons := c; e_prod := p; e_sample := n_next n;
         e_flush := n_next n; e_disc := n_next n |}]) -> In e (n_map n) \/
         e = {| e_cons := c; e_prod := p; e_sample := n_next n;
         e_flush := n_next n; e_disc := n_next n |}).
    { intros e He. apply in_app_or in He. destruct He as [He|[<-|[]]]; auto. }
    constructor; cbn [n_map n_sample n_flush n_disc n_next n_log n_st n_dead].
    - rewrite I1, map_app. reflexivity.
    - rewrite I2, map_app. reflexivity.
    - rewrite I3, map_app. reflexivity.
    - intros e He. apply Hin in He. destruct He as [He| ->]; [apply I4, He|split; reflexivity].
    - intros e He. apply Hin in He. destruct He as [He| ->]; [apply I5 in He; lia|cbn; lia].
    - intros e He. apply Hin in He. destruct He as [He| ->]; [apply I6, He|split; assumption].
    - rewrite map_app. cbn [map].
      apply (NoDup_Add (a := n_next n) (l := map e_sample (n_map n))).
      + pose proof (Add_app (n_next n) (map e_sample (n_map n)) []) as Ha.
        rewrite app_nil_r in Ha. exact Ha.
      + split; [exact I7|]. intros Hc. apply in_map_iff in Hc.
        destruct Hc as (e & E & He). apply I5 in He. lia.
  Qed.

  Lemma step_in b fuel o n m n' : touches o = true ->
    (forall p c, o = OConnect p c -> inD p = true -> inD c = true) ->
    Rel n m -> step filt FindFirst b fuel o n = Ok n' -> Rel n' m.
  Proof.
    intros Ht Hcl HR H. unfold step in H. cbv zeta in H.
    pose proof (Rel_log_in n m (EOp o) Ht HR) as HR1.
    set (n1 := log (EOp o) n) in *.
    destruct o as [p c|p x|p|c|i]; cbn [mentions] in Ht.
    - assert (Hc : inD c = true).
      { destruct (inD p) eqn:Hp; [apply (Hcl p c eq_refl Hp)|exact Ht]. }
      pose proof (Inv_connect p c n1 n' (rel_i1 _ _ HR1) H) as I'.
      unfold connect in H. destruct (dead n1 p || dead n1 c); [discriminate|]. injection H as <-.
      destruct HR1 as [A1 A2 A3 A4 A5 A6 A7]. constructor; try assumption.
      + unfold kept. cbn [n_map]. rewrite filter_app. cbn. rewrite Hc. cbn. rewrite app_nil_r. exact A1.
      + cbn [n_map]. intros e He. apply in_app_or in He. destruct He as [He|[<-|[]]]; [apply A5, He|].
        intros _. exact Hc.
    - destruct (dead n1 p); [discriminate|]. apply (issue_quiet fuel _ _ _ _ _ Ht HR1 H).
    - destruct (dead n1 p); [discriminate|]. apply (flush_sig_quiet fuel _ _ _ _ Ht HR1 H).
    - destruct (dead n1 c); [discriminate|]. apply (disconnect_quiet fuel c _ _ _ Ht HR1 H).
    - apply destroy_ok in H; [|apply (rel_i1 _ _ HR1)]. destruct H as (n2 & Hd & E & ->).
      apply Rel_finish_in; [exact Ht|apply (disconnect_quiet fuel i n1 m n2 Ht HR1 E)|].
      apply (disconnect_gone fuel i n1 n2 (rel_i1 _ _ HR1) E).
  Qed.

  Lemma step_out b fuel o n m n' : touches o = false ->
    Rel n m -> step filt FindFirst b fuel o n = Ok n' ->
    exists m', step filt FindFirst b fuel o m = Ok m' /\ Rel n' m'.
  Proof.
    intros Ht HR H. unfold step in *. cbv zeta in H |- *.
    assert (HR1 : Rel (log (EOp o) n) (log (EOp o) m))
      by (apply Rel_log_out; [exact Ht|reflexivity|exact HR]).
    set (n1 := log (EOp o) n) in *. set (m1 := log (EOp o) m) in *.
    destruct o as [p c|p x|p|c|i]; cbn [mentions] in Ht.
    - apply orb_false_iff in Ht. destruct Ht as [Hp Hc].
      pose proof (Inv_connect p c n1 n' (rel_i1 _ _ HR1) H) as I'.
      destruct (connect p c m1) as [m'| | |] eqn:E.
      2-4: unfold connect in H, E; rewrite (rel_dead _ _ HR1 p Hp), (rel_dead _ _ HR1 c Hc) in H;
           destruct (dead m1 p || dead m1 c); discriminate.
      exists m'. split; [reflexivity|].
      pose proof (Inv_connect p c m1 m' (rel_i2 _ _ HR1) E) as I2'.
      unfold connect in H, E.
      destruct (dead n1 p || dead n1 c); [discriminate|]. injection H as <-.
      destruct (dead m1 p || dead m1 c); [discriminate|]. injection E as <-.
      destruct HR1 as [A1 A2 A3 A4 A5 A6 A7]. constructor; try assumption.
      + unfold kept in *. cbn [n_map]. rewrite filter_app. cbn [filter e_cons]. rewrite Hc. cbn [negb]. rewrite !map_app. change (n_map n) with (n_map n1). change (n_map m) with (n_map m1). rewrite A1. reflexivity.
      + cbn [n_map]. intros e He. apply in_app_or in He. destruct He as [He|[<-|[]]]; [apply A5, He|].
        cbn. congruence.
    - rewrite <- (rel_dead _ _ HR1 p Ht). destruct (dead n1 p); [discriminate|].
      destruct (issue_sim fuel _ _ _ _ _ Ht HR1 H) as (m' & A & B & _). exists m'. auto.
    - rewrite <- (rel_dead _ _ HR1 p Ht). destruct (dead n1 p); [discriminate|].
      destruct (flush_sig_sim fuel _ _ _ _ Ht HR1 H) as (m' & A & B & _). exists m'. auto.
    - rewrite <- (rel_dead _ _ HR1 c Ht). destruct (dead n1 c); [discriminate|].
      apply (disconnect_sim fuel c _ _ _ Ht HR1 H).
    - apply destroy_ok in H; [|apply (rel_i1 _ _ HR1)]. destruct H as (n2 & Hd & E & ->).
      destruct (disconnect_sim fuel i _ _ _ Ht HR1 E) as (m2 & E2 & HR2).
      exists (finish i m2). split.
      + apply destroy_closed; [apply (rel_i2 _ _ HR1)|rewrite <- (rel_dead _ _ HR1 i Ht); exact Hd|exact E2].
      + apply Rel_finish_out; [exact HR2| |].
        * apply (disconnect_gone fuel i n1 n2 (rel_i1 _ _ HR1) E).
        * apply (disconnect_gone fuel i m1 m2 (rel_i2 _ _ HR1) E2).
  Qed.

  Lemma exec_iso b fuel ops : forall n m n',
    (forall p c, In (OConnect p c) ops -> inD p = true -> inD c = true) ->
    Rel n m -> exec filt FindFirst b fuel ops n = Ok n' ->
    exists m', exec filt FindFirst b fuel (filter (fun o => negb (touches o)) ops) m = Ok m' /\ Rel n' m'.
  Proof.
    induction ops as [|o ops IH]; intros n m n' Hcl HR H.
    - cbn in H. injection H as <-. exists m. split; [reflexivity|exact HR].
    - cbn [exec] in H.
      destruct (step filt FindFirst b fuel o n) as [n1| | |] eqn:E; cbn [bind] in H; try discriminate.
      assert (Hcl' : forall p c, In (OConnect p c) ops -> inD p = true -> inD c = true)
        by (intros p c Hin; apply Hcl; right; exact Hin).
      cbn [filter]. destruct (touches o) eqn:Ht; cbn [negb].
      + assert (HR1 : Rel n1 m).
        { eapply step_in; [exact Ht| |exact HR|exact E]. intros p c ->. apply Hcl. left; reflexivity. }
        apply (IH n1 m n' Hcl' HR1 H).
      + destruct (step_out b fuel o n m n1 Ht HR E) as (m1 & E1 & HR1).
        destruct (IH n1 m1 n' Hcl' HR1 H) as (m' & E' & HR').
        exists m'. cbn [exec]. rewrite E1. cbn [bind]. split; assumption.
  Qed.

  Lemma Rel_init s0 : Rel (init s0) (init s0).
  Proof.
    constructor; try reflexivity; try apply Inv_init. intros e [].
  Qed.

  Lemma view_consumed tr c : inD c = false -> consumed c (view tr) = consumed c tr.
  Proof.
    intros Hc. induction tr as [|e tr IH]; [reflexivity|].
    change (e :: tr) with ([e] ++ tr). rewrite view_app, !consumed_app, IH. f_equal.
    unfold view. cbn. destruct (ev_in e) eqn:E; cbn.
    - destruct e as [o|p x|k c' x|c']; try reflexivity. cbn in E |- *.
      destruct (Nat.eqb_spec c' c) as [->|]; [congruence|reflexivity].
    - destruct e; reflexivity.
  Qed.
  Lemma strip_consumed tr c : consumed c (map strip tr) = consumed c tr.
  Proof.
    induction tr as [|e tr IH]; [reflexivity|]. cbn [map].
    change (e :: tr) with ([e] ++ tr). change (strip e :: map strip tr) with ([strip e] ++ map strip tr).
    rewrite !consumed_app, IH. destruct e; reflexivity.
  Qed.

  Lemma isolation b fuel ops s0 n :
    (forall p c, In (OConnect p c) ops -> inD p = true -> inD c = true) ->
    exec filt FindFirst b fuel ops (init s0) = Ok n ->
    exists m, exec filt FindFirst b fuel (filter (fun o => negb (touches o)) ops) (init s0) = Ok m /\
              forall c, inD c = false -> consumed c (n_log n) = consumed c (n_log m).
  Proof.
    intros Hcl H. destruct (exec_iso b fuel ops _ _ n Hcl (Rel_init s0) H) as (m & E & HR).
    exists m. split; [exact E|]. intros c Hc.
    rewrite <- (view_consumed _ c Hc), (rel_log _ _ HR), strip_consumed. reflexivity.
  Qed.
End Iso.
