(** Final forms of the network theorems. *)
From Verif Require Import Prelude NetModel NetSpec NetProofs NetEmit NetHist NetTotal NetIso NetPipe.

Section Top.
  Context {X St : Type}.
  Variable filt : nat -> option (St -> X -> outcome (St * option X)).
  Variable rank : nat -> nat.
  Variable s0 : nat -> St.
  Implicit Types (n m : net X St).

  Lemma top_J b fuel ops n : ranked rank ops ->
    exec filt FindFirst b fuel ops (init s0) = Ok n -> J filt rank s0 ops n.
  Proof. intros Hr H. apply (J_exec filt rank s0 b fuel ops [] _ n (J_init filt rank s0) Hr H). Qed.

  Lemma top_delivery b fuel ops n : ranked rank ops ->
    exec filt FindFirst b fuel ops (init s0) = Ok n ->
    (forall k, received k (n_log n) = expected k (n_log n)) /\
    (forall k c x, In (ERecv k c x) (n_log n) -> exists p, endpoints k ops = Some (p, c)) /\
    (forall p, filt p = None -> issued p (n_log n) = sourced p ops).
  Proof.
    intros Hr H. pose proof (top_J b fuel ops n Hr H) as HJ.
    split; [apply (j_recv _ _ _ _ _ HJ)|]. split; [apply (j_dst _ _ _ _ _ HJ)|apply (j_source _ _ _ _ _ HJ)].
  Qed.

  Lemma top_filter b fuel ops n c f : ranked rank ops ->
    exec filt FindFirst b fuel ops (init s0) = Ok n ->
    filt c = Some f -> sourced c ops = [] ->
    exists s, filter_stream f (s0 c) (consumed c (n_log n)) = Ok (s, issued c (n_log n)).
  Proof.
    intros Hr H Hf Hs. pose proof (top_J b fuel ops n Hr H) as HJ.
    exists (n_st n c). apply (j_filter _ _ _ _ _ HJ c f Hf Hs).
  Qed.

  Lemma top_total b fuel ops :
    well_formed [] ops -> ranked rank ops -> (forall i, rank i < fuel) ->
    (forall c f, filt c = Some f -> forall s x, exists r, f s x = Ok r) ->
    exists n, exec filt FindFirst b fuel ops (init s0) = Ok n /\
      map (fun e => (e_prod e, e_cons e)) (n_map n) = connections ops [] /\
      forall i, In i (destroyed ops) ->
        (forall e, In e (n_map n) -> e_prod e <> i /\ e_cons e <> i) /\
        (forall s, In s (n_sample n ++ n_flush n ++ n_disc n) -> s_prod s <> i /\ s_cons s <> i).
  Proof.
    intros Hw Hr Hb Hf.
    destruct (exec_total filt rank s0 b fuel ops [] (init s0) []) as (n & E); try assumption.
    - apply J_init.
    - reflexivity.
    - pose proof (top_J b fuel ops n Hr E) as HJ.
      exists n. split; [exact E|]. split; [apply (j_ends _ _ _ _ _ HJ)|].
      apply (no_dangling filt rank s0 ops n HJ).
  Qed.

  Lemma conn_rel_connections ops n p c : J filt rank s0 ops n ->
    (conn_rel n p c <-> In (p, c) (connections ops [])).
  Proof.
    intros HJ. rewrite <- (j_ends _ _ _ _ _ HJ). unfold conn_rel, ends. rewrite in_map_iff.
    split.
    - intros (e & He & E1 & E2). exists e. split; [congruence|exact He].
    - intros (e & E & He). injection E as E1 E2. exists e. auto.
  Qed.

  Lemma reaches_iff (R1 R2 : nat -> nat -> Prop) : (forall p c, R1 p c <-> R2 p c) ->
    forall p c, reaches filt R1 p c -> reaches filt R2 p c.
  Proof.
    intros H p c. induction 1 as [p c E|p f c E1 E2 E3 IH]; [apply reach_one, H, E|].
    eapply reach_step; [apply H, E1|exact E2|exact IH].
  Qed.

  Lemma top_flush b fuel ops p n : ranked rank ops ->
    exec filt FindFirst b fuel (ops ++ [OFlush p]) (init s0) = Ok n ->
    exists n0 D, exec filt FindFirst b fuel ops (init s0) = Ok n0 /\
      n_log n = n_log n0 ++ EOp (OFlush p) :: D /\
      (forall e, In e D -> exists c, e = EFlush c) /\
      (forall c, In (EFlush c) D <-> reaches filt (fun p c => In (p, c) (connections ops [])) p c).
  Proof.
    intros Hr H. destruct (exec_app _ _ _ _ _ _ _ _ H) as (n0 & E0 & E1).
    exists n0. pose proof (top_J b fuel ops n0 Hr E0) as HJ.
    cbn [exec] in E1. destruct (step filt FindFirst b fuel (OFlush p) n0) as [n1| | |] eqn:E; try discriminate.
    cbn [bind] in E1. injection E1 as ->. unfold step in E. cbv zeta in E.
    destruct (dead _ p); [discriminate|].
    assert (I1 : Inv (log (EOp (OFlush p)) n0)) by (eapply Inv_same; [apply same_log|apply (j_inv _ _ _ _ _ HJ)]).
    destruct (flush_sig_spec filt fuel _ p n I1 E) as (D & F & Hc).
    exists D. split; [exact E0|]. split; [|split].
    - rewrite (em_log _ _ _ (fl_em _ _ _ F)). cbn. rewrite <- app_assoc. reflexivity.
    - intros e He. pose proof (fl_only _ _ _ F e He) as Hq. destruct e; try discriminate. eexists; reflexivity.
    - intros c. rewrite Hc. split; apply reaches_iff; intros q d.
      + apply (conn_rel_connections ops n0 q d HJ).
      + symmetry. apply (conn_rel_connections ops n0 q d HJ).
  Qed.
End Top.
