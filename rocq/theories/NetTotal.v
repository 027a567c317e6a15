(** No history that respects object lifetimes runs into undefined behaviour or
    a failing assertion. *)
From Coq Require Import ZifyBool ZifyNat.
From Verif Require Import Prelude NetModel NetSpec NetProofs NetEmit NetHist.

Section Total.
  Context {X St : Type}.
  Variable filt : nat -> option (St -> X -> outcome (St * option X)).
  Variable rank : nat -> nat.
  Variable s0 : nat -> St.
  Implicit Types (n m : net X St).

  Lemma not_dead n i : ~ In i (n_dead n) -> dead n i = false.
  Proof.
    intros H. destruct (dead n i) eqn:E; [|reflexivity].
    exfalso. apply H. apply dead_spec, E.
  Qed.

  Lemma disconnect_total fuel c n : Inv n -> Rk rank n -> (forall i, rank i < fuel) ->
    exists n', disconnect_and_flush filt fuel c n = Ok n'.
  Proof.
    intros I R Hb. unfold disconnect_and_flush. cbv zeta. rewrite (disconnect_core n c I).
    assert (I2 : Inv (restrict (fun e => negb (e_cons e =? c)) n)) by (apply Inv_restrict, I).
    apply flush_one_total; [exact I2|].
    intros n' I' Hm. apply (flush_sig_total filt rank fuel fuel n' c I').
    - intros e He. rewrite Hm in He. cbn in He. apply filter_In in He. apply R, He.
    - exact Hb.
    - lia.
  Qed.

  Lemma exec_total b fuel ops : forall done n d,
    J filt rank s0 done n ->
    (forall i, In i d <-> In i (n_dead n)) ->
    well_formed d ops -> ranked rank ops -> (forall i, rank i < fuel) ->
    filters_total filt ->
    exists n', exec filt FindFirst b fuel ops n = Ok n'.
  Proof.
    induction ops as [|o ops IH]; intros done n d HJ Hd Hw Hr Hb Hf; [eexists; reflexivity|].
    cbn [exec].
    assert (Hr' : ranked rank ops) by (intros p c Hin; apply Hr; right; exact Hin).
    assert (Hro : forall p c, o = OConnect p c -> rank p < rank c).
    { intros p c ->. apply Hr. left; reflexivity. }
    set (n1 := log (EOp o) n).
    assert (I1 : Inv n1) by (eapply Inv_same; [apply same_log|apply (j_inv _ _ _ _ _ HJ)]).
    assert (R1 : Rk rank n1) by (eapply Rk_same; [apply same_log|apply (j_rk _ _ _ _ _ HJ)]).
    assert (Hnd : forall i, ~ In i d -> dead n1 i = false).
    { intros i Hi. apply not_dead. cbn. rewrite <- Hd. exact Hi. }
    assert (Hstep : exists n', step filt FindFirst b fuel o n = Ok n').
    { unfold step. fold n1. destruct o as [p c|p x|p|c|i]; cbn [well_formed] in Hw; cbv zeta.
      - unfold connect. rewrite !Hnd by tauto. eexists; reflexivity.
      - rewrite Hnd by tauto. apply (issue_total filt rank fuel fuel n1 p x Hf I1 R1 Hb). lia.
      - rewrite Hnd by tauto. apply (flush_sig_total filt rank fuel fuel n1 p I1 R1 Hb). lia.
      - rewrite Hnd by tauto. apply disconnect_total; assumption.
      - destruct (disconnect_total fuel i n1 I1 R1 Hb) as [n2 H2].
        assert (Hdi : dead n1 i = false) by (apply Hnd; tauto).
        rewrite (destroy_closed filt b fuel i n1 n2 I1 Hdi H2). eexists; reflexivity. }
    destruct Hstep as [n2 H2]. rewrite H2. cbn [bind].
    assert (HJ2 : J filt rank s0 (done ++ [o]) n2) by (eapply J_any; eassumption).
    apply (IH (done ++ [o]) n2 (match o with ODestroy i => i :: d | _ => d end)); try assumption.
    - intros i. rewrite (j_dead _ _ _ _ _ HJ2 i), destroyed_app, in_app_iff.
      rewrite <- (j_dead _ _ _ _ _ HJ i), <- Hd. destruct o; cbn; tauto.
    - destruct o; cbn [well_formed] in Hw; tauto.
  Qed.

  Lemma no_dangling ops n : J filt rank s0 ops n ->
    forall i, In i (destroyed ops) ->
      (forall e, In e (n_map n) -> e_prod e <> i /\ e_cons e <> i) /\
      (forall s, In s (n_sample n ++ n_flush n ++ n_disc n) -> s_prod s <> i /\ s_cons s <> i).
  Proof.
    intros HJ i Hi. pose proof (j_inv _ _ _ _ _ HJ) as I.
    assert (H : forall e, In e (n_map n) -> e_prod e <> i /\ e_cons e <> i).
    { intros e He. destruct (inv_live n I e He) as [L1 L2].
      apply (j_dead _ _ _ _ _ HJ) in Hi. apply dead_spec in Hi.
      split; intros E; rewrite E in *; congruence. }
    split; [exact H|]. intros s Hs.
    rewrite (inv_sample n I), (inv_flush n I), (inv_disc n I), !in_app_iff in Hs.
    assert (Hs' : In s (map mk (n_map n))) by tauto.
    apply in_map_iff in Hs'. destruct Hs' as (e & <- & He). apply H, He.
  Qed.
End Total.
