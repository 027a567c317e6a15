(** A pipeline of filters computes the composition of their stream functions. *)
From Verif Require Import Prelude NetModel NetSpec NetProofs NetEmit NetHist NetIso.

Section Pipe.
  Context {X St : Type}.
  Variable filt : nat -> option (St -> X -> outcome (St * option X)).
  Variable rank : nat -> nat.
  Variable s0 : nat -> St.
  Implicit Types (n m : net X St).

  Lemma exec_app pol b fuel (o1 o2 : list (op X)) : forall n n',
    exec filt pol b fuel (o1 ++ o2) n = Ok n' ->
    exists n1, exec filt pol b fuel o1 n = Ok n1 /\ exec filt pol b fuel o2 n1 = Ok n'.
  Proof.
    induction o1 as [|o o1 IH]; intros n n' H; [exists n; split; [reflexivity|exact H]|].
    cbn [app exec] in *.
    destruct (step filt pol b fuel o n) as [n1| | |]; cbn [bind] in *; try discriminate.
    apply IH, H.
  Qed.

  Lemma exec_wiring pol b fuel ops : Forall wiring ops -> forall n n',
    exec filt pol b fuel ops n = Ok n' -> n_log n' = n_log n ++ map EOp ops.
  Proof.
    induction 1 as [|o ops (p & c & ->) Hf IH]; intros n n' H; cbn [exec] in H.
    - injection H as <-. rewrite app_nil_r. reflexivity.
    - destruct (step filt pol b fuel (OConnect p c) n) as [n1| | |] eqn:E; cbn [bind] in H; try discriminate.
      rewrite (IH _ _ H). unfold step, connect in E. cbv zeta in E.
      destruct (dead _ _ || dead _ _); [discriminate|]. injection E as <-. cbn.
      rewrite <- app_assoc. reflexivity.
  Qed.

  Lemma exec_running_log b fuel r : Forall running r -> forall done n n',
    J filt rank s0 done n -> exec filt FindFirst b fuel r n = Ok n' ->
    exists D, n_log n' = n_log n ++ D.
  Proof.
    induction 1 as [|o r Ho Hr IH]; intros done n n' HJ H; cbn [exec] in H.
    - injection H as <-. exists []. rewrite app_nil_r. reflexivity.
    - destruct (step filt FindFirst b fuel o n) as [n1| | |] eqn:E; cbn [bind] in H; try discriminate.
      assert (HJ1 : J filt rank s0 (done ++ [o]) n1).
      { destruct Ho as [(p & x & ->)|(p & ->)]; [eapply J_issue|eapply J_flush]; eassumption. }
      destruct (IH _ _ _ HJ1 H) as (D2 & E2).
      assert (E1 : exists D, n_log n1 = n_log n ++ D).
      { unfold step in E. cbv zeta in E.
        assert (I1 : Inv (log (EOp o) n)) by (eapply Inv_same; [apply same_log|apply (j_inv _ _ _ _ _ HJ)]).
        assert (R1 : Rk rank (log (EOp o) n)) by (eapply Rk_same; [apply same_log|apply (j_rk _ _ _ _ _ HJ)]).
        destruct Ho as [(p & x & ->)|(p & ->)]; destruct (dead _ p); try discriminate.
        - destruct (issue_spec filt rank fuel _ p x n1 I1 R1 E) as (D & [A1 _ _ _ _ _ _]).
          exists ([EOp (OIssue p x)] ++ D). rewrite (em_log _ _ _ A1). cbn. rewrite <- app_assoc. reflexivity.
        - destruct (flush_sig_spec filt fuel _ p n1 I1 E) as (D & F & _).
          exists ([EOp (OFlush p)] ++ D). rewrite (em_log _ _ _ (fl_em _ _ _ F)). cbn.
          rewrite <- app_assoc. reflexivity. }
      destruct E1 as (D1 & E1). exists (D1 ++ D2). rewrite E2, E1, app_assoc. reflexivity.
  Qed.

  Definition quiet_ops (tr : list (event X)) : Prop := forall o, In (EOp o) tr -> running o.

  Lemma until_severed_all p c tr : quiet_ops tr -> until_severed p c tr = issued p tr.
  Proof.
    induction tr as [|e tr IH]; intros H; [reflexivity|].
    assert (H' : quiet_ops tr) by (intros o Ho; apply H; right; exact Ho).
    specialize (IH H'). change (e :: tr) with ([e] ++ tr). unfold issued. rewrite flat_map_app.
    fold (issued p tr). rewrite <- IH.
    destruct e as [o|p' x|k' c' x|c']; try reflexivity.
    - destruct (H o (or_introl eq_refl)) as [(q & x & ->)|(q & ->)]; reflexivity.
    - cbn. destruct (p' =? p); reflexivity.
  Qed.

  Lemma until_severed_wiring p c w tr : Forall (@wiring X) w ->
    until_severed p c (map EOp w ++ tr) = until_severed p c tr.
  Proof. induction 1 as [|o w (q & d & ->) Hw IH]; [reflexivity|exact IH]. Qed.

  Lemma expected_wiring w tr : Forall (@wiring X) w -> quiet_ops tr ->
    forall k p c, endpoints k w = Some (p, c) -> expected k (map EOp w ++ tr) = issued p tr.
  Proof.
    intros Hw Ht. induction Hw as [|o w (q & d & ->) Hw IH]; intros k p c H; [discriminate|].
    cbn in H |- *. destruct k as [|k].
    - injection H as -> ->. rewrite until_severed_wiring by exact Hw. apply until_severed_all, Ht.
    - apply (IH k p c H).
  Qed.

  Lemma inputs_app c (o1 o2 : list (op X)) : inputs c (o1 ++ o2) = inputs c o1 ++ inputs c o2.
  Proof. apply flat_map_app. Qed.
  Lemma inputs_running c r : Forall (@running X) r -> inputs c r = [].
  Proof. induction 1 as [|o r [(p & x & ->)|(p & ->)] Hr IH]; [reflexivity|exact IH..]. Qed.
  Lemma endpoints_running w r : Forall (@running X) r -> forall k, endpoints k (w ++ r) = endpoints k w.
  Proof.
    intros Hr. assert (E : forall k, endpoints k r = None).
    { induction Hr as [|o r [(p & x & ->)|(p & ->)] Hr IH]; intros k; [reflexivity|apply IH..]. }
    induction w as [|o w IH]; intros k; [apply E|]. cbn.
    destruct o; try apply IH. destruct k; [reflexivity|apply IH].
  Qed.

  Lemma endpoints_input w c : forall k p, endpoints k w = Some (p, c) -> In p (inputs (X := X) c w).
  Proof.
    induction w as [|o w IH]; intros k p H; [discriminate|]. cbn in H.
    change (o :: w) with ([o] ++ w). rewrite inputs_app. apply in_or_app.
    destruct o as [q d| | | |]; try (right; eapply IH; exact H).
    destruct k as [|k]; [|right; eapply IH; exact H].
    injection H as -> ->. left. cbn. rewrite Nat.eqb_refl. left; reflexivity.
  Qed.
  Lemma one_input w : forall c p, inputs (X := X) c w = [p] ->
    exists k, endpoints k w = Some (p, c) /\
              forall k' p', endpoints k' w = Some (p', c) -> k' = k.
  Proof.
    induction w as [|o w IH]; intros c p H; [discriminate|].
    change (o :: w) with ([o] ++ w) in H. rewrite inputs_app in H.
    destruct o as [q d| | | |]; try (cbn [app inputs flat_map] in H; apply IH in H; exact H).
    cbn in H. destruct (Nat.eqb_spec d c) as [->|Hn].
    - cbn in H. injection H as -> H. exists 0. split; [reflexivity|].
      intros [|k'] p' Hk; [reflexivity|]. cbn in Hk. apply endpoints_input in Hk. 
      change (inputs c w = []) in H. rewrite H in Hk. destruct Hk.
    - destruct (IH c p H) as (k & Hk & Hu). exists (S k). split; [exact Hk|].
      intros [|k'] p' Hk'; cbn in Hk'; [congruence|]. f_equal. eapply Hu. exact Hk'.
  Qed.

  (** What an object with a single input consumes is what that input issues. *)
  Lemma consumed_received (tr : list (event X)) c k :
    (forall k' c' x, In (ERecv k' c' x) tr -> (k' = k <-> c' = c)) ->
    consumed c tr = received k tr.
  Proof.
    induction tr as [|e tr IH]; intros H; [reflexivity|].
    change (e :: tr) with ([e] ++ tr). unfold consumed, received. rewrite !flat_map_app.
    fold (consumed c tr). fold (received k tr). rewrite IH by (intros; apply H with x; right; assumption).
    f_equal. destruct e as [o|p x|k' c' x|c']; try reflexivity. cbn.
    specialize (H k' c' x (or_introl eq_refl)).
    destruct (Nat.eqb_spec c' c), (Nat.eqb_spec k' k); try reflexivity; exfalso; tauto.
  Qed.

  Lemma link b fuel w r n p c : Forall wiring w -> Forall running r -> ranked rank w ->
    exec filt FindFirst b fuel (w ++ r) (init s0) = Ok n ->
    inputs c (w ++ r) = [p] ->
    consumed c (n_log n) = issued p (n_log n).
  Proof.
    intros Hw Hr Hk H Hin.
    assert (Hrk : ranked rank (w ++ r)).
    { intros q d Hq. apply in_app_or in Hq. destruct Hq as [Hq|Hq]; [apply Hk, Hq|].
      rewrite Forall_forall in Hr. destruct (Hr _ Hq) as [(? & ? & Q)|(? & Q)]; discriminate. }
    pose proof (J_exec filt rank s0 b fuel (w ++ r) [] _ n (J_init filt rank s0) Hrk H) as HJ.
    cbn [app] in HJ. pose proof (j_ops _ _ _ _ _ HJ) as Ho.
    destruct (exec_app _ _ _ _ _ _ _ H) as (n1 & H1 & H2).
    pose proof (exec_wiring _ _ _ _ Hw _ _ H1) as L1. cbn in L1.
    assert (Hext : exists D, n_log n = n_log n1 ++ D).
    { pose proof (J_exec filt rank s0 b fuel w [] _ n1 (J_init filt rank s0) Hk H1) as HJ1.
      eapply exec_running_log; [exact Hr|exact HJ1|exact H2]. }
    destruct Hext as (D & HD). rewrite L1 in HD.
    rewrite inputs_app, (inputs_running _ _ Hr), app_nil_r in Hin.
    destruct (one_input w c p Hin) as (k & Hk1 & Hk2).
    assert (HQ : quiet_ops D).
    { intros o Hin'. rewrite HD in Ho.
      assert (E : ops_of D = r).
      { clear -Ho. revert Ho. induction w as [|o w IH]; cbn; intros Ho; [exact Ho|]. injection Ho. exact IH. }
      rewrite Forall_forall in Hr. apply Hr. rewrite <- E. clear -Hin'. induction D as [|e D IH]; [contradiction|]; destruct Hin' as [->|Hin']; [left; reflexivity|]; destruct e; cbn; try right; apply IH, Hin'. }
    rewrite (consumed_received _ c k).
    - rewrite (j_recv _ _ _ _ _ HJ k), HD.
      rewrite (expected_wiring w D Hw HQ k p c Hk1).
      unfold issued. rewrite flat_map_app. change (flat_map _ D) with (issued p D).
      replace (flat_map _ (map EOp w)) with (@nil X); [reflexivity|].
      clear. induction w as [|o w IH]; [reflexivity|exact IH].
    - intros k' c' x Hx. destruct (j_dst _ _ _ _ _ HJ _ _ _ Hx) as (p' & He).
      rewrite (endpoints_running w r Hr) in He. split.
      + intros ->. congruence.
      + intros ->. eapply Hk2. exact He.
  Qed.

  Lemma pipeline_through b fuel w r n : Forall wiring w -> Forall running r -> ranked rank w ->
    exec filt FindFirst b fuel (w ++ r) (init s0) = Ok n ->
    forall path p c,
    (forall f, In f path -> filt f <> None) ->
    is_pipeline (w ++ r) p path c ->
    through filt s0 path (issued p (n_log n)) = Ok (consumed c (n_log n)).
  Proof.
    intros Hw Hr Hk H.
    assert (Hrk : ranked rank (w ++ r)).
    { intros q d Hq. apply in_app_or in Hq. destruct Hq as [Hq|Hq]; [apply Hk, Hq|].
      rewrite Forall_forall in Hr. destruct (Hr _ Hq) as [(? & ? & Q)|(? & Q)]; discriminate. }
    pose proof (J_exec filt rank s0 b fuel (w ++ r) [] _ n (J_init filt rank s0) Hrk H) as HJ.
    cbn [app] in HJ.
    induction path as [|f path IH]; intros p c Hf Hp.
    - cbn. f_equal. symmetry. eapply link; eassumption.
    - destruct Hp as (Hi & Hs & Hp). cbn [through].
      destruct (filt f) as [g|] eqn:Eg; [|exfalso; apply (Hf f (or_introl eq_refl)); exact Eg].
      pose proof (link b fuel w r n p f Hw Hr Hk H Hi) as L. rewrite <- L.
      rewrite (j_filter _ _ _ _ _ HJ f g Eg Hs). cbn [bind].
      apply IH; [|exact Hp]. intros g' Hg'. apply Hf. right; exact Hg'.
  Qed.

  Lemma pipeline b fuel w r n path p c :
    Forall wiring w -> Forall running r -> ranked rank w ->
    exec filt FindFirst b fuel (w ++ r) (init s0) = Ok n ->
    filt p = None ->
    (forall f, In f path -> filt f <> None) ->
    is_pipeline (w ++ r) p path c ->
    through filt s0 path (sourced p (w ++ r)) = Ok (consumed c (n_log n)).
  Proof.
    intros Hw Hr Hk H Hp Hf Hpi.
    assert (Hrk : ranked rank (w ++ r)).
    { intros q d Hq. apply in_app_or in Hq. destruct Hq as [Hq|Hq]; [apply Hk, Hq|].
      rewrite Forall_forall in Hr. destruct (Hr _ Hq) as [(? & ? & Q)|(? & Q)]; discriminate. }
    pose proof (J_exec filt rank s0 b fuel (w ++ r) [] _ n (J_init filt rank s0) Hrk H) as HJ.
    cbn [app] in HJ. rewrite <- (j_source _ _ _ _ _ HJ p Hp).
    eapply pipeline_through; eassumption.
  Qed.
End Pipe.
