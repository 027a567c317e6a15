(** Whole runs of DelayedRejectionMetropolisHastings with at most one delay are those of the published algorithm. *)
From Coq Require Import Reals Lra String.
From Verif Require Import Prelude ProducerModel ProducerSpec ProducerProofs DRProofs XReal MHSpec MHProofs DRReal.
Import ListNotations.
Local Open Scope R_scope.
Local Open Scope list_scope.
Local Notation length := List.length.

Lemma div_lt_1 : forall a b, 0 < b -> (a / b < 1 <-> a < b).
Proof.
  intros a b Hb. split; intros H.
  - apply Rmult_lt_reg_r with (/ b); [now apply Rinv_0_lt_compat|]. rewrite Rinv_r by lra. exact H.
  - apply Rmult_lt_reg_r with b; [exact Hb|]. unfold Rdiv. rewrite Rmult_assoc, Rinv_l by lra. lra.
Qed.

Definition raw2 (px p1 p2 : R) : R := (p2 * (1 - alpha1 p2 p1)) / (px * (1 - alpha1 px p1)).
Lemma code2_raw : forall px p1 p2, 0 < p1 -> p1 < px -> 0 < p2 ->
  code_alpha2 px p1 p2 = raw2 px p1 p2 \/ (code_alpha2 px p1 p2 < 0 /\ raw2 px p1 p2 = 0).
Proof.
  intros px p1 p2 H1 Hx H2. unfold raw2, code_alpha2.
  assert (Hr : p1 / px < 1) by (apply div_lt_1; lra).
  assert (alpha1 px p1 = p1 / px) as -> by (unfold alpha1; rewrite Rmin_right; lra).
  destruct (Rle_dec p1 p2) as [Hle|Hle].
  - left. assert (Hr2 : p1 / p2 <= 1). { apply Rmult_le_reg_r with p2; [lra|]. unfold Rdiv. rewrite Rmult_assoc, Rinv_l by lra. lra. }
    assert (alpha1 p2 p1 = p1 / p2) as -> by (unfold alpha1; rewrite Rmin_right; lra).
    field. lra.
  - right. assert (Hr2 : 1 < p1 / p2). { apply Rmult_lt_reg_r with p2; [lra|]. unfold Rdiv. rewrite Rmult_assoc, Rinv_l by lra. lra. }
    assert (alpha1 p2 p1 = 1) as -> by (unfold alpha1; rewrite Rmin_left; lra).
    split; [|field; lra].
    assert (0 < p2 / px) by (apply Rdiv_lt_0_compat; lra).
    assert ((1 - p1 / p2) / (1 - p1 / px) < 0).
    { unfold Rdiv at 1. assert (0 < / (1 - p1 / px)) by (apply Rinv_0_lt_compat; lra).
      rewrite <- (Rmult_0_l (/ (1 - p1 / px))). apply Rmult_lt_compat_r; lra. }
    rewrite <- (Rmult_0_r (p2 / px)). apply Rmult_lt_compat_l; lra.
Qed.

Section S.
Context {X : Type}.
Variable E : env X xr.
Variable ll : X -> R.
Hypothesis HL : forall t x, e_ll E t x = Some (XFin (ll x)).
Hypothesis HU : forall t, exists u, e_unif E t = XFin u /\ 0 < u < 1.

(** the samples which may have been rejected before *)
Definition rejectable (x : X) (ys : list X) : Prop := ys = [] \/ exists y1, ys = [y1] /\ ll y1 < ll x.
Definition with_ll (ys : list X) : list (X * xr) := map (fun y => (y, XFin (ll y))) ys.
Lemma with_ll_fst : forall ys, map fst (with_ll ys) = ys.
Proof. intros ys. unfold with_ll. rewrite map_map. apply map_id. Qed.

Lemma stage_rule : forall x ys y, rejectable x ys ->
  exists a, alpha_fn xops false (length (ys ++ [y])) (x, XFin (ll x)) (with_ll (ys ++ [y])) = Some (XFin a) /\
   (1 < a <-> 1 < dr_ratio ll x (ys ++ [y])) /\
   (forall u, 0 < u < 1 -> (u <= a <-> u <= dr_ratio ll x (ys ++ [y]))) /\
   (forall u, 0 < u < 1 -> ~ u <= a -> ys = [] -> rejectable x [y]).
Proof.
  intros x ys y [->|(y1 & -> & H1)]; cbn [app length with_ll map].
  - exists (exp (ll y) / exp (ll x)). split.
    { rewrite <- (ln_exp (ll x)) at 1. rewrite <- (ln_exp (ll y)) at 1. rewrite alpha_1 by apply exp_pos. now rewrite ?ln_exp. }
    split; [reflexivity|]. split; [reflexivity|]. intros u Hu Hn _. right. exists y. split; [reflexivity|].
    assert (exp (ll y) / exp (ll x) < 1) by lra. apply (proj1 (div_lt_1 _ _ (exp_pos _))) in H. now apply exp_lt_inv.
  - exists (code_alpha2 (exp (ll x)) (exp (ll y1)) (exp (ll y))).
    pose proof (exp_increasing _ _ H1) as H1'.
    split.
    { rewrite <- (ln_exp (ll x)) at 1. rewrite <- (ln_exp (ll y1)) at 1. rewrite <- (ln_exp (ll y)) at 1.
      rewrite alpha_2; try apply exp_pos; [reflexivity|lra]. }
    destruct (code2_raw (exp (ll x)) (exp (ll y1)) (exp (ll y)) (exp_pos _) H1' (exp_pos _)) as [He|[Hc Hr]].
    + rewrite He. split; [reflexivity|]. split; [reflexivity|]. discriminate.
    + unfold raw2 in Hr. cbn [dr_ratio]. rewrite Hr. split; [lra|]. split; [intros; lra|discriminate].
Qed.

Lemma dr_stages_run : forall k x ys t t' o, rejectable x ys -> (length ys + k <= 2)%nat ->
  dr_stages xops E false k (x, XFin (ll x)) (with_ll ys) t = (t', RVal o) ->
  exists d, t' = t ++ d /\ issued d = [] /\
   (forall y l, o = Some (y, l) -> l = XFin (ll y)) /\
   forall P U, dr_try (dr_ratio ll) k x ys (map (fun p => fst (snd p)) (props_from E t d) ++ P) (map fin_val (draws_from E t d) ++ U) =
     Some (match o with Some y => fst y | None => x end, P, U).
Proof.
  induction k as [|k IH]; intros x ys t t' o HR Hk H; cbn [dr_stages] in H.
  - inversion H; subst t' o. exists []. rewrite app_nil_r. split; [reflexivity|]. split; [reflexivity|]. split; [discriminate|]. reflexivity.
  - unfold mbind at 1 in H. unfold propose_sample, call in H. cbn [fst] in H. rewrite with_ll_fst in H.
    destruct (e_prop E t x ys) as [[y q]|] eqn:Hp; [|discriminate].
    unfold mbind at 1 in H. unfold log_likelihood, call in H. rewrite HL in H.
    assert (Hw : with_ll ys ++ [(y, XFin (ll y))] = with_ll (ys ++ [y])) by (unfold with_ll; now rewrite map_app).
    rewrite Hw in H. replace (length (with_ll (ys ++ [y]))) with (length (ys ++ [y])) in H by (unfold with_ll; now rewrite map_length).
    destruct (stage_rule x ys y HR) as (a & Ha & H1 & Hle & Hrj). rewrite Ha in H.
    set (t2 := (t ++ [EPropose x ys]) ++ [EEval y]) in *.
    unfold mbind in H. unfold dr_accept in H. change (d_gt xops (XFin a) (d_one xops)) with (xgt (XFin a) (XFin 1)) in H.
    rewrite xgt_fin in H. destruct (Rlt_dec 1 a) as [Hgt|Hgt].
    + unfold ret in H. inversion H; subst t' o. exists [EPropose x ys; EEval y]. unfold t2. rewrite <- app_assoc.
      split; [reflexivity|]. split; [reflexivity|]. split; [intros ? ? Hx; inversion Hx; reflexivity|]. intros P U.
      unfold props_from, draws_from. cbn [collect app]. rewrite Hp. cbn [option_map map app fst snd dr_try].
      destruct (Rlt_dec 1 _) as [|n]; [reflexivity|]. exfalso. tauto.
    + unfold mbind, uniform, call, ret in H. destruct (HU t2) as (u & Hu & Hu01). rewrite Hu in H.
      change (d_ge xops (XFin a) (XFin u)) with (xge (XFin a) (XFin u)) in H. rewrite xge_fin in H.
      destruct (Rle_dec u a) as [Hua|Hua].
      * inversion H; subst t' o. exists [EPropose x ys; EEval y; EUnif]. unfold t2. rewrite <- !app_assoc.
        split; [reflexivity|]. split; [reflexivity|]. split; [intros ? ? Hx; inversion Hx; reflexivity|]. intros P U.
        unfold props_from, draws_from. cbn [collect app]. rewrite Hp. fold t2. cbn [app option_map map fst snd].
        rewrite Hu. cbn [map fin_val app dr_try].
        destruct (Rlt_dec 1 _) as [|_]; [exfalso; tauto|]. destruct (Rle_dec u _) as [|n]; [reflexivity|]. exfalso. apply n. apply Hle; assumption.
      * assert (HK : k = O \/ ys = []).
        { destruct HR as [->|(y1 & -> & _)]; [now right|]. left. cbn in Hk. lia. }
        assert (HN : exists d2, t' = (t2 ++ [EUnif]) ++ d2 /\ issued d2 = [] /\ (forall y l, o = Some (y, l) -> l = XFin (ll y)) /\
          forall P U, dr_try (dr_ratio ll) k x (ys ++ [y]) (map (fun p => fst (snd p)) (props_from E (t2 ++ [EUnif]) d2) ++ P) (map fin_val (draws_from E (t2 ++ [EUnif]) d2) ++ U) =
            Some (match o with Some y => fst y | None => x end, P, U)).
        { destruct HK as [-> | ->].
          - cbn [dr_stages] in H. inversion H; subst t' o. exists []. rewrite app_nil_r. repeat split; discriminate.
          - apply (IH x ([] ++ [y])) in H; [exact H| |cbn in *; lia]. apply (Hrj u Hu01 Hua eq_refl). }
        destruct HN as (d2 & -> & Hi2 & Hv2 & Ht2).
        exists ([EPropose x ys; EEval y; EUnif] ++ d2). unfold t2. rewrite <- !app_assoc. split; [reflexivity|].
        split; [rewrite issued_app, Hi2; reflexivity|]. split; [exact Hv2|]. intros P U.
        unfold props_from, draws_from in *. rewrite !collect_app. cbn [collect app]. rewrite Hp. cbn [option_map map app fst snd].
        assert (HE : t ++ [EPropose x ys; EEval y; EUnif] = t2 ++ [EUnif]) by (unfold t2; now rewrite <- !app_assoc).
        rewrite HE. fold t2. rewrite Hu. cbn [map fin_val app dr_try].
        destruct (Rlt_dec 1 _) as [|_]; [exfalso; tauto|]. destruct (Rle_dec u _) as [Hx|_]; [exfalso; apply Hua; apply Hle; assumption|].
        apply Ht2.
Qed.

Lemma dr_loop_run : forall m, (m <= 1)%nat -> forall n x t t',
  dr_loop xops E false m n (x, XFin (ll x)) t = (t', RVal tt) ->
  exists d, t' = t ++ d /\
  map fst (issued d) = textbook_dr (dr_ratio ll) m n x (map (fun p => fst (snd p)) (props_from E t d)) (map fin_val (draws_from E t d)).
Proof.
  intros m Hm n. induction n as [|n IH]; intros x t t' H; cbn [dr_loop] in H.
  - inversion H; subst t'. exists []. rewrite app_nil_r. split; reflexivity.
  - unfold mbind at 1 in H.
    destruct (dr_stages xops E false (m + 1) (x, XFin (ll x)) [] t) as [t1 r1] eqn:Hs.
    destruct r1 as [o| | | | |]; try discriminate.
    change (@nil (X * xr)) with (with_ll []) in Hs. apply dr_stages_run in Hs; [|now left|cbn; lia].
    destruct Hs as (d1 & -> & Hi1 & Hv & Ht).
    set (z := match o with Some y => y | None => (x, XFin (ll x)) end) in *.
    assert (Hz : z = (fst z, XFin (ll (fst z)))).
    { unfold z. destruct o as [[y l]|]; [|reflexivity]. cbn. rewrite (Hv y l eq_refl) at 1. reflexivity. }
    unfold mbind, issue_sample, call in H. set (a := [_; _]) in *.
    destruct (e_issue E (t ++ d1) (fst z) a); [discriminate|].
    replace (dr_loop xops E false m n z) with (dr_loop xops E false m n (fst z, XFin (ll (fst z)))) in H by (now rewrite <- Hz). apply IH in H. destruct H as (d & -> & Hd).
    exists ((d1 ++ [EIssue (fst z) a]) ++ d). split; [now rewrite <- !app_assoc|].
    rewrite !issued_app, Hi1. cbn [app map textbook_dr].
    assert (Hp : props_from E t ((d1 ++ [EIssue (fst z) a]) ++ d) = props_from E t d1 ++ props_from E ((t ++ d1) ++ [EIssue (fst z) a]) d).
    { unfold props_from. rewrite !collect_app. cbn [collect]. rewrite app_nil_r, app_assoc. reflexivity. }
    assert (Hw : draws_from E t ((d1 ++ [EIssue (fst z) a]) ++ d) = draws_from E t d1 ++ draws_from E ((t ++ d1) ++ [EIssue (fst z) a]) d).
    { unfold draws_from. rewrite !collect_app. cbn [collect]. rewrite app_nil_r, app_assoc. reflexivity. }
    rewrite Hp, Hw, !map_app, Ht. change (issued [EIssue (fst z) a]) with [(fst z, a)]. cbn [app map fst].
    replace (match o with Some y => fst y | None => x end) with (fst z) by (unfold z; now destruct o).
    f_equal. exact Hd.
Qed.

Theorem dr_run : forall m, (m <= 1)%nat -> forall x0 n t,
  dr_sample xops E false x0 m n [] = (t, RVal tt) ->
  map fst (issued t) = textbook_dr (dr_ratio ll) m n x0 (map (fun p => fst (snd p)) (proposals E t)) (map fin_val (draws E t)).
Proof.
  intros m Hm x0 n t H. unfold dr_sample, with_scope_exit in H.
  unfold mbind at 1 in H. unfold log_likelihood, call in H. rewrite HL in H. cbn [app] in H.
  unfold mbind in H. destruct (dr_loop xops E false m n (x0, XFin (ll x0)) [EEval x0]) as [t1 r1] eqn:Hd.
  destruct r1 as [[]| | | | |]; unfold flush_consumers, call in H; try (destruct (e_flush E t1); discriminate).
  apply dr_loop_run in Hd; [|exact Hm]. destruct Hd as (d & -> & Hd).
  destruct (e_flush E ([EEval x0] ++ d)).
  { destruct (e_flush E _); discriminate. }
  destruct (e_flush E _); inversion H; subst t. change (EEval x0 :: (d ++ [EFlush]) ++ [EFlush]) with ([EEval x0] ++ (d ++ [EFlush]) ++ [EFlush]).
  rewrite !issued_app. change (issued [EFlush]) with (@nil (X * paux xr)). change (issued [EEval x0]) with (@nil (X * paux xr)).
  rewrite !app_nil_r. cbn [app]. rewrite Hd. unfold proposals, draws, props_from, draws_from.
  cbn [collect app]. rewrite !collect_app. cbn [collect]. rewrite !app_nil_r. reflexivity.
Qed.
End S.
