(** Proofs for C78: the chain of DelayedRejectionMetropolisHastings on the states of positive density. *)
From Coq Require Import Reals Lra Lia Field.
From Coquelicot Require Import Coquelicot.
From Verif Require Import Prelude ProducerModel ProducerSpec ProducerProofs XReal MHSpec MHProofs DRReal DRAlpha DRRun MHRunSpec DEStat MarkovFinite MHRun DRRunSpec DRLaw DRStat MarkovTop DRTop DrdSpec DrdLaw.
Import ListNotations.
Local Open Scope R_scope.
Local Open Scope list_scope.
Local Notation length := List.length.

(** ** Acceptance ratios with zero densities *)
Section Alpha.
Context {X : Type}.
(** zero or not a number *)
Definition dead (a : xr) : Prop := a = XFin 0 \/ a = XNaN.
Lemma dead_mul : forall a b, dead a -> dead (xmul a b).
Proof.
  intros a b [-> | ->]; [|now right]. destruct b as [| |r|]; cbn; [now right|..].
  - destruct (Req_EM_T 0 0); [now right|lra].
  - left. f_equal. ring.
  - destruct (Req_EM_T 0 0); [now right|lra].
Qed.
Lemma fold_dead : forall (F : xr -> nat -> xr) l, (forall a j, dead a -> dead (F a j)) -> forall a, dead a -> dead (fold_left F l a).
Proof. intros F l H. induction l as [|j l IH]; intros a Ha; [exact Ha|]. cbn. apply IH. now apply H. Qed.
Lemma xsub_ninf : forall b, dead (xexp (xsub XNInf b)).
Proof. intros [| |r|]; cbn; unfold dead; auto. Qed.
(** the ratio for a trial of density zero *)
Lemma alpha_fn_dead : forall strict fuel (x : X * xr) ys y a, alpha_fn xops strict fuel x (ys ++ [(y, XNInf)]) = Some a -> dead a.
Proof.
  intros strict fuel x ys y a. destruct fuel as [|fuel]; [discriminate|]. cbn [alpha_fn].
  rewrite app_length. cbn [length]. rewrite Nat.add_1_r. cbn [Nat.sub]. rewrite Nat.sub_0_r, nth_error_app2, Nat.sub_diag by lia. cbn [nth_error snd].
  change (d_exp xops (d_sub xops XNInf (snd x))) with (xexp (xsub XNInf (snd x))).
  destruct (Nat.eqb (length ys) 0); [intros [= <-]; apply xsub_ninf|].
  assert (G : forall l acc, match acc with Some b => dead b | None => True end ->
    match fold_left (fun (acc : option xr) (j : nat) => match acc with None => None | Some alpha =>
          match num_yvec strict (firstn j (skipn (length ys - j) (ys ++ [(y, XNInf)]))) with None => None | Some _ =>
            match alpha_fn xops strict fuel (y, XNInf) (firstn j (skipn (length ys - j) (ys ++ [(y, XNInf)]))), alpha_fn xops strict fuel x (firstn j (ys ++ [(y, XNInf)])) with
            | Some a1, Some a2 => Some (d_mul xops alpha (d_div xops (d_sub xops (d_one xops) a1) (d_sub xops (d_one xops) a2)))
            | _, _ => None end end end) l acc with Some b => dead b | None => True end).
  { induction l as [|j l IH]; intros acc Hacc; [exact Hacc|]. cbn [fold_left]. apply IH. destruct acc as [b|]; [|exact Logic.I].
    destruct (num_yvec _ _); [|exact Logic.I]. destruct (alpha_fn _ _ _ _ _); [|exact Logic.I]. destruct (alpha_fn _ _ _ _ _); [|exact Logic.I]. now apply dead_mul. }
  intros H. pose proof (G (seq 1 (length ys)) (Some (xexp (xsub XNInf (snd x)))) (xsub_ninf _)) as G'. cbv zeta in H. rewrite H in G'. exact G'.
Qed.
End Alpha.

(** ** No random number zero, no sample of density zero *)
Section Inside.
Context {X : Type}.
Variables (E : env X xr) (lx : X -> xr).
Hypothesis Hll : forall t x l, e_ll E t x = Some l -> l = lx x.
Hypothesis Hu : forall t, exists u, e_unif E t = XFin u /\ 0 < u.
Lemma dead_rejected : forall a t, dead a -> snd (dr_accept xops E a t) = RVal false.
Proof.
  intros a t H. unfold dr_accept. assert (d_gt xops a (d_one xops) = false) as ->.
  { destruct H as [-> | ->]; [|reflexivity]. cbn. destruct (Rlt_dec 1 0); [lra|reflexivity]. }
  unfold mbind, uniform, call, ret. destruct (Hu t) as (u & -> & Hp). destruct H as [-> | ->]; [|reflexivity].
  cbn [snd d_ge xops]. unfold xge, xgt, xeq. destruct (Rlt_dec u 0); [lra|]. destruct (Req_EM_T 0 u); [lra|]. reflexivity.
Qed.
Lemma draccept_issued : forall a t, issued (fst (dr_accept xops E a t)) = issued t.
Proof.
  intros a t. unfold dr_accept, mbind, uniform, call, ret.
  repeat match goal with |- context [if ?b then _ else _] => destruct b end; cbn [fst]; rewrite ?issued_app; cbn; rewrite ?app_nil_r; reflexivity.
Qed.
Lemma stages_inside : forall strict k x rj t t' r, dr_stages xops E strict k x rj t = (t', r) ->
  issued t' = issued t /\ (forall y l, r = RVal (Some (y, l)) -> l = lx y /\ l <> XNInf).
Proof.
  intros strict k. induction k as [|k IH]; intros x rj t t' r H; cbn [dr_stages] in H; [injection H as <- <-; split; [reflexivity|discriminate]|].
  unfold mbind at 1 in H. unfold propose_sample, call in H. destruct (e_prop E t (fst x) _) as [[y q]|];
    [|injection H as <- <-; rewrite issued_app; cbn; rewrite app_nil_r; split; [reflexivity|discriminate]].
  unfold mbind at 1 in H. unfold log_likelihood, call in H. destruct (e_ll E _ y) as [l|] eqn:El; [|injection H as <- <-; rewrite !issued_app; cbn; rewrite !app_nil_r; split; [reflexivity|discriminate]].
  apply Hll in El. subst l. set (t2 := (t ++ [EPropose (fst x) (map fst rj)]) ++ [EEval y]) in *.
  assert (It2 : issued t2 = issued t) by (unfold t2; rewrite !issued_app; cbn; now rewrite !app_nil_r).
  destruct (alpha_fn xops strict _ x _) as [a|] eqn:Ea; [|injection H as <- <-; split; [exact It2|discriminate]].
  unfold mbind in H. destruct (dr_accept xops E a t2) as [t3 r3] eqn:Acc.
  assert (It3 : issued t3 = issued t) by (rewrite <- It2, <- (draccept_issued a t2); now rewrite Acc).
  destruct r3 as [b| | | | |]; try (injection H as <- <-; split; [exact It3|discriminate]).
  destruct b.
  - injection H as <- <-. split; [exact It3|]. intros y' l' [= <- <-]. split; [reflexivity|]. intros Z.
    assert (G : snd (dr_accept xops E a t2) = RVal false) by (apply dead_rejected; rewrite Z in Ea; eapply (alpha_fn_dead (X := X)); exact Ea).
    rewrite Acc in G. discriminate.
  - destruct (IH x (rj ++ [(y, lx y)]) t3 _ _ H) as [I1 I2]. split; [now rewrite I1|exact I2].
Qed.
Lemma drloop_inside : forall strict m n x t, lx (fst x) <> XNInf -> snd x = lx (fst x) -> Forall (fun z => lx (fst z) <> XNInf) (issued t) ->
  Forall (fun z => lx (fst z) <> XNInf) (issued (fst (dr_loop xops E strict m n x t))).
Proof.
  intros strict m n. induction n as [|n IH]; intros x t Hx Hsx Ht; cbn [dr_loop]; [exact Ht|].
  unfold mbind at 1. destruct (dr_stages xops E strict (m + 1) x [] t) as [t1 r1] eqn:Hs. destruct (stages_inside _ _ _ _ _ _ _ Hs) as [I1 I2].
  destruct r1 as [o| | | | |]; try (cbn [fst]; now rewrite I1).
  set (z := match o with Some y => y | None => x end).
  assert (Hz : lx (fst z) <> XNInf /\ snd z = lx (fst z)).
  { unfold z. destruct o as [[y l]|]; [|auto]. destruct (I2 y l eq_refl) as [A B]. cbn. split; [rewrite <- A|]; assumption. }
  destruct Hz as [Hz Hsz].
  unfold mbind, issue_sample, call. destruct (e_issue E t1 _ _); cbn iota beta.
  - cbn [fst]. rewrite issued_app, I1. apply Forall_app. split; [exact Ht|]. repeat constructor. exact Hz.
  - apply IH; [exact Hz|exact Hsz|]. rewrite issued_app, I1. apply Forall_app. split; [exact Ht|]. repeat constructor. exact Hz.
Qed.
Theorem drd_never_outside : forall strict x0 m n, lx x0 <> XNInf -> Forall (fun z => lx (fst z) <> XNInf) (issued (fst (dr_sample xops E strict x0 m n []))).
Proof.
  intros strict x0 m n Hx. unfold dr_sample, with_scope_exit. unfold mbind at 1. unfold log_likelihood, call.
  destruct (e_ll E [] x0) as [l|] eqn:El; [|cbn; constructor]. apply Hll in El. subst l. cbn [app].
  pose proof (drloop_inside strict m n (x0, lx x0) [EEval x0] Hx eq_refl ltac:(constructor)) as H. unfold mbind, flush_consumers, call.
  destruct (dr_loop xops E strict m n (x0, lx x0) [EEval x0]) as [t r]. cbn [fst] in H.
  destruct r as [v| | | | |]; repeat (match goal with |- context [if ?b then _ else _] => destruct b end); cbn [fst]; rewrite ?issued_app; cbn; rewrite ?app_nil_r; exact H.
Qed.
End Inside.
