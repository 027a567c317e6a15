(** Proofs for C78: witnesses, and what happens after a second rejected trial of density zero. *)
From Coq Require Import Reals Lra Lia Field.
From Coquelicot Require Import Coquelicot.
From Verif Require Import Prelude ProducerModel ProducerSpec ProducerProofs XReal MHSpec MHProofs DRReal DRAlpha DRRun MHRunSpec DEStat MarkovFinite MHRun DRRunSpec DRLaw DRStat DrdSpec DrdLaw DrdStat DrdKer.
Import ListNotations.
Local Open Scope R_scope.
Local Open Scope list_scope.
Local Notation length := List.length.

Section After.
Context {X : Type}.
Lemma xmul_nan : forall a, xmul a XNaN = XNaN. Proof. intros [| |r|]; reflexivity. Qed.
Lemma second_nan : forall fuel (x y1 : X * xr) y2 l, snd x = XFin l -> alpha_fn xops false (S (S fuel)) x [y1; (y2, XNInf)] = Some XNaN.
Proof.
  intros fuel [x lx] [y1 l1] y2 l Hx. cbn [snd] in Hx. subst lx.
  remember (S fuel) as f1 eqn:Hf1. cbn [alpha_fn length nth_error Nat.sub Nat.eqb snd seq fold_left num_yvec andb firstn skipn]. subst f1.
  cbn [alpha_fn length nth_error Nat.sub Nat.eqb snd]. f_equal.
  change (d_exp xops (d_sub xops XNInf (XFin l))) with (XFin 0).
  assert (Z : forall b, xmul (XFin 0) (xdiv XNInf b) = XNaN).
  { intros [| |r|]; cbn; try reflexivity. destruct (negb (isneg r)); cbn; destruct (Req_EM_T 0 0); (reflexivity || lra). }
  destruct l1 as [| |r|]; [reflexivity|reflexivity|exact (Z _)|exact (Z _)].
Qed.
Lemma later_nan : forall fuel (x y1 : X * xr) y2 ys l a, snd x = XFin l -> ys <> [] -> (length ys + 2 <= fuel)%nat ->
  alpha_fn xops false fuel x (y1 :: (y2, XNInf) :: ys) = Some a -> a = XNaN.
Proof.
  intros fuel x y1 y2 ys l a Hx Hys Hf. destruct fuel as [|fuel]; [lia|]. destruct ys as [|y3 ys]; [contradiction|]. cbn [length] in Hf.
  set (y := y1 :: (y2, XNInf) :: y3 :: ys). cbn [alpha_fn]. change (length y) with (S (S (S (length ys)))).
  destruct (nth_error y _) as [yi|]; [|discriminate]. cbn [Nat.eqb].
  set (F := fun (acc : option xr) (j : nat) => _).
  assert (Fn : forall j, match F None j with Some b => b = XNaN | None => True end) by (intros; exact Logic.I).
  assert (Fz : forall j, match F (Some XNaN) j with Some b => b = XNaN | None => True end).
  { intros j. unfold F. destruct (num_yvec _ _); [|exact Logic.I]. destruct (alpha_fn _ _ _ _ _); [|exact Logic.I]. destruct (alpha_fn _ _ _ _ _); [|exact Logic.I]. reflexivity. }
  assert (G : forall k acc, match acc with Some b => b = XNaN | None => True end -> match fold_left F k acc with Some b => b = XNaN | None => True end).
  { induction k as [|j k IH]; intros acc Hacc; [exact Hacc|]. cbn [fold_left]. apply IH. destruct acc as [b|]; [subst b; apply Fz|apply Fn]. }
  intros H. cbn [seq fold_left] in H. set (acc1 := F (Some _) 1%nat) in H.
  assert (F2 : match F acc1 2%nat with Some b => b = XNaN | None => True end).
  { destruct acc1 as [b|]; [|exact Logic.I]. unfold F. destruct (num_yvec _ _); [|exact Logic.I].
    destruct (alpha_fn xops false fuel yi _) as [c|]; [|exact Logic.I]. change (firstn 2 y) with [y1; (y2, XNInf)].
    destruct fuel as [|[|fuel]]; [lia|lia|]. rewrite (second_nan fuel x y1 y2 l Hx). change (xmul b (xdiv (xsub (XFin 1) c) XNaN) = XNaN).
    assert (xdiv (xsub (XFin 1) c) XNaN = XNaN) as -> by (destruct (xsub (XFin 1) c); reflexivity). apply xmul_nan. }
  pose proof (G (seq 3 (length ys)) _ F2) as G'. rewrite H in G'. exact G'.
Qed.
Theorem nothing_after_two : forall (lx : X -> xr) x y1 y2 ys l, lx x = XFin l -> lx y2 = XNInf -> ys <> [] -> l_code_accepts lx x (y1 :: y2 :: ys) = 0.
Proof.
  intros lx x y1 y2 ys l Hx H2 Hys. unfold l_code_accepts. cbn [map]. rewrite H2. destruct (alpha_fn _ _ _ _ _) as [a|] eqn:E; [|reflexivity].
  apply (later_nan _ _ _ _ _ l) in E; [subst a; reflexivity|exact Hx| |cbn; rewrite map_length; lia]. intros Hm. apply map_eq_nil in Hm. contradiction.
Qed.
End After.

Lemma alpha3_positive : forall px p1 p3, 0 < px -> 0 <= p1 < px -> p1 < p3 -> 0 < alpha3 px p1 0 p3.
Proof.
  intros px p1 p3 Hx H1 H3. unfold alpha3. rewrite alpha1_zero.
  assert (A2 : alpha2 px p1 0 = 0) by (unfold alpha2, Rdiv; rewrite !Rmult_0_l; apply Rmin_right; lra).
  assert (D : forall a b, 0 <= a < b -> a / b < 1).
  { intros a b H. apply Rmult_lt_reg_r with b; [lra|]. unfold Rdiv. rewrite Rmult_assoc, Rinv_l by lra. lra. }
  assert (A2' : alpha2 p3 0 p1 < 1).
  { unfold alpha2. rewrite !alpha1_zero, !Rminus_0_r, !Rmult_1_r. eapply Rle_lt_trans; [apply Rmin_r|]. apply D. lra. }
  assert (A1 : alpha1 px p1 < 1) by (unfold alpha1; eapply Rle_lt_trans; [apply Rmin_r|]; now apply D).
  rewrite A2. apply Rmin_glb_lt; [lra|]. apply Rdiv_lt_0_compat.
  - apply Rmult_lt_0_compat; lra.
  - apply Rmult_lt_0_compat; [apply Rmult_lt_0_compat|]; lra.
Qed.

(** Three states, the one in the middle has density zero. *)
Definition row3 : list nat := [0; 1; 2]%nat.
Definition gap (x : nat) : xr := match x with 1%nat => XNInf | _ => XFin 0 end.
Definition any_of_three (_ : nat) (_ : list nat) (_ : nat) : R := 1 / 3.
Lemma gap_pi : forall x, ldensity gap x = match x with 1%nat => 0 | _ => 1 end.
Proof. intros [|[|x]]; unfold ldensity; cbn; try reflexivity; apply exp_0. Qed.
Lemma row3_nodup : NoDup row3. Proof. repeat constructor; cbn; intuition discriminate. Qed.
Lemma gap_fine : forall x, gap x <> XNaN /\ gap x <> XPInf. Proof. intros [|[|x]]; cbn; split; discriminate. Qed.
Lemma any_distribution : dr_distribution row3 any_of_three.
Proof. constructor; intros; unfold any_of_three; [lra|]. cbn. lra. Qed.
Lemma any_symmetric : path_symmetric any_of_three.
Proof. split; reflexivity. Qed.
Lemma gap_lsupp : lsupp gap row3 = [0; 2]%nat.
Proof. unfold lsupp, row3. cbn [filter]. rewrite !gap_pi. destruct (Rlt_dec 0 1); [|lra]. destruct (Rlt_dec 0 0); [lra|]. reflexivity. Qed.
Lemma gap_reaches : forall x y, In x (lsupp gap row3) -> In y (lsupp gap row3) -> reaches (lsupp gap row3) (fun x y => any_of_three x [] y) 1 x y.
Proof. intros x y _ Hy. exists y. repeat split; [exact Hy|unfold any_of_three; lra]. Qed.
Local Notation one := (fun _ _ _ => 1).
Lemma gfeed : forall m s yu, feed gap m s yu = let (y, u) := yu in match s_todo s, s_left s with
    | O, _ => s | S td, O => s
    | S td, S k => if dr_decides (cratio gap (s_x s) (s_rej s ++ [y])) u then {| s_left := m + 1; s_x := y; s_rej := []; s_todo := td; s_out := s_out s ++ [y] |}
      else match k with O => {| s_left := m + 1; s_x := s_x s; s_rej := []; s_todo := td; s_out := s_out s ++ [s_x s] |}
           | S _ => {| s_left := k; s_x := s_x s; s_rej := s_rej s ++ [y]; s_todo := S td; s_out := s_out s |} end end.
Proof. reflexivity. Qed.
Lemma gap_first : cratio gap 0%nat [1%nat] = XFin 0.
Proof. reflexivity. Qed.
Lemma decides_zero : dr_decides (XFin 0) 0 = true.
Proof. rewrite dr_decides_fin by lra. destruct (Rle_dec 0 0); [reflexivity|lra]. Qed.
(** The random number zero *)
Lemma zero_accepted : l_dr_samples gap one 0%nat 0 1 [(1%nat, 0)] = [1%nat].
Proof.
  rewrite (proj1 (DrdLaw.run_feed gap one 0%nat 0 1 [(1%nat, 0)])). cbn [fold_left]. rewrite gfeed. unfold minit. cbn [s_todo s_left s_x s_rej s_out app Nat.add].
  rewrite gap_first, decides_zero. reflexivity.
Qed.
Lemma gap_second : cratio gap 0%nat [1%nat; 2%nat] = XFin 1.
Proof.
  unfold cratio, with_lx, alpha. cbn [map length gap]. remember 1%nat as f1 eqn:Hf1. 
  cbn [alpha_fn length nth_error Nat.sub Nat.eqb snd seq fold_left num_yvec andb firstn skipn]. subst f1. cbn [alpha_fn length nth_error Nat.sub Nat.eqb snd].
  change (d_exp xops (d_sub xops XNInf (XFin 0))) with (XFin 0). change (d_exp xops (d_sub xops (XFin 0) (XFin 0))) with (XFin (exp (0 + - 0))).
  change (d_sub xops (d_one xops) (XFin 0)) with (XFin (1 + - 0)).
  assert (Ed : d_div xops (XFin (1 + - 0)) (XFin (1 + - 0)) = XFin 1) by (cbn; destruct (Req_EM_T (1 + - 0) 0); [lra|]; f_equal; field).
  rewrite Ed. cbn. f_equal. rewrite Ropp_0, Rplus_0_r, exp_0. ring.
Qed.
Lemma gap_run : l_dr_samples gap one 0%nat 1 1 [(1%nat, 1/2); (2%nat, 1/2)] = [2%nat].
Proof.
  rewrite (proj1 (DrdLaw.run_feed gap one 0%nat 1 1 _)). cbn [fold_left]. rewrite !gfeed. unfold minit. cbn [s_todo s_left s_x s_rej s_out app Nat.add].
  rewrite gap_first. replace (dr_decides (XFin 0) (1/2)) with false by (rewrite dr_decides_fin by lra; destruct (Rle_dec _ _); [lra|reflexivity]).
  cbn [s_todo s_left s_x s_rej s_out app]. rewrite gap_second. replace (dr_decides (XFin 1) (1/2)) with true by (rewrite dr_decides_fin by lra; destruct (Rle_dec _ _); [reflexivity|lra]).
  reflexivity.
Qed.
