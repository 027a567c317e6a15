(** Markov chains on finitely many states: convergence and laws of large numbers. *)
From Coq Require Import Reals Lra Lia.
From Verif Require Import Prelude MHSpec MHRunSpec MHProofs DEStat.
Import ListNotations.
Local Open Scope R_scope.
Local Open Scope list_scope.

Lemma sumR_ext_in : forall {X} (f g : X -> R) l, (forall x, In x l -> f x = g x) -> sumR f l = sumR g l.
Proof. intros X f g l H. induction l as [|x l IH]; cbn; [reflexivity|]. rewrite H, IH; auto; [intros; apply H; now right|now left]. Qed.
Lemma sumR_le_in : forall {X} (f g : X -> R) l, (forall x, In x l -> f x <= g x) -> sumR f l <= sumR g l.
Proof. intros X f g l H. induction l as [|x l IH]; cbn; [lra|]. pose proof (H x (or_introl eq_refl)). assert (sumR f l <= sumR g l) by (apply IH; intros; apply H; now right). lra. Qed.
Lemma sumR_zero : forall {X} (l : list X), sumR (fun _ => 0) l = 0.
Proof. induction l; cbn; lra. Qed.
Lemma sumR_nonneg : forall {X} (f : X -> R) l, (forall x, In x l -> 0 <= f x) -> 0 <= sumR f l.
Proof. intros X f l H. rewrite <- (sumR_zero l). now apply sumR_le_in. Qed.
Lemma sumR_minus : forall {X} (f g : X -> R) l, sumR (fun x => f x - g x) l = sumR f l - sumR g l.
Proof. intros X f g l. induction l; cbn; lra. Qed.
Lemma sumR_swap : forall {X Y} (f : X -> Y -> R) l m, sumR (fun x => sumR (f x) m) l = sumR (fun y => sumR (fun x => f x y) l) m.
Proof.
  intros X Y f l m. induction l as [|x l IH]; cbn.
  - symmetry. apply sumR_zero.
  - rewrite IH. symmetry. apply sumR_plus.
Qed.
Lemma sumR_abs : forall {X} (f : X -> R) l, Rabs (sumR f l) <= sumR (fun x => Rabs (f x)) l.
Proof. intros X f l. induction l; cbn; [rewrite Rabs_R0; lra|]. eapply Rle_trans; [apply Rabs_triang|lra]. Qed.
Lemma sumR_member : forall {X} (f : X -> R) l x, (forall y, In y l -> 0 <= f y) -> In x l -> f x <= sumR f l.
Proof.
  intros X f l x. induction l as [|z l IH]; intros Hp Hx; [contradiction|]. cbn.
  assert (0 <= sumR f l) by (apply sumR_nonneg; intros; apply Hp; now right).
  assert (0 <= f z) by (apply Hp; now left).
  destruct Hx as [->|Hx]; [lra|]. assert (f x <= sumR f l) by (apply IH; auto; intros; apply Hp; now right). lra.
Qed.

Section Markov.
Context {X : Type}.
Variable eqX : forall x y : X, {x = y} + {x <> y}.
Variable states : list X.
Hypothesis states_nodup : NoDup states.
Variables (K : X -> X -> R) (p : X -> R).
Hypothesis K_nonneg : forall x y, In x states -> In y states -> 0 <= K x y.
Hypothesis K_sum : forall x, In x states -> sumR (K x) states = 1.
Hypothesis p_nonneg : forall x, In x states -> 0 <= p x.
Hypothesis p_sum : sumR p states = 1.
Hypothesis p_stationary : forall y, In y states -> sumR (fun x => p x * K x y) states = p y.

Definition P (g : X -> R) (x : X) : R := sumR (fun y => K x y * g y) states.
Fixpoint it (n : nat) (g : X -> R) : X -> R := match n with O => g | S n' => P (it n' g) end.
Definition within (B : R) (g : X -> R) : Prop := forall x, In x states -> Rabs (g x) <= B.
Local Notation mean := (mean_in states p).

Lemma P_ext : forall f g x, (forall y, In y states -> f y = g y) -> P f x = P g x.
Proof. intros f g x H. apply sumR_ext_in. intros y Hy. now rewrite H. Qed.
Lemma P_lin : forall a f g x, P (fun y => a * f y + g y) x = a * P f x + P g x.
Proof.
  intros. unfold P. rewrite <- sumR_scal, <- sumR_plus. apply sumR_ext_in. intros y _. ring.
Qed.
Lemma it_ext : forall n f g x, (forall y, In y states -> f y = g y) -> In x states -> it n f x = it n g x.
Proof. induction n as [|n IH]; intros f g x H Hx; cbn; [auto|]. apply P_ext. intros y Hy. now apply IH. Qed.
Lemma it_lin : forall n a f g x, it n (fun y => a * f y + g y) x = a * it n f x + it n g x.
Proof.
  induction n as [|n IH]; intros; cbn; [reflexivity|]. rewrite <- P_lin. apply P_ext. intros y _. apply IH.
Qed.
Lemma it_S : forall n g x, it (S n) g x = it n (P g) x.
Proof.
  induction n as [|n IH]; intros g x; [reflexivity|]. cbn [it]. apply P_ext. intros y _. exact (IH g y).
Qed.
Lemma P_const : forall c x, In x states -> P (fun _ => c) x = c.
Proof. intros c x Hx. unfold P. rewrite sumR_mult_r, K_sum by exact Hx. lra. Qed.
Lemma it_const : forall n c x, In x states -> it n (fun _ => c) x = c.
Proof.
  induction n as [|n IH]; intros c x Hx; [reflexivity|]. cbn [it]. rewrite (P_ext _ (fun _ => c)); [now apply P_const|]. intros; now apply IH.
Qed.
Lemma P_within : forall B g, within B g -> within B (P g).
Proof.
  intros B g H x Hx. unfold P. eapply Rle_trans; [apply sumR_abs|].
  eapply Rle_trans; [apply (sumR_le_in _ (fun y => K x y * B))|].
  - intros y Hy. rewrite Rabs_mult, (Rabs_pos_eq (K x y)) by auto. apply Rmult_le_compat_l; auto.
  - rewrite sumR_mult_r, K_sum by exact Hx. lra.
Qed.
Lemma it_within : forall n B g, within B g -> within B (it n g).
Proof. induction n as [|n IH]; intros B g H; [exact H|]. cbn. apply P_within. now apply IH. Qed.
Lemma P_mean : forall g, mean (P g) = mean g.
Proof.
  intros g. unfold mean_in, P.
  rewrite (sumR_ext_in _ (fun x => sumR (fun y => p x * K x y * g y) states)).
  2:{ intros x _. rewrite <- sumR_scal. apply sumR_ext_in. intros; ring. }
  rewrite sumR_swap. apply sumR_ext_in. intros y Hy. rewrite sumR_mult_r, p_stationary by exact Hy. reflexivity.
Qed.
Lemma it_mean : forall n g, mean (it n g) = mean g.
Proof. induction n as [|n IH]; intros g; [reflexivity|]. cbn. rewrite P_mean. apply IH. Qed.
Lemma mean_lin : forall a f g, mean (fun y => a * f y + g y) = a * mean f + mean g.
Proof. intros. unfold mean_in. rewrite <- sumR_scal, <- sumR_plus. apply sumR_ext_in. intros; ring. Qed.

(** The n-step transition probabilities. *)
Definition delta (y x : X) : R := if eqX x y then 1 else 0.
Definition step (n : nat) (x y : X) : R := it n (delta y) x.
Lemma sum_delta : forall g x, In x states -> sumR (fun y => g y * delta y x) states = g x.
Proof.
  intros g x Hx. rewrite <- (sumR_delta eqX g x states states_nodup Hx) at 1. apply sumR_ext_in. intros y _. unfold delta.
  destruct (eqX x y), (eqX y x); try congruence; lra.
Qed.
Lemma it_sum : forall {Y} n (F : Y -> X -> R) l x, it n (fun z => sumR (fun y => F y z) l) x = sumR (fun y => it n (F y) x) l.
Proof.
  intros Y n F l. induction l as [|y l IH]; intros x; cbn.
  - induction n as [|n IHn] in x |- *; [reflexivity|]. cbn. unfold P. rewrite (sumR_ext_in _ (fun _ => 0)); [apply sumR_zero|].
    intros y _. rewrite IHn. lra.
  - rewrite <- IH. rewrite <- (Rmult_1_l (it n (F y) x)), <- it_lin.
    clear. induction n as [|n IHn] in x |- *; cbn; [lra|]. apply P_ext. intros; apply IHn.
Qed.
Lemma it_scal : forall n c g x, it n (fun y => c * g y) x = c * it n g x.
Proof.
  induction n as [|n IH]; intros; [reflexivity|]. cbn. unfold P. rewrite <- sumR_scal. apply sumR_ext_in. intros y _. rewrite IH. ring.
Qed.
Lemma it_step : forall n g x, In x states -> it n g x = sumR (fun y => step n x y * g y) states.
Proof.
  intros n g x Hx. rewrite (it_ext n g (fun z => sumR (fun y => g y * delta y z) states)) by (auto; intros; symmetry; now apply sum_delta).
  rewrite it_sum. apply sumR_ext_in. intros y _. rewrite it_scal. unfold step. ring.
Qed.
Lemma it_nonneg : forall n g, (forall y, In y states -> 0 <= g y) -> forall x, In x states -> 0 <= it n g x.
Proof.
  induction n as [|n IH]; intros g H x Hx; [auto|]. cbn. apply sumR_nonneg. intros y Hy. apply Rmult_le_pos; auto.
Qed.
Lemma delta_nonneg : forall y x, 0 <= delta y x.
Proof. intros. unfold delta. destruct (eqX x y); lra. Qed.
Lemma step_nonneg : forall n x y, In x states -> 0 <= step n x y.
Proof. intros n x y Hx. apply it_nonneg; auto. intros. apply delta_nonneg. Qed.
Lemma step_sum : forall n x, In x states -> sumR (step n x) states = 1.
Proof.
  intros n x Hx. rewrite <- (it_const n 1 x Hx), it_step by exact Hx. apply sumR_ext_in. intros; ring.
Qed.

(** Doeblin's contraction. *)
Lemma contraction : forall (T : X -> X -> R) d g B x, In x states -> sumR (T x) states = 1 ->
  (forall y, In y states -> d * p y <= T x y) -> mean g = 0 -> within B g ->
  Rabs (sumR (fun y => T x y * g y) states) <= (1 - d) * B.
Proof.
  intros T d g B x Hx HT Hd Hm HB.
  replace (sumR (fun y => T x y * g y) states) with (sumR (fun y => (T x y - d * p y) * g y) states).
  2:{ rewrite (sumR_ext_in _ (fun y => T x y * g y - d * (p y * g y))) by (intros; ring).
      rewrite sumR_minus, sumR_scal. unfold mean_in in Hm. rewrite Hm. lra. }
  eapply Rle_trans; [apply sumR_abs|].
  eapply Rle_trans; [apply (sumR_le_in _ (fun y => (T x y - d * p y) * B))|].
  - intros y Hy. specialize (Hd y Hy). rewrite Rabs_mult, (Rabs_pos_eq (_ - _)) by lra. apply Rmult_le_compat_l; [lra|]. now apply HB.
  - rewrite sumR_mult_r, sumR_minus, sumR_scal, HT, p_sum. lra.
Qed.

(** ** Convergence *)
Section Converge.
Variables (m : nat) (d : R).
Hypothesis m_pos : (0 < m)%nat.
Hypothesis d_le : d <= 1.
Hypothesis doeblin : forall x y, In x states -> In y states -> d * p y <= step m x y.

Lemma it_plus : forall a b g x, it (a + b) g x = it a (it b g) x.
Proof.
  induction a as [|a IH]; intros b g x; [reflexivity|]. cbn [it Nat.add]. apply P_ext. intros. apply IH.
Qed.
Lemma it_decay : forall k g B, mean g = 0 -> within B g -> within ((1 - d) ^ k * B) (it (k * m) g).
Proof.
  induction k as [|k IH]; intros g B Hm HB; cbn [Nat.mul].
  - cbn. now rewrite Rmult_1_l.
  - intros x Hx. rewrite it_plus, it_step by exact Hx. cbn [pow]. rewrite Rmult_assoc.
    apply contraction with (T := step m); auto.
    + now apply step_sum.
    + now rewrite it_mean.
Qed.
Lemma it_converges : forall n f B x, In x states -> within B (fun y => f y - mean f) ->
  Rabs (it n f x - mean f) <= (1 - d) ^ (n / m) * B.
Proof.
  intros n f B x Hx HB.
  replace (it n f x - mean f) with (it n (fun y => f y - mean f) x).
  2:{ rewrite (it_ext n (fun y => f y - mean f) (fun y => 1 * f y + (fun _ => - mean f) y)) by (auto; intros; ring).
      rewrite it_lin, it_const by exact Hx. ring. }
  assert (Hm : mean (fun y => f y - mean f) = 0).
  { assert (Heq : mean (fun y => f y - mean f) = mean (fun y => - mean f * (fun _ => 1) y + f y)) by (apply sumR_ext_in; intros; ring).
    rewrite Heq, mean_lin. assert (mean (fun _ => 1) = 1) as ->; [|ring].
    unfold mean_in. rewrite (sumR_ext_in _ p) by (intros; ring). exact p_sum. }
  rewrite (Nat.div_mod n m) at 1 by lia. rewrite Nat.add_comm, it_plus.
  assert (HW := it_within (n mod m) _ _ (it_decay (n / m) _ _ Hm HB)).
  rewrite Nat.mul_comm. exact (HW x Hx).
Qed.
End Converge.

(** ** The law of large numbers *)
Fixpoint sumn (g : nat -> R) (n : nat) : R := match n with O => 0 | S n' => sumn g n' + g n' end.
Definition M (n : nat) (g : X -> R) (x : X) : R := sumn (fun k => it k g x) n.

Section Lln.
Variables (m : nat) (d : R).
Hypothesis d_pos : 0 < d.
Definition Qstep (x y : X) : R := / INR (S m) * sumn (fun k => step k x y) (S m).
Hypothesis doeblin : forall x y, In x states -> In y states -> d * p y <= Qstep x y.
Definition Q (g : X -> R) (x : X) : R := / INR (S m) * M (S m) g x.

Lemma sumn_ext : forall f g n, (forall k, (k < n)%nat -> f k = g k) -> sumn f n = sumn g n.
Proof. induction n as [|n IH]; intros H; cbn; [reflexivity|]. rewrite IH, H by auto. reflexivity. Qed.
Lemma sumn_plus : forall f g n, sumn (fun k => f k + g k) n = sumn f n + sumn g n.
Proof. induction n; cbn; lra. Qed.
Lemma sumn_minus : forall f g n, sumn (fun k => f k - g k) n = sumn f n - sumn g n.
Proof. induction n; cbn; lra. Qed.
Lemma sumn_scal : forall c f n, sumn (fun k => c * f k) n = c * sumn f n.
Proof. induction n; cbn; lra. Qed.
Lemma sumn_const : forall c n, sumn (fun _ => c) n = INR n * c.
Proof. induction n; cbn [sumn]; [cbn; lra|]. rewrite S_INR. lra. Qed.
Lemma sumn_sumR : forall {Y} (F : Y -> nat -> R) l n, sumn (fun k => sumR (fun y => F y k) l) n = sumR (fun y => sumn (F y) n) l.
Proof. induction n as [|n IH]; cbn; [symmetry; apply sumR_zero|]. rewrite IH. symmetry. apply sumR_plus. Qed.
Lemma sumn_le : forall f g n, (forall k, (k < n)%nat -> f k <= g k) -> sumn f n <= sumn g n.
Proof. induction n as [|n IH]; intros H; cbn; [lra|]. pose proof (H n (Nat.lt_succ_diag_r n)). assert (sumn f n <= sumn g n) by (apply IH; auto). lra. Qed.
Lemma sumn_abs : forall f n, Rabs (sumn f n) <= sumn (fun k => Rabs (f k)) n.
Proof. induction n; cbn; [rewrite Rabs_R0; lra|]. eapply Rle_trans; [apply Rabs_triang|lra]. Qed.

Lemma INR_S_pos : 0 < INR (S m).
Proof. apply lt_0_INR. lia. Qed.
Lemma Q_Qstep : forall g x, In x states -> Q g x = sumR (fun y => Qstep x y * g y) states.
Proof.
  intros g x Hx. unfold Q, M. rewrite (sumn_ext _ (fun k => sumR (fun y => step k x y * g y) states)) by (intros; now apply it_step).
  rewrite sumn_sumR, <- sumR_scal. apply sumR_ext_in. intros y _. unfold Qstep.
  rewrite (sumn_ext (fun k => step k x y * g y) (fun k => g y * step k x y)) by (intros; ring). rewrite sumn_scal. ring.
Qed.
Lemma Qstep_sum : forall x, In x states -> sumR (Qstep x) states = 1.
Proof.
  intros x Hx. unfold Qstep. rewrite sumR_scal, <- (sumn_sumR (fun y k => step k x y)).
  rewrite (sumn_ext _ (fun _ => 1)) by (intros; now apply step_sum). rewrite sumn_const. pose proof INR_S_pos. field. lra.
Qed.

(** the largest value of |g| *)
Definition lnorm (l : list X) (g : X -> R) : R := fold_right (fun x a => Rmax (Rabs (g x)) a) 0 l.
Definition norm (g : X -> R) : R := lnorm states g.
Lemma norm_within : forall g, within (norm g) g.
Proof.
  intros g x. unfold norm. generalize states as l. induction l as [|y l IH]; intros Hx; [contradiction|]. cbn. destruct Hx as [->|Hx]; [apply Rmax_l|].
  eapply Rle_trans; [now apply IH|apply Rmax_r].
Qed.
Lemma norm_le : forall g B, 0 <= B -> within B g -> norm g <= B.
Proof.
  intros g B HB H. unfold norm. unfold within in H. revert H. generalize states as l.
  induction l as [|y l IH]; intros H; cbn; [exact HB|]. apply Rmax_lub; [apply H; now left|]. apply IH. intros; apply H; now right.
Qed.

Lemma it_sub : forall k f g x, it k (fun y => f y - g y) x = it k f x - it k g x.
Proof.
  induction k as [|k IH]; intros; [reflexivity|]. cbn. unfold P. rewrite <- sumR_minus. apply sumR_ext_in. intros y _. rewrite IH. ring.
Qed.
Lemma it_sumn : forall n k (F : nat -> X -> R) x, it k (fun y => sumn (fun j => F j y) n) x = sumn (fun j => it k (F j) x) n.
Proof.
  induction n as [|n IH]; intros k F x; cbn [sumn].
  - induction k as [|k IHk] in x |- *; [reflexivity|]. cbn. unfold P. rewrite (sumR_ext_in _ (fun _ => 0)); [apply sumR_zero|].
    intros y _. rewrite IHk. ring.
  - rewrite <- IH, Rplus_comm, <- (Rmult_1_l (it k (F n) x)), <- it_lin. clear.
    induction k as [|k IHk] in x |- *; cbn [it sumn]; [lra|]. apply P_ext. intros; apply IHk.
Qed.
(** telescoping *)
Lemma M_diff : forall n k g x, it k (M n g) x = M n g x + (M k (it n g) x - M k g x).
Proof.
  intros n k g x. unfold M. rewrite it_sumn.
  rewrite (sumn_ext (fun j => it k (it j g) x) (fun j => it (j + k) g x)) by (intros; rewrite Nat.add_comm; symmetry; apply it_plus).
  rewrite (sumn_ext (fun j => it j (it n g) x) (fun j => it (n + j) g x)) by (intros; rewrite Nat.add_comm; rewrite (Nat.add_comm k0 n), Nat.add_comm; symmetry; apply it_plus).
  revert n. induction k as [|k IH]; intros n; cbn [sumn].
  - rewrite Rminus_0_r, Rplus_0_r. apply sumn_ext. intros j _. now rewrite Nat.add_0_r.
  - assert (H : forall (F : nat -> R) n, sumn (fun j => F (S j)) n = sumn F n + F n - F O).
    { intros F. induction n0 as [|n0 IHn]; cbn; [ring|]. rewrite IHn. ring. }
    pose proof (H (fun j => it (j + k) g x) n) as H1. cbn beta in H1.
    rewrite (sumn_ext (fun j => it (j + S k) g x) (fun j => it (S j + k) g x)) by (intros; f_equal; lia).
    rewrite H1, IH. cbn [Nat.add]. ring.
Qed.
Lemma M_within : forall n g B, within B g -> within (INR n * B) (M n g).
Proof.
  intros n g B H x Hx. unfold M. eapply Rle_trans; [apply sumn_abs|]. rewrite <- sumn_const. apply sumn_le. intros k _. now apply it_within.
Qed.
Lemma M_mean : forall n g, mean g = 0 -> mean (M n g) = 0.
Proof.
  intros n g H. unfold M. induction n as [|n IH]; cbn [sumn].
  - unfold mean_in. rewrite (sumR_ext_in _ (fun _ => 0)); [apply sumR_zero|intros; ring].
  - assert (Heq : mean (fun x => sumn (fun k => it k g x) n + it n g x) = mean (fun x => 1 * (fun x => sumn (fun k => it k g x) n) x + it n g x)) by (apply sumR_ext_in; intros; ring).
    rewrite Heq, mean_lin, IH, it_mean, H. ring.
Qed.

(** The sums of the expectations stay bounded. *)
Lemma M_bounded : forall n g B, mean g = 0 -> within B g -> within (INR m * B / d) (M n g).
Proof.
  intros n g B Hm HB.
  intros s0 Hs. assert (HB0 : 0 <= B). { eapply Rle_trans; [apply Rabs_pos|]. exact (HB s0 Hs). }
  assert (HN : norm (M n g) <= INR m * B + (1 - d) * norm (M n g)).
  { apply norm_le.
    - assert (0 <= INR m * B) by (apply Rmult_le_pos; [apply pos_INR|exact HB0]).
      assert (0 <= (1 - d) * norm (M n g)); [|lra].
      eapply Rle_trans; [apply Rabs_pos|]. apply (contraction Qstep d (M n g) _ s0 Hs); auto using Qstep_sum, M_mean, norm_within.
    - intros x Hx.
      assert (HQ : M n g x = Q (M n g) x - / INR (S m) * sumn (fun k => M k (it n g) x - M k g x) (S m)).
      { unfold Q. unfold M at 2. rewrite (sumn_ext _ (fun k => M n g x + (M k (it n g) x - M k g x))) by (intros; apply M_diff).
        rewrite sumn_plus, sumn_const. pose proof INR_S_pos. field. lra. }
      rewrite HQ. unfold Rminus. rewrite Rplus_comm. eapply Rle_trans; [apply Rabs_triang|]. rewrite Rabs_Ropp. apply Rplus_le_compat.
      + rewrite Rabs_mult, (Rabs_pos_eq (/ _)) by (apply Rlt_le, Rinv_0_lt_compat, INR_S_pos).
        assert (Hsn : Rabs (sumn (fun k => M k (it n g) x - M k g x) (S m)) <= INR (S m) * (INR m * B)).
        { eapply Rle_trans; [apply sumn_abs|].
          assert (Htri : sumn (fun k => Rabs (M k (it n g) x - M k g x)) (S m) <= sumn (fun k => 2 * (INR k * B)) (S m)).
          { apply sumn_le. intros k _. unfold Rminus. eapply Rle_trans; [apply Rabs_triang|]. rewrite Rabs_Ropp.
            pose proof (M_within k _ _ (it_within n _ _ HB) x Hx). pose proof (M_within k _ _ HB x Hx). lra. }
          eapply Rle_trans; [exact Htri|].
          assert (Hg : forall j, sumn (fun k => 2 * (INR k * B)) (S j) = INR (S j) * (INR j * B)).
          { induction j as [|j IHj]; [cbn; ring|]. cbn [sumn] in *. rewrite IHj. rewrite !S_INR. ring. }
          rewrite Hg. lra. }
        apply Rmult_le_reg_l with (INR (S m)); [apply INR_S_pos|]. rewrite <- Rmult_assoc, Rinv_r, Rmult_1_l by (pose proof INR_S_pos; lra). exact Hsn.
      + rewrite Q_Qstep by exact Hx. apply contraction; auto using Qstep_sum, M_mean, norm_within. }
  eapply Rle_trans; [apply norm_within; exact Hs|].
  apply Rmult_le_reg_r with d; [exact d_pos|]. unfold Rdiv. rewrite Rmult_assoc, Rinv_l by lra. lra.
Qed.
End Lln.

(** ** Expectations of runs *)
Lemma markov_ext : forall n x f g, (forall l, List.length l = n -> f l = g l) -> markov states K n x f = markov states K n x g.
Proof.
  induction n as [|n IH]; intros x f g H; cbn; [now apply H|]. apply sumR_ext_in. intros y _. f_equal. apply IH. intros; apply H. cbn. congruence.
Qed.
Lemma markov_lin : forall n x a f g, markov states K n x (fun l => a * f l + g l) = a * markov states K n x f + markov states K n x g.
Proof.
  induction n as [|n IH]; intros; cbn; [reflexivity|]. rewrite <- sumR_scal, <- sumR_plus. apply sumR_ext_in. intros y _. rewrite IH. ring.
Qed.
Lemma markov_const : forall n x c, In x states -> markov states K n x (fun _ => c) = c.
Proof.
  induction n as [|n IH]; intros x c Hx; cbn; [reflexivity|]. rewrite (sumR_ext_in _ (fun y => K x y * c)) by (intros; now rewrite IH).
  now apply P_const.
Qed.
Lemma markov_le : forall n x f g, (forall l, f l <= g l) -> In x states -> markov states K n x f <= markov states K n x g.
Proof.
  induction n as [|n IH]; intros x f g H Hx; cbn; [apply H|]. apply sumR_le_in. intros y Hy. apply Rmult_le_compat_l; auto.
Qed.
Lemma last_cons : forall l (x y : X), last (y :: l) x = last l y.
Proof.
  induction l as [|z l IHl]; intros x y; [reflexivity|]. transitivity (last (z :: l) x); [reflexivity|].
  rewrite IHl. symmetry. apply IHl.
Qed.
Lemma markov_last : forall n x f, markov states K n x (fun l => f (last l x)) = it n f x.
Proof.
  induction n as [|n IH]; intros x f; cbn [markov it]; [reflexivity|]. apply P_ext. intros y _. rewrite <- IH. apply markov_ext.
  intros l _. f_equal. apply last_cons.
Qed.
Definition total (f : X -> R) (l : list X) : R := sumR f l.
Lemma markov_total : forall n x f, In x states -> markov states K n x (total f) = M n (P f) x.
Proof.
  induction n as [|n IH]; intros x f Hx; [reflexivity|]. cbn [markov]. unfold total. cbn [sumR].
  rewrite (sumR_ext_in _ (fun y => K x y * (f y + M n (P f) y))).
  2:{ intros y Hy. f_equal. rewrite <- (IH y f Hy).
      rewrite (markov_ext n y _ (fun l => 1 * (fun _ => f y) l + total f l)) by (intros; unfold total; ring).
      rewrite markov_lin, markov_const by exact Hy. ring. }
  rewrite (sumR_ext_in _ (fun y => K x y * f y + K x y * M n (P f) y)) by (intros; ring). rewrite sumR_plus.
  change (sumR (fun y => K x y * f y) states) with (P f x).
  change (sumR (fun y => K x y * M n (P f) y) states) with (it 1 (M n (P f)) x).
  unfold M at 1. rewrite it_sumn. unfold M.
  assert (H : forall n, P f x + sumn (fun j => it 1 (it j (P f)) x) n = sumn (fun k => it k (P f) x) (S n)).
  { induction n0 as [|n0 IHn]; [cbn; ring|]. cbn [sumn] in *. rewrite <- Rplus_assoc, IHn. reflexivity. }
  apply H.
Qed.

Section Square.
Variables (f : X -> R) (B C : R).
Hypothesis f_within : within B f.
Hypothesis bounded : forall n x, In x states -> Rabs (M n (P f) x) <= C.

Lemma second_moment : forall n x, In x states ->
  markov states K n x (fun l => (total f l) ^ 2) <= INR n * (B ^ 2 + 2 * B * C).
Proof.
  induction n as [|n IH]; intros x Hx; [cbn; lra|]. cbn [markov].
  eapply Rle_trans.
  - apply (sumR_le_in _ (fun y => K x y * (B ^ 2 + 2 * B * C + INR n * (B ^ 2 + 2 * B * C)))). intros y Hy.
    apply Rmult_le_compat_l; [auto|].
    rewrite (markov_ext n y _ (fun l => (2 * f y) * total f l + (1 * (fun _ => f y ^ 2) l + (total f l) ^ 2))) by (intros; unfold total; cbn; ring).
    rewrite !markov_lin, markov_const, markov_total by exact Hy.
    specialize (IH y Hy). pose proof (f_within y Hy) as HF. pose proof (bounded n y Hy) as HM.
    assert (f y ^ 2 <= B ^ 2). { rewrite <- (pow2_abs (f y)). apply pow_incr. split; [apply Rabs_pos|exact HF]. }
    assert (2 * f y * M n (P f) y <= 2 * B * C).
    { eapply Rle_trans; [apply Rle_abs|]. rewrite !Rabs_mult, (Rabs_pos_eq 2) by lra. rewrite !Rmult_assoc. apply Rmult_le_compat_l; [lra|].
      apply Rmult_le_compat; auto using Rabs_pos. }
    lra.
  - rewrite sumR_mult_r, K_sum by exact Hx. rewrite S_INR. lra.
Qed.
End Square.

End Markov.
