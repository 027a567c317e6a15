(** Proofs for C78: convergence of DelayedRejectionMetropolisHastings with states of density zero. *)
From Coq Require Import Reals Lra Lia Field.
From Coquelicot Require Import Coquelicot.
From Verif Require Import Prelude ConsumerModel ProducerModel ProducerSpec ProducerProofs XReal MHSpec MHProofs StatsModel StatsInst DRReal DRAlpha DRRun MHRunSpec DEStat MarkovFinite MHRun DRRunSpec DRLaw DRStat MarkovTop DRTop DrdSpec DrdLaw DrdStat.
Import ListNotations.
Local Open Scope R_scope.
Local Open Scope list_scope.
Local Notation length := List.length.

Section Kernel.
Context {X : Type}.
Variable eqX : forall x y : X, {x = y} + {x <> y}.
Variables (lx : X -> xr) (prop ratio : X -> list X -> X -> R) (states : list X).
Hypothesis states_nodup : NoDup states.
Hypothesis Hd : dr_distribution states prop.
Hypothesis Hlx : forall x, lx x <> XNaN /\ lx x <> XPInf.
Local Notation pi := (ldensity lx).
Local Notation A := (l_code_accepts lx).
Local Notation ker := (dr_kernel states eqX prop A).
Local Notation inside := (lsupp lx states).
Local Notation p := (ltarget lx states).
Definition llf (x : X) : R := fin_val (lx x).
Lemma pi_nonneg : forall x, 0 <= pi x.
Proof. intros x. unfold ldensity. destruct (lx x); try lra. apply Rlt_le, exp_pos. Qed.
Lemma pos_ll : forall x, positive lx x -> lx x = XFin (llf x) /\ pi x = exp (llf x).
Proof. intros x H. unfold positive, ldensity, llf in *. destruct (lx x); try lra. split; reflexivity. Qed.
Lemma npos_ll : forall x, ~ positive lx x -> lx x = XNInf /\ pi x = 0.
Proof.
  intros x H. destruct (Hlx x) as [H1 H2]. unfold positive, ldensity in *. destruct (lx x); try contradiction; [split; reflexivity|].
  exfalso. apply H, exp_pos.
Qed.
Lemma pos_dec : forall x, positive lx x \/ ~ positive lx x.
Proof. intros x. unfold positive. destruct (Rlt_dec 0 (pi x)); auto. Qed.
Lemma A_range : forall x ys, 0 <= A x ys <= 1.
Proof. intros. unfold l_code_accepts. destruct (alpha_fn _ _ _ _ _); [apply accept_range|lra]. Qed.
Lemma code_dead : forall x ys y, lx y = XNInf -> A x (ys ++ [y]) = 0.
Proof.
  intros x ys y H. unfold l_code_accepts. rewrite map_app. cbn [map]. rewrite H. destruct (alpha_fn _ _ _ _ _) as [a|] eqn:E; [|reflexivity].
  apply (alpha_fn_dead (X := X)) in E. destruct E as [-> | ->]; cbn; [|reflexivity]. rewrite Rmin_right by lra. apply Rmax_left. lra.
Qed.
Lemma alpha1_zero : forall q, alpha1 q 0 = 0.
Proof. intros q. unfold alpha1, Rdiv. rewrite Rmult_0_l. apply Rmin_right. lra. Qed.
Lemma first_d : forall x y, positive lx x -> A x [y] = alpha1 (pi x) (pi y).
Proof.
  intros x y Hx. destruct (pos_ll x Hx) as [Ex Px]. destruct (pos_dec y) as [Hy|Hy].
  - destruct (pos_ll y Hy) as [Ey Py]. transitivity (code_accepts llf x [y]).
    + unfold l_code_accepts, code_accepts. cbn [map]. now rewrite Ex, Ey.
    + rewrite code_first. cbn [published]. now rewrite Px, Py.
  - destruct (npos_ll y Hy) as [Ey ->]. rewrite alpha1_zero. exact (code_dead x [] y Ey).
Qed.
Lemma second_d : forall x y1 y2, positive lx x -> pi y1 < pi x -> A x [y1; y2] = alpha2 (pi x) (pi y1) (pi y2).
Proof.
  intros x y1 y2 Hx Hlt. destruct (pos_ll x Hx) as [Ex Px]. destruct (pos_dec y2) as [H2|H2].
  2:{ destruct (npos_ll y2 H2) as [E2 ->]. pose proof (code_dead x [y1] y2 E2) as Dd. cbn [app] in Dd. rewrite Dd. unfold alpha2, Rdiv. rewrite !Rmult_0_l. symmetry. apply Rmin_right. lra. }
  destruct (pos_ll y2 H2) as [E2 P2]. destruct (pos_dec y1) as [H1|H1].
  - destruct (pos_ll y1 H1) as [E1 P1]. transitivity (code_accepts llf x [y1; y2]).
    + unfold l_code_accepts, code_accepts. cbn [map]. now rewrite Ex, E1, E2.
    + rewrite code_second by (apply exp_lt_inv; lra). cbn [published]. now rewrite Px, P1, P2.
  - destruct (npos_ll y1 H1) as [E1 P1]. unfold l_code_accepts. cbn [map length]. rewrite Ex, E1, E2.
    remember 1%nat as f1 eqn:Hf1. cbn [alpha_fn length nth_error Nat.sub Nat.eqb snd seq fold_left num_yvec andb firstn skipn]. subst f1.
    cbn [alpha_fn length nth_error Nat.sub Nat.eqb snd].
    change (d_exp xops (d_sub xops XNInf (XFin (llf y2)))) with (XFin 0). change (d_exp xops (d_sub xops XNInf (XFin (llf x)))) with (XFin 0).
    change (d_exp xops (d_sub xops (XFin (llf y2)) (XFin (llf x)))) with (XFin (exp (llf y2 + - llf x))).
    change (d_sub xops (d_one xops) (XFin 0)) with (XFin (1 + - 0)).
    assert (Ed : d_div xops (XFin (1 + - 0)) (XFin (1 + - 0)) = XFin 1).
    { cbn. destruct (Req_EM_T (1 + - 0) 0); [lra|]. f_equal. field. }
    rewrite Ed. change (d_mul xops (XFin (exp (llf y2 + - llf x))) (XFin 1)) with (XFin (exp (llf y2 + - llf x) * 1)). cbn [accept_probability].
    rewrite Rmult_1_r, exp_plus, exp_Ropp, <- Px, <- P2, P1. fold (pi y2 / pi x). unfold alpha2. rewrite !alpha1_zero, Rminus_0_r, !Rmult_1_r. fold (Rdiv (pi y2) (pi x)).
    apply Rmax_right. unfold positive in *. apply Rmin_glb; [lra|]. apply Rlt_le, Rdiv_lt_0_compat; assumption.
Qed.
Lemma rejected_d : forall x y, positive lx x -> alpha1 (pi x) (pi y) <> 1 -> pi y < pi x.
Proof.
  intros x y Hx H. apply Rnot_le_lt. intros Hle. apply H. unfold alpha1. apply Rmin_left. unfold positive in Hx.
  apply Rmult_le_reg_r with (pi x); [assumption|]. unfold Rdiv. rewrite Rmult_assoc, Rinv_l, Rmult_1_r by lra. lra.
Qed.

(** ** The kernel *)
Lemma dker_nonneg : forall k x rj z, 0 <= ker k x rj z.
Proof.
  induction k as [|k IH]; intros x rj z; cbn [dr_kernel]; [destruct (eqX x z); lra|].
  apply sumR_nonneg. intros y _. apply Rmult_le_pos; [apply (dd_nonneg _ _ Hd)|]. pose proof (A_range x (rj ++ [y])).
  apply Rplus_le_le_0_compat; apply Rmult_le_pos; try lra; [destruct (eqX y z); lra|apply IH].
Qed.
Lemma dker_sum : forall k x rj, In x states -> incl rj states -> sumR (ker k x rj) states = 1.
Proof.
  induction k as [|k IH]; intros x rj Hx Hrj.
  - pose proof (DrdLaw.kernel_end lx prop states eqX states_nodup x rj (fun _ => 1) Hx) as H. rewrite <- H. apply sumR_ext_in. intros; ring.
  - pose proof (DrdLaw.kernel_apply lx prop states eqX states_nodup k x rj (fun _ => 1)) as H. cbv beta in H.
    rewrite (sumR_ext_in (ker (S k) x rj) (fun z => ker (S k) x rj z * 1)) by (intros; ring). rewrite H.
    transitivity (sumR (prop x rj) states); [|exact (dd_sum _ _ Hd x rj Hx Hrj)]. apply sumR_ext_in. intros y Hy.
    rewrite (sumR_ext_in (fun z => ker k x (rj ++ [y]) z * 1) (ker k x (rj ++ [y]))) by (intros; ring). rewrite IH; [ring|exact Hx|].
    apply incl_app; [exact Hrj|]. intros z [->|[]]. exact Hy.
Qed.
Lemma dker_first : forall k x rj z, In z states -> prop x rj z * A x (rj ++ [z]) <= ker (S k) x rj z.
Proof.
  intros k x rj z Hz. cbn [dr_kernel].
  eapply Rle_trans; [|apply (sumR_member (fun y => prop x rj y * (A x (rj ++ [y]) * (if eqX y z then 1 else 0) + (1 - A x (rj ++ [y])) * ker k x (rj ++ [y]) z)) states z)].
  - destruct (eqX z z); [|congruence]. apply Rmult_le_compat_l; [apply (dd_nonneg _ _ Hd)|]. pose proof (A_range x (rj ++ [z])). pose proof (dker_nonneg k x (rj ++ [z]) z).
    assert (0 <= (1 - A x (rj ++ [z])) * ker k x (rj ++ [z]) z) by (apply Rmult_le_pos; lra). lra.
  - intros y _. apply Rmult_le_pos; [apply (dd_nonneg _ _ Hd)|]. pose proof (A_range x (rj ++ [y])).
    apply Rplus_le_le_0_compat; apply Rmult_le_pos; try lra; [destruct (eqX y z); lra|apply dker_nonneg].
  - exact Hz.
Qed.
(** nothing leaves the support *)
Lemma dker_out : forall k x rj z, positive lx x -> ~ positive lx z -> ker k x rj z = 0.
Proof.
  induction k as [|k IH]; intros x rj z Hx Hz; cbn [dr_kernel].
  - destruct (eqX x z) as [->|]; [contradiction|reflexivity].
  - rewrite (sumR_ext_in _ (fun _ => 0)); [apply sumR_zero|]. intros y _. rewrite IH by assumption.
    destruct (eqX y z) as [->|]; [|ring]. rewrite code_dead by (now apply npos_ll). ring.
Qed.
Lemma dker_published : forall k x z, positive lx x -> (k <= 2)%nat -> ker k x [] z = dr_kernel states eqX prop (published_density lx) k x [] z.
Proof.
  intros k x z Hx Hk. destruct k as [|k]; [reflexivity|]. cbn [dr_kernel app]. apply sumR_ext_in. intros y _. rewrite first_d by exact Hx. cbn [published_density]. f_equal. f_equal.
  destruct k as [|k]; [reflexivity|]. destruct k as [|k]; [|lia].
  destruct (Req_dec (alpha1 (pi x) (pi y)) 1) as [->|Hn]; [ring|]. apply rejected_d in Hn; [|exact Hx]. f_equal. cbn [dr_kernel app]. apply sumR_ext_in. intros y2 _.
  now rewrite second_d.
Qed.
Lemma dK_reach : forall k x y, positive lx x -> positive lx y -> In y states -> 0 < prop x [] y -> 0 < ker (S k) x [] y.
Proof.
  intros k x y Hx Hyp Hy H. eapply Rlt_le_trans; [|now apply dker_first]. apply Rmult_lt_0_compat; [exact H|]. cbn [app]. rewrite first_d by exact Hx. unfold alpha1.
  apply Rmin_glb_lt; [lra|]. apply Rdiv_lt_0_compat; assumption.
Qed.

(** ** Balance *)
Local Notation pker := (dr_kernel states eqX prop (published_density lx)).
Lemma dpker_off1 : forall x rj z, In z states -> x <> z -> pker 1 x rj z = prop x rj z * published_density lx x (rj ++ [z]).
Proof.
  intros x rj z Hz Hn. cbn [dr_kernel]. destruct (eqX x z); [contradiction|].
  rewrite (sumR_ext_in _ (fun y => if eqX y z then prop x rj y * published_density lx x (rj ++ [y]) else 0)) by (intros y _; destruct (eqX y z); ring).
  now apply (sumR_delta eqX (fun y => prop x rj y * published_density lx x (rj ++ [y]))).
Qed.
Lemma dpker_off2 : forall x z, In z states -> x <> z ->
  pker 2 x [] z = prop x [] z * alpha1 (pi x) (pi z) + sumR (fun y => prop x [] y * (1 - alpha1 (pi x) (pi y)) * (prop x [y] z * alpha2 (pi x) (pi y) (pi z))) states.
Proof.
  intros x z Hz Hn.
  assert (E : pker 2 x [] z = sumR (fun y => prop x [] y * (alpha1 (pi x) (pi y) * (if eqX y z then 1 else 0) + (1 - alpha1 (pi x) (pi y)) * pker 1 x [y] z)) states) by reflexivity.
  rewrite E. rewrite (sumR_ext_in _ (fun y => (if eqX y z then prop x [] y * alpha1 (pi x) (pi y) else 0) + prop x [] y * (1 - alpha1 (pi x) (pi y)) * (prop x [y] z * alpha2 (pi x) (pi y) (pi z)))).
  - rewrite sumR_plus. f_equal. now apply (sumR_delta eqX (fun y => prop x [] y * alpha1 (pi x) (pi y))).
  - intros y _. rewrite dpker_off1 by assumption. cbn [app published_density]. destruct (eqX y z); ring.
Qed.
Lemma alpha1_balance : forall a b, 0 < a -> 0 < b -> a * alpha1 a b = b * alpha1 b a.
Proof.
  assert (G : forall a b, 0 < a -> 0 < b -> a * alpha1 a b = Rmin a b).
  { intros a b Ha Hb. unfold alpha1, Rmin. destruct (Rle_dec 1 (b / a)) as [L|L], (Rle_dec a b) as [L'|L']; try (field; lra); try lra.
    - exfalso. apply L'. apply Rmult_le_reg_r with (/ a); [now apply Rinv_0_lt_compat|]. rewrite Rinv_r by lra. exact L.
    - assert (1 <= b / a); [|contradiction]. apply Rmult_le_reg_r with a; [exact Ha|]. unfold Rdiv. rewrite Rmult_assoc, Rinv_l by lra. lra. }
  intros a b Ha Hb. rewrite !G by assumption. apply Rmin_comm.
Qed.
Lemma alpha2_bal : forall a c b, 0 < a -> 0 <= c -> 0 < b -> a * (1 - alpha1 a c) * alpha2 a c b = b * (1 - alpha1 b c) * alpha2 b c a.
Proof.
  intros a c b Ha [Hc|<-] Hb; [now apply alpha2_balance|]. unfold alpha2. rewrite !alpha1_zero, !Rminus_0_r, !Rmult_1_r. exact (alpha1_balance a b Ha Hb).
Qed.
Section Sym.
Hypothesis Hsym : path_symmetric prop.
Lemma dbalance : forall m, (m <= 1)%nat -> forall x z, In x states -> In z states -> positive lx x -> positive lx z ->
  pi x * ker (m + 1) x [] z = pi z * ker (m + 1) z [] x.
Proof.
  destruct Hsym as [Hs1 H2]. intros m Hm x z Hx Hz Px Pz. destruct (eqX x z) as [->|Hn]; [reflexivity|].
  rewrite !dker_published by (try assumption; lia).
  assert (F : pi x * (prop x [] z * alpha1 (pi x) (pi z)) = pi z * (prop z [] x * alpha1 (pi z) (pi x))).
  { rewrite (Hs1 z x). replace (pi x * (prop x [] z * alpha1 (pi x) (pi z))) with (prop x [] z * (pi x * alpha1 (pi x) (pi z))) by ring.
    rewrite (alpha1_balance _ _ Px Pz). ring. }
  destruct m as [|[|]]; [..|lia]; cbn [Nat.add].
  - rewrite !dpker_off1 by congruence. exact F.
  - rewrite !dpker_off2 by congruence. rewrite !Rmult_plus_distr_l, F. f_equal. rewrite <- !sumR_scal. apply sumR_ext_in. intros y _.
    replace (pi x * (prop x [] y * (1 - alpha1 (pi x) (pi y)) * (prop x [y] z * alpha2 (pi x) (pi y) (pi z))))
      with (prop x [] y * prop x [y] z * (pi x * (1 - alpha1 (pi x) (pi y)) * alpha2 (pi x) (pi y) (pi z))) by ring.
    rewrite (H2 x y z), (alpha2_bal _ _ _ Px (pi_nonneg y) Pz). ring.
Qed.
End Sym.

(** ** The chain on the support *)
Lemma in_lsupp : forall x, In x inside <-> In x states /\ positive lx x.
Proof. intros x. unfold lsupp. rewrite filter_In. unfold positive. destruct (Rlt_dec 0 (pi x)); split; intros [B C]; (split; [exact B|]); try reflexivity; try assumption; try discriminate; contradiction. Qed.
Lemma lsupp_nodup : NoDup inside. Proof. now apply NoDup_filter. Qed.
Lemma lsum_inside : forall f l, (forall y, In y l -> ~ positive lx y -> f y = 0) -> sumR f (lsupp lx l) = sumR f l.
Proof.
  intros f l. induction l as [|y l IH]; intros H; [reflexivity|]. unfold lsupp in *. cbn [filter sumR]. destruct (Rlt_dec 0 (pi y)) as [P|P].
  - cbn [sumR]. rewrite IH by (intros z Hz; apply H; now right). reflexivity.
  - rewrite IH by (intros z Hz; apply H; now right). rewrite (H y (or_introl eq_refl) P). ring.
Qed.
Lemma ltotal : sumR (fun y => exp (llf y)) inside = sumR pi states.
Proof.
  rewrite (sumR_ext_in _ pi) by (intros x Hx; apply in_lsupp in Hx as [_ Hs]; symmetry; now apply pos_ll). apply lsum_inside.
  intros y _ Hy. now destruct (npos_ll y Hy).
Qed.
Lemma ltarget_inside : forall x, positive lx x -> target inside llf x = p x.
Proof. intros x Hx. unfold target, ltarget. rewrite ltotal. destruct (pos_ll x Hx) as [_ ->]. reflexivity. Qed.
Lemma lmean_inside : forall f, mean_in inside (target inside llf) f = mean_in states p f.
Proof.
  intros f. unfold mean_in. rewrite (sumR_ext_in _ (fun x => p x * f x)) by (intros x Hx; apply in_lsupp in Hx as [_ Hs]; now rewrite ltarget_inside).
  apply lsum_inside. intros y _ Hy. destruct (npos_ll y Hy) as [_ Z]. unfold ltarget. rewrite Z. unfold Rdiv. ring.
Qed.
Section Chain.
Variable m : nat.
Local Notation K := (fun x y => ker (m + 1) x [] y).
Theorem drd_law : forall x0 n, In x0 states -> forall g, l_dr_expectation lx prop ratio states x0 m n g (markov states K n x0 g).
Proof. intros x0 n Hx0 g. exact (DrdLaw.dr_law lx prop ratio states x0 m n eqX states_nodup Hd Hx0 g). Qed.
Lemma K_ins_nn : forall x y, In x inside -> In y inside -> 0 <= K x y.
Proof. intros. apply dker_nonneg. Qed.
Lemma K_ins_sum : forall x, In x inside -> sumR (K x) inside = 1.
Proof.
  intros x Hx. apply in_lsupp in Hx as [Hx Hs]. rewrite lsum_inside by (intros; now apply dker_out). apply (dker_sum (m + 1) x [] Hx). intros z [].
Qed.
Lemma lmarkov_inside : forall n x g, In x inside -> markov states K n x g = markov inside K n x g.
Proof.
  induction n as [|n IH]; intros x g Hx; [reflexivity|]. cbn [markov]. pose proof Hx as Hx'. apply in_lsupp in Hx' as [_ Hs].
  rewrite <- (lsum_inside (fun y => K x y * markov states K n y (fun l => g (y :: l))) states).
  - apply sumR_ext_in. intros y Hy. now rewrite IH.
  - intros y _ Hy. rewrite (dker_out _ x [] y Hs Hy). ring.
Qed.
Lemma all_pos_inside : forall n x, In x inside -> markov inside K n x (all_positive lx) = 1.
Proof.
  induction n as [|n IH]; intros x Hx; [reflexivity|]. cbn [markov].
  rewrite (sumR_ext_in _ (K x)); [now apply K_ins_sum|]. intros y Hy. rewrite (markov_ext inside K n y _ (all_positive lx)).
  - rewrite IH by exact Hy. ring.
  - intros l _. cbn [all_positive]. apply in_lsupp in Hy as [_ Hy]. destruct (Rlt_dec 0 (pi y)); [reflexivity|contradiction].
Qed.
Theorem drd_stays : forall x0 n, In x0 inside -> l_dr_expectation lx prop ratio states x0 m n (all_positive lx) 1.
Proof.
  intros x0 n Hx0. pose proof Hx0 as Hx0'. apply in_lsupp in Hx0' as [Hx _]. rewrite <- (all_pos_inside n x0 Hx0), <- lmarkov_inside by exact Hx0. now apply drd_law.
Qed.
Hypothesis Hsym : path_symmetric prop.
Hypothesis Hm : (m <= 1)%nat.
Lemma K_ins_stationary : forall y, In y inside -> sumR (fun x => target inside llf x * K x y) inside = target inside llf y.
Proof.
  intros y Hy. pose proof Hy as Hy'. apply in_lsupp in Hy' as [Hys Hyp]. unfold target.
  rewrite (sumR_ext_in _ (fun x => K y x * (exp (llf y) / sumR (fun y => exp (llf y)) inside))).
  - rewrite sumR_mult_r, K_ins_sum by exact Hy. ring.
  - intros x Hx. apply in_lsupp in Hx as [Hxs Hxp]. rewrite <- (proj2 (pos_ll x Hxp)), <- (proj2 (pos_ll y Hyp)).
    replace (pi x / sumR (fun y0 => exp (llf y0)) inside * K x y) with (pi x * K x y / sumR (fun y0 => exp (llf y0)) inside) by (unfold Rdiv; ring).
    rewrite (dbalance Hsym m Hm x y Hxs Hys Hxp Hyp). unfold Rdiv. ring.
Qed.
Local Notation q := (fun x y => prop x [] y).
Lemma K_ins_pos : forall x y, In x inside -> In y inside -> 0 < q x y -> 0 < K x y.
Proof. intros x y Hx Hy H. apply in_lsupp in Hx as [Hx Hxp]. apply in_lsupp in Hy as [Hy Hyp]. rewrite Nat.add_1_r. now apply dK_reach. Qed.
Theorem drd_converges : forall k, (0 < k)%nat -> (forall x y, In x inside -> In y inside -> reaches inside q k x y) ->
  exists d, 0 < d <= 1 /\ forall x0 y n, In x0 inside -> In y states ->
  exists v, l_dr_expectation lx prop ratio states x0 m n (ends_at eqX x0 y) v /\ Rabs (v - p y) <= (1 - d) ^ (n / k).
Proof.
  intros k Hk Hr. destruct (c_converges eqX llf inside K lsupp_nodup K_ins_nn K_ins_sum K_ins_stationary q K_ins_pos k Hk Hr) as (d & Hd1 & Hc).
  exists d. split; [exact Hd1|]. intros x0 y n Hx0 Hy. pose proof Hx0 as Hx0'. apply in_lsupp in Hx0' as [Hxi Hxs].
  eexists. split; [now apply drd_law|]. rewrite lmarkov_inside by exact Hx0.
  destruct (pos_dec y) as [P|P].
  - rewrite <- ltarget_inside by exact P. apply Hc; [exact Hx0|]. now apply in_lsupp.
  - destruct (npos_ll y P) as [_ Z].
    assert (E : markov inside K n x0 (ends_at eqX x0 y) = 0).
    { rewrite ends_step. unfold MarkovFinite.step.
      assert (G : forall k x, In x inside -> it inside K k (delta eqX y) x = 0).
      { induction k0 as [|k0 IHk]; intros x Hx.
        - cbn. unfold delta. destruct (eqX x y) as [->|]; [|reflexivity]. apply in_lsupp in Hx as [_ Hx]. contradiction.
        - cbn [it]. unfold MarkovFinite.P. rewrite (sumR_ext_in _ (fun _ => 0)) by (intros z Hz; rewrite IHk by exact Hz; ring). apply sumR_zero. }
      now apply G. }
    rewrite E. unfold ltarget. rewrite Z. unfold Rdiv. rewrite Rmult_0_l, Rminus_0_r, Rabs_R0. apply pow_le. lra.
Qed.
Lemma drd_code : forall (F : R -> R) f x0 n, In x0 inside -> (0 < n)%nat -> (N.of_nat n < two64)%N ->
  l_dr_expectation lx prop ratio states x0 m n (fun l => F (estimate f l)) (markov states K n x0 (fun l => F (sample_average f l))).
Proof.
  intros F f x0 n Hx0 Hn Hn64. apply in_lsupp in Hx0 as [Hxi Hxs].
  rewrite (markov_ext states K n x0 (fun l => F (sample_average f l)) (fun l => F (estimate f l))); [now apply drd_law|].
  intros l Hl. rewrite estimate_mean; [reflexivity| |now rewrite Hl]. intros ->. clear - Hl Hn. cbn in Hl. lia.
Qed.
Theorem drd_mean_square : (forall x y, In x inside -> In y inside -> exists k, reaches inside q k x y) ->
  forall f, exists C, forall x0 n, In x0 inside -> (0 < n)%nat ->
  exists v, v <= C / INR n /\ l_dr_expectation lx prop ratio states x0 m n (fun l => (sample_average f l - mean_in states p f) ^ 2) v /\
    ((N.of_nat n < two64)%N -> l_dr_expectation lx prop ratio states x0 m n (fun l => (estimate f l - mean_in states p f) ^ 2) v).
Proof.
  intros Hr f. destruct (c_averages eqX llf inside K lsupp_nodup K_ins_nn K_ins_sum K_ins_stationary q K_ins_pos Hr f) as (C & HC).
  rewrite lmean_inside in HC. exists C. intros x0 n Hx0 Hn. pose proof Hx0 as Hx0'. apply in_lsupp in Hx0' as [Hxi Hxs].
  eexists. split; [|split; [now apply drd_law|intros Hn64; now apply (drd_code (fun a => (a - mean_in states p f) ^ 2))]].
  rewrite lmarkov_inside by exact Hx0. now apply HC.
Qed.
Theorem drd_far : (forall x y, In x inside -> In y inside -> exists k, reaches inside q k x y) ->
  forall f, exists C, forall eps x0 n, 0 < eps -> In x0 inside -> (0 < n)%nat ->
  exists v, 0 <= v <= C / (INR n * eps ^ 2) /\ l_dr_expectation lx prop ratio states x0 m n (fun l => indicator (far eps (sample_average f l) (mean_in states p f))) v /\
    ((N.of_nat n < two64)%N -> l_dr_expectation lx prop ratio states x0 m n (fun l => indicator (far eps (estimate f l) (mean_in states p f))) v).
Proof.
  intros Hr f. destruct (c_far eqX llf inside K lsupp_nodup K_ins_nn K_ins_sum K_ins_stationary q K_ins_pos Hr f) as (C & HC).
  rewrite lmean_inside in HC. exists C. intros eps x0 n He Hx0 Hn. pose proof Hx0 as Hx0'. apply in_lsupp in Hx0' as [Hxi Hxs].
  eexists. split; [|split; [now apply drd_law|intros Hn64; now apply (drd_code (fun a => indicator (far eps a (mean_in states p f))))]].
  rewrite lmarkov_inside by exact Hx0. now apply HC.
Qed.
End Chain.
End Kernel.
