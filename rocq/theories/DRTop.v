(** Top-level proofs about runs of DelayedRejectionMetropolisHastings. *)
From Coq Require Import Reals Lra Lia Field.
From Coquelicot Require Import Coquelicot.
From Verif Require Import Prelude ProducerModel ProducerSpec XReal MHSpec MHProofs DRReal DRAlpha DRRun MHRunSpec DEStat MarkovFinite MHRun DRRunSpec DRLaw MarkovTop DRStat.
Import ListNotations.
Local Open Scope R_scope.
Local Open Scope list_scope.
Local Notation length := List.length.

Lemma markov_K_ext : forall {X} (states : list X) (K K' : X -> X -> R), (forall x y, In x states -> In y states -> K x y = K' x y) ->
  forall n x g, In x states -> markov states K n x g = markov states K' n x g.
Proof.
  intros X states K K' H. induction n as [|n IH]; intros x g Hx; [reflexivity|]. cbn [markov]. apply sumR_ext_in. intros y Hy. rewrite H, IH by assumption. reflexivity.
Qed.

Section Top.
Context {X : Type}.
Variable eqX : forall x y : X, {x = y} + {x <> y}.
Variables (ll : X -> R) (prop ratio : X -> list X -> X -> R) (states : list X).
Hypothesis states_nodup : NoDup states.
Hypothesis Hd : dr_distribution states prop.
Local Notation p := (target states ll).
Local Notation K m := (fun x y => dr_kernel states eqX prop (code_accepts ll) (m + 1) x [] y).

Theorem t_law : forall x0 m n, In x0 states -> forall g,
  dr_expectation ll prop ratio states x0 m n g (markov states (K m) n x0 g).
Proof. intros x0 m n Hx0 g. exact (dr_law ll prop ratio states x0 m n eqX states_nodup Hd Hx0 g). Qed.
Theorem t_law_one : forall x0 m n, (m <= 1)%nat -> In x0 states -> forall g,
  dr_expectation ll prop ratio states x0 m n g (markov states (fun x y => dr_kernel states eqX prop (published ll) (m + 1) x [] y) n x0 g).
Proof.
  intros x0 m n Hm Hx0 g. rewrite <- (markov_K_ext states (K m)); [now apply t_law|..|exact Hx0]. intros x y Hx Hy. apply ker_published. lia.
Qed.

Lemma K_nn : forall m x y, In x states -> In y states -> 0 <= K m x y.
Proof. intros. now apply ker_nonneg. Qed.
Lemma K_s : forall m x, In x states -> sumR (K m x) states = 1.
Proof. intros m x Hx. apply (ker_sum eqX ll prop states states_nodup Hd (m + 1) x [] Hx). intros z []. Qed.

Section Preserved.
Hypothesis Hsym : path_symmetric prop.
Variable m : nat.
Hypothesis Hm : (m <= 1)%nat.
Lemma K_st : forall y, In y states -> sumR (fun x => p x * K m x y) states = p y.
Proof.
  destruct Hsym as [H1 H2]. intros y Hy. apply (stationary eqX ll prop states states_nodup Hd H1 m); [|exact Hy].
  destruct m as [|[|]]; [now left|right; auto|lia].
Qed.
Theorem t_preserved : forall n y v, In y states ->
  (forall x0, In x0 states -> dr_expectation ll prop ratio states x0 m n (ends_at eqX x0 y) (v x0)) ->
  mean_in states p v = p y.
Proof.
  intros n y v Hy Hv. unfold mean_in.
  rewrite (sumR_ext_in _ (fun x => p x * it states (K m) n (delta eqX y) x)).
  - rewrite <- (mean_delta eqX ll states states_nodup y Hy). exact (it_mean states (K m) p K_st n (delta eqX y)).
  - intros x Hx. f_equal. rewrite (proj2 (t_law x m n Hx (ends_at eqX x y)) (v x)); [|exact (proj1 (Hv x Hx))]. exact (ends_step eqX states (K m) n x y).
Qed.
Theorem t_converges_beta : forall b, 0 < b -> (forall x y, In x states -> In y states -> b <= prop x [] y) ->
  forall x0 y n, In x0 states -> In y states ->
  exists v, dr_expectation ll prop ratio states x0 m n (ends_at eqX x0 y) v /\ Rabs (v - p y) <= (1 - b) ^ n.
Proof.
  intros b Hb Hpb x0 y n Hx0 Hy. eexists. split; [now apply t_law|].
  rewrite <- (Nat.div_1_r n) at 2. apply (c_converges_at eqX ll states (K m) states_nodup (K_nn m) (K_s m) K_st 1 b); auto.
  intros x z Hx Hz. rewrite (c_step_1 eqX states (K m) states_nodup x z Hx Hz). rewrite Nat.add_1_r. apply K_beta; auto.
Qed.
Local Notation q := (fun x y => prop x [] y).
Lemma K_p : forall x y, In x states -> In y states -> 0 < q x y -> 0 < K m x y.
Proof. intros x y Hx Hy H. rewrite Nat.add_1_r. now apply K_reach. Qed.
Theorem t_converges : forall k, (0 < k)%nat -> (forall x y, In x states -> In y states -> reaches states q k x y) ->
  exists d, 0 < d <= 1 /\ forall x0 y n, In x0 states -> In y states ->
  exists v, dr_expectation ll prop ratio states x0 m n (ends_at eqX x0 y) v /\ Rabs (v - p y) <= (1 - d) ^ (n / k).
Proof.
  intros k Hk Hr. destruct (c_converges eqX ll states (K m) states_nodup (K_nn m) (K_s m) K_st q K_p k Hk Hr) as (d & Hd1 & H).
  exists d. split; [exact Hd1|]. intros x0 y n Hx0 Hy. eexists. split; [now apply t_law|]. now apply H.
Qed.
Lemma t_code : forall F f x0 n v, In x0 states -> (0 < n)%nat -> (N.of_nat n < two64)%N ->
  dr_expectation ll prop ratio states x0 m n (fun l => F (sample_average f l)) v -> dr_expectation ll prop ratio states x0 m n (fun l => F (estimate f l)) v.
Proof.
  intros F f x0 n v Hx0 Hn Hn64 Hv. assert (v = markov states (K m) n x0 (fun l => F (sample_average f l))) as -> by (exact (proj2 (t_law x0 m n Hx0 _) v (proj1 Hv))).
  rewrite (markov_ext states (K m) n x0 (fun l => F (sample_average f l)) (fun l => F (estimate f l))); [now apply t_law|].
  intros l Hl. rewrite estimate_mean; [reflexivity| |now rewrite Hl]. intros ->. clear - Hl Hn. cbn in Hl. lia.
Qed.
Theorem t_averages : (forall x y, In x states -> In y states -> exists k, reaches states q k x y) ->
  forall f, exists C, forall x0 n, In x0 states -> (0 < n)%nat ->
  exists v, v <= C / INR n /\ dr_expectation ll prop ratio states x0 m n (fun l => (sample_average f l - mean_in states p f) ^ 2) v /\
    ((N.of_nat n < two64)%N -> dr_expectation ll prop ratio states x0 m n (fun l => (estimate f l - mean_in states p f) ^ 2) v).
Proof.
  intros Hr f. destruct (c_averages eqX ll states (K m) states_nodup (K_nn m) (K_s m) K_st q K_p Hr f) as (C & HC).
  exists C. intros x0 n Hx0 Hn. pose proof (t_law x0 m n Hx0 (fun l => (sample_average f l - mean_in states p f) ^ 2)) as HF. eexists. split; [|split; [exact HF|intros Hn64; now apply (t_code (fun a => (a - mean_in states p f) ^ 2))]].
  now apply HC.
Qed.
Theorem t_far : (forall x y, In x states -> In y states -> exists k, reaches states q k x y) ->
  forall f, exists C, forall eps x0 n, 0 < eps -> In x0 states -> (0 < n)%nat ->
  exists v, 0 <= v <= C / (INR n * eps ^ 2) /\ dr_expectation ll prop ratio states x0 m n (fun l => indicator (far eps (sample_average f l) (mean_in states p f))) v /\
    ((N.of_nat n < two64)%N -> dr_expectation ll prop ratio states x0 m n (fun l => indicator (far eps (estimate f l) (mean_in states p f))) v).
Proof.
  intros Hr f. destruct (c_far eqX ll states (K m) states_nodup (K_nn m) (K_s m) K_st q K_p Hr f) as (C & HC).
  exists C. intros eps x0 n He Hx0 Hn. pose proof (t_law x0 m n Hx0 (fun l => indicator (far eps (sample_average f l) (mean_in states p f)))) as HF.
  eexists. split; [|split; [exact HF|intros Hn64; now apply (t_code (fun a => indicator (far eps a (mean_in states p f))))]]. now apply HC.
Qed.
End Preserved.

(** a distribution to which the code converges is preserved *)
Lemma t_limit : forall m x0 (d : X -> R), In x0 states ->
  (forall y, In y states -> exists v, (forall n, dr_expectation ll prop ratio states x0 m n (ends_at eqX x0 y) (v n)) /\ is_lim_seq v (d y)) ->
  forall y, In y states -> sumR (fun x => d x * K m x y) states = d y.
Proof.
  intros m x0 d Hx0 H. apply (limit_preserved eqX states (K m) states_nodup d x0 Hx0).
  intros y Hy. destruct (H y Hy) as (v & Hv & Hl). apply (is_lim_seq_ext v); [|exact Hl].
  intros n. transitivity (markov states (K m) n x0 (ends_at eqX x0 y)); [|apply ends_step].
  exact (proj2 (t_law x0 m n Hx0 (ends_at eqX x0 y)) (v n) (proj1 (Hv n))).
Qed.
End Top.

(** ** Proposals from the rejected sample *)
Definition from_rejected {X} (q : X -> X -> R) (x : X) (rejected : list X) (y : X) : R := q (last rejected x) y.
Lemma from_rejected_ok : forall X (states : list X) (q : X -> X -> R), (forall x y, 0 <= q x y) -> (forall x, In x states -> sumR (q x) states = 1) ->
  (forall x y, q x y = q y x) -> dr_distribution states (from_rejected q) /\ path_symmetric (from_rejected q).
Proof.
  intros X states q H0 H1 Hs. split; [constructor|split].
  - intros. apply H0.
  - intros x rj Hx Hrj. apply H1. destruct rj as [|y rj] using rev_ind; [exact Hx|]. rewrite last_last. apply Hrj, in_or_app. right. now left.
  - intros x y. apply Hs.
  - intros x y1 y2. unfold from_rejected. cbn [last]. rewrite (Hs x y1), (Hs y1 y2). ring.
Qed.

(** ** A symmetric random walk on a circle of four states *)
Definition circle : list nat := [0; 1; 2; 3]%nat.
Definition neighbours (x y : nat) : bool := ((Nat.modulo (x + 1) 4 =? y) || (Nat.modulo (y + 1) 4 =? x))%nat%bool.
Definition walk (x : nat) (_ : list nat) (y : nat) : R := if neighbours x y then 1/2 else 0.
Definition walk_ll (x : nat) : R := ln (if (x =? 0)%nat then 1 else 2).
Lemma circle_nodup : NoDup circle.
Proof. repeat (constructor; [cbn; lia|]). constructor. Qed.
Lemma walk_distribution : dr_distribution circle walk.
Proof.
  constructor.
  - intros x rj y. unfold walk. destruct (neighbours x y); lra.
  - intros x rj Hx _. unfold circle in Hx. cbn in Hx. destruct Hx as [<-|[<-|[<-|[<-|[]]]]]; cbn; lra.
Qed.
Lemma walk_symmetric : pairwise_symmetric walk.
Proof. intros x rj y. unfold walk, neighbours. rewrite Bool.orb_comm. reflexivity. Qed.
Lemma walk_exp : forall x, exp (walk_ll x) = if (x =? 0)%nat then 1 else 2.
Proof. intros x. unfold walk_ll. apply exp_ln. destruct (x =? 0)%nat; lra. Qed.

Local Notation wker k := (dr_kernel circle Nat.eq_dec walk (code_accepts walk_ll) k).
Lemma wker_nonneg : forall k x rj z, 0 <= wker k x rj z.
Proof. intros. apply ker_nonneg. exact walk_distribution. Qed.
Lemma wacc1 : code_accepts walk_ll 1%nat [0%nat] = 1/2.
Proof. rewrite code_first. cbn [published]. rewrite !walk_exp. cbn. unfold alpha1. rewrite Rmin_right by lra. lra. Qed.
Lemma wacc3 : code_accepts walk_ll 3%nat [0%nat] = 1/2.
Proof. rewrite code_first. cbn [published]. rewrite !walk_exp. cbn. unfold alpha1. rewrite Rmin_right by lra. lra. Qed.
Lemma wlt : walk_ll 0%nat < walk_ll 1%nat.
Proof. unfold walk_ll. cbn. apply ln_increasing; lra. Qed.
Lemma wacc_eq : forall x y, x <> 0%nat -> y <> 0%nat -> code_accepts walk_ll x [y] = 1.
Proof.
  intros x y Hx Hy. rewrite code_first. cbn [published]. rewrite !walk_exp. destruct (Nat.eqb_spec x 0), (Nat.eqb_spec y 0); try contradiction.
  unfold alpha1. apply Rmin_left. lra.
Qed.
Lemma wacc2 : forall x, x <> 0%nat -> code_accepts walk_ll x [0%nat; 2%nat] = 1.
Proof.
  intros x Hx. rewrite code_second.
  - cbn [published]. rewrite !walk_exp. destruct (Nat.eqb_spec x 0); [contradiction|]. cbn. unfold alpha2, alpha1. rewrite (Rmin_right 1 (1/2)) by lra. apply Rmin_left. right. field.
  - unfold walk_ll. destruct (Nat.eqb_spec x 0); [contradiction|]. cbn. apply ln_increasing; lra.
Qed.
Lemma wflow : forall k x, x = 1%nat \/ x = 3%nat -> 5/8 <= wker (S (S k)) x [] 2%nat.
Proof.
  intros k x Hx.
  assert (Hx0 : x <> 0%nat) by lia.
  assert (H1 : 1/2 <= wker (S k) x [0%nat] 2%nat).
  { eapply Rle_trans; [|apply (ker_first Nat.eq_dec walk_ll walk circle walk_distribution k x [0%nat] 2%nat); cbn; auto].
    cbn [app]. rewrite (wacc2 x Hx0). destruct Hx as [-> | ->]; cbn; lra. }
  assert (E : wker (S (S k)) x [] 2%nat = sumR (fun y => walk x [] y * (code_accepts walk_ll x [y] * (if Nat.eq_dec y 2 then 1 else 0) + (1 - code_accepts walk_ll x [y]) * wker (S k) x [y] 2%nat)) circle) by reflexivity.
  rewrite E. cbn [circle sumR]. rewrite (wacc_eq x 2 Hx0) by lia.
  assert (Ha : code_accepts walk_ll x [0%nat] = 1/2) by (destruct Hx as [-> | ->]; [exact wacc1|exact wacc3]). rewrite Ha.
  assert (W0 : walk x [] 0%nat = 1/2) by (destruct Hx as [-> | ->]; reflexivity).
  assert (W1 : walk x [] 1%nat = 0) by (destruct Hx as [-> | ->]; reflexivity).
  assert (W2 : walk x [] 2%nat = 1/2) by (destruct Hx as [-> | ->]; reflexivity).
  assert (W3 : walk x [] 3%nat = 0) by (destruct Hx as [-> | ->]; reflexivity).
  rewrite W0, W1, W2, W3. destruct (Nat.eq_dec 0 2), (Nat.eq_dec 2 2); try lia. lra.
Qed.
Lemma wsum : sumR (fun y => exp (walk_ll y)) circle = 7.
Proof. cbn [circle sumR]. rewrite !walk_exp. cbn. lra. Qed.
Theorem walk_not_preserved : forall m, (1 <= m)%nat ->
  target circle walk_ll 2%nat < sumR (fun x => target circle walk_ll x * wker (m + 1) x [] 2%nat) circle.
Proof.
  intros m Hm. destruct m as [|k]; [lia|]. replace (S k + 1)%nat with (S (S k)) by lia.
  unfold target. rewrite wsum. cbn [circle sumR]. rewrite !walk_exp. cbn [Nat.eqb].
  pose proof (wflow k 1%nat (or_introl eq_refl)). pose proof (wflow k 3%nat (or_intror eq_refl)).
  pose proof (wker_nonneg (S (S k)) 0%nat [] 2%nat). pose proof (wker_nonneg (S (S k)) 2%nat [] 2%nat). lra.
Qed.
Theorem walk_not_converging : forall ratio m x0, (1 <= m)%nat -> In x0 circle ->
  ~ (forall y, In y circle -> exists v, (forall n, dr_expectation walk_ll walk ratio circle x0 m n (ends_at Nat.eq_dec x0 y) (v n)) /\ is_lim_seq v (target circle walk_ll y)).
Proof.
  intros ratio m x0 Hm Hx0 H. assert (H2 : In 2%nat circle) by (cbn; auto).
  pose proof (t_limit Nat.eq_dec walk_ll walk ratio circle circle_nodup walk_distribution m x0 _ Hx0 H 2%nat H2) as HL.
  pose proof (walk_not_preserved m Hm). lra.
Qed.

(** ** Independent uniform proposals, two delays *)
Definition three : list nat := [0; 1; 2]%nat.
Definition uniform3 (_ : nat) (_ : list nat) (_ : nat) : R := 1/3.
Definition dens3 (x : nat) : R := match x with 0%nat => 3 | 1%nat => 2 | _ => 1 end.
Definition ll3 (x : nat) : R := ln (dens3 x).
Lemma three_nodup : NoDup three.
Proof. repeat (constructor; [cbn; lia|]). constructor. Qed.
Lemma uniform3_distribution : dr_distribution three uniform3.
Proof. constructor; intros; unfold uniform3, three; cbn; lra. Qed.
Lemma dens3_pos : forall x, 0 < dens3 x.
Proof. intros [|[|]]; cbn; lra. Qed.
Lemma exp3 : forall x, exp (ll3 x) = dens3 x.
Proof. intros x. unfold ll3. apply exp_ln, dens3_pos. Qed.
Local Notation e3 x := (x, XFin (ll3 x)).
Local Notation al := (alpha xops).
Lemma a3_first : forall x y, al (e3 x) [e3 y] = XFin (dens3 y / dens3 x).
Proof.
  intros x y. change [e3 y] with ([] ++ [e3 y]). rewrite alpha_rec. cbn [length seq fold_left snd].
  change (d_exp xops (d_sub xops (XFin (ll3 y)) (XFin (ll3 x)))) with (XFin (exp (ll3 y + - ll3 x))). unfold ll3.
  now rewrite exp_minus_ln by apply dens3_pos.
Qed.
Lemma a3_second : forall x y z, al (e3 x) [e3 y; e3 z] =
  xmul (XFin (dens3 z / dens3 x)) (xdiv (XFin (1 + - (dens3 y / dens3 z))) (XFin (1 + - (dens3 y / dens3 x)))).
Proof.
  intros x y z. change [e3 y; e3 z] with ([e3 y] ++ [e3 z]). rewrite alpha_rec. cbn [length seq fold_left snd Nat.sub skipn firstn]. rewrite !a3_first.
  change (d_exp xops (d_sub xops (XFin (ll3 z)) (XFin (ll3 x)))) with (XFin (exp (ll3 z + - ll3 x))). unfold ll3.
  now rewrite exp_minus_ln by apply dens3_pos.
Qed.
Lemma a3_021 : al (e3 0%nat) [e3 2%nat; e3 1%nat] = XFin (1/2).
Proof. rewrite a3_second. cbn [dens3]. rewrite xdiv_fin by lra. cbn [xmul]. f_equal. field. Qed.
Lemma a3_221 : al (e3 2%nat) [e3 2%nat; e3 1%nat] = XPInf.
Proof.
  rewrite a3_second. cbn [dens3]. unfold xdiv. destruct (Req_EM_T (1 + - (1 / 1)) 0) as [_|H]; [|exfalso; apply H; field].
  destruct (Req_EM_T (1 + - (1 / 2)) 0) as [H|_]; [lra|]. unfold isneg. destruct (Rlt_dec (1 + - (1 / 2)) 0); [lra|]. cbn [xinf xmul].
  destruct (Req_EM_T (2 / 1) 0); [lra|]. unfold isneg. destruct (Rlt_dec (2 / 1) 0); [lra|]. reflexivity.
Qed.
Lemma a3_0212 : al (e3 0%nat) [e3 2%nat; e3 1%nat; e3 2%nat] = XPInf.
Proof.
  change [e3 2%nat; e3 1%nat; e3 2%nat] with ([e3 2%nat; e3 1%nat] ++ [e3 2%nat]). rewrite alpha_rec. cbn [length seq fold_left snd Nat.sub skipn firstn].
  rewrite !a3_first, a3_021, a3_221.
  change (d_exp xops (d_sub xops (XFin (ll3 2)) (XFin (ll3 0)))) with (XFin (exp (ll3 2 + - ll3 0))). unfold ll3. rewrite exp_minus_ln by apply dens3_pos. cbn [dens3].
  change (d_div xops (d_sub xops (d_one xops) (XFin (2 / 1))) (d_sub xops (d_one xops) (XFin (1 / 3)))) with (xdiv (XFin (1 + - (2 / 1))) (XFin (1 + - (1 / 3)))).
  rewrite xdiv_fin by lra.
  change (d_div xops (d_sub xops (d_one xops) XPInf) (d_sub xops (d_one xops) (XFin (1 / 2)))) with (xdiv XNInf (XFin (1 + - (1 / 2)))).
  cbn [xdiv]. unfold isneg. destruct (Rlt_dec (1 + - (1 / 2)) 0); [lra|]. cbn [negb xinf].
  change (d_mul xops (XFin (1 / 3)) (XFin ((1 + - (2 / 1)) / (1 + - (1 / 3))))) with (XFin (1 / 3 * ((1 + - (2 / 1)) / (1 + - (1 / 3))))).
  replace (1 / 3 * ((1 + - (2 / 1)) / (1 + - (1 / 3)))) with (-(1/2)) by field.
  change (d_mul xops (XFin (- (1 / 2))) XNInf) with (if Req_EM_T (- (1/2)) 0 then XNaN else xinf (negb (isneg (- (1/2))))).
  destruct (Req_EM_T (- (1/2)) 0); [lra|]. unfold isneg. destruct (Rlt_dec (- (1/2)) 0); [reflexivity|lra].
Qed.
Lemma c3_first : forall x y, code_accepts ll3 x [y] = Rmin 1 (dens3 y / dens3 x).
Proof. intros x y. rewrite code_first. cbn [published]. now rewrite !exp3. Qed.
Lemma c3_021 : code_accepts ll3 0%nat [2%nat; 1%nat] = 1/2.
Proof.
  change [2%nat; 1%nat] with ([2%nat] ++ [1%nat]). rewrite code_accepts_cratio. unfold cratio, with_ll. cbn [app map]. rewrite a3_021. cbn.
  rewrite Rmin_right, Rmax_right by lra. reflexivity.
Qed.
Lemma c3_0212 : code_accepts ll3 0%nat [2%nat; 1%nat; 2%nat] = 1.
Proof.
  change [2%nat; 1%nat; 2%nat] with ([2%nat; 1%nat] ++ [2%nat]). rewrite code_accepts_cratio. unfold cratio, with_ll. cbn [app map]. rewrite a3_0212. reflexivity.
Qed.
Local Notation uker k := (dr_kernel three Nat.eq_dec uniform3 (code_accepts ll3) k).
Lemma u_member : forall k x rj z y, In y three ->
  1/3 * (code_accepts ll3 x (rj ++ [y]) * (if Nat.eq_dec y z then 1 else 0) + (1 - code_accepts ll3 x (rj ++ [y])) * uker k x (rj ++ [y]) z) <= uker (S k) x rj z.
Proof.
  intros k x rj z y Hy. cbn [dr_kernel].
  apply (sumR_member (fun y => uniform3 x rj y * (code_accepts ll3 x (rj ++ [y]) * (if Nat.eq_dec y z then 1 else 0) + (1 - code_accepts ll3 x (rj ++ [y])) * uker k x (rj ++ [y]) z)) three y); [|exact Hy].
  intros w _. unfold uniform3. pose proof (code_range ll3 x (rj ++ [w])). pose proof (ker_nonneg Nat.eq_dec ll3 uniform3 three uniform3_distribution k x (rj ++ [w]) z).
  apply Rmult_le_pos; [lra|]. apply Rplus_le_le_0_compat; apply Rmult_le_pos; try lra; [destruct (Nat.eq_dec w z); lra|assumption].
Qed.
Lemma u_02 : forall k, 10/81 <= uker (S (S (S k))) 0%nat [] 2%nat.
Proof.
  intros k.
  assert (H3 : 1/3 <= uker (S k) 0%nat [2%nat; 1%nat] 2%nat).
  { eapply Rle_trans; [|apply (ker_first Nat.eq_dec ll3 uniform3 three uniform3_distribution k 0%nat [2%nat; 1%nat] 2%nat); cbn; auto]. cbn [app]. rewrite c3_0212. unfold uniform3. lra. }
  assert (H2 : 1/18 <= uker (S (S k)) 0%nat [2%nat] 2%nat).
  { eapply Rle_trans; [|apply (u_member (S k) 0%nat [2%nat] 2%nat 1%nat); cbn; auto]. cbn [app]. rewrite c3_021. destruct (Nat.eq_dec 1 2); [lia|]. lra. }
  eapply Rle_trans; [|apply (u_member (S (S k)) 0%nat [] 2%nat 2%nat); cbn; auto]. cbn [app]. rewrite c3_first. cbn [dens3]. rewrite Rmin_right by lra.
  destruct (Nat.eq_dec 2 2); [|lia]. lra.
Qed.
Lemma u_12 : forall k, 1/6 <= uker (S k) 1%nat [] 2%nat.
Proof.
  intros k. eapply Rle_trans; [|apply (ker_first Nat.eq_dec ll3 uniform3 three uniform3_distribution k 1%nat [] 2%nat); cbn; auto]. cbn [app]. rewrite c3_first. cbn [dens3].
  rewrite Rmin_right by lra. unfold uniform3. lra.
Qed.
Lemma u_22 : forall k, 1/3 <= uker (S k) 2%nat [] 2%nat.
Proof.
  intros k. eapply Rle_trans; [|apply (ker_first Nat.eq_dec ll3 uniform3 three uniform3_distribution k 2%nat [] 2%nat); cbn; auto]. cbn [app]. rewrite c3_first. cbn [dens3].
  rewrite Rmin_left by lra. unfold uniform3. lra.
Qed.
Theorem uniform3_not_converging : forall ratio m x0, (2 <= m)%nat -> In x0 three ->
  ~ (forall y, In y three -> exists v, (forall n, dr_expectation ll3 uniform3 ratio three x0 m n (ends_at Nat.eq_dec x0 y) (v n)) /\ is_lim_seq v (target three ll3 y)).
Proof.
  intros ratio m x0 Hm Hx0 H. assert (H2 : In 2%nat three) by (cbn; auto).
  pose proof (t_limit Nat.eq_dec ll3 uniform3 ratio three three_nodup uniform3_distribution m x0 _ Hx0 H 2%nat H2) as HL.
  destruct m as [|[|k]]; try lia. replace (S (S k) + 1)%nat with (S (S (S k))) in HL by lia.
  unfold target in HL. cbn [three sumR] in HL. rewrite !exp3 in HL. cbn [dens3] in HL.
  pose proof (u_02 k). pose proof (u_12 (S (S k))). pose proof (u_22 (S (S k))). fold three in HL. lra.
Qed.
(** uniform proposals are symmetric in every sense *)
Lemma uniform3_symmetric : path_symmetric uniform3 /\ pairwise_symmetric uniform3.
Proof. repeat split. Qed.
