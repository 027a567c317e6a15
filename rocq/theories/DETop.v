(** Theorems about whole runs of DifferentialEvaluationMetropolisHastings::sample. *)
From Coq Require Import String Reals Lra.
From Coquelicot Require Import Coquelicot.
From Verif Require Import Prelude ProducerModel ProducerSpec ProducerProofs DEProofs XReal MHSpec MHProofs.
Local Open Scope string_scope.
Local Open Scope list_scope.
Local Open Scope nat_scope.
Local Notation length := List.length.

Section Q.
Context {X D : Type}.
Variable (O : dops D).
Variable (E : env X D).

(** C06 for DifferentialEvaluationMetropolisHastings *)
Theorem de_flush : forall (bd : build) fuel (xs : list X) gap N0 t r,
  (forall b hi, (e_uint E b hi <= hi)%N) ->
  3 <= length xs -> (N.of_nat (N0 + length xs) < two64)%N -> N0 < fuel ->
  de_sample O E bd fuel xs (N.of_nat gap) (N.of_nat N0) [] = (t, r) ->
  exists d, t = d ++ [EFlush] /\ flushes d = 0 /\
   (r = RVal tt \/ r = RExc \/ (r = RTerm /\ e_flush E d = true)).
Proof.
  intros bd fuel xs gap N0 t r Hu Hn H64 Hf H. apply de_sample_run in H; auto.
  destruct H as (d & -> & Hff & Hr & Hterm & _). exists d. split; [reflexivity|]. split; [now apply flush_free_flushes|].
  destruct Hr as [Hr|[Hr|Hr]]; auto.
Qed.

(** C30 *)
Theorem de_chains : forall (bd : build) fuel (xs : list X) gap N0 t r,
  (forall b hi, (e_uint E b hi <= hi)%N) ->
  3 <= length xs -> (N.of_nat (N0 + length xs) < two64)%N -> N0 < fuel ->
  de_sample O E bd fuel xs (N.of_nat gap) (N.of_nat N0) [] = (t, r) ->
  length (issued t) <= N0 /\
  (r = RVal tt -> length (issued t) = N0 /\ length (proposals E t) = N0) /\
  (issued t = [] \/
   exists inits ev, map fst inits = xs /\ evaluations E t = inits ++ ev /\
   is_de_run (fun tl cl q u => d_ge O (d_div O (d_exp O (d_sub O tl cl)) q) u) gap inits
     (map (fun p => (fst (fst p), snd p)) (proposals E t)) ev (draws E t) (crossovers E t) (issued t)).
Proof.
  intros bd fuel xs gap N0 t r Hu Hn H64 Hf H. apply de_sample_run in H; auto.
  destruct H as (d & -> & Hff & Hr & Hterm & Hle & Hval & Hrun).
  change (d ++ [EFlush]) with (d ++ repeat EFlush 1). rewrite issued_tail_flush.
  unfold proposals, evaluations, crossovers, draws. rewrite !collect_tail_flush by reflexivity.
  split; [exact Hle|]. split; [exact Hval|exact Hrun].
Qed.

(** no chains at all in Release mode: an endless loop which issues nothing (except when nothing is asked for) *)
Lemma de_loop_zero : forall fuel gap N0 g (c n : list X) (l : list D) t, (0 < N0)%N ->
  de_loop O E Release fuel gap 0%N N0 g c n l t = (t, RLoop).
Proof.
  induction fuel as [|fuel IH]; intros gap N0 g c n l t Hn; cbn [de_loop]; [reflexivity|].
  rewrite N.mul_0_r. change (wrap64 0) with 0%N. destruct (N.ltb_spec 0 N0); [|lia].
  change (N.to_nat 0) with 0. cbn [de_launch de_issue]. unfold mbind, ret. now apply IH.
Qed.
Theorem de_no_chains : forall fuel gap N0, (0 < N0)%N ->
  de_sample O E Release fuel [] gap N0 [] = ([], RLoop).
Proof.
  intros fuel gap N0 H. unfold de_sample. cbn [length N.of_nat]. unfold with_scope_exit, mbind. cbn [de_init]. unfold ret.
  now rewrite de_loop_zero.
Qed.
Theorem de_few_chains_debug : forall fuel (xs : list X) gap N0, length xs < 3 ->
  de_sample O E Debug fuel xs gap N0 [] = ([], RAssert).
Proof.
  intros fuel xs gap N0 H. unfold de_sample. destruct (N.leb_spec 3 (N.of_nat (length xs))); [lia|]. reflexivity.
Qed.
End Q.

(** ** The partners really coincide *)
(** one-bit arithmetic: everything is accepted *)
Definition yes_ops : dops nat := {|
  d_one := 1; d_nmax := 0; d_ninf := 0; d_sub := fun _ _ => 0; d_mul := fun _ _ => 0; d_div := fun _ _ => 0;
  d_exp := fun x => x; d_log := fun x => x; d_gt := fun _ _ => true; d_ge := fun _ _ => true; d_eq := Nat.eqb |}.
(** proposals do not move, crossover(x, a, b) = x + a - b, the integer generator returns [dr] *)
Definition still_env (dr : N) : env Z nat := {|
  e_ll := fun _ _ => Some 0; e_prop := fun _ x _ => Some (x, 1); e_cross := fun _ x a b => Some (x + a - b)%Z;
  e_unif := fun _ => 0; e_uint := fun _ hi => N.min dr hi; e_issue := fun _ _ _ => false; e_flush := fun _ => false |}.
Theorem de_same_partner : forall bd gap, gap <= 1 ->
  let t := fst (de_sample yes_ops (still_env 0) bd 100 [10; 20; 30]%Z (N.of_nat gap) 6 []) in
  In (10, 20, 20, 10)%Z (crossovers (still_env 0) t) /\       (* chain 0: both partners are chain 1 *)
  In (20, 10, 20, 10)%Z (crossovers (still_env 0) t).         (* chain 1: the second partner is chain 1 itself *)
Proof.
  intros bd gap H. assert (gap = 0 \/ gap = 1) as [-> | ->] by lia; destruct bd; vm_compute; tauto.
Qed.

(** ** The acceptance rule *)
Local Open Scope R_scope.
Lemma de_accept_finite : forall X (y x : X) tl cl q u, 0 < q ->
  de_decide xops y (XFin q) (XFin u) (XFin tl) x (XFin cl) =
  if Rle_dec u (exp tl / (exp cl * q)) then (true, y, XFin tl) else (false, x, XFin cl).
Proof.
  intros X y x tl cl q u Hq. unfold de_decide. cbn. destruct (Req_EM_T q 0); [lra|].
  assert (He : exp (tl + - cl) / q = exp tl / (exp cl * q)).
  { rewrite exp_plus, exp_Ropp. field. split; [lra|]. pose proof (exp_pos cl). lra. }
  rewrite He. unfold xge. cbn. destruct (Rlt_dec u (exp tl / (exp cl * q))); destruct (Req_EM_T (exp tl / (exp cl * q)) u);
    destruct (Rle_dec u (exp tl / (exp cl * q))); cbn; try reflexivity; lra.
Qed.
Theorem de_acceptance_probability : forall X (y x : X) tl cl q, 0 < q ->
  is_RInt (fun u => if fst (fst (de_decide xops y (XFin q) (XFin u) (XFin tl) x (XFin cl))) then 1 else 0)
    0 1 (Rmin 1 (exp tl / (exp cl * q))).
Proof.
  intros X y x tl cl q Hq.
  apply is_RInt_ext with (f := fun u => if Rle_dec u (exp tl / (exp cl * q)) then 1 else 0).
  - intros u _. rewrite de_accept_finite by exact Hq. destruct (Rle_dec u _); reflexivity.
  - apply RInt_indicator. apply Rlt_le, Rdiv_lt_0_compat; [apply exp_pos|apply Rmult_lt_0_compat; [apply exp_pos|lra]].
Qed.
(** two zero-probability states: never accepted with -inf (NaN), always if q <= 1 with -max *)
Theorem de_zero_zero : forall X (y x : X) q u, 0 < q -> 0 <= u < 1 ->
  de_decide xops y (XFin q) (XFin u) XNInf x XNInf = (false, x, XNInf) /\
  (q <= 1 -> de_decide xops y (XFin q) (XFin u) (XFin (- dbl_max)) x (XFin (- dbl_max)) = (true, y, XFin (- dbl_max))).
Proof.
  intros X y x q u Hq Hu. split; [reflexivity|]. intros Hq1. rewrite de_accept_finite by exact Hq.
  assert (H : exp (- dbl_max) / (exp (- dbl_max) * q) = / q).
  { field. split; [lra|]. pose proof (exp_pos (- dbl_max)). lra. }
  rewrite H. assert (1 <= / q) by (rewrite <- Rinv_1; apply Rinv_le_contravar; lra).
  destruct (Rle_dec u (/ q)); [reflexivity|lra].
Qed.

(** ** Whole runs *)
Lemma nth_error_ext : forall T (l l' : list T), (forall i, nth_error l i = nth_error l' i) -> l = l'.
Proof.
  intros T l. induction l as [|x l IH]; intros [|y l'] H; [reflexivity|specialize (H O); discriminate|specialize (H O); discriminate|].
  f_equal; [specialize (H O); cbn in H; congruence|]. apply IH. intros i. exact (H (Datatypes.S i)).
Qed.
Lemma evaluations_values : forall X (E : env X xr) (ll : X -> R), (forall t x, e_ll E t x = Some (XFin (ll x))) ->
  forall b t x l, In (x, l) (evals_from E b t) -> l = XFin (ll x).
Proof.
  intros X E ll HL b t. revert b. induction t as [|e t IH]; intros b x l H; cbn in H; [tauto|].
  apply in_app_or in H. destruct H as [H|H]; [|eapply IH; exact H].
  destruct e; cbn in H; try tauto. rewrite HL in H. cbn in H. destruct H as [H|[]]. congruence.
Qed.

Theorem de_run_real : forall X (E : env X xr) (ll : X -> R), (forall t x, e_ll E t x = Some (XFin (ll x))) ->
  (forall t x rj y q, e_prop E t x rj = Some (y, q) -> exists r, q = XFin r /\ 0 < r) ->
  (forall t, exists u, e_unif E t = XFin u) ->
  forall (bd : build) fuel (xs : list X) gap N0 t r,
  (forall b hi, (e_uint E b hi <= hi)%N) ->
  (3 <= length xs)%nat -> (N.of_nat (N0 + length xs) < two64)%N -> (N0 < fuel)%nat ->
  de_sample xops E bd fuel xs (N.of_nat gap) (N.of_nat N0) [] = (t, r) ->
  forall k z, nth_error (map fst (issued t)) k = Some z ->
  exists prev y q u,
    nth_error (xs ++ map fst (issued t)) k = Some prev /\
    nth_error (map snd (proposals E t)) k = Some (y, XFin q) /\
    nth_error (draws E t) k = Some (XFin u) /\
    z = if Rle_dec u (mh_ratio ll prev y q) then y else prev.
Proof.
  intros X E ll HL HP HU bd fuel xs gap N0 t r Hu Hn H64 Hf H k z Hk.
  apply de_chains in H; auto. destruct H as (_ & _ & [H|(inits & ev & Hi & Hev & states & Hlen & Hrun)]).
  { rewrite H in Hk. destruct k; discriminate. }
  assert (Hli : length inits = length xs) by (rewrite <- Hi; now rewrite map_length).
  assert (Hfst : map fst (issued t) = map fst states).
  { apply nth_error_ext. intros i. rewrite !nth_error_map.
    destruct (nth_error (issued t) i) as [[z' a']|] eqn:Ei.
    - destruct (Hrun i z' a' Ei) as (from & y & q & ly & u & prev & new & _ & _ & _ & _ & H5 & _ & H7 & _).
      rewrite nth_error_app2 in H5 by lia. replace (length inits + i - length inits)%nat with i in H5 by lia.
      rewrite H5. cbn. congruence.
    - assert (Es : nth_error states i = None) by (apply nth_error_None; apply nth_error_None in Ei; lia). rewrite Es. reflexivity. }
  assert (Hval : forall i p, nth_error (inits ++ states) i = Some p -> snd p = XFin (ll (fst p))).
  { intros i. induction i as [i IH] using lt_wf_ind. intros p Hp.
    destruct (Nat.lt_ge_cases i (length inits)) as [Hlt|Hge].
    - rewrite nth_error_app1 in Hp by exact Hlt. apply nth_error_In in Hp. destruct p as [x l]. cbn.
      apply (evaluations_values _ E ll HL [] t). unfold evaluations in Hev. unfold evals_from. rewrite Hev. apply in_or_app. now left.
    - rewrite nth_error_app2 in Hp by exact Hge. set (j := (i - length inits)%nat) in *.
      assert (Hj : (j < length (issued t))%nat) by (rewrite <- Hlen; apply nth_error_Some; congruence).
      destruct (nth_some _ _ _ Hj) as ([z' a'] & Ej).
      destruct (Hrun j z' a' Ej) as (from & y & q & ly & u & prev & new & _ & H2 & _ & H4 & H5 & H6 & _).
      assert (Hpn : p = new).
      { rewrite nth_error_app2 in H5 by lia. replace (length inits + j - length inits)%nat with j in H5 by lia. congruence. }
      subst p. rewrite H6. destruct (d_ge xops _ u).
      + cbn. apply nth_error_In in H2. apply (evaluations_values _ E ll HL [] t). unfold evaluations in Hev. unfold evals_from.
        rewrite Hev. apply in_or_app. now right.
      + apply (IH j); [lia|exact H4]. }
  rewrite nth_error_map in Hk. destruct (nth_error (issued t) k) as [[z' a']|] eqn:Ek; [|discriminate]. cbn in Hk. inversion Hk; subst z'.
  destruct (Hrun k z a' Ek) as (from & y & q & ly & u & prev & new & H1 & H2 & H3 & H4 & H5 & H6 & H7 & _).
  assert (Hq : exists r0, q = XFin r0 /\ 0 < r0).
  { rewrite nth_error_map in H1. destruct (nth_error (proposals E t) k) as [[[f0 rj0] [y0 q0]]|] eqn:Ep; [|discriminate].
    cbn in H1. inversion H1; subst f0 y0 q0. apply nth_error_In in Ep. clear -Ep HP. unfold proposals in Ep.
    revert Ep. generalize (@nil (event X xr)). induction t as [|e t IH]; intros b H; cbn in H; [tauto|].
    apply in_app_or in H. destruct H as [H|H]; [|eapply IH; exact H]. destruct e; cbn in H; try tauto.
    destruct (e_prop E b x rejected) as [[y1 q1]|] eqn:Hp; cbn in H; [|tauto]. destruct H as [H|[]]. inversion H; subst. eapply HP. exact Hp. }
  assert (Hud : exists u0, u = XFin u0).
  { apply nth_error_In in H3. clear -H3 HU. unfold draws in H3.
    revert H3. generalize (@nil (event X xr)). induction t as [|e t IH]; intros b H; cbn in H; [tauto|].
    apply in_app_or in H. destruct H as [H|H]; [|eapply IH; exact H]. destruct e; cbn in H; try tauto.
    destruct H as [H|[]]. destruct (HU b) as (u0 & Hu0). exists u0. congruence. }
  destruct Hq as (q0 & -> & Hq0). destruct Hud as (u0 & ->).
  exists (fst prev), y, q0, u0.
  split.
  { assert (Hx : map fst (inits ++ states) = xs ++ map fst (issued t)) by (rewrite map_app, Hi, Hfst; reflexivity).
    rewrite <- Hx, nth_error_map, H4. reflexivity. }
  split.
  { rewrite nth_error_map in H1 |- *. destruct (nth_error (proposals E t) k) as [[[f1 rj1] [y1 q1]]|]; [|discriminate]. cbn in *. congruence. }
  split; [exact H3|].
  rewrite H7, H6.
  assert (Hly : ly = XFin (ll y)).
  { apply nth_error_In in H2. apply (evaluations_values _ E ll HL [] t). unfold evaluations in Hev. unfold evals_from.
    rewrite Hev. apply in_or_app. now right. }
  assert (Hpv : snd prev = XFin (ll (fst prev))) by (apply (Hval k); exact H4).
  pose proof (de_accept_finite X y (fst prev) (ll y) (ll (fst prev)) q0 u0 Hq0) as Hd. unfold de_decide in Hd.
  rewrite Hly, Hpv. unfold mh_ratio. revert Hd.
  set (b := d_ge xops (d_div xops (d_exp xops (d_sub xops (XFin (ll y)) (XFin (ll (fst prev))))) (XFin q0)) (XFin u0)). clearbody b.
  destruct b; destruct (Rle_dec u0 _); intros Hd; try reflexivity; inversion Hd.
Qed.
