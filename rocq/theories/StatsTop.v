(** The results about the statistical consumers for any exact arithmetic. *)
From Coq Require Import Field Permutation.
From Verif Require Import Prelude ConsumerModel StatsModel StatsSpec StatsProofs.
Local Notation len xs := (N.of_nat (length xs)).

Section T.
Context {K : Type}.
Variable F : kops K.
Hypothesis EA : exact_arithmetic F.

Lemma top_mean : forall dflt (xs : list (vec K)) d, xs <> [] -> all_size d xs -> (len xs < two64)%N ->
  exists s m, run_consumer (mean_consume F) (mean_init dflt) xs = Ok s /\ mean_get s = Ok m /\ length m = d /\
    forall i, i < d -> comp F m i = the_mean F xs i.
Proof. destruct EA as [[inv FT] H1 H2 H3 H4 H5 H6]. exact (mean_correct F inv FT H1 H2 H3). Qed.
Lemma top_cov : forall G (xs : list (vec K)) d, xs <> [] -> all_size d xs -> (len xs < two64)%N ->
  exists s, run_consumer (cov_consume F) (cov_init G) xs = Ok s /\ fst (cov_get s) = d /\
    (length xs = 1 -> snd (cov_get s) = G) /\
    (2 <= length xs -> forall i j, i < d -> j < d -> snd (cov_get s) i j = the_covariance F xs i j).
Proof. destruct EA as [[inv FT] H1 H2 H3 H4 H5 H6]. exact (cov_correct F inv FT H1 H2 H3 H4 H5 H6). Qed.
Lemma top_acm : forall G M (xs : list (vec K)) d, xs <> [] -> all_size d xs -> (len xs < two64)%N ->
  exists s, run_consumer (acm_consume F G M) acm_init xs = Ok s /\
    forall l i j, l <= M -> i < d -> j < d ->
      acm_get F s l i j = Ok (if length xs <=? l + 1 then G l i j
                              else kadd F (the_autocovariance F xs l i j) (kdiv F (G l i j) (kofN F (len xs - N.of_nat l - 1)))).
Proof. destruct EA as [[inv FT] H1 H2 H3 H4 H5 H6]. exact (acm_correct F inv FT H1 H2 H3). Qed.
Lemma top_act : forall M (xs : list (vec K)) d, xs <> [] -> all_size d xs -> (len xs < two64)%N ->
  exists s, run_consumer (act_consume F M) act_init xs = Ok s /\
    forall l, l <= M -> act_get F s l = Ok (if length xs <=? l + 1 then k0 F else the_autocovariance_trace F d xs l).
Proof. destruct EA as [[inv FT] H1 H2 H3 H4 H5 H6]. exact (act_correct F inv FT H1 H2 H3). Qed.

(** If the memory was zero. *)
Lemma top_acm_zero : forall G M (xs : list (vec K)) d, xs <> [] -> all_size d xs -> (len xs < two64)%N ->
  exists s, run_consumer (acm_consume F G M) acm_init xs = Ok s /\
    forall l i j, l <= M -> i < d -> j < d ->
      (acm_get F s l i j = Ok (if length xs <=? l + 1 then k0 F else the_autocovariance F xs l i j) <-> G l i j = k0 F).
Proof.
  intros G M xs d H1 H2 H3. destruct (top_acm G M xs d H1 H2 H3) as (s & Hr & Hg). exists s. split; [exact Hr|].
  intros l i j Hl Hi Hj. rewrite (Hg l i j Hl Hi Hj). destruct EA as [[inv FT] A1 A2 A3 A4 A5 A6]. pose proof (F_R FT) as RT.
  destruct (Nat.leb_spec (length xs) (l + 1)) as [Hc|Hc].
  - split; [intros E; now injection E|intros ->; reflexivity].
  - assert (Hk : kofN F (len xs - N.of_nat l - 1) <> k0 F) by (apply A3; lia).
    assert (Z : forall a : K, kadd F a (k0 F) = a) by (intros a; rewrite (Radd_comm RT); apply (Radd_0_l RT)).
    split.
    + intros E. injection E as E.
      assert (E2 : kdiv F (G l i j) (kofN F (len xs - N.of_nat l - 1)) = k0 F).
      { rewrite <- (Radd_0_l RT (kdiv F _ _)), <- (Ropp_def RT (the_autocovariance F xs l i j)).
        rewrite (Radd_comm RT (the_autocovariance F xs l i j)), <- (Radd_assoc RT), E, (Radd_comm RT). reflexivity. }
      rewrite (Fdiv_def FT) in E2.
      rewrite <- (Rmul_1_l RT (G l i j)), <- (Finv_l FT _ Hk), (Rmul_comm RT (inv _)), <- (Rmul_assoc RT), (Rmul_comm RT (inv _)), E2.
      rewrite (Rmul_comm RT).
      assert (Q : forall a, kmul F (k0 F) a = k0 F).
      { intros a. pose proof (Rdistr_l RT (k0 F) (k0 F) a) as D. rewrite (Radd_0_l RT) in D.
        rewrite <- (Radd_0_l RT (kmul F (k0 F) a)) at 1. rewrite <- (Ropp_def RT (kmul F (k0 F) a)) at 1.
        rewrite (Radd_comm RT (kmul F (k0 F) a)), <- (Radd_assoc RT), <- D, (Radd_comm RT). apply (Ropp_def RT). }
      apply Q.
    + intros ->. f_equal. rewrite (Fdiv_def FT).
      assert (Q : forall a, kmul F (k0 F) a = k0 F).
      { intros a. pose proof (Rdistr_l RT (k0 F) (k0 F) a) as D. rewrite (Radd_0_l RT) in D.
        rewrite <- (Radd_0_l RT (kmul F (k0 F) a)) at 1. rewrite <- (Ropp_def RT (kmul F (k0 F) a)) at 1.
        rewrite (Radd_comm RT (kmul F (k0 F) a)), <- (Radd_assoc RT), <- D, (Radd_comm RT). apply (Ropp_def RT). }
      rewrite Q. apply Z.
Qed.
(** The two autocovariance consumers agree. *)
Lemma top_agree : forall G M (xs : list (vec K)) d, xs <> [] -> all_size d xs -> (len xs < two64)%N -> (forall l i, G l i i = k0 F) ->
  exists s s', run_consumer (acm_consume F G M) acm_init xs = Ok s /\ run_consumer (act_consume F M) act_init xs = Ok s' /\
    forall l, l <= M -> exists f, (forall i, i < d -> acm_get F s l i i = Ok (f i)) /\ act_get F s' l = Ok (sumn F f d).
Proof.
  intros G M xs d H1 H2 H3 HG. destruct (top_acm_zero G M xs d H1 H2 H3) as (s & Hr & Hg). destruct (top_act M xs d H1 H2 H3) as (s' & Hr' & Hg').
  exists s, s'. split; [exact Hr|]. split; [exact Hr'|]. intros l Hl.
  exists (fun i => if length xs <=? l + 1 then k0 F else the_autocovariance F xs l i i). split.
  - intros i Hi. apply Hg; auto.
  - rewrite (Hg' l Hl). destruct (length xs <=? l + 1); [|reflexivity].
    destruct EA as [[inv FT] A1 A2 A3 A4 A5 A6]. f_equal. symmetry. apply (suml_zero F inv FT).
Qed.
(** Lag zero is the trace of the covariance matrix, for real numbers. *)
Lemma top_lag0 : forall G M (xs : list (vec K)) d, (forall a, kconj F a = a) -> 2 <= length xs -> all_size d xs -> (len xs < two64)%N ->
  exists s s', run_consumer (cov_consume F) (cov_init G) xs = Ok s /\ run_consumer (act_consume F M) act_init xs = Ok s' /\
    act_get F s' 0 = Ok (sumn F (fun i => snd (cov_get s) i i) d).
Proof.
  intros G M xs d Hc H1 H2 H3. assert (Hne : xs <> []) by (intros ->; cbn in H1; lia).
  destruct (top_cov G xs d Hne H2 H3) as (s & Hr & _ & _ & Hg). destruct (top_act M xs d Hne H2 H3) as (s' & Hr' & Hg').
  exists s, s'. split; [exact Hr|]. split; [exact Hr'|]. rewrite (Hg' 0%nat ltac:(lia)).
  destruct (Nat.leb_spec (length xs) (0 + 1)) as [E|_]; [lia|]. f_equal. unfold the_autocovariance_trace.
  apply (sumn_ext F). intros i Hi. rewrite (Hg H1 i i Hi Hi). unfold the_autocovariance, the_covariance. rewrite Nat.sub_0_r.
  f_equal; [|f_equal; cbn; lia]. unfold sumn.
  assert (Hx : forall f : vec K -> K, suml F f xs = suml F (fun t => f (nth t xs [])) (seq 0 (length xs))).
  { intros f. clear. induction xs as [|x xs' IH]; [reflexivity|]. cbn [length seq suml]. f_equal. rewrite IH. rewrite <- seq_shift.
    generalize (seq 0 (length xs')). intros l. induction l as [|t l IHl]; cbn; [reflexivity|]. now rewrite IHl. }
  rewrite Hx. apply (suml_ext F). intros t _. rewrite Hc. unfold X. now rewrite Nat.add_0_r.
Qed.
(** Order independence. *)
Lemma top_mean_perm : forall dflt dflt' (xs ys : list (vec K)) d, xs <> [] -> all_size d xs -> (len xs < two64)%N -> Permutation xs ys ->
  exists s s' m, run_consumer (mean_consume F) (mean_init dflt) xs = Ok s /\ run_consumer (mean_consume F) (mean_init dflt') ys = Ok s' /\
    mean_get s = Ok m /\ mean_get s' = Ok m.
Proof.
  intros dflt dflt' xs ys d H1 H2 H3 HP. destruct (top_mean dflt xs d H1 H2 H3) as (s & m & Hr & Hg & Hl & Hm).
  assert (H1' : ys <> []) by (intros ->; apply Permutation_sym, Permutation_nil in HP; congruence).
  assert (H2' : all_size d ys) by (unfold all_size in *; rewrite <- HP; exact H2).
  destruct (top_mean dflt' ys d H1' H2' ltac:(now rewrite <- (Permutation_length HP))) as (s' & m' & Hr' & Hg' & Hl' & Hm').
  exists s, s', m. repeat split; auto. rewrite Hg'. f_equal. apply (nth_ext _ _ (k0 F) (k0 F)); [congruence|].
  intros i Hi. rewrite Hl' in Hi. change (comp F m' i = comp F m i). rewrite Hm, Hm' by exact Hi.
  destruct EA as [[inv FT] A1 A2 A3 A4 A5 A6]. symmetry. now apply (the_mean_perm F inv FT).
Qed.
Lemma top_cov_perm : forall G G' (xs ys : list (vec K)) d, 2 <= length xs -> all_size d xs -> (len xs < two64)%N -> Permutation xs ys ->
  exists s s', run_consumer (cov_consume F) (cov_init G) xs = Ok s /\ run_consumer (cov_consume F) (cov_init G') ys = Ok s' /\
    fst (cov_get s) = d /\ fst (cov_get s') = d /\ forall i j, i < d -> j < d -> snd (cov_get s) i j = snd (cov_get s') i j.
Proof.
  intros G G' xs ys d H1 H2 H3 HP. assert (Hne : xs <> []) by (intros ->; cbn in H1; lia).
  destruct (top_cov G xs d Hne H2 H3) as (s & Hr & Hd & _ & Hg).
  pose proof (Permutation_length HP) as HL.
  assert (Hne' : ys <> []) by (intros ->; cbn in HL; lia).
  assert (H2' : all_size d ys) by (unfold all_size in *; rewrite <- HP; exact H2).
  destruct (top_cov G' ys d Hne' H2' ltac:(now rewrite <- HL)) as (s' & Hr' & Hd' & _ & Hg').
  exists s, s'. repeat split; auto. intros i j Hi Hj. rewrite Hg, Hg' by lia.
  destruct EA as [[inv FT] A1 A2 A3 A4 A5 A6]. now apply (the_covariance_perm F inv FT).
Qed.
End T.
