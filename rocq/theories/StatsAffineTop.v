(** The results about transformed, selected and combined samples, for what the consumers return. *)
From Coq Require Import Field Permutation Reals Lra.
From Verif Require Import Prelude ConsumerModel StatsModel StatsSpec StatsProofs StatsTop StatsInst StatsAffine.
Local Open Scope nat_scope.
Local Notation len xs := (N.of_nat (length xs)).

Section T.
Context {K : Type}.
Variable F : kops K.
Hypothesis EA : exact_arithmetic F.

Lemma map_ne : forall A B (f : A -> B) l, l <> [] -> map f l <> [].
Proof. intros A B f [|]; cbn; congruence. Qed.
Lemma mean_affine : forall dflt dflt' (xs : list (vec K)) d d' A b, xs <> [] -> all_size d xs -> (len xs < two64)%N ->
  exists s m s', run_consumer (mean_consume F) (mean_init dflt) xs = Ok s /\ mean_get s = Ok m /\
    run_consumer (mean_consume F) (mean_init dflt') (map (affine F d' d A b) xs) = Ok s' /\ mean_get s' = Ok (affine F d' d A b m).
Proof.
  intros dflt dflt' xs d d' A b Hne Hs Hl. destruct (top_mean F EA dflt xs d Hne Hs Hl) as (s & m & Hr & Hg & Hd & Hm).
  destruct (top_mean F EA dflt' (map (affine F d' d A b) xs) d') as (s' & m' & Hr' & Hg' & Hd' & Hm'); [now apply map_ne|apply affine_size|now rewrite map_length|].
  exists s, m, s'. repeat split; auto. rewrite Hg'. f_equal. apply (nth_ext _ _ (k0 F) (k0 F)); [now rewrite affine_length|].
  intros i Hi. rewrite Hd' in Hi. change (comp F m' i = comp F (affine F d' d A b m) i). rewrite Hm', comp_affine by exact Hi.
  destruct EA as [[inv FT] A1 A2 A3 A4 A5 A6]. rewrite (the_mean_affine F inv FT A1 A2 A3) by assumption. f_equal. apply sumn_ext. intros k Hk. now rewrite Hm.
Qed.
Lemma cov_affine : forall G G' (xs : list (vec K)) d d' A b, 2 <= length xs -> all_size d xs -> (len xs < two64)%N ->
  exists s s', run_consumer (cov_consume F) (cov_init G) xs = Ok s /\ run_consumer (cov_consume F) (cov_init G') (map (affine F d' d A b) xs) = Ok s' /\
    fst (cov_get s') = d' /\ forall i j, i < d' -> j < d' ->
      snd (cov_get s') i j = sumn F (fun k => sumn F (fun l => kmul F (kmul F (A i k) (snd (cov_get s) k l)) (kconj F (A j l))) d) d.
Proof.
  intros G G' xs d d' A b H2 Hs Hl. assert (Hne : xs <> []) by (intros ->; cbn in H2; lia).
  destruct (top_cov F EA G xs d Hne Hs Hl) as (s & Hr & Hd & _ & Hg).
  destruct (top_cov F EA G' (map (affine F d' d A b) xs) d') as (s' & Hr' & Hd' & _ & Hg'); [now apply map_ne|apply affine_size|now rewrite map_length|].
  exists s, s'. repeat split; auto. intros i j Hi Hj. rewrite Hg' by (rewrite ?map_length; assumption).
  destruct EA as [[inv FT] A1 A2 A3 A4 A5 A6]. rewrite (the_covariance_affine F inv FT A1 A2 A3 A4 A5) by assumption.
  apply sumn_ext. intros k Hk. apply sumn_ext. intros l Hl'. now rewrite Hg.
Qed.
Lemma acm_affine : forall G G' M (xs : list (vec K)) d d' A b h, h <= M -> h + 2 <= length xs -> all_size d xs -> (len xs < two64)%N ->
  (forall i j, G h i j = k0 F) -> (forall i j, G' h i j = k0 F) ->
  exists s s', run_consumer (acm_consume F G M) acm_init xs = Ok s /\ run_consumer (acm_consume F G' M) acm_init (map (affine F d' d A b) xs) = Ok s' /\
    exists R : nat -> nat -> K, (forall k l, k < d -> l < d -> acm_get F s h k l = Ok (R k l)) /\
    forall i j, i < d' -> j < d' -> acm_get F s' h i j = Ok (sumn F (fun k => sumn F (fun l => kmul F (kmul F (A i k) (R k l)) (A j l)) d) d).
Proof.
  intros G G' M xs d d' A b h Hh H2 Hs Hl HG HG'. assert (Hne : xs <> []) by (intros ->; cbn in H2; lia).
  destruct (top_acm_zero F EA G M xs d Hne Hs Hl) as (s & Hr & Hg).
  destruct (top_acm_zero F EA G' M (map (affine F d' d A b) xs) d') as (s' & Hr' & Hg'); [now apply map_ne|apply affine_size|now rewrite map_length|].
  exists s, s'. split; [exact Hr|]. split; [exact Hr'|]. exists (the_autocovariance F xs h).
  assert (E : (length xs <=? h + 1) = false) by (apply Nat.leb_gt; lia). split.
  - intros k l Hk Hl'. destruct (Hg h k l Hh Hk Hl') as [_ Hx]. rewrite E in Hx. apply Hx. apply HG.
  - intros i j Hi Hj. destruct (Hg' h i j Hh Hi Hj) as [_ Hx]. rewrite map_length, E in Hx. rewrite Hx by apply HG'. f_equal.
    destruct EA as [[inv FT] A1 A2 A3 A4 A5 A6]. now apply (the_autocovariance_affine F inv FT A1 A2 A3).
Qed.
Lemma act_affine : forall M (xs : list (vec K)) d d' A b c h, h <= M -> h + 2 <= length xs -> all_size d xs -> (len xs < two64)%N ->
  (forall k l, k < d -> l < d -> sumn F (fun i => kmul F (A i k) (A i l)) d' = if l =? k then c else k0 F) ->
  exists s s' v, run_consumer (act_consume F M) act_init xs = Ok s /\ run_consumer (act_consume F M) act_init (map (affine F d' d A b) xs) = Ok s' /\
    act_get F s h = Ok v /\ act_get F s' h = Ok (kmul F c v).
Proof.
  intros M xs d d' A b c h Hh H2 Hs Hl Ho. assert (Hne : xs <> []) by (intros ->; cbn in H2; lia).
  destruct (top_act F EA M xs d Hne Hs Hl) as (s & Hr & Hg).
  destruct (top_act F EA M (map (affine F d' d A b) xs) d') as (s' & Hr' & Hg'); [now apply map_ne|apply affine_size|now rewrite map_length|].
  assert (E : (length xs <=? h + 1) = false) by (apply Nat.leb_gt; lia).
  exists s, s', (the_autocovariance_trace F d xs h). repeat split; auto; [now rewrite Hg, E|]. rewrite Hg' by exact Hh. rewrite map_length, E. f_equal.
  destruct EA as [[inv FT] A1 A2 A3 A4 A5 A6]. now apply (the_trace_affine F inv FT A1 A2 A3).
Qed.
Lemma cov_hermitian : (forall a, kconj F (kconj F a) = a) -> forall G (xs : list (vec K)) d, 2 <= length xs -> all_size d xs -> (len xs < two64)%N ->
  exists s, run_consumer (cov_consume F) (cov_init G) xs = Ok s /\ forall i j, i < d -> j < d -> snd (cov_get s) j i = kconj F (snd (cov_get s) i j).
Proof.
  intros CC G xs d H2 Hs Hl. assert (Hne : xs <> []) by (intros ->; cbn in H2; lia).
  destruct (top_cov F EA G xs d Hne Hs Hl) as (s & Hr & Hd & _ & Hg). exists s. split; [exact Hr|]. intros i j Hi Hj. rewrite !Hg by assumption.
  destruct EA as [[inv FT] A1 A2 A3 A4 A5 A6]. now apply (the_covariance_hermitian F inv FT A1 A2 A3 A4 A5 A6).
Qed.

(** *** Two streams, mixed in any way *)
Lemma mean_combined : forall df df1 df2 (xs ys zs : list (vec K)) d, xs <> [] -> ys <> [] -> all_size d xs -> all_size d ys -> Permutation (xs ++ ys) zs -> (len zs < two64)%N ->
  exists s s1 s2 m m1 m2, run_consumer (mean_consume F) (mean_init df) zs = Ok s /\ run_consumer (mean_consume F) (mean_init df1) xs = Ok s1 /\ run_consumer (mean_consume F) (mean_init df2) ys = Ok s2 /\
    mean_get s = Ok m /\ mean_get s1 = Ok m1 /\ mean_get s2 = Ok m2 /\ length m = d /\
    forall i, i < d -> comp F m i = kdiv F (kadd F (kmul F (kofN F (len xs)) (comp F m1 i)) (kmul F (kofN F (len ys)) (comp F m2 i))) (kadd F (kofN F (len xs)) (kofN F (len ys))).
Proof.
  intros df df1 df2 xs ys zs d Hx Hy Sx Sy HP Hl. pose proof (Permutation_length HP) as HL. rewrite app_length in HL.
  assert (Hz : zs <> []) by (intros ->; destruct xs; [congruence|discriminate]).
  assert (Sz : all_size d zs) by (unfold all_size; rewrite <- HP; apply Forall_app; now split).
  destruct (top_mean F EA df zs d Hz Sz Hl) as (s & m & Hr & Hg & Hd & Hm).
  destruct (top_mean F EA df1 xs d Hx Sx) as (s1 & m1 & Hr1 & Hg1 & Hd1 & Hm1); [unfold two64 in *; lia|].
  destruct (top_mean F EA df2 ys d Hy Sy) as (s2 & m2 & Hr2 & Hg2 & Hd2 & Hm2); [unfold two64 in *; lia|].
  exists s, s1, s2, m, m1, m2. repeat split; auto. intros i Hi. rewrite Hm, Hm1, Hm2 by exact Hi.
  destruct EA as [[inv FT] A1 A2 A3 A4 A5 A6]. rewrite <- (the_mean_perm F inv FT _ _ i HP). now apply (the_mean_app F inv FT A1 A2 A3).
Qed.
Lemma cov_combined : forall G G1 G2 (xs ys zs : list (vec K)) d, 2 <= length xs -> 2 <= length ys -> all_size d xs -> all_size d ys -> Permutation (xs ++ ys) zs -> (len zs < two64)%N ->
  exists s s1 s2, run_consumer (cov_consume F) (cov_init G) zs = Ok s /\ run_consumer (cov_consume F) (cov_init G1) xs = Ok s1 /\ run_consumer (cov_consume F) (cov_init G2) ys = Ok s2 /\
    fst (cov_get s) = d /\
    forall i j, i < d -> j < d ->
      let n := kofN F (len xs) in let m := kofN F (len ys) in
      snd (cov_get s) i j =
      kdiv F (kadd F (kadd F (kmul F (ksub F n (k1 F)) (snd (cov_get s1) i j)) (kmul F (ksub F m (k1 F)) (snd (cov_get s2) i j)))
                     (kmul F (kdiv F (kmul F n m) (kadd F n m)) (kmul F (ksub F (the_mean F xs i) (the_mean F ys i)) (kconj F (ksub F (the_mean F xs j) (the_mean F ys j))))))
             (ksub F (kadd F n m) (k1 F)).
Proof.
  intros G G1 G2 xs ys zs d H1 H2 Sx Sy HP Hl. pose proof (Permutation_length HP) as HL. rewrite app_length in HL.
  assert (Hx : xs <> []) by (intros ->; cbn in H1; lia). assert (Hy : ys <> []) by (intros ->; cbn in H2; lia).
  assert (Hz : zs <> []) by (intros ->; cbn in HL; lia).
  assert (Sz : all_size d zs) by (unfold all_size; rewrite <- HP; apply Forall_app; now split).
  destruct (top_cov F EA G zs d Hz Sz Hl) as (s & Hr & Hd & _ & Hg).
  destruct (top_cov F EA G1 xs d Hx Sx) as (s1 & Hr1 & Hd1 & _ & Hg1); [unfold two64 in *; lia|].
  destruct (top_cov F EA G2 ys d Hy Sy) as (s2 & Hr2 & Hd2 & _ & Hg2); [unfold two64 in *; lia|].
  exists s, s1, s2. repeat split; auto. intros i j Hi Hj. cbv zeta. rewrite Hg, Hg1, Hg2 by (assumption || lia).
  destruct EA as [[inv FT] A1 A2 A3 A4 A5 A6]. rewrite <- (the_covariance_perm F inv FT _ _ i j HP). now apply (the_covariance_app F inv FT A1 A2 A3 A4 A5 A6).
Qed.
End T.

(** ** Selected components: in any arithmetic *)
Section Select.
Context {K : Type}.
Variable F : kops K.
Variable idx : list nat.
Variable d : nat.
Hypothesis Hidx : Forall (fun i => i < d) idx.
Local Notation sel := (select F idx).

Lemma sel_vop : forall f (a b : vec K), length a = d -> length b = d -> sel (vop f a b) = vop f (sel a) (sel b).
Proof.
  intros f a b Ha Hb. unfold select. induction idx as [|i l IH]; [reflexivity|]. inversion Hidx; subst. cbn [map]. rewrite (comp_vop F) by lia. rewrite IH by assumption. reflexivity.
Qed.
Lemma sel_map : forall (f : K -> K) (a : vec K), length a = d -> sel (map f a) = map f (sel a).
Proof. intros f a Ha. unfold select. rewrite map_map. apply map_ext_in. intros i Hi. rewrite Forall_forall in Hidx. apply (comp_map F). rewrite Ha. now apply Hidx. Qed.
Lemma sel_update : forall m x n, length m = d -> length x = d -> sel (mean_update F m x n) = mean_update F (sel m) (sel x) n.
Proof.
  intros m x n Hm Hx. unfold mean_update. assert (L : length (vop (ksub F) x m) = d) by (rewrite (vop_length) by congruence; exact Hx).
  rewrite sel_vop; [|exact Hm|now rewrite map_length]. now rewrite sel_map, sel_vop by assumption.
Qed.
Lemma update_length : forall (m x : vec K) n, length m = d -> length x = d -> length (mean_update F m x n) = d.
Proof.
  intros m x n Hm Hx. unfold mean_update. rewrite vop_length; [exact Hm|]. rewrite map_length, vop_length; congruence.
Qed.
Lemma comp_sel : forall x a, a < length idx -> comp F (sel x) a = comp F x (nth a idx 0).
Proof.
  intros x a Ha. unfold select. unfold comp at 1. rewrite (nth_indep _ _ (comp F x 0)) by now rewrite map_length. now rewrite map_nth.
Qed.
Lemma sel_length : forall x : vec K, length (sel x) = length idx. Proof. intros. unfold select. apply map_length. Qed.

Lemma mean_select : forall dflt dflt' (xs : list (vec K)), xs <> [] -> all_size d xs ->
  exists s m s', run_consumer (mean_consume F) (mean_init dflt) xs = Ok s /\ mean_get s = Ok m /\
    run_consumer (mean_consume F) (mean_init dflt') (map sel xs) = Ok s' /\ mean_get s' = Ok (sel m).
Proof.
  intros dflt dflt' xs Hne Hs.
  enough (H : exists s m s', run_consumer (mean_consume F) (mean_init dflt) xs = Ok s /\ mv_mean s = Some m /\ length m = d /\
    run_consumer (mean_consume F) (mean_init dflt') (map sel xs) = Ok s' /\ mv_mean s' = Some (sel m) /\ mv_n s' = mv_n s).
  { destruct H as (s & m & s' & H1 & H2 & H3 & H4 & H5 & H6). exists s, m, s'. unfold mean_get. rewrite H2, H5. auto. }
  revert Hne Hs. induction xs as [|x xs IH] using rev_ind; intros Hne Hs; [congruence|].
  apply Forall_app in Hs. destruct Hs as [Hs Hx]. pose proof (Forall_inv Hx) as Hx'; cbv beta in Hx'; clear Hx.
  destruct xs as [|y ys].
  - cbn. do 3 eexists. split; [reflexivity|]. split; [reflexivity|]. split; [exact Hx'|]. split; [reflexivity|]. split; reflexivity.
  - destruct IH as (s & m & s' & H1 & H2 & H3 & H4 & H5 & H6); [discriminate|exact Hs|].
    rewrite map_app. change (map sel [x]) with [sel x]. rewrite !run_snoc, H1, H4. cbn [bind]. unfold mean_consume. rewrite H6. destruct (mv_n s =? 0)%N.
    + do 3 eexists. split; [reflexivity|]. split; [reflexivity|]. split; [exact Hx'|]. split; [reflexivity|]. split; reflexivity.
    + rewrite H2, H5. rewrite !(same_size_true) by (rewrite ?sel_length; congruence).
      do 3 eexists. split; [reflexivity|]. cbn [mv_mean mv_n]. split; [reflexivity|]. split; [rewrite update_length; congruence|]. split; [reflexivity|]. split; [|reflexivity]. now rewrite sel_update.
Qed.
Lemma cov_select : forall G G' (xs : list (vec K)), xs <> [] -> all_size d xs ->
  (forall a b, a < length idx -> b < length idx -> G' a b = G (nth a idx 0) (nth b idx 0)) ->
  exists s s', run_consumer (cov_consume F) (cov_init G) xs = Ok s /\ run_consumer (cov_consume F) (cov_init G') (map sel xs) = Ok s' /\ fst (cov_get s') = length idx /\
    forall a b, a < length idx -> b < length idx -> snd (cov_get s') a b = snd (cov_get s) (nth a idx 0) (nth b idx 0).
Proof.
  intros G G' xs Hne Hs HG.
  enough (H : exists s m s', run_consumer (cov_consume F) (cov_init G) xs = Ok s /\ cv_mean s = Some m /\ length m = d /\
    run_consumer (cov_consume F) (cov_init G') (map sel xs) = Ok s' /\ cv_mean s' = Some (sel m) /\ cv_n s' = cv_n s /\ cv_dim s' = length idx /\
    forall a b, a < length idx -> b < length idx -> cv_cov s' a b = cv_cov s (nth a idx 0) (nth b idx 0)).
  { destruct H as (s & m & s' & H1 & H2 & H3 & H4 & H5 & H6 & H7 & H8). exists s, s'. auto. }
  revert Hne Hs. induction xs as [|x xs IH] using rev_ind; intros Hne Hs; [congruence|].
  apply Forall_app in Hs. destruct Hs as [Hs Hx]. pose proof (Forall_inv Hx) as Hx'; cbv beta in Hx'; clear Hx.
  destruct xs as [|y ys].
  - cbn. do 3 eexists. split; [reflexivity|]. split; [reflexivity|]. split; [exact Hx'|]. split; [reflexivity|]. split; [reflexivity|]. split; [reflexivity|]. split; [apply sel_length|]. exact HG.
  - destruct IH as (s & m & s' & H1 & H2 & H3 & H4 & H5 & H6 & H7 & H8); [discriminate|exact Hs|].
    rewrite map_app. change (map sel [x]) with [sel x]. rewrite !run_snoc, H1, H4. cbn [bind]. unfold cov_consume. rewrite H6. destruct (cv_n s =? 0)%N.
    + do 3 eexists. split; [reflexivity|]. split; [reflexivity|]. split; [exact Hx'|]. split; [reflexivity|]. split; [reflexivity|]. split; [reflexivity|]. split; [apply sel_length|]. exact H8.
    + rewrite H2, H5. rewrite !(same_size_true) by (rewrite ?sel_length; congruence).
      do 3 eexists. split; [reflexivity|]. cbn [cv_mean cv_n cv_dim cv_cov]. split; [reflexivity|]. split; [rewrite update_length; congruence|]. split; [reflexivity|].
      split; [now rewrite sel_update|]. split; [reflexivity|]. split; [exact H7|]. intros a b Ha Hb. cbn [cv_cov]; unfold cov_entry; cbv zeta. rewrite <- (sel_vop (ksub F) x m) by congruence. rewrite !comp_sel, H8 by congruence. reflexivity.
Qed.
End Select.

(** ** Real numbers: positive semidefinite *)
Local Open Scope R_scope.
Local Notation SUM := (suml R_ops). Local Notation SUMN := (sumn R_ops).
Lemma SUM_nonneg : forall A (f : A -> R) l, (forall x, In x l -> 0 <= f x) -> 0 <= SUM f l.
Proof. intros A f l H. induction l as [|a l IH]; cbn; [lra|]. apply Rplus_le_le_0_compat; [apply H; now left|]. apply IH. intros; apply H; now right. Qed.
Lemma SUM_zero_iff : forall A (f : A -> R) l, (forall x, In x l -> 0 <= f x) -> (SUM f l = 0 <-> forall x, In x l -> f x = 0).
Proof.
  intros A f l H. induction l as [|a l IH]; cbn; [split; [easy|reflexivity]|].
  assert (Ha : 0 <= f a) by (apply H; now left). assert (Hl : forall x, In x l -> 0 <= f x) by (intros; apply H; now right). pose proof (SUM_nonneg _ f l Hl) as S0.
  destruct (IH Hl) as [I1 I2]. split.
  - intros E x [<-|Hx]; [lra|]. apply I1; [lra|exact Hx].
  - intros E. rewrite (E a) by now left. rewrite I2; [lra|]. intros; apply E; now right.
Qed.
Lemma SUM_add : forall A (f g : A -> R) l, SUM (fun x => f x + g x) l = SUM f l + SUM g l.
Proof. intros A f g l. induction l as [|a l IH]; cbn; [lra|]. cbn in IH. rewrite IH. lra. Qed.
Lemma SUM_scale : forall A c (f : A -> R) l, SUM (fun x => c * f x) l = c * SUM f l.
Proof. intros A c f l. induction l as [|a l IH]; cbn; [lra|]. cbn in IH. rewrite IH. lra. Qed.
Lemma SUM_ext : forall A (f g : A -> R) l, (forall x, In x l -> f x = g x) -> SUM f l = SUM g l.
Proof. intros. now apply suml_ext. Qed.
Lemma schwarz : forall A (f g : A -> R) l, (SUM (fun x => f x * g x) l) ^ 2 <= SUM (fun x => f x * f x) l * SUM (fun x => g x * g x) l.
Proof.
  intros A f g l. set (a := SUM (fun x => f x * f x) l). set (b := SUM (fun x => g x * g x) l). set (c := SUM (fun x => f x * g x) l).
  assert (Ha : 0 <= a) by (apply SUM_nonneg; intros; exact (Rle_0_sqr _)). assert (Hb : 0 <= b) by (apply SUM_nonneg; intros; exact (Rle_0_sqr _)).
  assert (Q : forall s t, 0 <= s * s * a + 2 * s * t * c + t * t * b).
  { intros s t. assert (H : 0 <= SUM (fun x => (s * f x + t * g x) * (s * f x + t * g x)) l) by (apply SUM_nonneg; intros; exact (Rle_0_sqr _)).
    rewrite (SUM_ext _ _ (fun x => s * s * (f x * f x) + (2 * s * t * (f x * g x) + t * t * (g x * g x)))) in H by (intros; ring).
    rewrite !SUM_add, !SUM_scale in H. fold a b c in H. lra. }
  clearbody a b c. clear f g l. pose proof (Q b (- c)) as Q1. 
  destruct (Req_dec b 0) as [->|Hb0].
  - destruct (Req_dec c 0) as [->|Hc]; [simpl; lra|]. pose proof (Q 1 (- (a + 1) / (2 * c))) as Q2.
    replace (2 * 1 * (- (a + 1) / (2 * c)) * c) with (- (a + 1)) in Q2 by (field; exact Hc). lra.
  - assert (0 < b) by lra. assert (0 <= b * (a * b - c * c)) by nra. assert (0 <= a * b - c * c). { apply Rmult_le_reg_l with b; lra. } simpl. lra.
Qed.

Section Psd.
Variable G : nat -> nat -> R.
Variable xs : list (vec R).
Variable d : nat.
Hypothesis H2 : (2 <= length xs)%nat.
Hypothesis Hs : all_size d xs.
Hypothesis Hl : (N.of_nat (length xs) < two64)%N.
Let n1 := INR (N.to_nat (N.of_nat (length xs) - 1)).
Let n1_pos : 0 < n1. Proof. unfold n1. apply lt_0_INR. lia. Qed.

Lemma cov_psd : exists s, run_consumer (cov_consume R_ops) (cov_init G) xs = Ok s /\
  forall v : nat -> R,
    0 <= SUMN (fun i => SUMN (fun j => v i * snd (cov_get s) i j * v j) d) d /\
    (SUMN (fun i => SUMN (fun j => v i * snd (cov_get s) i j * v j) d) d = 0 <->
     forall x y, In x xs -> In y xs -> SUMN (fun i => v i * nth i x 0) d = SUMN (fun i => v i * nth i y 0) d).
Proof.
  assert (Hne : xs <> []) by (intros ->; cbn in H2; lia).
  destruct (top_cov R_ops R_exact G xs d Hne Hs Hl) as (s & Hr & Hd & _ & Hg). exists s. split; [exact Hr|]. intros v.
  assert (E : SUMN (fun i => SUMN (fun j => v i * snd (cov_get s) i j * v j) d) d = the_covariance R_ops (map (affine R_ops 1 d (fun _ k => v k) (fun _ => 0)) xs) 0 0).
  { destruct R_exact as [[inv FT] A1 A2 A3 A4 A5 A6]. rewrite (the_covariance_affine R_ops inv FT A1 A2 A3 A4 A5) by lia.
    apply sumn_ext. intros k Hk. apply sumn_ext. intros l Hl'. rewrite (Hg H2 k l Hk Hl'). reflexivity. }
  rewrite E. clear E. set (ys := map _ xs). set (w := fun x : vec R => SUMN (fun i => v i * nth i x 0) d).
  assert (Ey : forall x, comp R_ops (affine R_ops 1 d (fun _ k => v k) (fun _ => 0) x) 0 = w x).
  { intros x. rewrite comp_affine by lia. cbn [R_ops kadd]. unfold w. rewrite Rplus_0_l. reflexivity. }
  unfold the_covariance. set (mu := the_mean R_ops ys 0). cbn [R_ops kdiv kofN kmul ksub kconj]. unfold ys. rewrite map_length. fold n1.
  rewrite (suml_map' R_ops). rewrite (SUM_ext _ _ (fun x => (w x - mu) * (w x - mu))) by (intros x _; change (fun x => comp R_ops x 0) with (fun x => comp R_ops x 0); rewrite Ey; reflexivity).
  assert (P : forall x, In x xs -> 0 <= (w x - mu) * (w x - mu)) by (intros; exact (Rle_0_sqr _)). pose proof (SUM_nonneg _ _ _ P) as P0. pose proof n1_pos as P1.
  split; [apply Rmult_le_pos; [exact P0|left; now apply Rinv_0_lt_compat]|]. split.
  - intros E x y Hx Hy. assert (E' : SUM (fun x => (w x - mu) * (w x - mu)) xs = 0).
    { apply Rmult_eq_reg_r with (/ n1); [|apply Rinv_neq_0_compat; lra]. unfold Rdiv in E. rewrite E. ring. }
    pose proof (proj1 (SUM_zero_iff _ _ _ P) E') as Z. pose proof (Z x Hx). pose proof (Z y Hy). fold (w x) (w y).
    assert (w x - mu = 0) by nra. assert (w y - mu = 0) by nra. lra.
  - intros Hc. assert (E' : SUM (fun x => (w x - mu) * (w x - mu)) xs = 0).
    { apply (SUM_zero_iff _ _ _ P). intros x Hx. assert (mu = w x); [|subst mu; rewrite H; ring].
      unfold mu, the_mean. cbn [R_ops kdiv kofN]. unfold ys. rewrite map_length, Nat2N.id. rewrite (suml_map' R_ops).
      rewrite (SUM_ext _ _ (fun _ => w x)) by (intros y Hy; rewrite Ey; exact (Hc y x Hy Hx)).
      destruct R_exact as [[inv FT] A1 A2 A3 A4 A5 A6]. rewrite (suml_const R_ops inv FT A1 A2). cbn [R_ops kmul kofN]. rewrite Nat2N.id. field. apply not_0_INR. lia. }
    unfold Rdiv. rewrite E'. ring.
Qed.
Lemma cov_schwarz : exists s, run_consumer (cov_consume R_ops) (cov_init G) xs = Ok s /\
  forall i j, (i < d)%nat -> (j < d)%nat ->
    snd (cov_get s) i j = snd (cov_get s) j i /\ 0 <= snd (cov_get s) i i /\ (snd (cov_get s) i j) ^ 2 <= snd (cov_get s) i i * snd (cov_get s) j j /\
    (snd (cov_get s) i i = 0 <-> forall x y, In x xs -> In y xs -> nth i x 0 = nth i y 0).
Proof.
  assert (Hne : xs <> []) by (intros ->; cbn in H2; lia).
  destruct cov_psd as (s & Hr & Hq). exists s. split; [exact Hr|]. intros i j Hi Hj.
  destruct (top_cov R_ops R_exact G xs d Hne Hs Hl) as (s' & Hr' & Hd & _ & Hg). rewrite Hr in Hr'. injection Hr' as <-.
  assert (FTx := Rfield).
  assert (D1 : forall f : nat -> R, SUMN (fun k => (if (k =? i)%nat then 1 else 0) * f k) d = f i).
  { intros f. rewrite (sumn_ext R_ops _ (fun k => if (k =? i)%nat then f k else k0 R_ops)); [exact (sumn_delta R_ops Rinv FTx f d i Hi)|].
    intros k _. cbn [R_ops k0]. destruct (k =? i)%nat; ring. }
  destruct (Hq (fun k => if (k =? i)%nat then 1 else 0)) as [Q1 Q2].
  assert (EQ : SUMN (fun a => SUMN (fun b => (if (a =? i)%nat then 1 else 0) * snd (cov_get s) a b * (if (b =? i)%nat then 1 else 0)) d) d = snd (cov_get s) i i).
  { rewrite (sumn_ext R_ops _ (fun a => (if (a =? i)%nat then 1 else 0) * (fun a => snd (cov_get s) a i) a)); [exact (D1 (fun a => snd (cov_get s) a i))|].
    intros a _. rewrite (sumn_ext R_ops _ (fun b => (if (b =? i)%nat then 1 else 0) * (fun b => (if (a =? i)%nat then 1 else 0) * snd (cov_get s) a b) b)); [exact (D1 (fun b => (if (a =? i)%nat then 1 else 0) * snd (cov_get s) a b))|].
    intros b _. cbv beta. ring. }
  rewrite EQ in Q1, Q2. clear EQ. split; [|split; [exact Q1|split]].
  - rewrite !Hg by assumption. destruct R_exact as [[inv FT] A1 A2 A3 A4 A5 A6]. now rewrite (the_covariance_hermitian R_ops inv FT A1 A2 A3 A4 A5 A6 (fun a => eq_refl) xs j i).
  - rewrite !Hg by assumption. unfold the_covariance. cbn [R_ops kdiv kofN kmul ksub kconj]. fold n1. pose proof n1_pos as P1.
    pose proof (schwarz _ (fun x => comp R_ops x i - the_mean R_ops xs i) (fun x => comp R_ops x j - the_mean R_ops xs j) xs) as S.
    cbv beta in S. revert S. generalize (SUM (fun x => (comp R_ops x i - the_mean R_ops xs i) * (comp R_ops x j - the_mean R_ops xs j)) xs)
      (SUM (fun x => (comp R_ops x i - the_mean R_ops xs i) * (comp R_ops x i - the_mean R_ops xs i)) xs) (SUM (fun x => (comp R_ops x j - the_mean R_ops xs j) * (comp R_ops x j - the_mean R_ops xs j)) xs). intros a b c S.
    replace ((a / n1) ^ 2) with (a ^ 2 / (n1 * n1)) by (field; lra). replace (b / n1 * (c / n1)) with (b * c / (n1 * n1)) by (field; lra).
    apply Rmult_le_compat_r; [|exact S]. left. apply Rinv_0_lt_compat. nra.
  - rewrite Q2. setoid_rewrite (D1 (fun k => nth k _ 0)). reflexivity.
Qed.
End Psd.
