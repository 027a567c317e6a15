(** Proofs for C80. *)
From Coq Require Import Reals QArith Qreals ZArith Lra Lia.
From Flocq Require Import Core BinarySingleNaN.
From Verif Require Import Prelude ConsumerModel HistModel HistSpec HistProofs HistFloat HistTop StatsModel FloatSpec FloatBase HfloSpec HfloProofs HfloTop HfloOvf PfloSpec.
Local Open Scope R_scope.
Local Open Scope list_scope.
Local Notation length := List.length.

Lemma comp0 : forall v : list f64, length v = 2%nat -> nth 0 (map to_dbl v) DNaN = to_dbl (at_ 0 v).
Proof. intros [|a [|c [|]]] H; try discriminate; reflexivity. Qed.
Lemma comp1 : forall v : list f64, length v = 2%nat -> nth 1 (map to_dbl v) DNaN = to_dbl (at_ 1 v).
Proof. intros [|a [|c [|]]] H; try discriminate; reflexivity. Qed.
Lemma not_nan : forall x : f64, is_nan x = false -> to_dbl x <> DNaN.
Proof. intros [?|[]| |] H; discriminate. Qed.
Lemma pair_counts : forall mnx mxx nx mny mxy ny, good_axis mnx mxx nx -> good_axis mny mxy ny -> (N.of_nat nx * N.of_nat ny <= 2 ^ 32)%N ->
  forall (b : build) (memory : nat -> nat -> N) (xs : list (list f64)),
  Forall (fun v => length v = 2%nat /\ is_nan (at_ 0 v) = false /\ is_nan (at_ 1 v) = false) xs ->
  exists h s rows, phist_double b memory mnx mxx nx mny mxy ny = Ok h /\ run_consumer (phist_consume b) h (map (map to_dbl) xs) = Ok s /\
    phist_get s = Ok rows /\ length rows = (nx * ny)%nat /\
    forall i j, (i < nx)%nat -> (j < ny)%nat -> (memory i j < 2 ^ 64)%N -> exists p q p' q' c,
      nth_error rows (i * ny + j) = Some ((to_dbl p, to_dbl q), (to_dbl p', to_dbl q'), ((memory i j + c) mod 2 ^ 64)%N) /\
      finite p /\ finite p' /\ finite q /\ finite q' /\ val p <= val p' /\ val q <= val q' /\
      Rabs (val p - edge mnx mxx nx i) <= slack mnx mxx /\ Rabs (val p' - edge mnx mxx nx (i + 1)) <= slack mnx mxx /\
      Rabs (val q - edge mny mxy ny j) <= slack mny mxy /\ Rabs (val q' - edge mny mxy ny (j + 1)) <= slack mny mxy /\
      (count (inside_bin mnx mxx nx mny mxy ny i j) xs <= c <= count (near_bin mnx mxx nx mny mxy ny i j) xs)%N.
Proof.
  intros mnx mxx nx mny mxy ny (X1 & X2 & X3 & X4 & X5) (Y1 & Y2 & Y3 & Y4 & Y5) Hnn b G xs Hxs. rewrite Forall_forall in Hxs.
  destruct (phist_total b (pts mnx mxx nx) (pts mny mxy ny) nx ny G (map (map to_dbl) xs)) as (s & rows & Hr & Hg & Hl & Hk);
    [apply pts_subdivision; assumption|apply pts_subdivision; assumption|apply pts_length|apply pts_length| |exact Hnn|].
  { intros w Hw. apply in_map_iff in Hw as (v & <- & Hv). destruct (Hxs v Hv) as (L & N0 & N1). split; [now rewrite map_length|].
    destruct v as [|a [|c [|]]]; try discriminate. cbn [map]. repeat constructor; apply not_nan; assumption. }
  eexists. exists s, rows. split; [|split; [exact Hr|split; [exact Hg|split; [exact Hl|]]]].
  { unfold phist_double, phist_new.
    rewrite (proj2 (to_lt mnx mxx X1 X2)) by (pose proof (w_positive mnx mxx X4); lra).
    rewrite (proj2 (to_lt mny mxy Y1 Y2)) by (pose proof (w_positive mny mxy Y4); lra). reflexivity. }
  intros i j Hi Hj HG. exists (pf mnx mxx nx i), (pf mny mxy ny j), (pf mnx mxx nx (i + 1)), (pf mny mxy ny (j + 1)),
    (count (fun v => belongs (pts mnx mxx nx) i (to_dbl (at_ 0 v)) && belongs (pts mny mxy ny) j (to_dbl (at_ 1 v)))%bool xs).
  split.
  { rewrite (Hk i j Hi Hj HG). rewrite !pts_nth by lia. rewrite count_map. do 3 f_equal. f_equal. apply count_eq. intros v Hv.
    destruct (Hxs v Hv) as (L & _). rewrite comp0, comp1 by exact L. reflexivity. }
  split; [apply pf_ok; auto; lia|]. split; [apply pf_ok; auto; lia|]. split; [apply pf_ok; auto; lia|]. split; [apply pf_ok; auto; lia|].
  split; [apply pf_mono; auto; lia|]. split; [apply pf_mono; auto; lia|].
  split; [apply pf_acc; auto; lia|]. split; [apply pf_acc; auto; lia|]. split; [apply pf_acc; auto; lia|]. split; [apply pf_acc; auto; lia|].
  split; apply count_mono; intros v Hv H; destruct (Hxs v Hv) as (L & N0 & N1); apply Bool.andb_true_iff in H as [H0 H1]; apply Bool.andb_true_iff.
  - split; apply belongs_lower; assumption.
  - split; apply belongs_upper; assumption.
Qed.
Lemma pair_ovf : forall mnx mxx nx mny mxy ny memory x y, finite mnx -> finite mxx -> (0 < N.of_nat nx <= 2 ^ 32)%N -> bpow radix2 1024 <= val mxx - val mnx ->
  good_axis mny mxy ny -> finite x -> val x < val mxx -> finite y -> val mny <= val y < val mxy ->
  exists h, phist_double Debug memory mnx mxx nx mny mxy ny = Ok h /\ phist_consume Debug h [to_dbl x; to_dbl y] = AssertFail.
Proof.
  intros mnx mxx nx mny mxy ny G x y X1 X2 X3 X4 (Y1 & Y2 & Y3 & Y4 & Y5) Fx Hx Fy Hy.
  eexists. split.
  { unfold phist_double, phist_new.
    rewrite (proj2 (to_lt mnx mxx X1 X2)) by (pose proof (bpow_gt_0 radix2 1024); lra).
    rewrite (proj2 (to_lt mny mxy Y1 Y2)) by (pose proof (w_positive mny mxy Y4); lra). reflexivity. }
  fold (pts mnx mxx nx) (pts mny mxy ny).
  destruct (ovf_pts mnx mxx nx X1 X2 X3 X4) as (rest & E & B & _).
  unfold phist_consume. cbn [length Nat.eqb assert_then ph_x ph_y]. rewrite E.
  assert (D1 : dlt (to_dbl x) DNaN = false) by (destruct (to_dbl x); reflexivity). assert (D2 : dle DNaN (to_dbl x) = false) by reflexivity.
  assert (D3 : dle (to_dbl mxx) (to_dbl x) = false).
  { destruct (dle (to_dbl mxx) (to_dbl x)) eqn:D; [|reflexivity]. apply (to_le mxx x X2 Fx) in D. lra. }
  assert (O1 : outside (DNaN :: rest) (to_dbl x) = false) by (unfold outside; rewrite B; cbn [front hd]; rewrite D1, D3; reflexivity). rewrite O1.
  assert (P0 : exists rest', pts mny mxy ny = to_dbl (pf mny mxy ny 0%nat) :: rest').
  { pose proof (pts_nth mny mxy ny Y3 0%nat ltac:(lia)) as P. pose proof (pts_length mny mxy ny). destruct (pts mny mxy ny) as [|p r]; [cbn in H; lia|]. exists r. cbn [nth] in P. now rewrite P. }
  destruct P0 as (rest' & EY).
  assert (B' : back (pts mny mxy ny) = to_dbl mxy) by (unfold back, pts, axis_points; apply last_last).
  assert (O2 : outside (pts mny mxy ny) (to_dbl y) = false).
  { unfold outside. rewrite B', EY. cbn [front hd]. destruct (dlt (to_dbl y) (to_dbl (pf mny mxy ny 0%nat))) eqn:D.
    - apply to_lt in D; [|exact Fy|apply pf_ok; auto; lia]. rewrite pf_0 in D by assumption. lra.
    - destruct (dle (to_dbl mxy) (to_dbl y)) eqn:D'; [|reflexivity]. apply to_le in D'; [lra|exact Y2|exact Fy]. }
  rewrite EY in O2 |- *. rewrite O2. unfold pbin_number. cbn [front hd]. rewrite D2. reflexivity.
Qed.
