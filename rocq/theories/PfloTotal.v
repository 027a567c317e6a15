(** C80: the counts add up, in double arithmetic. *)
From Coq Require Import Reals QArith Qreals ZArith Lra Lia.
From Flocq Require Import Core BinarySingleNaN.
From Verif Require Import Prelude ConsumerModel HistModel HistSpec HistProofs HistFloat HistTop PhistTotal StatsModel FloatSpec FloatBase HfloSpec HfloProofs HfloTop PfloSpec PfloTop.
Local Open Scope R_scope.
Local Open Scope list_scope.
Local Notation length := List.length.
Lemma pair_total : forall mnx mxx nx mny mxy ny, good_axis mnx mxx nx -> good_axis mny mxy ny -> (N.of_nat nx * N.of_nat ny <= 2 ^ 32)%N ->
  forall (b : build) (xs : list (list f64)),
  Forall (fun v => length v = 2%nat /\ is_nan (at_ 0 v) = false /\ is_nan (at_ 1 v) = false) xs -> (N.of_nat (length xs) < 2 ^ 64)%N ->
  exists h s rows, phist_double b (fun _ _ => 0%N) mnx mxx nx mny mxy ny = Ok h /\ run_consumer (phist_consume b) h (map (map to_dbl) xs) = Ok s /\
    phist_get s = Ok rows /\
    total (map snd rows) = count (fun v => in_right_open (val mnx) (val mxx) (at_ 0 v) && in_right_open (val mny) (val mxy) (at_ 1 v))%bool xs.
Proof.
  intros mnx mxx nx mny mxy ny (X1 & X2 & X3 & X4 & X5) (Y1 & Y2 & Y3 & Y4 & Y5) Hnn b xs Hxs HN. rewrite Forall_forall in Hxs.
  destruct (phist_sum b (pts mnx mxx nx) (pts mny mxy ny) nx ny (map (map to_dbl) xs)) as (s & rows & Hr & Hg & Ht);
    [apply pts_subdivision; assumption|apply pts_subdivision; assumption|apply pts_length|apply pts_length| |exact Hnn| |].
  { intros w Hw. apply in_map_iff in Hw as (v & <- & Hv). destruct (Hxs v Hv) as (L & N0 & N1). split; [now rewrite map_length|].
    destruct v as [|a [|c [|]]]; try discriminate. cbn [map]. repeat constructor; apply not_nan; assumption. }
  { rewrite map_length. exact HN. }
  eexists. exists s, rows. split; [|split; [exact Hr|split; [exact Hg|]]].
  { unfold phist_double, phist_new.
    rewrite (proj2 (to_lt mnx mxx X1 X2)) by (pose proof (w_positive mnx mxx X4); lra).
    rewrite (proj2 (to_lt mny mxy Y1 Y2)) by (pose proof (w_positive mny mxy Y4); lra). reflexivity. }
  rewrite Ht, count_map'. apply count_eq. intros v Hv. destruct (Hxs v Hv) as (L & N0 & N1). rewrite comp0, comp1 by exact L.
  rewrite !Bool.andb_true_iff, !in_range_iff by assumption. tauto.
Qed.
