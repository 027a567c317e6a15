(** What AverageCosineBetweenSuccessiveSamples computes, whatever the arithmetic. *)
From Coq Require Import Reals Lia.
From Verif Require Import Prelude ConsumerModel StatsModel StatsInst StatsCosModel FCosModel.
Local Notation len xs := (N.of_nat (length xs)).

(** With exact arithmetic it is the model of C17. *)
Lemma real_consume H (s : gcos_state R) x :
  gcos_consume R_ops sqrt H s x =
  do s' <- cos_consume H {| cs_avg := gc_avg s; cs_prev := gc_prev s; cs_repl := gc_repl s; cs_n := gc_n s; cs_dim := gc_dim s |} x;
  Ok {| gc_avg := cs_avg s'; gc_prev := cs_prev s'; gc_repl := cs_repl s'; gc_n := cs_n s'; gc_dim := cs_dim s' |}.
Proof.
  unfold gcos_consume, cos_consume. cbn [cs_n cs_dim cs_avg cs_prev cs_repl]. destruct (gc_n s =? 0)%N; [destruct (_ && _); reflexivity|]. destruct (negb _); reflexivity.
Qed.
Lemma real_model H g1 g2 xs : forall s, cos_init g1 g2 = s ->
  run_consumer (gcos_consume R_ops sqrt H) (gcos_init g1 g2) xs =
  do s' <- run_consumer (cos_consume H) s xs;
  Ok {| gc_avg := cs_avg s'; gc_prev := cs_prev s'; gc_repl := cs_repl s'; gc_n := cs_n s'; gc_dim := cs_dim s' |}.
Proof.
  intros s <-. change (gcos_init g1 g2) with ({| gc_avg := cs_avg (cos_init g1 g2); gc_prev := cs_prev (cos_init g1 g2); gc_repl := cs_repl (cos_init g1 g2); gc_n := cs_n (cos_init g1 g2); gc_dim := cs_dim (cos_init g1 g2) |}).
  generalize (cos_init g1 g2). induction xs as [|x xs IH]; intros s; [reflexivity|]. cbn [run_consumer]. rewrite real_consume. cbn [gc_avg gc_prev gc_repl gc_n gc_dim].
  replace {| cs_avg := cs_avg s; cs_prev := cs_prev s; cs_repl := cs_repl s; cs_n := cs_n s; cs_dim := cs_dim s |} with s by (destruct s; reflexivity).
  destruct (cos_consume H s x) as [s'| | |]; cbn [bind]; [apply IH|reflexivity|reflexivity|reflexivity].
Qed.

Section G.
  Context {K : Type} (F : kops K) (ksqrt : K -> K).
  Local Notation cosine := (gcosine F ksqrt).

  (** One update of an average, and all of them. *)
  Definition gstep (m x : K) (n : N) : K := kadd F m (kdiv F (ksub F x m) (kofN F n)).
  Fixpoint grun (n : N) (m : K) (xs : list K) : K := match xs with [] => m | x :: r => grun (n + 1) (gstep m x (n + 1)) r end.
  Lemma grun_snoc xs : forall n m x, grun n m (xs ++ [x]) = gstep (grun n m xs) x (n + len xs + 1).
  Proof. induction xs as [|y xs IH]; intros n m x; cbn [app grun length]; [f_equal; lia|]. rewrite IH. f_equal. lia. Qed.
  (** The cosines at distance k. *)
  Definition gcosines (xs : list (list K)) (k : nat) : list K := map (fun t => cosine (nth (t + k) xs []) (nth t xs [])) (seq 0 (length xs - k)).
  Lemma gcosines_snoc xs x k : (1 <= k)%nat -> (k <= length xs)%nat -> gcosines (xs ++ [x]) k = gcosines xs k ++ [cosine x (nth (length xs - k) xs [])].
  Proof.
    intros Hk Hn. unfold gcosines. rewrite app_length. cbn [length]. replace (length xs + 1 - k)%nat with (S (length xs - k)) by lia.
    rewrite seq_S, map_app. cbn [map]. f_equal.
    - apply map_ext_in. intros t Ht. apply in_seq in Ht. now rewrite !app_nth1 by lia.
    - f_equal. replace (0 + (length xs - k) + k)%nat with (length xs) by lia. cbn [Nat.add].
      rewrite (app_nth1 _ _ _ (n := (length xs - k)%nat)) by lia. rewrite app_nth2, Nat.sub_diag by lia. reflexivity.
  Qed.
  Lemma gcosines_length xs k : length (gcosines xs k) = (length xs - k)%nat.
  Proof. unfold gcosines. now rewrite map_length, seq_length. Qed.
  Lemma gcosines_empty xs k : (length xs <= k)%nat -> gcosines xs k = [].
  Proof. intros H. unfold gcosines. now replace (length xs - k)%nat with 0%nat by lia. Qed.

  Lemma nth_gcos_loop sample prev n l1 avg i z : (i < length avg)%nat ->
    nth i (gcos_loop F ksqrt sample prev n l1 avg) z = if (N.of_nat i <? l1)%N then gcos_update F ksqrt sample (prev i) n i (nth i avg z) else nth i avg z.
  Proof.
    intros Hi. unfold gcos_loop.
    set (f := fun ia : nat * K => if (N.of_nat (fst ia) <? l1)%N then gcos_update F ksqrt sample (prev (fst ia)) n (fst ia) (snd ia) else snd ia).
    assert (L : length (combine (seq 0 (length avg)) avg) = length avg) by (rewrite combine_length, seq_length; lia).
    rewrite (nth_indep _ z (f (0%nat, z))) by (rewrite map_length, L; exact Hi).
    rewrite map_nth, combine_nth by (now rewrite seq_length). rewrite seq_nth by exact Hi. reflexivity.
  Qed.
  Lemma run_snoc'' {St A} (c : St -> A -> outcome St) xs : forall s x, run_consumer c s (xs ++ [x]) = (do s' <- run_consumer c s xs; c s' x).
  Proof. induction xs as [|y xs IH]; intros s x; cbn; [destruct (c s x); reflexivity|]. destruct (c s y); cbn; auto. Qed.

  Lemma gcos_run (H : N) g1 g2 xs d : xs <> [] -> Forall (fun x => length x = d) xs -> (0 < H < two32)%N -> (len xs < two32)%N ->
    exists s, run_consumer (gcos_consume F ksqrt H) (gcos_init g1 g2) xs = Ok s /\ gc_n s = len xs /\ gc_dim s = d /\ length (gc_avg s) = N.to_nat H /\
      (forall i, (i < length xs)%nat -> (i < N.to_nat H)%nat -> gc_prev s i = nth (length xs - 1 - i) xs []) /\
      (forall i, (i < N.to_nat H)%nat -> nth i (gc_avg s) (k0 F) = grun 0 (k0 F) (gcosines xs (i + 1))).
  Proof.
    induction xs as [|x xs IH] using rev_ind; [congruence|]. intros _ Hs HH Hn.
    apply Forall_app in Hs. destruct Hs as [Hs Hx]. inversion Hx as [|? ? Hx1 _]; subst. rewrite run_snoc''.
    rewrite app_length in Hn. cbn [length] in Hn.
    destruct xs as [|y ys].
    - cbn [run_consumer bind app]. unfold gcos_consume, gcos_init. cbn [gc_n]. rewrite N.eqb_refl.
      destruct (N.eqb_spec H 0) as [E|_]; [lia|]. cbn [andb]. eexists. split; [reflexivity|]. cbn [gc_n gc_dim gc_avg gc_prev].
      rewrite repeat_length. do 3 (split; [reflexivity|]). split.
      + intros i Hi _. cbn in Hi. assert (i = 0)%nat as -> by lia. reflexivity.
      + intros i Hi. rewrite gcosines_empty by (cbn; lia). cbn [grun]. apply (@repeat_spec K (N.to_nat H) (k0 F)). apply nth_In. now rewrite repeat_length.
    - destruct IH as (s & Hr & Hcn & Hd & Hl & Hp & Ha); [congruence|exact Hs|exact HH|lia|]. rewrite Hr. cbn [bind].
      set (xs := y :: ys) in *. assert (Hlen : (1 <= length xs)%nat) by (unfold xs; cbn; lia).
      unfold gcos_consume. rewrite Hcn, Hd. destruct (N.eqb_spec (len xs) 0) as [E|_]; [lia|].
      rewrite Nat.eqb_refl. cbn [negb].
      assert (W1 : wrap32 (len xs) = len xs) by (apply N.mod_small; lia).
      assert (W2 : wrap32 (H + two32 - 1) = (H - 1)%N).
      { unfold wrap32. replace (H + two32 - 1)%N with ((H - 1) + 1 * two32)%N by lia. rewrite N.mod_add by discriminate. apply N.mod_small. lia. }
      assert (W3 : wrap64 (len xs + 1) = (len xs + 1)%N) by (apply N.mod_small; assert (two32 < two64)%N by reflexivity; lia).
      rewrite W1, W2, W3. eexists. split; [reflexivity|]. cbn [gc_n gc_dim gc_avg gc_prev].
      assert (Hn' : length (xs ++ [x]) = (length xs + 1)%nat) by (rewrite app_length; reflexivity).
      rewrite Hn'. split; [lia|]. split; [reflexivity|]. split; [|split].
      + unfold gcos_loop. rewrite map_length, combine_length, seq_length. lia.
      + intros i Hi HiH. destruct (Nat.eqb_spec i 0) as [->|Hi0].
        * rewrite app_nth2 by lia. now replace (length xs + 1 - 1 - 0 - length xs)%nat with 0%nat by lia.
        * destruct (N.ltb_spec (N.of_nat (i - 1)) (N.min (len xs) (H - 1))) as [_|Hc]; [|lia].
          rewrite Hp by lia. rewrite app_nth1 by lia. f_equal. lia.
      + intros i HiH. rewrite nth_gcos_loop by lia. rewrite Ha by lia.
        destruct (N.ltb_spec (N.of_nat i) (N.min (len xs) H)) as [Hc|Hc].
        * rewrite gcosines_snoc by lia. rewrite grun_snoc. rewrite gcosines_length. unfold gcos_update, gstep. rewrite Hp by lia.
          replace (length xs - 1 - i)%nat with (length xs - (i + 1))%nat by lia. f_equal. f_equal. f_equal. lia.
        * rewrite !gcosines_empty by lia. reflexivity.
  Qed.
End G.
