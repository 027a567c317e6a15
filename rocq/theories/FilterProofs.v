From Coq Require Import ZifyBool ZifyNat ZifyN.
From Verif Require Import Prelude FilterModel FilterSpec.
Ltac Zify.zify_post_hook ::= Z.div_mod_to_equations.

(** ** Generic facts about [pick] *)
Lemma combine_seq_S {A} (xs : list A) : forall k n,
  combine (seq (S k) n) xs = map (fun ix => (S (fst ix), snd ix)) (combine (seq k n) xs).
Proof.
  induction xs as [|x xs IH]; intros k n; destruct n as [|n]; simpl; try reflexivity.
  f_equal. apply IH.
Qed.

Lemma filter_map_comm {A B} (g : A -> B) (P : B -> bool) (l : list A) :
  filter P (map g l) = map g (filter (fun a => P (g a)) l).
Proof.
  induction l as [|a l IH]; simpl; [reflexivity|].
  destruct (P (g a)); simpl; rewrite IH; reflexivity.
Qed.

Lemma pick_cons {A} (P : nat -> bool) (x : A) xs :
  pick P (x :: xs) = (if P 0 then [x] else []) ++ pick (fun i => P (S i)) xs.
Proof.
  unfold pick. cbn [length seq combine filter fst].
  rewrite combine_seq_S, filter_map_comm.
  destruct (P 0); cbn [map app]; rewrite map_map; reflexivity.
Qed.

Lemma pick_nil {A} P : @pick A P [] = [].
Proof. reflexivity. Qed.

Lemma pick_ext {A} (P Q : nat -> bool) (xs : list A) :
  (forall i, i < length xs -> P i = Q i) -> pick P xs = pick Q xs.
Proof.
  revert P Q. induction xs as [|x xs IH]; intros P Q H; [reflexivity|].
  rewrite !pick_cons, (H 0) by (simpl; lia). f_equal.
  apply IH. intros i Hi. apply H. simpl; lia.
Qed.

Lemma pick_all {A} (P : nat -> bool) (xs : list A) :
  (forall i, i < length xs -> P i = true) -> pick P xs = xs.
Proof.
  revert P. induction xs as [|x xs IH]; intros P H; [reflexivity|].
  rewrite pick_cons, (H 0) by (simpl; lia). cbn [app]. f_equal.
  apply IH. intros i Hi. apply H. simpl; lia.
Qed.

Lemma pick_ge_skipn {A} (n : nat) (xs : list A) :
  pick (fun i => n <=? i) xs = skipn n xs.
Proof.
  revert n. induction xs as [|x xs IH]; intros n.
  - rewrite skipn_nil. reflexivity.
  - rewrite pick_cons. destruct n as [|n].
    + cbn [Nat.leb app skipn]. f_equal. apply pick_all. reflexivity.
    + cbn [Nat.leb app skipn]. apply IH.
Qed.

(** ** TakeEveryNth *)

(** Counter value before sample number [i] (zero based). *)
Definition ten_counter (n : N) (i : nat) : N :=
  match i with
  | O => 0
  | S k => (N.of_nat k mod n) + 1
  end%N.

Lemma ten_step {X A} (n : N) (i : nat) (x : X * A) :
  (0 < n < two64)%N ->
  ten_filter n (ten_counter n i) x =
  Ok (ten_counter n (S i),
      if (N.of_nat i mod n =? 0)%N then Some x else None).
Proof.
  intros Hn. unfold ten_filter.
  destruct (N.eqb_spec n 0); [lia|].
  assert (Hc : (ten_counter n i mod n = N.of_nat i mod n)%N).
  { destruct i as [|k]; cbn [ten_counter]; [reflexivity|].
    rewrite N.add_mod_idemp_l by lia. f_equal. lia. }
  rewrite Hc. destruct (N.eqb_spec (N.of_nat i mod n) 0) as [E|E].
  - cbn [ten_counter]. rewrite E. reflexivity.
  - cbn [ten_counter]. do 2 f_equal. unfold wrap64.
    destruct i as [|k]; [rewrite N.mod_0_l in E by lia; lia|].
    cbn [ten_counter].
    assert (Hk : (N.of_nat k mod n < n)%N) by (apply N.mod_lt; lia).
    assert (Hne : (N.of_nat k mod n + 1 <> n)%N).
    { intros Heq. apply E.
      replace (N.of_nat (S k)) with (N.of_nat k + 1)%N by lia.
      rewrite <- N.add_mod_idemp_l by lia. rewrite Heq. apply N.mod_same; lia. }
    replace (N.of_nat (S k) mod n)%N with (N.of_nat k mod n + 1)%N.
    + rewrite N.mod_small by lia. reflexivity.
    + replace (N.of_nat (S k)) with (N.of_nat k + 1)%N by lia.
      rewrite <- N.add_mod_idemp_l by lia. rewrite (N.mod_small (_ + 1)) by lia. reflexivity.
Qed.

Lemma ten_run_from {X A} (n : N) (xs : list (X * A)) : forall i,
  (0 < n < two64)%N ->
  run_filter (ten_filter n) (ten_counter n i) xs =
  Ok (ten_counter n (i + length xs),
      pick (fun k => N.of_nat (i + k) mod n =? 0)%N xs).
Proof.
  induction xs as [|x xs IH]; intros i Hn.
  - cbn. rewrite Nat.add_0_r. reflexivity.
  - cbn [run_filter]. rewrite ten_step by assumption. cbn [bind].
    rewrite IH by assumption. cbn [bind].
    rewrite pick_cons, Nat.add_0_r.
    do 2 f_equal.
    + f_equal. cbn [length]. lia.
    + rewrite (pick_ext (fun k => N.of_nat (S i + k) mod n =? 0)%N
                        (fun k => N.of_nat (i + S k) mod n =? 0)%N).
      2:{ intros k _. do 3 f_equal. lia. }
      destruct (N.of_nat i mod n =? 0)%N; reflexivity.
Qed.

Lemma ten_correct {X A} (n : N) (xs : list (X * A)) :
  (0 < n < two64)%N ->
  exists c, run_filter (ten_filter n) ten_init xs =
            Ok (c, pick (fun i => N.of_nat i mod n =? 0)%N xs).
Proof.
  intros Hn. exists (ten_counter n (length xs)).
  apply (ten_run_from n xs 0 Hn).
Qed.

Lemma ten_counter_bounded {X A} (n : N) (xs : list (X * A)) c ys :
  (0 < n < two64)%N ->
  run_filter (ten_filter n) ten_init xs = Ok (c, ys) -> (c <= n)%N.
Proof.
  intros Hn H. pose proof (ten_run_from n xs 0 Hn) as H'.
  change (ten_counter n 0) with ten_init in H'. rewrite H in H'.
  injection H' as Hc _. subst c. cbn [Nat.add].
  destruct (length xs) as [|k]; cbn [ten_counter]; [lia|].
  pose proof (N.mod_lt (N.of_nat k) n). lia.
Qed.

Lemma ten_zero_ub {X A} (x : X * A) xs :
  run_filter (ten_filter 0) ten_init (x :: xs) = UB.
Proof. reflexivity. Qed.

Definition count_pred (P : nat -> bool) (k n : nat) : nat := length (filter P (seq k n)).

Lemma pick_length {A} (P : nat -> bool) (xs : list A) :
  length (pick P xs) = length (filter P (seq 0 (length xs))).
Proof.
  revert P. induction xs as [|x xs IH]; intros P; [reflexivity|].
  rewrite pick_cons, app_length, IH. cbn [length seq filter].
  rewrite <- seq_shift, filter_map_comm.
  destruct (P 0); cbn [length]; rewrite map_length; reflexivity.
Qed.

Lemma count_multiples (n len : nat) : (0 < n) ->
  length (filter (fun i => i mod n =? 0) (seq 0 len)) = ceil_div len n.
Proof.
  intros Hn. unfold ceil_div. induction len as [|len IH].
  - cbn [seq filter length]. symmetry. apply Nat.div_small. lia.
  - rewrite seq_S, filter_app, app_length, IH, Nat.add_0_l. cbn [filter].
    destruct (Nat.eqb_spec (len mod n) 0) as [E|E]; cbn [length].
    + pose proof (Nat.div_mod len n ltac:(lia)) as D. rewrite E in D.
      remember (len / n) as q eqn:Hq. clear Hq.
      replace (len + n - 1) with ((n - 1) + q * n) by nia.
      replace (S len + n - 1) with (0 + (q + 1) * n) by nia.
      rewrite !Nat.div_add by lia.
      rewrite (Nat.div_small (n - 1) n), (Nat.div_small 0 n) by lia. clear. lia.
    + pose proof (Nat.div_mod len n ltac:(lia)) as D.
      pose proof (Nat.mod_upper_bound len n ltac:(lia)) as B.
      remember (len / n) as q eqn:Hq. remember (len mod n) as r eqn:Hr. clear Hq Hr.
      replace (len + n - 1) with ((r - 1) + (q + 1) * n) by nia.
      replace (S len + n - 1) with (r + (q + 1) * n) by nia.
      rewrite !Nat.div_add by lia.
      rewrite (Nat.div_small (r - 1) n), (Nat.div_small r n) by lia. clear. lia.
Qed.

Lemma ten_count {X A} (n : nat) (xs : list (X * A)) c ys :
  0 < n -> (N.of_nat n < two64)%N ->
  run_filter (ten_filter (N.of_nat n)) ten_init xs = Ok (c, ys) ->
  length ys = ceil_div (length xs) n.
Proof.
  intros Hn Hb H.
  destruct (ten_correct (N.of_nat n) xs ltac:(lia)) as [c' H'].
  rewrite H in H'. injection H' as _ ->.
  rewrite pick_length, <- count_multiples by assumption.
  f_equal. apply filter_ext. intros i.
  rewrite <- Nnat.Nat2N.inj_mod.
  destruct (Nat.eqb_spec (i mod n) 0) as [E|E]; destruct (N.eqb_spec (N.of_nat (i mod n)) 0); lia.
Qed.

(** ** DiscardFirstN *)
Lemma dfn_run_from {X A} (n : N) (xs : list (X * A)) : forall i,
  run_filter (dfn_filter n) (wrap64 (N.of_nat i)) xs =
  Ok (wrap64 (N.of_nat (i + length xs)),
      pick (fun k => n <? wrap64 (N.of_nat (i + k) + 1))%N xs).
Proof.
  induction xs as [|x xs IH]; intros i.
  - cbn. rewrite Nat.add_0_r. reflexivity.
  - cbn [run_filter].
    assert (Hs : dfn_filter n (wrap64 (N.of_nat i)) x =
                 Ok (wrap64 (N.of_nat (S i)),
                     if (n <? wrap64 (N.of_nat i + 1))%N then Some x else None)).
    { unfold dfn_filter, wrap64. rewrite N.add_mod_idemp_l by discriminate.
      replace (N.of_nat (S i)) with (N.of_nat i + 1)%N by lia.
      destruct (n <? _)%N; reflexivity. }
    rewrite Hs. cbn [bind]. rewrite IH. cbn [bind].
    rewrite pick_cons, Nat.add_0_r. do 2 f_equal.
    + do 2 f_equal. cbn [length]. lia.
    + rewrite (pick_ext (fun k => n <? wrap64 (N.of_nat (S i + k) + 1))%N
                        (fun k => n <? wrap64 (N.of_nat (i + S k) + 1))%N).
      2:{ intros k _. do 3 f_equal. lia. }
      destruct (n <? wrap64 (N.of_nat i + 1))%N; reflexivity.
Qed.

Lemma dfn_exact {X A} (n : N) (xs : list (X * A)) :
  exists c, run_filter (dfn_filter n) dfn_init xs =
            Ok (c, pick (fun i => n <? wrap64 (N.of_nat i + 1))%N xs).
Proof.
  eexists. apply (dfn_run_from n xs 0).
Qed.

Lemma dfn_correct {X A} (n : nat) (xs : list (X * A)) :
  (N.of_nat (length xs) < two64)%N ->
  exists c, run_filter (dfn_filter (N.of_nat n)) dfn_init xs = Ok (c, skipn n xs).
Proof.
  intros Hl. destruct (dfn_exact (N.of_nat n) xs) as [c H]. exists c. rewrite H.
  do 2 f_equal. rewrite <- pick_ge_skipn. apply pick_ext. intros i Hi.
  unfold wrap64. rewrite N.mod_small by lia.
  destruct (N.ltb_spec (N.of_nat n) (N.of_nat i + 1)); destruct (Nat.leb_spec n i); lia.
Qed.

(** ** Stateless filters *)
Lemma cond_correct {X A} (p : X -> A -> bool) (xs : list (X * A)) s :
  run_filter (cond_filter p) s xs = Ok (s, filter (fun x => p (fst x) (snd x)) xs).
Proof.
  revert s. induction xs as [|[x a] xs IH]; intros s; [reflexivity|].
  cbn [run_filter cond_filter bind fst snd]. rewrite IH. cbn [bind filter fst snd].
  destruct (p x a); reflexivity.
Qed.

Lemma conv_correct {X Y A} (g : X -> Y) (xs : list (X * A)) s :
  run_filter (conv_filter g) s xs = Ok (s, map (fun x => (g (fst x), snd x)) xs).
Proof.
  revert s. induction xs as [|[x a] xs IH]; intros s; [reflexivity|].
  cbn [run_filter conv_filter bind fst snd]. rewrite IH. reflexivity.
Qed.

Lemma pass_correct {X A} (xs : list (X * A)) s :
  run_filter pass_filter s xs = Ok (s, xs).
Proof.
  revert s. induction xs as [|[x a] xs IH]; intros s; [reflexivity|].
  cbn [run_filter pass_filter bind fst snd]. rewrite IH. reflexivity.
Qed.

Lemma split_ok {X A} b k (xs : list (list X * A)) (ys : list (X * A)) s :
  Forall2 (fun x y => nth_error (fst x) k = Some (fst y) /\ snd x = snd y) xs ys ->
  run_filter (split_filter b k) s xs = Ok (s, ys).
Proof.
  intros H. revert s. induction H as [|[x a] [y a'] xs ys [E1 E2] H IH]; intros s; [reflexivity|].
  cbn [fst snd] in E1, E2. subst a'.
  cbn [run_filter]. unfold split_filter at 1. cbn [fst snd]. rewrite E1.
  assert (Hk : (k <? length x) = true).
  { apply Nat.ltb_lt. apply nth_error_Some. rewrite E1. discriminate. }
  rewrite Hk. cbn [assert_then bind]. rewrite IH. reflexivity.
Qed.

Lemma split_ok_inv {X A} b k (xs : list (list X * A)) (ys : list (X * A)) s s' :
  run_filter (split_filter b k) s xs = Ok (s', ys) ->
  Forall2 (fun x y => nth_error (fst x) k = Some (fst y) /\ snd x = snd y) xs ys.
Proof.
  revert s s' ys. induction xs as [|[x a] xs IH]; intros s s' ys H.
  - cbn in H. injection H as _ <-. constructor.
  - cbn [run_filter] in H. unfold split_filter at 1 in H. cbn [fst snd] in H.
    destruct (nth_error x k) as [y|] eqn:E.
    + assert (Hk : (k <? length x) = true).
      { apply Nat.ltb_lt. apply nth_error_Some. rewrite E. discriminate. }
      rewrite Hk in H. cbn [assert_then bind] in H.
      destruct (run_filter (split_filter b k) s xs) as [[s2 ys2]| | |] eqn:R;
        cbn [bind] in H; try discriminate.
      injection H as <- <-. constructor; [split; [exact E|reflexivity]|].
      eapply IH. exact R.
    + unfold assert_then in H. destruct (k <? length x), b; discriminate.
Qed.

Lemma split_fail {X A} b k (pre : list (list X * A)) x post s :
  Forall (fun y => k < length (fst y)) pre ->
  length (fst x) <= k ->
  run_filter (split_filter b k) s (pre ++ x :: post) =
  match b with Debug => AssertFail | Release => UB end.
Proof.
  intros H Hx. revert s. induction H as [|[y a] pre Hy H IH]; intros s.
  - cbn [app run_filter]. unfold split_filter at 1.
    assert (Hk : (k <? length (fst x)) = false) by (apply Nat.ltb_ge; lia).
    rewrite Hk. assert (E : nth_error (fst x) k = None) by (apply nth_error_None; lia).
    rewrite E. destruct b; reflexivity.
  - cbn [app run_filter]. unfold split_filter at 1. cbn [fst snd] in *.
    assert (Hk : (k <? length y) = true) by (apply Nat.ltb_lt; lia).
    rewrite Hk. destruct (nth_error y k) as [z|] eqn:E.
    + cbn [assert_then bind]. rewrite IH. destruct b; reflexivity.
    + apply nth_error_None in E. lia.
Qed.

(** ** Composition *)
Lemma seq_filter_eq {S1 S2 X Y Z A}
      (f : filter_fn S1 X Y A) (g : filter_fn S2 Y Z A) s1 s2 x :
  seq_filter f g (s1, s2) x =
    do (s1', o) <- f s1 x;
    match o with
    | None => Ok ((s1', s2), None)
    | Some y => do (s2', o') <- g s2 y; Ok ((s1', s2'), o')
    end.
Proof. reflexivity. Qed.

Lemma seq_filter_correct {S1 S2 X Y Z A}
      (f : filter_fn S1 X Y A) (g : filter_fn S2 Y Z A) s1 s2 xs s1' s2' zs :
  run_filter (seq_filter f g) (s1, s2) xs = Ok ((s1', s2'), zs) <->
  exists ys, run_filter f s1 xs = Ok (s1', ys) /\ run_filter g s2 ys = Ok (s2', zs).
Proof.
  revert s1 s2 zs. induction xs as [|x xs IH]; intros s1 s2 zs.
  - cbn. split.
    + intros H. injection H as <- <- <-. exists []. split; reflexivity.
    + intros (ys & H1 & H2). injection H1 as <- <-. cbn in H2. injection H2 as <- <-. reflexivity.
  - cbn [run_filter]. rewrite seq_filter_eq.
    destruct (f s1 x) as [[t1 o]| | |] eqn:Ef; cbn [bind];
      try (split; [discriminate|intros (ys & H & _); discriminate]).
    destruct o as [y|].
    + destruct (g s2 y) as [[t2 o']| | |] eqn:Eg; cbn [bind].
      * split.
        { intros H.
          destruct (run_filter (seq_filter f g) (t1, t2) xs) as [[[u1 u2] ws]| | |] eqn:R;
            cbn [bind] in H; try discriminate.
          injection H as <- <- <-.
          apply IH in R. destruct R as (ys & R1 & R2).
          exists (y :: ys). rewrite R1. cbn [bind]. split; [reflexivity|].
          cbn [run_filter]. rewrite Eg. cbn [bind]. rewrite R2. reflexivity. }
        { intros (ys & H1 & H2).
          destruct (run_filter f t1 xs) as [[u1 ys1]| | |] eqn:R1; cbn [bind] in H1; try discriminate.
          injection H1 as <- <-. cbn [run_filter] in H2. rewrite Eg in H2. cbn [bind] in H2.
          destruct (run_filter g t2 ys1) as [[u2 zs2]| | |] eqn:R2; cbn [bind] in H2; try discriminate.
          injection H2 as <- <-.
          assert (R : run_filter (seq_filter f g) (t1, t2) xs = Ok ((u1, u2), zs2)).
          { apply IH. exists ys1. split; assumption. }
          rewrite R. reflexivity. }
      * split; [discriminate|]. intros (ys & H1 & H2).
        destruct (run_filter f t1 xs) as [[u1 ys1]| | |]; cbn [bind] in H1; try discriminate.
        injection H1 as <- <-. cbn [run_filter] in H2. rewrite Eg in H2. discriminate.
      * split; [discriminate|]. intros (ys & H1 & H2).
        destruct (run_filter f t1 xs) as [[u1 ys1]| | |]; cbn [bind] in H1; try discriminate.
        injection H1 as <- <-. cbn [run_filter] in H2. rewrite Eg in H2. discriminate.
      * split; [discriminate|]. intros (ys & H1 & H2).
        destruct (run_filter f t1 xs) as [[u1 ys1]| | |]; cbn [bind] in H1; try discriminate.
        injection H1 as <- <-. cbn [run_filter] in H2. rewrite Eg in H2. discriminate.
    + cbn [bind]. split.
      * destruct (run_filter (seq_filter f g) (t1, s2) xs) as [[[u1 u2] ws]| | |] eqn:R;
          cbn [bind]; intros H; try discriminate.
        injection H as <- <- <-. apply IH in R. destruct R as (ys & R1 & R2).
        exists ys. rewrite R1. split; [reflexivity|exact R2].
      * intros (ys & H1 & H2).
        destruct (run_filter f t1 xs) as [[u1 ys1]| | |] eqn:R1; cbn [bind] in H1; try discriminate.
        injection H1 as <- <-.
        assert (R : run_filter (seq_filter f g) (t1, s2) xs = Ok ((u1, s2'), zs)).
        { apply IH. exists ys1. split; assumption. }
        rewrite R. reflexivity.
Qed.

Lemma pipe_run_nil {X A} (xs : list (X * A)) : pipe_run PNil xs = Ok xs.
Proof.
  induction xs as [|x xs IH]; [reflexivity|].
  cbn [pipe_run pipe_step bind]. rewrite IH. reflexivity.
Qed.

Lemma pipe_run_cons {X A St} (f : filter_fn St X X A) (xs : list (X * A)) :
  forall s rest zs,
  pipe_run (PCons St s f rest) xs = Ok zs <->
  exists s' ys, run_filter f s xs = Ok (s', ys) /\ pipe_run rest ys = Ok zs.
Proof.
  induction xs as [|x xs IH]; intros s rest zs.
  - cbn. split.
    + intros H. injection H as <-. exists s, []. split; reflexivity.
    + intros (s' & ys & H1 & H2). injection H1 as _ <-. exact H2.
  - cbn [pipe_run pipe_step run_filter].
    destruct (f s x) as [[s1 o]| | |] eqn:Ef; cbn [bind];
      try (split; [discriminate|intros (s' & ys & H & _); discriminate]).
    destruct o as [y|].
    + destruct (pipe_step rest y) as [[rest' o']| | |] eqn:Ep; cbn [bind].
      * split.
        { intros H.
          destruct (pipe_run (PCons St s1 f rest') xs) as [ws| | |] eqn:R;
            cbn [bind] in H; try discriminate.
          injection H as <-. apply IH in R. destruct R as (s' & ys & R1 & R2).
          exists s', (y :: ys). rewrite R1. split; [reflexivity|].
          cbn [pipe_run]. rewrite Ep. cbn [bind]. rewrite R2. reflexivity. }
        { intros (s' & ys & H1 & H2).
          destruct (run_filter f s1 xs) as [[u1 ys1]| | |] eqn:R1; cbn [bind] in H1; try discriminate.
          injection H1 as <- <-. cbn [pipe_run] in H2. rewrite Ep in H2. cbn [bind] in H2.
          destruct (pipe_run rest' ys1) as [zs2| | |] eqn:R2; cbn [bind] in H2; try discriminate.
          injection H2 as <-.
          assert (R : pipe_run (PCons St s1 f rest') xs = Ok zs2).
          { apply IH. exists u1, ys1. split; assumption. }
          rewrite R. reflexivity. }
      * split; [discriminate|]. intros (s' & ys & H1 & H2).
        destruct (run_filter f s1 xs) as [[u1 ys1]| | |]; cbn [bind] in H1; try discriminate.
        injection H1 as <- <-. cbn [pipe_run] in H2. rewrite Ep in H2. discriminate.
      * split; [discriminate|]. intros (s' & ys & H1 & H2).
        destruct (run_filter f s1 xs) as [[u1 ys1]| | |]; cbn [bind] in H1; try discriminate.
        injection H1 as <- <-. cbn [pipe_run] in H2. rewrite Ep in H2. discriminate.
      * split; [discriminate|]. intros (s' & ys & H1 & H2).
        destruct (run_filter f s1 xs) as [[u1 ys1]| | |]; cbn [bind] in H1; try discriminate.
        injection H1 as <- <-. cbn [pipe_run] in H2. rewrite Ep in H2. discriminate.
    + cbn [bind]. split.
      * intros H.
        destruct (pipe_run (PCons St s1 f rest) xs) as [ws| | |] eqn:R;
          cbn [bind] in H; try discriminate.
        injection H as <-. apply IH in R. destruct R as (s' & ys & R1 & R2).
        exists s', ys. rewrite R1. split; [reflexivity|exact R2].
      * intros (s' & ys & H1 & H2).
        destruct (run_filter f s1 xs) as [[u1 ys1]| | |] eqn:R1; cbn [bind] in H1; try discriminate.
        injection H1 as <- <-.
        assert (R : pipe_run (PCons St s1 f rest) xs = Ok zs).
        { apply IH. exists u1, ys1. split; assumption. }
        rewrite R. reflexivity.
Qed.

Lemma pipe_correct {X A} (p : pipe X A) : forall xs zs,
  pipe_run p xs = Ok zs <-> pipe_compose p xs = Ok zs.
Proof.
  induction p as [|St s f rest IH]; intros xs zs.
  - rewrite pipe_run_nil. reflexivity.
  - rewrite pipe_run_cons. cbn [pipe_compose]. split.
    + intros (s' & ys & H1 & H2). rewrite H1. cbn [bind]. apply IH. exact H2.
    + destruct (run_filter f s xs) as [[s' ys]| | |]; cbn [bind]; try discriminate.
      intros H. exists s', ys. split; [reflexivity|]. apply IH. exact H.
Qed.

(** ** Wrap-around of DiscardFirstN *)
Lemma pick_snoc {A} (P : nat -> bool) (xs : list A) x :
  pick P (xs ++ [x]) = pick P xs ++ (if P (length xs) then [x] else []).
Proof.
  revert P. induction xs as [|y xs IH]; intros P.
  - cbn [app]. rewrite pick_cons. cbn [length]. rewrite !pick_nil, app_nil_r. reflexivity.
  - cbn [app]. rewrite !pick_cons, IH. cbn [length]. rewrite app_assoc. reflexivity.
Qed.

Lemma dfn_wrap_loses {X A} (n : nat) (xs : list (X * A)) x :
  N.of_nat (length xs) = (two64 - 1)%N ->
  exists c, run_filter (dfn_filter (N.of_nat n)) dfn_init (xs ++ [x]) = Ok (c, skipn n xs).
Proof.
  intros Hl.
  destruct (dfn_exact (N.of_nat n) (xs ++ [x])) as [c H]. exists c. rewrite H.
  do 2 f_equal. rewrite pick_snoc, Hl.
  replace (wrap64 (two64 - 1 + 1)) with 0%N by reflexivity.
  assert (E : (N.of_nat n <? 0)%N = false) by (destruct (N.ltb_spec (N.of_nat n) 0); lia).
  rewrite E, app_nil_r.
  destruct (dfn_correct n xs) as [c' H']; [rewrite Hl; reflexivity|].
  destruct (dfn_exact (N.of_nat n) xs) as [c2 H2]. rewrite H' in H2.
  injection H2 as _ H2. symmetry. exact H2.
Qed.

Lemma dfn_unbounded_false {X A} (x : X * A) :
  ~ (forall (n : nat) (xs : list (X * A)), (N.of_nat n < two64)%N ->
       exists c, run_filter (dfn_filter (N.of_nat n)) dfn_init xs = Ok (c, skipn n xs)).
Proof.
  intros H.
  assert (Hex : forall m, exists xs : list (X * A), N.of_nat (length xs) = m).
  { intros m. exists (repeat x (N.to_nat m)). rewrite repeat_length. apply Nnat.N2Nat.id. }
  destruct (Hex (two64 - 1)%N) as [xs Hl].
  destruct (dfn_wrap_loses 0 xs x Hl) as [c1 H1].
  destruct (H 0 (xs ++ [x])) as [c2 H2]; [reflexivity|].
  change (N.of_nat 0) with 0%N in *.
  rewrite H1 in H2. injection H2 as _ H2. cbn [skipn] in H2.
  apply (f_equal (@length _)) in H2. rewrite app_length in H2. cbn [length] in H2. clear -H2. lia.
Qed.

(** ** Consequences used for concurrent callers *)
Lemma dfn_count {X A} (n : nat) (xs : list (X * A)) c ys :
  (N.of_nat (length xs) < two64)%N ->
  run_filter (dfn_filter (N.of_nat n)) dfn_init xs = Ok (c, ys) ->
  length ys = length xs - n.
Proof.
  intros Hl H. destruct (dfn_correct n xs Hl) as [c' H']. rewrite H in H'.
  injection H' as _ ->. apply skipn_length.
Qed.
