From Coq Require Import String Ascii QArith ZifyBool ZifyNat ZifyN Lqa.
From Verif Require Import Prelude ConsumerModel ConsumerSpec.
Local Open Scope nat_scope.
Local Open Scope list_scope.
Local Notation length := List.length.

Lemma run_consumer_app {St X} (f : St -> X -> outcome St) xs ys : forall s,
  run_consumer f s (xs ++ ys) = (do s' <- run_consumer f s xs; run_consumer f s' ys).
Proof.
  induction xs as [|x xs IH]; intros s; [reflexivity|]. cbn.
  destruct (f s x); cbn; [apply IH|reflexivity..].
Qed.

(** ** CountSamples *)
Lemma count_from {X} (xs : list X) : forall n,
  run_consumer count_consume n xs = Ok (if (length xs =? 0) then n else wrap64 (n + N.of_nat (length xs))).
Proof.
  induction xs as [|x xs IH]; intros n; [reflexivity|]. cbn [run_consumer count_consume bind].
  rewrite IH. cbn [length Nat.eqb]. f_equal.
  destruct (Nat.eqb_spec (length xs) 0) as [E|_].
  - rewrite E. reflexivity.
  - unfold wrap64. rewrite N.add_mod_idemp_l by discriminate. f_equal. lia.
Qed.
Lemma count_correct {X} (xs : list X) :
  exists s, run_consumer count_consume count_init xs = Ok s /\
            count_get s = (N.of_nat (length xs) mod 2 ^ 64)%N.
Proof.
  rewrite count_from. eexists. split; [reflexivity|]. unfold count_get, count_init.
  destruct xs; [reflexivity|]. cbn [length Nat.eqb]. rewrite N.add_0_l. reflexivity.
Qed.

(** ** LastSample *)
Lemma last_from {X} (xs : list X) (x : X) s :
  run_consumer last_consume s (xs ++ [x]) = Ok (Some x).
Proof.
  rewrite run_consumer_app.
  assert (H : forall s, exists s', run_consumer last_consume s xs = Ok s').
  { induction xs as [|y ys IH]; intros s'; [eexists; reflexivity|apply IH]. }
  destruct (H s) as (s' & ->). reflexivity.
Qed.
Lemma last_correct {X} (dflt : option X) (xs : list X) (x : X) :
  exists s, run_consumer last_consume (last_init dflt) (xs ++ [x]) = Ok s /\ last_get s = Ok x.
Proof. exists (Some x). split; [apply last_from|reflexivity]. Qed.

(** ** AcceptanceRatio *)
Section Acc.
  Context {X : Type}.
  Variable same : X -> X -> bool.
  Hypothesis same_sym : forall x y, same x y = true -> same y x = true.
  Hypothesis same_trans : forall x y z, same x y = true -> same y z = true -> same x z = true.

  (* p is the remembered sample, x the predecessor: equal by [same] or identical *)
  Lemma acc_from (xs : list X) : forall x p n a,
    (x = p \/ same x p = true) ->
    (N.of_nat (n + length xs) < two64)%N -> 0 < n -> a <= n ->
    exists p', run_consumer (acc_consume same)
      {| a_n := N.of_nat n; a_acc := N.of_nat a; a_prev := Some p |} xs =
    Ok {| a_n := N.of_nat (n + length xs); a_acc := N.of_nat (a + changes same (x :: xs)); a_prev := Some p' |}.
  Proof.
    induction xs as [|y xs IH]; intros x p n a Hxp Hlt Hn Ha.
    - exists p. cbn. rewrite !Nat.add_0_r. reflexivity.
    - cbn [run_consumer]. unfold acc_consume at 1. cbn [a_n a_prev a_acc].
      replace (N.of_nat n =? 0)%N with false by lia.
      assert (E : same y p = same y x).
      { destruct Hxp as [->|H]; [reflexivity|].
        destruct (same y p) eqn:E1, (same y x) eqn:E2; try reflexivity.
        - rewrite (same_trans y p x E1 (same_sym _ _ H)) in E2. discriminate.
        - rewrite (same_trans y x p E2 H) in E1. discriminate. }
      rewrite E.
      assert (W : forall m, m < n + length (y :: xs) -> wrap64 (N.of_nat m + 1) = N.of_nat (S m)).
      { intros m Hm. unfold wrap64. rewrite N.mod_small; [lia|]. clear -Hm Hlt. lia. }
      cbn [length] in *.
      destruct (same y x) eqn:E2; cbn [bind].
      + rewrite W by lia.
        destruct (IH y p (S n) a) as (p' & Hp'); [right; congruence|rewrite <- plus_n_Sm in Hlt; exact Hlt|lia|lia|].
        exists p'. rewrite Hp'. f_equal. f_equal; [lia|]. cbn [changes]. rewrite E2. reflexivity.
      + rewrite !W by lia.
        destruct (IH y y (S n) (S a)) as (p' & Hp'); [left; reflexivity|rewrite <- plus_n_Sm in Hlt; exact Hlt|lia|lia|].
        exists p'. rewrite Hp'. f_equal. f_equal; [lia|]. cbn [changes]. rewrite E2. lia.
  Qed.

  Lemma acc_run x xs : (N.of_nat (length (x :: xs)) < two64)%N ->
    exists s, run_consumer (acc_consume same) acc_init (x :: xs) = Ok s /\
      a_n s = N.of_nat (length (x :: xs)) /\ a_acc s = N.of_nat (1 + changes same (x :: xs)).
  Proof.
    intros H. cbn [run_consumer]. unfold acc_consume at 1. cbn [a_n acc_init N.eqb bind].
    destruct (acc_from xs x x 1 1) as (p' & Hp'); [left; reflexivity|exact H|lia|lia|].
    change {| a_n := 1; a_acc := 1; a_prev := Some x |} with
       {| a_n := N.of_nat 1; a_acc := N.of_nat 1; a_prev := Some x |}.
    rewrite Hp'. eexists. split; [reflexivity|]. split; reflexivity.
  Qed.

  Lemma changes_le xs : changes same xs <= length xs - 1.
  Proof.
    induction xs as [|x xs IH]; [reflexivity|]. destruct xs as [|y xs]; [reflexivity|].
    cbn [changes length] in *. destruct (same y x); lia.
  Qed.

  Lemma acc_correct x xs : (N.of_nat (length (x :: xs)) < two64)%N ->
    exists s, run_consumer (acc_consume same) acc_init (x :: xs) = Ok s /\
      (acc_get s == (Z.of_nat (1 + changes same (x :: xs)) # 1) / (Z.of_nat (length (x :: xs)) # 1))%Q /\
      (0 < acc_get s <= 1)%Q.
  Proof.
    intros H. destruct (acc_run x xs H) as (s & E & En & Ea). exists s. split; [exact E|].
    unfold acc_get. rewrite En, Ea.
    replace (0 <? N.of_nat (length (x :: xs)))%N with true by (cbn [length]; lia).
    rewrite !nat_N_Z. split; [reflexivity|].
    pose proof (changes_le (x :: xs)) as L. 
    assert (Hn : (0 < length (x :: xs))%nat) by (cbn; lia).
    assert (Ha : (0 < 1 + changes same (x :: xs) <= length (x :: xs))%nat) by lia.
    revert Hn Ha. generalize (1 + changes same (x :: xs)) as a. generalize (length (x :: xs)) as n. intros n a Hn Ha.
    assert (Qn : (0 < Z.of_nat n # 1)%Q) by (unfold Qlt; cbn; lia).
    assert (Qa : (0 < Z.of_nat a # 1)%Q) by (unfold Qlt; cbn; lia).
    split.
    - apply Qlt_shift_div_l; [exact Qn|]. rewrite Qmult_0_l. exact Qa.
    - apply Qle_shift_div_r; [exact Qn|]. rewrite Qmult_1_l. unfold Qle; cbn; lia.
  Qed.
End Acc.

Lemma acc_none {X} (same : X -> X -> bool) : exists s,
  run_consumer (acc_consume same) acc_init [] = Ok s /\ acc_get s = 0%Q.
Proof. eexists. split; reflexivity. Qed.

(** At 2^64 samples the counter wraps to zero: a ratio of 0 is reported. Witnessed abstractly: whatever
    the state, the sample that makes the counter reach 2^64 resets it. *)
Lemma acc_wraps {X} (same : X -> X -> bool) a p x :
  exists s, acc_consume same {| a_n := two64 - 1; a_acc := a; a_prev := Some p |} x = Ok s /\ acc_get s = 0%Q.
Proof.
  unfold acc_consume. cbn [a_n a_prev a_acc]. change (two64 - 1 =? 0)%N with false. cbv iota.
  destruct (same x p); eexists; (split; [reflexivity|]); reflexivity.
Qed.

Lemma valarray_loop_spec {T} (ne : T -> T -> bool) t1 : forall t2, length t1 = length t2 ->
  (valarray_loop ne t1 t2 = true <-> Forall2 (fun x y => ne x y = false) t1 t2).
Proof.
  induction t1 as [|x t1 IH]; intros [|y t2] H; try discriminate; cbn.
  - split; constructor.
  - injection H as H. destruct (ne x y) eqn:E.
    + split; [discriminate|]. intros F. inversion F; congruence.
    + rewrite (IH t2 H). split; [intros F; constructor; assumption|intros F; inversion F; assumption].
Qed.
Lemma valarray_spec {T} (ne : T -> T -> bool) t1 t2 :
  valarray_is_equal ne t1 t2 = true <-> Forall2 (fun x y => ne x y = false) t1 t2.
Proof.
  unfold valarray_is_equal. destruct (Nat.eqb_spec (length t1) (length t2)) as [E|E]; cbn.
  - apply valarray_loop_spec, E.
  - split; [discriminate|]. intros F. exfalso. apply E. clear E. induction F; cbn; congruence.
Qed.
Lemma valarray_per {T} (ne : T -> T -> bool) :
  (forall x y, ne x y = false -> ne y x = false) ->
  (forall x y z, ne x y = false -> ne y z = false -> ne x z = false) ->
  (forall x y, valarray_is_equal ne x y = true -> valarray_is_equal ne y x = true) /\
  (forall x y z, valarray_is_equal ne x y = true -> valarray_is_equal ne y z = true ->
                 valarray_is_equal ne x z = true).
Proof.
  intros Hs Ht. split.
  - intros x y. rewrite !valarray_spec. induction 1; constructor; auto.
  - intros x y z. rewrite !valarray_spec. intros F. revert z.
    induction F as [|a b l l' Hab F IH]; intros z G; inversion G; subst; constructor; eauto.
Qed.

(** ** Order of doubles *)
Lemma dlt_irrefl a : dlt a a = false.
Proof.
  destruct a as [| |q|]; try reflexivity. cbn.
  replace (Qle_bool q q) with true; [reflexivity|]. symmetry. apply Qle_bool_iff. apply Qle_refl.
Qed.
Lemma dlt_fin x y : dlt (DFin x) (DFin y) = true <-> (x < y)%Q.
Proof.
  cbn. destruct (Qle_bool y x) eqn:E; cbn.
  - apply Qle_bool_iff in E. split; [discriminate|]. intros H. exfalso. lra.
  - split; [|reflexivity]. intros _. apply Qnot_le_lt. intros H. apply Qle_bool_iff in H. congruence.
Qed.
Lemma dlt_fin_false x y : dlt (DFin x) (DFin y) = false <-> (y <= x)%Q.
Proof.
  cbn. rewrite negb_false_iff. apply Qle_bool_iff.
Qed.
Lemma dlt_trans a b c : dlt a b = true -> dlt b c = true -> dlt a c = true.
Proof.
  destruct a, b, c; try (cbn; congruence); try discriminate; rewrite ?dlt_fin; try (cbn; congruence).
  intros; lra.
Qed.
(** negative transitivity, away from NaN *)
Lemma dlt_neg_trans a b c : b <> DNaN -> dlt a b = false -> dlt b c = false -> dlt a c = false.
Proof.
  intros Hb. destruct a, b, c; try (cbn; congruence); try discriminate; rewrite ?dlt_fin_false; try (cbn; congruence).
  intros; lra.
Qed.
Lemma dlt_le_trans a b c : b <> DNaN -> c <> DNaN -> dlt a b = true -> dlt c b = false -> dlt a c = true.
Proof.
  intros Hb Hc H1 H2. destruct (dlt a c) eqn:E; [reflexivity|].
  rewrite (dlt_neg_trans a c b Hc E H2) in H1. discriminate.
Qed.

(** ** MaximumProbabilitySample *)
Lemma deq_lowest : deq lowest lowest = true.
Proof. vm_compute. reflexivity. Qed.

Definition max_inv {X} (xs : list (X * aux)) (s : max_state X) : Prop :=
  ((forall x, In x xs -> log_lik x = None) /\ s = max_init) \/
  (exists x d, first_maximiser xs x /\ log_lik x = Some d /\ d <> DNaN /\ deq d lowest = false /\
               s = {| m_sample := Some (fst x); m_aux := snd x; m_ll := d |}).

Lemma max_run {X} (xs : list (X * aux)) : Forall ordinary xs ->
  exists s, run_consumer max_consume max_init xs = Ok s /\ max_inv xs s.
Proof.
  induction xs as [|y xs IH] using rev_ind; intros H.
  - exists max_init. split; [reflexivity|]. left. split; [intros x []|reflexivity].
  - apply Forall_app in H. destruct H as [Hxs Hy]. inversion Hy as [|? ? Hy' _]; subst. clear Hy.
    destruct (IH Hxs) as (s & E & I). rewrite run_consumer_app, E. cbn [bind run_consumer].
    destruct Hy' as [Hn|(d & Hd & Hnan & Hlow)].
    + unfold max_consume. rewrite Hn. cbn [bind]. exists s. split; [reflexivity|].
      assert (Ly : log_lik y = None) by (unfold log_lik; rewrite Hn; reflexivity).
      destruct I as [[I1 I2]|(x & e & (pre & post & d' & Hs & Hx & Hpre & Hpost) & He & Hen & Hel & Es)].
      * left. split; [|exact I2]. intros x Hx. apply in_app_or in Hx.
        destruct Hx as [Hx|[<-|[]]]; [apply I1, Hx|exact Ly].
      * right. exists x, e. split; [|auto]. exists pre, (post ++ [y]), d'. split; [rewrite Hs, <- app_assoc; reflexivity|].
        split; [exact Hx|]. split; [exact Hpre|]. intros z ez Hz Hez. apply in_app_or in Hz.
        destruct Hz as [Hz|[<-|[]]]; [eapply Hpost; eassumption|congruence].
    + assert (Ly : log_lik y = Some d) by (unfold log_lik; rewrite Hd; reflexivity).
      unfold max_consume. rewrite Hd.
      destruct I as [[I1 I2]|(x & e & (pre & post & d' & Hs & Hx & Hpre & Hpost) & He & Hen & Hel & Es)].
      * subst s. cbn [m_ll max_init]. rewrite deq_lowest. cbn [bind]. eexists. split; [reflexivity|].
        right. exists y, d. repeat split; try assumption.
        exists xs, [], d. split; [reflexivity|]. split; [exact Ly|]. split.
        -- intros z ez Hz Hez. rewrite (I1 z Hz) in Hez. discriminate.
        -- intros z ez [].
      * subst s. cbn [m_ll]. rewrite Hel.
        assert (d' = e) by congruence. subst d'.
        destruct (dgt d e) eqn:G; cbn [bind]; (eexists; split; [reflexivity|]); right.
        -- exists y, d. repeat split; try assumption.
           exists xs, [], d. split; [reflexivity|]. split; [exact Ly|]. split; [|intros z ez []].
           intros z ez Hz Hez. unfold dgt in G. rewrite Hs in Hz. apply in_app_or in Hz.
           destruct Hz as [Hz|[<-|Hz]].
           ++ eapply dlt_trans; [eapply Hpre; eassumption|exact G].
           ++ assert (ez = e) by congruence. subst. exact G.
           ++ specialize (Hpost z ez Hz Hez).
              destruct (dlt ez d) eqn:E3; [reflexivity|].
              assert (ez <> DNaN).
              { assert (Hz' : In z xs) by (rewrite Hs; apply in_or_app; right; right; exact Hz).
                rewrite Forall_forall in Hxs. destruct (Hxs z Hz') as [Hq|(q & Hq & Hq2 & _)];
                  unfold log_lik in Hez; rewrite Hq in Hez; congruence. }
              rewrite (dlt_neg_trans e ez d H Hpost E3) in G. discriminate.
        -- exists x, e. split; [|auto]. exists pre, (post ++ [y]), e. split; [rewrite Hs, <- app_assoc; reflexivity|].
           split; [exact Hx|]. split; [exact Hpre|]. intros z ez Hz Hez. apply in_app_or in Hz.
           destruct Hz as [Hz|[<-|[]]]; [eapply Hpost; eassumption|].
           assert (ez = d) by congruence. subst ez. exact G.
Qed.

Lemma max_correct {X} (xs : list (X * aux)) : Forall ordinary xs ->
  exists s, run_consumer max_consume max_init xs = Ok s /\
    (((forall x, In x xs -> log_lik x = None) /\ max_get s = (None, [])) \/
     (exists x, first_maximiser xs x /\ max_get s = (Some (fst x), snd x))).
Proof.
  intros H. destruct (max_run xs H) as (s & E & I). exists s. split; [exact E|].
  destruct I as [[I1 ->]|(x & d & F & _ & _ & _ & ->)]; [left; split; [exact I1|reflexivity]|].
  right. exists x. split; [exact F|reflexivity].
Qed.

(** Uniqueness: the specification determines the sample. *)
Lemma first_maximiser_unique {X} (xs : list (X * aux)) x y :
  first_maximiser xs x -> first_maximiser xs y -> x = y.
Proof.
  intros (p1 & q1 & d1 & E1 & L1 & A1 & B1) (p2 & q2 & d2 & E2 & L2 & A2 & B2).
  rewrite E1 in E2. apply app_eq_app in E2.
  destruct E2 as (l & [[-> E]|[-> E]]).
  - destruct l as [|z l]; [injection E as ->; reflexivity|]. cbn in E. injection E as <- ->.
    exfalso.
    pose proof (A1 y d2 (in_elt _ _ _) L2) as G1.
    pose proof (B2 x d1 (in_elt _ _ _) L1) as G2. congruence.
  - destruct l as [|z l]; [injection E as ->; reflexivity|]. cbn in E. injection E as <- ->.
    exfalso.
    pose proof (A2 x d1 (in_elt _ _ _) L1) as G1.
    pose proof (B1 y d2 (in_elt _ _ _) L2) as G2. congruence.
Qed.

(** Deviations from the documentation. *)
Lemma max_lowest_replaced {X} (x y : X * aux) d :
  log_lik x = Some lowest -> log_lik y = Some d ->
  exists s, run_consumer max_consume max_init [x; y] = Ok s /\ max_get s = (Some (fst y), snd y).
Proof.
  unfold log_lik. intros Hx Hy.
  destruct (aux_find ll_key (snd x)) as [[dx| | |]|] eqn:Ex; try discriminate. injection Hx as ->.
  destruct (aux_find ll_key (snd y)) as [[dy| | |]|] eqn:Ey; try discriminate. injection Hy as ->.
  cbn [run_consumer]. unfold max_consume at 1. rewrite Ex. cbn [m_ll max_init]. rewrite deq_lowest. cbn [bind].
  unfold max_consume at 1. rewrite Ey. cbn [m_ll]. rewrite deq_lowest. cbn [bind].
  eexists. split; reflexivity.
Qed.
Lemma max_nan_stuck {X} (x : X * aux) xs :
  log_lik x = Some DNaN -> (forall y, In y xs -> aux_find ll_key (snd y) = None \/ exists d, log_lik y = Some d) ->
  exists s, run_consumer max_consume max_init (x :: xs) = Ok s /\ max_get s = (Some (fst x), snd x).
Proof.
  intros Hx H. exists {| m_sample := Some (fst x); m_aux := snd x; m_ll := DNaN |}.
  split; [|reflexivity].
  unfold log_lik in Hx. destruct (aux_find ll_key (snd x)) as [[dx| | |]|] eqn:Ex; try discriminate. injection Hx as ->.
  cbn [run_consumer]. unfold max_consume at 1. rewrite Ex. cbn [m_ll max_init]. rewrite deq_lowest. cbn [bind].
  induction xs as [|y xs IH]; [reflexivity|]. cbn [run_consumer].
  assert (Ey : max_consume {| m_sample := Some (fst x); m_aux := snd x; m_ll := DNaN |} y =
               Ok {| m_sample := Some (fst x); m_aux := snd x; m_ll := DNaN |}).
  { unfold max_consume. destruct (H y (or_introl eq_refl)) as [->|(d & Hd)]; [reflexivity|].
    unfold log_lik in Hd. destruct (aux_find ll_key (snd y)) as [[dy| | |]|]; try discriminate. cbn [m_ll].
    unfold dgt. cbn. reflexivity. }
  rewrite Ey. cbn [bind]. apply IH. intros z Hz. apply H. right; exact Hz.
Qed.

(** ** StreamOutput *)
Lemma app_assoc_s a b c : (a ++ (b ++ c) = (a ++ b) ++ c)%string.
Proof. induction a as [|x a IH]; [reflexivity|]. cbn. rewrite IH. reflexivity. Qed.
Lemma app_nil_s a : (a ++ "" = a)%string.
Proof. induction a as [|x a IH]; [reflexivity|]. cbn. rewrite IH. reflexivity. Qed.
Lemma concat_cons a l : String.concat "" (a :: l) = (a ++ String.concat "" l)%string.
Proof. cbn. destruct l; [rewrite app_nil_s; reflexivity|reflexivity]. Qed.

Section sample_ind.
  Variable P : sample -> Prop.
  Hypothesis Hs : forall t, P (Scalar t).
  Hypothesis Hv : forall l, Forall P l -> P (Vec l).
  Fixpoint sample_ind' (s : sample) : P s :=
    match s with
    | Scalar t => Hs t
    | Vec l => Hv l ((fix go l : Forall P l :=
                        match l with [] => Forall_nil P | x :: l' => Forall_cons x (sample_ind' x) (go l') end) l)
    end.
End sample_ind.

Lemma write_text s : forall out, write s out = (out ++ text s)%string.
Proof.
  induction s as [t|l IH] using sample_ind'; intros out; [reflexivity|].
  cbn [write text]. revert out. induction IH as [|x l Hx Hl IHl]; intros out; [cbn; rewrite app_nil_s; reflexivity|].
  cbn [fold_left map]. rewrite IHl, Hx, concat_cons, !app_assoc_s. reflexivity.
Qed.

Lemma out_run xs : forall out, run_consumer out_consume out xs =
  Ok (out ++ String.concat "" (map (fun s => (text s ++ nl)%string) xs))%string.
Proof.
  induction xs as [|x xs IH]; intros out; [cbn; rewrite app_nil_s; reflexivity|].
  cbn [run_consumer]. unfold out_consume at 1. cbn [bind]. rewrite IH, write_text. cbn [map]. rewrite concat_cons, !app_assoc_s. reflexivity.
Qed.

Lemma no_newline_app a b : no_newline a -> no_newline b -> no_newline (a ++ b)%string.
Proof. induction a as [|c a IH]; cbn; [tauto|]. intros [H1 H2] H3. split; [exact H1|apply IH; assumption]. Qed.
Lemma text_ok s : texts_ok s -> no_newline (text s).
Proof.
  induction s as [t|l IH] using sample_ind'; cbn [texts_ok text]; [tauto|].
  induction IH as [|x l Hx Hl IHl]; [intros _; exact I|].
  cbn [fold_right map]. rewrite concat_cons. intros [H1 H2]. apply no_newline_app; [|apply IHl, H2].
  apply no_newline_app; [apply Hx, H1|]. cbn. split; [discriminate|exact I].
Qed.
Lemma lines_acc_spec t : no_newline t -> forall cur rest,
  lines_acc cur (t ++ nl ++ rest)%string = (cur ++ t)%string :: lines_acc ""%string rest.
Proof.
  induction t as [|c t IH]; intros H cur rest.
  - cbn. rewrite app_nil_s. reflexivity.
  - destruct H as [Hc Ht]. cbn [append lines_acc]. destruct (Ascii.eqb_spec c (ascii_of_nat 10)); [contradiction|].
    change (lines_acc (cur ++ String c "") (t ++ nl ++ rest) = (cur ++ String c t)%string :: lines_acc ""%string rest).
    rewrite (IH Ht). f_equal. rewrite <- app_assoc_s. reflexivity.
Qed.
Lemma out_lines xs : Forall texts_ok xs ->
  exists out, run_consumer out_consume ""%string xs = Ok out /\
     out = String.concat "" (map (fun s => (text s ++ nl)%string) xs) /\ lines out = map text xs.
Proof.
  intros H. rewrite out_run. eexists. split; [reflexivity|]. cbn [append]. split; [reflexivity|]. unfold lines.
  induction H as [|x xs Hx Hxs IH]; [reflexivity|].
  cbn [map]. rewrite concat_cons, <- app_assoc_s, lines_acc_spec by (apply text_ok, Hx).
  rewrite IH. reflexivity.
Qed.

(** ** Element access *)
Lemma access_in_range {T} b (s : tysample T) i : (forall x n, s <> KSized x n) -> (forall l, s <> KSubscript l) ->
  i < usize s -> exists x, nth_error (components s) i = Some x /\ get_nth_element b s i = Ok x.
Proof.
  intros H1 H2 Hi. destruct s as [x|l|l|x n|l]; cbn [usize components] in *.
  - assert (i = 0) by lia. subst i. exists x. split; reflexivity.
  - destruct (nth_error l i) as [x|] eqn:E; [|apply nth_error_None in E; lia].
    exists x. split; [reflexivity|]. unfold get_nth_element, subscript. cbn [usize]. rewrite E.
    replace (i <? length l) with true by lia. reflexivity.
  - destruct (nth_error l i) as [x|] eqn:E; [|apply nth_error_None in E; lia].
    exists x. split; [reflexivity|]. unfold get_nth_element, subscript. cbn [usize]. rewrite E.
    replace (i <? length l) with true by lia. reflexivity.
  - exfalso. apply (H1 x n). reflexivity.
  - exfalso. apply (H2 l). reflexivity.
Qed.
Lemma access_out_of_range {T} (s : tysample T) i : (forall x n, s <> KSized x n) ->
  usize s <= i -> get_nth_element Debug s i = AssertFail.
Proof.
  intros H1 Hi. destruct s as [x|l|l|x n|l]; cbn [usize] in Hi; unfold get_nth_element; cbn [usize].
  - replace (i =? 0) with false by lia. reflexivity.
  - replace (i <? length l) with false by lia. reflexivity.
  - replace (i <? length l) with false by lia. reflexivity.
  - exfalso. apply (H1 x n). reflexivity.
  - replace (i <? 1) with false by lia. reflexivity.
Qed.
Lemma access_out_of_range_release {T} (l : list T) i : length l <= i ->
  get_nth_element Release (KContainer l) i = UB.
Proof.
  intros Hi. unfold get_nth_element, subscript. cbn [usize].
  replace (nth_error l i) with (@None T) by (symmetry; apply nth_error_None; lia).
  replace (i <? length l) with false by lia. reflexivity.
Qed.
Lemma access_sized {T} (x : T) n : 1 < n ->
  usize (KSized x n) = n /\ get_nth_element Debug (KSized x n) 1 = AssertFail.
Proof. split; reflexivity. Qed.

(** ** Parallel modes *)
Lemma mode_check c m : (m < 4)%N ->
  (set_parallel_mode Debug (supported c) 0 m = Ok m <-> N.land m (supported c) <> 0%N) /\
  (set_parallel_mode Debug (supported c) 0 m = AssertFail <-> N.land m (supported c) = 0%N).
Proof.
  intros _. unfold set_parallel_mode, assert_then. cbn [Nat.eqb].
  destruct (N.eqb_spec (N.land m (supported c)) 0) as [E|E]; cbn [negb]; split; split; intros H; try discriminate; try reflexivity; tauto.
Qed.

Lemma mode_sensitive c : order_sensitive c = true ->
  set_parallel_mode Debug (supported c) 0 synchronous = Ok synchronous /\
  set_parallel_mode Debug (supported c) 0 asynchronous = AssertFail.
Proof. destruct c; cbn [order_sensitive]; intros H; try discriminate; split; reflexivity. Qed.

Lemma mode_insensitive c : order_sensitive c = false -> (forall s, c <> CAction s) ->
  set_parallel_mode Debug (supported c) 0 synchronous = Ok synchronous /\
  set_parallel_mode Debug (supported c) 0 asynchronous = Ok asynchronous.
Proof. destruct c; cbn [order_sensitive]; intros H HA; try discriminate; try (split; reflexivity). exfalso. eapply HA. reflexivity. Qed.

Lemma mode_release supp n m : set_parallel_mode Release supp n m = Ok m.
Proof.
  unfold set_parallel_mode, assert_then. destruct (n =? 0); destruct (negb _); reflexivity.
Qed.

Lemma access_size {T} (s : tysample T) : (forall x n, s <> KSized x n) -> (forall l, s <> KSubscript l) ->
  usize s = length (components s).
Proof.
  intros H1 H2. destruct s as [x|l|l|x n|l]; try reflexivity; exfalso; [apply (H1 x n)|apply (H2 l)]; reflexivity.
Qed.

Lemma mode_connected c n m : set_parallel_mode Debug (supported c) (S n) m = AssertFail.
Proof. reflexivity. Qed.

Lemma mode_combined c : (forall s, c = CAction s -> N.land 3 s <> 0%N) ->
  set_parallel_mode Debug (supported c) 0 3 = Ok 3%N /\
  choose_slot Debug 3 = AssertFail /\ choose_slot Release 3 = Ok NoSlot.
Proof.
  intros H. split; [|split; reflexivity].
  destruct c as [|s| | | | | | | | | | | |]; try reflexivity.
  destruct (mode_check (CAction s) 3 ltac:(reflexivity)) as [[_ G] _]. apply G. apply (H s). reflexivity.
Qed.

Lemma mode_slots b m : (m = synchronous -> choose_slot b m = Ok SyncSlot) /\
                       (m = asynchronous -> choose_slot b m = Ok AsyncSlot) /\
                       (m <> synchronous -> m <> asynchronous ->
                        choose_slot b m = match b with Debug => AssertFail | Release => Ok NoSlot end).
Proof.
  split; [intros ->; reflexivity|]. split; [intros ->; reflexivity|]. intros H1 H2. unfold choose_slot.
  destruct (N.eqb_spec m synchronous); [contradiction|]. destruct (N.eqb_spec m asynchronous); [contradiction|].
  destruct b; reflexivity.
Qed.

Lemma conj_laws : (forall (T : Type) (x : T), conj_real x = x) /\
  (forall (T : Type) (opp : T -> T), (forall t, opp (opp t) = t) ->
     forall z, conj_complex opp (conj_complex opp z) = z /\ fst (conj_complex opp z) = fst z /\
               snd (conj_complex opp z) = opp (snd z)).
Proof.
  split; [reflexivity|]. intros T opp H [a b]. unfold conj_complex. cbn. rewrite H. repeat split.
Qed.
