(** Exact arithmetics: rational, real, complex numbers. Machine arithmetic: IEEE binary64. The integer mean. *)
From Coq Require Import Field QArith Qcanon Reals Lra SpecFloat Permutation.
From Coquelicot Require Import Complex.
From Verif Require Import Prelude ConsumerModel StatsModel StatsSpec StatsProofs.

(** ** instances *)
Definition Qc_ops : kops Qc := {| k0 := Q2Qc 0; k1 := Q2Qc 1; kadd := Qcplus; ksub := Qcminus; kmul := Qcmult; kdiv := Qcdiv; kopp := Qcopp;
  kconj := fun x => x; kofN := fun n => Q2Qc (inject_Z (Z.of_N n)) |}.
Definition R_ops : kops R := {| k0 := 0%R; k1 := 1%R; kadd := Rplus; ksub := Rminus; kmul := Rmult; kdiv := Rdiv; kopp := Ropp;
  kconj := fun x => x; kofN := fun n => INR (N.to_nat n) |}.
Definition C_ops : kops C := {| k0 := RtoC 0; k1 := RtoC 1; kadd := Cplus; ksub := Cminus; kmul := Cmult; kdiv := Cdiv; kopp := Copp;
  kconj := Cconj; kofN := fun n => RtoC (INR (N.to_nat n)) |}.

Lemma Qc_exact : exact_arithmetic Qc_ops.
Proof.
  constructor; cbn -[Q2Qc]; auto.
  - exists Qcinv. exact Qcft.
  - intros n. apply Qc_is_canon. unfold Qcplus, Q2Qc. cbn [this]. rewrite !Qred_correct. rewrite N2Z.inj_add, inject_Z_plus. reflexivity.
  - intros n Hn E. apply (f_equal this) in E. cbn -[inject_Z] in E.
    assert (E' : (inject_Z (Z.of_N n) == 0)%Q) by (rewrite <- (Qred_correct (inject_Z (Z.of_N n))), E; reflexivity).
    unfold Qeq in E'. cbn in E'. lia.
Qed.
Lemma R_exact : exact_arithmetic R_ops.
Proof.
  constructor; cbn; auto.
  - exists Rinv. exact Rfield.
  - intros n. rewrite N2Nat.inj_add. rewrite plus_INR. reflexivity.
  - intros n Hn. apply not_0_INR. lia.
Qed.
Lemma C_exact : exact_arithmetic C_ops.
Proof.
  constructor; cbn [C_ops k0 k1 kadd ksub kmul kdiv kopp kconj kofN]; auto.
  - exists Cinv. exact C_field_theory.
  - intros n. rewrite N2Nat.inj_add. rewrite plus_INR. now rewrite RtoC_plus.
  - intros n Hn E. apply RtoC_inj in E. revert E. apply not_0_INR. lia.
  - intros a b. apply injective_projections; cbn; ring.
  - intros a b. apply injective_projections; cbn; ring.
  - apply injective_projections; cbn; ring.
Qed.

(** IEEE binary64, round to nearest even: Coq's SpecFloat. *)
Definition fl_ops : kops spec_float := {| k0 := S754_zero false; k1 := S754_finite false 4503599627370496 (-52);
  kadd := SFadd 53 1024; ksub := SFsub 53 1024; kmul := SFmul 53 1024; kdiv := SFdiv 53 1024; kopp := SFopp; kconj := fun x => x;
  kofN := fun n => binary_normalize 53 1024 (Z.of_N n) 0 false |}.

Lemma cov_nan : forall G xs s i j, G i j = S754_nan -> run_consumer (cov_consume fl_ops) (cov_init G) xs = Ok s -> snd (cov_get s) i j = S754_nan.
Proof.
  intros G xs s i j HG. revert s. induction xs as [|x xs IH] using rev_ind; intros s H.
  - cbn in H. injection H as <-. exact HG.
  - rewrite run_snoc in H. destruct (run_consumer _ _ xs) as [s0| | |] eqn:E; try discriminate. cbn [bind] in H.
    specialize (IH s0 eq_refl). cbn in IH. unfold cov_consume in H. destruct (cv_n s0 =? 0)%N.
    + injection H as <-. exact IH.
    + destruct (cv_mean s0) as [m|]; [|discriminate]. destruct (same_size x m); [|discriminate]. injection H as <-.
      cbn -[fl_ops]. unfold cov_entry. rewrite IH. reflexivity.
Qed.

Lemma acm_nan : forall G M xs s l i j, (forall l, G l i j = S754_nan) -> (l <= M)%nat -> xs <> [] ->
  run_consumer (acm_consume fl_ops G M) acm_init xs = Ok s -> acm_get fl_ops s l i j = Ok S754_nan.
Proof.
  intros G M xs s l i j HG Hl Hne H.
  assert (Hi : lg_n s <> 0%N \/ True) by now right. clear Hi.
  assert (HI : forall xs s, run_consumer (acm_consume fl_ops G M) acm_init xs = Ok s ->
    (xs <> [] -> lg_mean s <> None /\ length (lg_lags s) = (M + 1)%nat) /\ Forall (fun abe : matrix _ * vec _ * vec _ => fst (fst abe) i j = S754_nan) (lg_lags s)).
  { clear xs s Hne H. intros xs. induction xs as [|x xs IH] using rev_ind; intros s H.
    - cbn in H. injection H as <-. split; [congruence|constructor].
    - rewrite run_snoc in H. destruct (run_consumer _ _ xs) as [s0| | |] eqn:E; try discriminate. cbn [bind] in H.
      destruct (IH s0 eq_refl) as [IH1 IH2]. unfold acm_consume in H. destruct (lg_n s0 =? 0)%N.
      + injection H as <-. cbn [lg_mean lg_lags]. split; [intros _; split; [congruence|now rewrite map_length, seq_length]|].
        apply Forall_forall. intros a Ha. apply in_map_iff in Ha. destruct Ha as (k & <- & _). cbn. apply HG.
      + destruct (lg_mean s0) as [m|] eqn:Em; [|discriminate]. destruct (same_size x m); [|discriminate].
        assert (Hloop : forall data k r, lag_loop (acm_lag fl_ops (lg_n s0) (x :: lg_prev s0) x) k data = Ok r ->
           Forall (fun abe : matrix _ * vec _ * vec _ => fst (fst abe) i j = S754_nan) data ->
           length r = length data /\ Forall (fun abe : matrix _ * vec _ * vec _ => fst (fst abe) i j = S754_nan) r).
        { intros data. induction data as [|[[a b] e] data IHd]; intros k r Hr Hf.
          - cbn in Hr. injection Hr as <-. split; [reflexivity|constructor].
          - cbn [lag_loop] in Hr. inversion Hf as [|? ? Ha Hf']; subst. cbn in Ha.
            destruct (acm_lag _ _ _ _ _ _) as [abe'| | |] eqn:El; try discriminate. cbn [bind] in Hr.
            destruct (lag_loop _ (S k) data) as [r'| | |] eqn:Er; try discriminate. injection Hr as <-.
            destruct (IHd _ _ Er Hf') as [IL IF]. split; [cbn; lia|]. constructor; [|exact IF].
            unfold acm_lag in El. destruct (lg_n s0 =? _)%N.
            + destruct (nth_error (x :: lg_prev s0) 0), (nth_error (x :: lg_prev s0) k), (nth_error (x :: lg_prev s0) 1), (nth_error (x :: lg_prev s0) (k + 1)); try discriminate.
              injection El as <-. cbn -[fl_ops]. rewrite Ha. reflexivity.
            + destruct (_ <=? lg_n s0)%N.
              * destruct (nth_error (x :: lg_prev s0) k); [|discriminate]. injection El as <-. cbn -[fl_ops]. rewrite Ha. reflexivity.
              * injection El as <-. exact Ha. }
        destruct (lag_loop _ 0 (lg_lags s0)) as [r| | |] eqn:Er; try discriminate. cbn [bind] in H. injection H as <-.
        destruct (Hloop _ _ _ Er IH2) as [HL HF]. cbn [lg_mean lg_lags]. split; [intros _; split; [congruence|]|exact HF].
        destruct xs as [|y ys]; [cbn in E; injection E as <-; discriminate|]. rewrite HL. apply IH1. congruence. }
  destruct (HI xs s H) as [H1 H2]. destruct (H1 Hne) as [Hm HL]. unfold acm_get.
  destruct (nth_error (lg_lags s) l) as [[[a b] e]|] eqn:E; [|apply nth_error_None in E; lia].
  destruct (lg_mean s) as [m|]; [|congruence]. f_equal.
  rewrite Forall_forall in H2. specialize (H2 _ (nth_error_In _ _ E)). cbn in H2. rewrite H2. destruct (_ <? _)%N; reflexivity.
Qed.

(** ** MeanValue<int> *)
Local Open Scope Z_scope.
(** The documented arithmetic: the running mean computed with the integer division of C++, which rounds towards zero. *)
Fixpoint int_running (k : Z) (mean : Z) (xs : list Z) : Z :=
  match xs with [] => mean | x :: xs' => int_running (k + 1) (mean + Z.quot (x - mean) (k + 1)) xs' end.
Fixpoint nondecreasing (m : Z) (xs : list Z) : Prop :=
  match xs with [] => True | x :: xs' => m <= x /\ nondecreasing x xs' end.

Lemma to_int_small : forall n, Z.of_N n <= int_max -> to_int n = Z.of_N n.
Proof. intros n H. unfold to_int, int_max in *. rewrite Z.mod_small by lia. lia. Qed.

Lemma int_step : forall m x n, is_int m = true -> is_int x = true -> is_int (x - m) = true -> m <= x -> (1 <= n < two64 - 1)%N ->
  int_mean_consume (Some m, n) x = Ok (Some (m + Z.quot (x - m) (Z.of_N n + 1)), (n + 1)%N) /\
  m <= m + Z.quot (x - m) (Z.of_N n + 1) <= x.
Proof.
  intros m x n Hm Hx Hd Hle Hn.
  assert (HQ : 0 <= Z.quot (x - m) (Z.of_N n + 1) <= x - m).
  { split; [apply Z.quot_pos; lia|]. apply Z.quot_le_upper_bound; nia. }
  split; [|lia]. unfold int_mean_consume. destruct (N.eqb_spec n 0) as [E|_]; [lia|].
  rewrite wrap_small by lia. rewrite Hd. cbn [negb]. unfold int_div_assign. destruct (N.eqb_spec (n + 1) 0) as [E|_]; [lia|]. cbn [bind].
  unfold is_int, int_min, int_max in *. apply andb_prop in Hm, Hx, Hd. destruct Hm as [Hm1 Hm2], Hx as [Hx1 Hx2], Hd as [Hd1 Hd2].
  apply Z.leb_le in Hm1, Hm2, Hx1, Hx2, Hd1, Hd2.
  assert (Ev : Z.of_N (Z.to_N ((x - m) mod 2 ^ 64) / (n + 1)) = Z.quot (x - m) (Z.of_N n + 1)).
  { rewrite N2Z.inj_div, N2Z.inj_add, Z2N.id by (apply Z.mod_pos_bound; reflexivity). rewrite Z.mod_small by lia.
    rewrite <- Z.quot_div_nonneg by lia. reflexivity. }
  rewrite to_int_small by (rewrite Ev; unfold int_max; lia). rewrite Ev.
  assert ((-(2 ^ 31) <=? m + Z.quot (x - m) (Z.of_N n + 1)) = true) as -> by (apply Z.leb_le; lia).
  assert ((m + Z.quot (x - m) (Z.of_N n + 1) <=? 2 ^ 31 - 1) = true) as -> by (apply Z.leb_le; lia).
  reflexivity.
Qed.

Lemma nondecreasing_weaken : forall xs m m', m' <= m -> nondecreasing m xs -> nondecreasing m' xs.
Proof. intros [|x xs] m m' H; cbn; [auto|]. intros [H1 H2]. split; [lia|exact H2]. Qed.
Lemma int_run : forall xs m n lo hi, is_int lo = true -> is_int hi = true -> is_int (hi - lo) = true -> lo <= m -> (1 <= n)%N ->
  (n + N.of_nat (length xs) < two64)%N -> nondecreasing m xs -> Forall (fun x => x <= hi) xs -> m <= hi ->
  run_consumer int_mean_consume (Some m, n) xs = Ok (Some (int_running (Z.of_N n) m xs), (n + N.of_nat (length xs))%N) /\
  lo <= int_running (Z.of_N n) m xs <= hi.
Proof.
  induction xs as [|x xs IH]; intros m n lo hi Hlo Hhi Hd Hm Hn Hb Hnd Hf Hmh.
  - cbn. rewrite N.add_0_r. split; [reflexivity|lia].
  - cbn [run_consumer int_running]. destruct Hnd as [Hmx Hnd]. inversion Hf as [|? ? Hxh Hf']; subst.
    assert (Ri : forall z, lo <= z <= hi -> is_int z = true).
    { intros z Hz. unfold is_int, int_min, int_max in *. apply andb_prop in Hlo, Hhi. destruct Hlo as [L1 L2], Hhi as [L3 L4].
      apply Z.leb_le in L1, L2, L3, L4. apply andb_true_intro; split; apply Z.leb_le; lia. }
    assert (Rd : is_int (x - m) = true).
    { unfold is_int, int_min, int_max in *. apply andb_prop in Hd. destruct Hd as [L1 L2]. apply Z.leb_le in L1, L2.
      apply andb_true_intro; split; apply Z.leb_le; lia. }
    cbn [length] in Hb.
    destruct (int_step m x n) as [Hs Hr]; [apply Ri; lia|apply Ri; lia|exact Rd|lia|lia|]. rewrite Hs. cbn [bind].
    set (m' := m + Z.quot (x - m) (Z.of_N n + 1)) in *.
    destruct (IH m' (n + 1)%N lo hi) as [H1 H2]; auto; try lia.
    + apply (nondecreasing_weaken _ x); [lia|exact Hnd].
    + replace (Z.of_N n + 1) with (Z.of_N (n + 1)) by lia. split; [|exact H2]. rewrite H1. f_equal. f_equal. cbn [length]. lia.
Qed.


Lemma int_mean_nondecreasing : forall x xs hi, is_int x = true -> is_int hi = true -> is_int (hi - x) = true ->
  (N.of_nat (length (x :: xs)) < two64)%N -> nondecreasing x xs -> Forall (fun y => y <= hi) (x :: xs) ->
  exists s, run_consumer int_mean_consume int_mean_init (x :: xs) = Ok s /\ int_mean_get s = Ok (int_running 1 x xs) /\ x <= int_running 1 x xs <= hi.
Proof.
  intros x xs hi H1 H2 H3 H4 H5 H6. inversion H6; subst. cbn [length] in H4.
  destruct (int_run xs x 1%N x hi) as [Hr Hb]; auto; try lia. eexists. split; [exact Hr|]. split; [reflexivity|exact Hb].
Qed.
