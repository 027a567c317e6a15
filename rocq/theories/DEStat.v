(** Proofs about the distribution of the chains of DifferentialEvaluationMetropolisHastings. *)
From Coq Require Import Reals Lra.
From Coquelicot Require Import Coquelicot.
From Coq Require Import Permutation.
From Verif Require Import Prelude ProducerModel ProducerSpec XReal MHSpec MHProofs MHTop DEProofs DETop DEStatSpec.
Local Open Scope R_scope.
Local Notation length := List.length.

Section Generic.
Context {D : Type}.
Variable (O : dops D) (ll : bool -> D) (one d : D).
Definition moved (x y : bool) (u : D) : bool := if d_ge O (d_div O (d_exp O (d_sub O (ll y) (ll x))) one) u then y else x.
(** what the crossover gives for chain 0, 1, 2 when the first partner is drawn as [a] *)
Definition cross0 (a : N) (x0 x1 x2 : bool) : bool := if (a =? 0)%N then x0 else xorb x0 (xorb x2 x1).
Definition cross1 (a : N) (x0 x1 x2 : bool) : bool := if (a =? 0)%N then x0 else xorb x1 (xorb x2 x0).
Definition cross2 (x0 x1 x2 : bool) : bool := xorb x2 (xorb x0 x1).
Notation "'let!' x := e 'in' k" := (mbind e (fun x => k)) (at level 200, x pattern, k at level 200).
(** the same program with the decision taken entry by entry, which computes for unknown decisions *)
Variable E : env bool D.
Definition task' (chain : nat) (trial : bool) (ratio u : D) (current : list bool) (s : @gstate bool D) : M (@gstate bool D) := fun t =>
  match log_likelihood E trial t with
  | (t1, RVal trial_ll) =>
    match nth_error current chain, nth_error (g_ll s) chain with
    | Some cur, Some cur_ll =>
      let g := d_ge O (d_div O (d_exp O (d_sub O trial_ll cur_ll)) ratio) u in
      (t1, RVal {| g_next := upd (g_next s) chain (if g then trial else cur); g_ll := upd (g_ll s) chain (if g then trial_ll else cur_ll); g_fut := g_fut s ++ [Some g] |})
    | _, _ => (t1, RUB)
    end
  | (t1, RExc) => (t1, RVal {| g_next := g_next s; g_ll := g_ll s; g_fut := g_fut s ++ [None] |})
  | (t1, _) => (t1, RUB)
  end.
Lemma task_eq : forall chain trial ratio u current s t, de_task O E chain trial ratio u current s t = task' chain trial ratio u current s t.
Proof.
  intros. unfold de_task, task'. destruct (log_likelihood E trial t) as [t1 [l| | | | |]]; try reflexivity. destruct (nth_error current chain); [|reflexivity]. destruct (nth_error (g_ll s) chain); [|reflexivity].
  unfold de_decide. destruct (d_ge O _ _); reflexivity.
Qed.
Fixpoint launch' (gap generation n N : N) (current : list bool) (k chain : nat) (s : @gstate bool D) : M (@gstate bool D) :=
  match k with
  | 0%nat => ret s
  | S k' =>
    if (N <=? wrap64 (generation * n + N.of_nat chain))%N then ret s else
    let! (trial, ratio) := de_trial E gap generation n chain current in
    let! u := uniform E in
    let! s' := task' chain trial ratio u current s in
    launch' gap generation n N current k' (S chain) s'
  end.
Lemma launch_eq : forall gap generation n N current k chain s t, de_launch O E gap generation n N current k chain s t = launch' gap generation n N current k chain s t.
Proof.
  induction k as [|k IH]; intros chain s t; [reflexivity|]. cbn [de_launch launch']. destruct (N <=? _)%N; [reflexivity|].
  unfold mbind at 1 4. destruct (de_trial E gap generation n chain current t) as [t1 [[trial ratio]| | | | |]]; try reflexivity.
  unfold mbind at 1 3. destruct (uniform E t1) as [t2 [u| | | | |]]; try reflexivity.
  unfold mbind at 1 2. rewrite task_eq. destruct (task' chain trial ratio u current s t2) as [t3 [s'| | | | |]]; try reflexivity. apply IH.
Qed.
Fixpoint loop' (b : build) (fuel : nat) (gap n N generation : N) (current next : list bool) (lls : list D) : M unit :=
  match fuel with
  | 0%nat => fail RLoop
  | S fuel' =>
    if (wrap64 (generation * n) <? N)%N then
      let! s := launch' gap generation n N current (N.to_nat n) 0 {| g_next := next; g_ll := lls; g_fut := [] |} in
      let! _ := de_issue E b generation n N (N.to_nat n) 0 s in
      loop' b fuel' gap n N (wrap64 (generation + 1)) (g_next s) (g_next s) (g_ll s)
    else ret tt
  end.
Lemma loop_eq : forall b fuel gap n N generation current next lls t, de_loop O E b fuel gap n N generation current next lls t = loop' b fuel gap n N generation current next lls t.
Proof.
  induction fuel as [|fuel IH]; intros; [reflexivity|]. cbn [de_loop loop']. destruct (_ <? N)%N; [|reflexivity].
  unfold mbind at 1 3. rewrite launch_eq. destruct (launch' gap generation n N current (N.to_nat n) 0 _ t) as [t1 [s| | | | |]]; try reflexivity.
  unfold mbind at 1 2. destruct (de_issue E b generation n N (N.to_nat n) 0 s t1) as [t2 [[]| | | | |]]; try reflexivity. apply IH.
Qed.
Definition sample' (b : build) (fuel : nat) (xs : list bool) (gap N : N) : M unit :=
  let n := N.of_nat (length xs) in
  if (match b with Debug => negb (3 <=? n)%N | Release => false end) then fail RAssert else
  with_scope_exit E (let! lls := de_init E xs in loop' b fuel gap n N 0 xs xs lls).
Lemma sample_eq : forall b fuel xs gap N t, de_sample O E b fuel xs gap N t = sample' b fuel xs gap N t.
Proof.
  intros. unfold de_sample, sample'. destruct (match b with Debug => _ | Release => false end); [reflexivity|]. unfold with_scope_exit.
  assert (H : forall t, mbind (de_init E xs) (fun lls => de_loop O E b fuel gap (N.of_nat (length xs)) N 0 xs xs lls) t = mbind (de_init E xs) (fun lls => loop' b fuel gap (N.of_nat (length xs)) N 0 xs xs lls) t).
  { intros t'. unfold mbind. destruct (de_init E xs t') as [t1 [l| | | | |]]; try reflexivity. apply loop_eq. }
  rewrite H. reflexivity.
Qed.
Lemma same {A} : forall (g : bool) (x : A), (if g then x else x) = x.
Proof. now intros []. Qed.
End Generic.
Lemma bits_run : forall {D} (O : dops D) ll one d b x0 x1 x2 a0 a1 a2 v0 v1 v2 u0 u1 u2,
  In a0 [0%N; 1%N] -> In a1 [0%N; 1%N] -> In a2 [0%N; 1%N] ->
  map fst (issued (fst (de_sample O (bits ll one [a0; a1; a2] [v0; v1; v2; u0; u1; u2] d) b 10 [x0; x1; x2] 1 6 []))) =
  [x0; x1; x2; moved O ll one x0 (cross0 a0 x0 x1 x2) u0; moved O ll one x1 (cross1 a1 x0 x1 x2) u1; moved O ll one x2 (cross2 x0 x1 x2) u2].
Proof.
  intros D O ll one d b x0 x1 x2 a0 a1 a2 v0 v1 v2 u0 u1 u2 H0 H1 H2.
  assert (XO : forall x y, xorb x (xorb y y) = x) by (now intros [] []).
  assert (XC : forall x y, xorb x (xorb y x) = y) by (now intros [] []).
  rewrite sample_eq.
  destruct H0 as [<-|[<-|[]]], H1 as [<-|[<-|[]]], H2 as [<-|[<-|[]]]; unfold moved, cross0, cross1, cross2; destruct b;
  cbv -[d_ge d_div d_exp d_sub xorb]; rewrite ?same, ?XO, ?XC, ?same, ?(xorb_comm x1 x0); reflexivity.
Qed.

(** ** The example *)
Definition moves (p : R) (x y : bool) (u : R) : bool := if Rle_dec u (target p y / target p x) then y else x.
Lemma target_pos : forall p x, 0 < p < 1 -> 0 < target p x.
Proof. intros p [] H; cbn; lra. Qed.
Lemma moved_fin : forall p x y u, 0 < p < 1 -> moved xops (fun x => XFin (ln (target p x))) (XFin 1) x y (XFin u) = moves p x y u.
Proof.
  intros p x y u H. unfold moved, moves.
  pose proof (de_accept_finite bool y x (ln (target p y)) (ln (target p x)) 1 u Rlt_0_1) as G. unfold de_decide in G.
  rewrite !exp_ln in G by (now apply target_pos). rewrite Rmult_1_r in G.
  destruct (d_ge xops _ _), (Rle_dec u (target p y / target p x)); congruence.
Qed.
Lemma generation1_eq : forall b p x0 x1 x2 a0 a1 a2 v0 v1 v2 u0 u1 u2, 0 < p < 1 ->
  In a0 [0%N; 1%N] -> In a1 [0%N; 1%N] -> In a2 [0%N; 1%N] ->
  generation1 b p [x0; x1; x2] [a0; a1; a2] [v0; v1; v2] [u0; u1; u2] =
  [moves p x0 (cross0 a0 x0 x1 x2) u0; moves p x1 (cross1 a1 x0 x1 x2) u1; moves p x2 (cross2 x0 x1 x2) u2].
Proof.
  intros. unfold generation1, bits_env. cbn [app map]. rewrite bits_run by assumption. cbn [skipn]. now rewrite !moved_fin.
Qed.
(** the probability that the trial is accepted, and the mean of a function of the new state *)
Definition rate (p : R) (x y : bool) : R := if x then 1 else if y then p / (1 - p) else 1.
Definition mean (p : R) (x y : bool) (F : bool -> R) : R := rate p x y * F y + (1 - rate p x y) * F x.
Lemma RInt_moves : forall p x y (F : bool -> R), 0 < p < 1/2 -> RInt (fun u => F (moves p x y u)) 0 1 = mean p x y F.
Proof.
  intros p x y F H. apply (is_RInt_unique (V := R_CompleteNormedModule)).
  assert (T : forall z, 0 < target p z) by (intros; apply target_pos; lra).
  assert (C : 0 <= target p y / target p x) by (apply Rlt_le, Rdiv_lt_0_compat; apply T).
  assert (R1 : rate p x y = Rmin 1 (target p y / target p x)).
  { unfold rate. destruct x, y; cbn [target].
    - rewrite Rmin_left; [reflexivity|]. apply Req_le. field. lra.
    - rewrite Rmin_left; [reflexivity|]. apply (Rmult_le_reg_r p); [lra|]. unfold Rdiv. rewrite Rmult_assoc, Rinv_l by lra. lra.
    - rewrite Rmin_right; [reflexivity|]. apply (Rmult_le_reg_r (1 - p)); [lra|]. unfold Rdiv. rewrite Rmult_assoc, Rinv_l by lra. lra.
    - rewrite Rmin_left; [reflexivity|]. apply Req_le. field. lra. }
  pose proof (RInt_indicator _ C) as I. unfold mean. rewrite R1. set (m := Rmin 1 _) in *.
  apply (is_RInt_ext (V := R_NormedModule) (fun u => plus (scal (F y - F x) (if Rle_dec u (target p y / target p x) then 1 else 0)) (F x))).
  - intros u _. unfold moves, plus, scal; cbn. unfold mult; cbn. destruct (Rle_dec u _); ring.
  - replace (m * F y + (1 - m) * F x) with (plus (scal (F y - F x) m) (scal (1 - 0) (F x))) by (unfold plus, scal; cbn; unfold mult; cbn; ring).
    apply (is_RInt_plus (V := R_NormedModule)); [apply (is_RInt_scal (V := R_NormedModule)), I|]. apply (is_RInt_const (V := R_NormedModule)).
Qed.
Definition mean3 (p : R) (x0 x1 x2 : bool) (a0 a1 : N) (event : list bool -> bool) : R :=
  mean p x0 (cross0 a0 x0 x1 x2) (fun z0 => mean p x1 (cross1 a1 x0 x1 x2) (fun z1 => mean p x2 (cross2 x0 x1 x2) (fun z2 => if event [z0; z1; z2] then 1 else 0))).
Lemma RInt3 : forall b p x0 x1 x2 a0 a1 a2 v0 v1 v2 (event : list bool -> bool), 0 < p < 1/2 -> In a0 [0%N; 1%N] -> In a1 [0%N; 1%N] -> In a2 [0%N; 1%N] ->
  RInt (fun u0 => RInt (fun u1 => RInt (fun u2 => if event (generation1 b p [x0; x1; x2] [a0; a1; a2] [v0; v1; v2] [u0; u1; u2]) then 1 else 0) 0 1) 0 1) 0 1 =
  mean3 p x0 x1 x2 a0 a1 event.
Proof.
  intros b p x0 x1 x2 a0 a1 a2 v0 v1 v2 event H H0 H1 H2. unfold mean3.
  set (y0 := cross0 a0 x0 x1 x2). set (y1 := cross1 a1 x0 x1 x2). set (y2 := cross2 x0 x1 x2).
  rewrite <- (RInt_moves p x0 y0 (fun z0 => mean p x1 y1 (fun z1 => mean p x2 y2 (fun z2 => if event [z0; z1; z2] then 1 else 0))) H).
  apply (RInt_ext (V := R_CompleteNormedModule)). intros u0 _.
  rewrite <- (RInt_moves p x1 y1 (fun z1 => mean p x2 y2 (fun z2 => if event [moves p x0 y0 u0; z1; z2] then 1 else 0)) H).
  apply (RInt_ext (V := R_CompleteNormedModule)). intros u1 _.
  rewrite <- (RInt_moves p x2 y2 (fun z2 => if event [moves p x0 y0 u0; moves p x1 y1 u1; z2] then 1 else 0) H).
  apply (RInt_ext (V := R_CompleteNormedModule)). intros u2 _. rewrite generation1_eq by (assumption || lra). reflexivity.
Qed.
Lemma probability_eq : forall b p v0 v1 v2 (event : list bool -> bool), 0 < p < 1/2 ->
  probability b p [v0; v1; v2] event =
  sumR (fun x => prod1 (target p) x * sumR (fun a => / 8 * mean3 p (nth 0 x false) (nth 1 x false) (nth 2 x false) (nth 0 a 0%N) (nth 1 a 0%N) event) (tuples [0%N; 1%N] 3)) (tuples [false; true] 3).
Proof.
  intros b p v0 v1 v2 event H. unfold probability. cbn [tuples flat_map map app sumR nth]. rewrite !RInt3 by (assumption || (cbn; auto)). reflexivity.
Qed.
Lemma chain1 : forall b p v0 v1 v2, 0 < p < 1/2 -> probability b p [v0; v1; v2] (bit 1) = p * (1/2 + p).
Proof.
  intros. rewrite probability_eq by assumption. unfold mean3, mean, rate, bit. cbn. field. lra.
Qed.
Lemma chain0 : forall b p v0 v1 v2, 0 < p < 1/2 -> probability b p [v0; v1; v2] (bit 0) = p.
Proof. intros. rewrite probability_eq by assumption. unfold mean3, mean, rate, bit. cbn. field. lra. Qed.
Lemma chain2 : forall b p v0 v1 v2, 0 < p < 1/2 -> probability b p [v0; v1; v2] (bit 2) = p.
Proof. intros. rewrite probability_eq by assumption. unfold mean3, mean, rate, bit. cbn. field. lra. Qed.
Lemma chains02 : forall b p v0 v1 v2, 0 < p < 1/2 -> probability b p [v0; v1; v2] (fun s => bit 0 s && bit 2 s) = 3/2 * (p * p).
Proof. intros. rewrite probability_eq by assumption. unfold mean3, mean, rate, bit. cbn. field. lra. Qed.

(** ** One chain, the others staying where they are *)
Section Balance.
Context {X : Type}.
Variable eqX : forall x y : X, {x = y} + {x <> y}.
Variables (ll : X -> R) (q : X -> X -> R).
Hypothesis q_nonneg : forall x y, 0 <= q x y.
Hypothesis q_sym_support : forall x y, q x y = 0 -> q y x = 0.
Variable A : X -> X -> R.
Hypothesis HA : accepts_with ll q A.
Let A' x y := Rmin 1 (mh_ratio ll x y (q x y / q y x)).
Lemma A_eq : forall x y, q x y * A x y = q x y * A' x y.
Proof.
  intros x y. destruct (Req_EM_T (q x y) 0) as [->|H0]; [lra|]. assert (Hp : 0 < q x y) by (pose proof (q_nonneg x y); lra).
  assert (Hp1 : 0 < q y x). { pose proof (q_nonneg y x). destruct (Req_EM_T (q y x) 0) as [H1|]; [apply q_sym_support in H1; lra|lra]. }
  f_equal. pose proof (HA x y Hp) as H. apply (is_RInt_unique (V := R_CompleteNormedModule)) in H. rewrite <- H. apply (is_RInt_unique (V := R_CompleteNormedModule)). unfold A', mh_ratio. apply de_acceptance_probability. now apply Rdiv_lt_0_compat.
Qed.
Lemma balance : forall x y, exp (ll x) * (q x y * A x y) = exp (ll y) * (q y x * A y x).
Proof. intros x y. rewrite !A_eq. now apply detailed_balance. Qed.
Lemma kernels : forall states x y, kernel eqX states q A x y = kernel eqX states q A' x y.
Proof. intros. unfold kernel. rewrite A_eq. rewrite (sumR_ext (fun z => q x z * A x z) (fun z => q x z * A' x z)) by (intros; apply A_eq). reflexivity. Qed.
Lemma keeps : forall states y, NoDup states -> In y states -> sumR (fun x => exp (ll x) * kernel eqX states q A x y) states = exp (ll y).
Proof.
  intros states y Hn Hy. rewrite (sumR_ext _ (fun x => exp (ll x) * kernel eqX states q A' x y)) by (intros; now rewrite kernels). now apply stationary.
Qed.
End Balance.

(** ** All chains, without crossover *)
Section Product.
Context {X : Type}.
Variables (f : X -> R) (K : X -> X -> R) (states : list X).
Hypothesis one : forall y, In y states -> sumR (fun x => f x * K x y) states = f y.
Lemma sumR_app : forall {Y} (g : Y -> R) l m, sumR g (l ++ m) = sumR g l + sumR g m.
Proof. intros Y g l m. induction l as [|a l IH]; cbn; [lra|]. rewrite IH. lra. Qed.
Lemma sumR_map : forall {Y Z} (g : Z -> R) (h : Y -> Z) l, sumR g (map h l) = sumR (fun y => g (h y)) l.
Proof. intros Y Z g h l. induction l as [|a l IH]; cbn; [reflexivity|]. now rewrite IH. Qed.
Lemma sumR_flat_map : forall {Y Z} (g : Z -> R) (h : Y -> list Z) l, sumR g (flat_map h l) = sumR (fun y => sumR g (h y)) l.
Proof. intros Y Z g h l. induction l as [|a l IH]; cbn; [reflexivity|]. now rewrite sumR_app, IH. Qed.
Lemma sumR_mult_r : forall {Y} (g : Y -> R) c l, sumR (fun y => g y * c) l = sumR g l * c.
Proof. intros Y g c l. induction l as [|a l IH]; cbn; [lra|]. rewrite IH. lra. Qed.
Lemma product : forall ys, Forall (fun y => In y states) ys ->
  sumR (fun xs => prod1 f xs * prod2 K xs ys) (tuples states (length ys)) = prod1 f ys.
Proof.
  induction 1 as [|y ys Hy H IH]; cbn [length tuples prod1 prod2]; [cbn; lra|].
  rewrite sumR_flat_map. rewrite <- (one y Hy), <- IH, <- sumR_mult_r.
  apply sumR_ext. intros x. rewrite sumR_map, <- sumR_scal. apply sumR_ext. intros xs. cbn [prod1 prod2]. ring.
Qed.
End Product.

(** ** Crossover for the last chain *)
Definition pair_of (chain : N) (d : N * N) : N * N := (partner_a chain (fst d), partner_b chain (partner_a chain (fst d)) (snd d)).
Section Last.
Local Open Scope N_scope.
Variable n : N.
Hypothesis Hn : 3 <= n < two64.
Lemma in_draws : forall d, In d (partner_draws n) <-> fst d <= n - 2 /\ snd d <= n - 3.
Proof.
  intros [i j]. unfold partner_draws. rewrite in_prod_iff, !in_map_iff. cbn [fst snd]. split.
  - intros [(i' & <- & Hi) (j' & <- & Hj)]. apply in_seq in Hi, Hj. lia.
  - intros [Hi Hj]. split; [exists (N.to_nat i)|exists (N.to_nat j)]; (split; [lia|apply in_seq; lia]).
Qed.
Lemma pair_last : forall d, In d (partner_draws n) -> pair_of (n - 1) d = (fst d, if fst d <=? snd d then snd d + 1 else snd d).
Proof.
  intros [i j] H. apply in_draws in H. cbn [fst snd] in H. unfold pair_of, partner_a. cbn [fst snd].
  destruct (N.leb_spec (n - 1) i); [lia|]. unfold partner_b. rewrite N.max_r, N.min_l by lia. destruct (N.leb_spec (n - 1) j); [lia|].
  destruct (N.leb_spec i j); [|reflexivity]. f_equal. unfold wrap64. apply N.mod_small. lia.
Qed.
Lemma pairs_in : forall a b, In (a, b) (map (pair_of (n - 1)) (partner_draws n)) <-> a < n - 1 /\ b < n - 1 /\ a <> b.
Proof.
  intros a b. rewrite in_map_iff. split.
  - intros (d & E & H). rewrite pair_last in E by assumption. apply in_draws in H. destruct d as [i j]. cbn [fst snd] in *. destruct (N.leb_spec i j); injection E as <- <-; lia.
  - intros (Ha & Hb & Hab). exists (a, if a <? b then b - 1 else b).
    assert (H : In (a, if a <? b then b - 1 else b) (partner_draws n)) by (apply in_draws; cbn [fst snd]; destruct (N.ltb_spec a b); lia).
    split; [|assumption]. rewrite pair_last by assumption. cbn [fst snd]. destruct (N.ltb_spec a b); [destruct (N.leb_spec a (b - 1)); [|lia]|destruct (N.leb_spec a b); [lia|]]; f_equal; lia.
Qed.
Lemma nodup_app : forall {A} (l m : list A), NoDup l -> NoDup m -> (forall x, In x l -> ~ In x m) -> NoDup (l ++ m).
Proof.
  intros A l m Hl Hm. induction Hl as [|a l Ha Hl IH]; intros H; cbn; [assumption|]. constructor.
  - rewrite in_app_iff. intros [H1|H1]; [contradiction|]. exact (H a (or_introl eq_refl) H1).
  - apply IH. intros x Hx. apply H. now right.
Qed.
Lemma nodup_prod : forall {A B} (l : list A) (m : list B), NoDup l -> NoDup m -> NoDup (list_prod l m).
Proof.
  intros A B l m Hl Hm. induction Hl as [|a l Ha Hl IH]; cbn; [constructor|]. apply nodup_app; [|assumption|].
  - apply FinFun.Injective_map_NoDup; [|assumption]. intros x y E. congruence.
  - intros [x y] H1 H2. apply in_map_iff in H1 as (z & E & _). injection E as <- <-. apply in_prod_iff in H2. tauto.
Qed.
Lemma pairs_nodup : NoDup (map (pair_of (n - 1)) (partner_draws n)).
Proof.
  assert (ND : NoDup (partner_draws n)).
  { apply nodup_prod; (apply FinFun.Injective_map_NoDup; [intros x y E; lia|apply seq_NoDup]). }
  assert (INJ : forall d e, In d (partner_draws n) -> In e (partner_draws n) -> pair_of (n - 1) d = pair_of (n - 1) e -> d = e).
  { intros d e Hd He. rewrite !pair_last by assumption. destruct d as [i j], e as [k l]. cbn [fst snd]. intros E.
    destruct (N.leb_spec i j), (N.leb_spec k l); injection E as -> E; f_equal; lia. }
  revert ND INJ. generalize (partner_draws n). intros L ND. induction ND as [|d L Hd ND IH]; intros INJ; cbn; [constructor|]. constructor.
  - intros H. apply in_map_iff in H as (e & E & He). assert (e = d) by (apply INJ; [now right|now left|assumption]). congruence.
  - apply IH. intros e f He Hf. apply INJ; now right.
Qed.
Lemma pairs_swap : Permutation (map (fun d => (snd (pair_of (n - 1) d), fst (pair_of (n - 1) d))) (partner_draws n)) (map (pair_of (n - 1)) (partner_draws n)).
Proof.
  apply NoDup_Permutation.
  - rewrite <- (map_map (pair_of (n - 1)) (fun ab => (snd ab, fst ab))). apply FinFun.Injective_map_NoDup; [|apply pairs_nodup]. intros [a b] [c d]. cbn. congruence.
  - apply pairs_nodup.
  - intros [a b]. rewrite pairs_in, <- (map_map (pair_of (n - 1)) (fun ab => (snd ab, fst ab))), in_map_iff. split.
    + intros ([c d] & E & H). cbn in E. injection E as <- <-. apply pairs_in in H. intuition.
    + intros H. exists (b, a). split; [reflexivity|]. apply pairs_in. intuition.
Qed.
End Last.
Lemma sumR_perm : forall {Y} (g : Y -> R) l m, Permutation l m -> sumR g l = sumR g m.
Proof. intros Y g l m P. induction P; cbn; lra. Qed.
Section LastChain.
Context {X : Type}.
Variable eqX : forall x y : X, {x = y} + {x <> y}.
Variable cross : X -> X -> X -> X.
Hypothesis reversible : forall x y a b, cross x a b = y <-> cross y b a = x.
Variable current : list X.
Hypothesis Hn : (3 <= N.of_nat (length current) < two64)%N.
Notation n := (N.of_nat (length current)).
Lemma crossed_sym : forall x y, crossed eqX cross current (n - 1) x y = crossed eqX cross current (n - 1) y x.
Proof.
  intros x y. unfold crossed. cbv zeta.
  set (g := fun u v (ab : N * N) => match nth_error current (N.to_nat (fst ab)), nth_error current (N.to_nat (snd ab)) with
            | Some xa, Some xb => if eqX (cross u xa xb) v then / INR (length (partner_draws n)) else 0
            | _, _ => 0 end).
  assert (S1 : forall u v, sumR (fun d => match nth_error current (N.to_nat (partner_a (n - 1) (fst d))), nth_error current (N.to_nat (partner_b (n - 1) (partner_a (n - 1) (fst d)) (snd d))) with
            | Some xa, Some xb => if eqX (cross u xa xb) v then / INR (length (partner_draws n)) else 0
            | _, _ => 0 end) (partner_draws n) = sumR (g u v) (map (pair_of (n - 1)) (partner_draws n))).
  { intros u v. rewrite sumR_map. reflexivity. }
  rewrite !S1, <- (sumR_perm (g y x) _ _ (pairs_swap n Hn)), !sumR_map. apply sumR_ext. intros d. unfold g. cbn [fst snd].
  destruct (nth_error current (N.to_nat (fst (pair_of (n - 1) d)))) as [xa|], (nth_error current (N.to_nat (snd (pair_of (n - 1) d)))) as [xb|]; try reflexivity.
  destruct (eqX (cross x xa xb) y) as [H|H], (eqX (cross y xb xa) x) as [H'|H']; try reflexivity; exfalso; [apply H'|apply H]; now apply reversible.
Qed.
Lemma crossed_nonneg : forall chain x y, 0 <= crossed eqX cross current chain x y.
Proof.
  intros chain x y. unfold crossed. cbv zeta. set (L := partner_draws n) at 2. clearbody L. induction L as [|d L IH]; cbn [sumR]; [lra|]. apply Rplus_le_le_0_compat; [|exact IH].
  destruct (nth_error _ _); [|lra]. destruct (nth_error _ _); [|lra]. destruct (eqX _ _); [|lra].
  assert (0 <= INR (length (partner_draws n))) by apply pos_INR. destruct (Req_EM_T (INR (length (partner_draws n))) 0) as [->|H1]; [rewrite Rinv_0; lra|]. apply Rlt_le, Rinv_0_lt_compat. lra.
Qed.
Variable ll : X -> R.
Theorem last_chain : forall A, (forall x y, is_RInt (fun u => if fst (fst (de_decide xops y (XFin 1) (XFin u) (XFin (ll y)) x (XFin (ll x)))) then 1 else 0) 0 1 (A x y)) ->
  forall states y, NoDup states -> In y states ->
  sumR (fun x => exp (ll x) * kernel eqX states (crossed eqX cross current (n - 1)) A x y) states = exp (ll y).
Proof.
  intros A HA states y Hs Hy. apply keeps; try assumption.
  - apply crossed_nonneg.
  - intros a b H. now rewrite crossed_sym.
  - intros a b H. rewrite (crossed_sym b a). replace (crossed eqX cross current (n - 1) a b / crossed eqX cross current (n - 1) a b) with 1 by (field; lra). apply HA.
Qed.
End LastChain.
Lemma chain1_less : forall p, 0 < p < 1/2 -> p * (1/2 + p) < p.
Proof. intros p H. apply Rlt_le_trans with (p * 1); [apply Rmult_lt_compat_l; lra|lra]. Qed.
