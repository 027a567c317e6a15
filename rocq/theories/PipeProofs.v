(** Proofs about pipelines behind the samplers. *)
From Coq Require Import Reals Lra Lia QArith Qreals.
From Coquelicot Require Import Coquelicot.
From Verif Require Import Prelude ConsumerModel ConsumerSpec ConsumerProofs FilterModel FilterSpec FilterProofs HistModel HistSpec HistProofs HistTop ProducerModel ProducerSpec XReal MHSpec
  MHProofs DEStat StatsModel StatsSpec StatsInst StatsTop StatsCosModel StatsCosSpec StatsCosProofs MHRunSpec DRRunSpec DRLaw DRStat DRTop MarkovFinite MHRun MarkovTop MarkovStats MarkovThin PipeSpec.
Import ListNotations.
Local Open Scope R_scope.
Local Open Scope list_scope.
Local Notation length := List.length.

Record sampler_facts {X : Type} (states : list X) (ll : X -> R) (K q : X -> X -> R) (E : X -> nat -> (list X -> R) -> R -> Prop) : Prop := {
  sf_law : forall x0 n g, In x0 states -> E x0 n g (markov states K n x0 g);
  sf_unique : forall x0 n g v v', E x0 n g v -> E x0 n g v' -> v = v';
  sf_nonneg : forall x y, In x states -> In y states -> 0 <= K x y;
  sf_sum : forall x, In x states -> sumR (K x) states = 1;
  sf_stationary : forall y, In y states -> sumR (fun x => target states ll x * K x y) states = target states ll y;
  sf_pos : forall x y, In x states -> In y states -> 0 < q x y -> 0 < K x y;
  sf_q : forall x, In x states -> exists y, In y states /\ 0 < q x y }.
Arguments sf_law {X states ll K q E}. Arguments sf_unique {X states ll K q E}. Arguments sf_nonneg {X states ll K q E}. Arguments sf_sum {X states ll K q E}.
Arguments sf_stationary {X states ll K q E}. Arguments sf_pos {X states ll K q E}. Arguments sf_q {X states ll K q E}.
Lemma sum_pos : forall {X} (f : X -> R) l, (forall y, 0 <= f y) -> sumR f l = 1 -> exists y, In y l /\ 0 < f y.
Proof.
  intros X f l Hf. induction l as [|y l IH]; cbn [sumR]; intros H; [lra|]. destruct (Rlt_dec 0 (f y)) as [Hy|Hy]; [exists y; split; [now left|exact Hy]|].
  assert (f y = 0) by (pose proof (Hf y); lra). destruct IH as (z & Hz & Hp); [lra|]. exists z. split; [now right|exact Hp].
Qed.
Lemma sampler_ok : forall X (eqX : forall x y : X, {x = y} + {x <> y}) states ll K q E, NoDup states -> sampler eqX states ll K q E -> sampler_facts states ll K q E.
Proof.
  intros X eqX states ll K q E states_nodup HS. destruct HS as [q Hnz Hp | prop ratio md Hd Hsym Hmd].
  - constructor.
    + intros x0 n g Hx0. now apply run_law.
    + intros x0 n g v v' H1 H2. apply (proj2 H2). exact (proj1 H1).
    + intros x y Hx Hy. now apply K_nonneg.
    + intros x Hx. now apply MHRun.K_sum.
    + intros y Hy. now apply MHRun.p_stationary.
    + intros x y Hx Hy H. now apply MHRun.K_pos.
    + intros x Hx. apply sum_pos; [intros y; apply (pd_nonneg _ _ Hp)|now apply (pd_sum _ _ Hp)].
  - assert (Hk : forall x y, dr_kernel states eqX prop (code_accepts ll) (md + 1) x [] y = dr_kernel states eqX prop (published ll) (md + 1) x [] y)
      by (intros x y; apply ker_published; lia).
    constructor.
    + intros x0 n g Hx0. now apply t_law_one.
    + intros x0 n g v v' H1 H2. apply (proj2 H2). exact (proj1 H1).
    + intros x y Hx Hy. rewrite <- Hk. now apply K_nn.
    + intros x Hx. rewrite <- (K_s eqX ll prop states states_nodup Hd md x Hx). apply sumR_ext_in. intros y _. symmetry. apply Hk.
    + intros y Hy. etransitivity; [|exact (K_st eqX ll prop states states_nodup Hd Hsym md Hmd y Hy)]. apply sumR_ext_in. intros x _. now rewrite <- Hk.
    + intros x y Hx Hy H. rewrite <- Hk. now apply K_p.
    + intros x Hx. apply sum_pos; [intros y; apply (dd_nonneg _ _ Hd)|]. apply (dd_sum _ _ Hd); [exact Hx|intros z []].
Qed.

Lemma every_bound : forall {A} k r (l : list A), (length (every k r l) <= length l)%nat.
Proof. intros A k r l. revert r. induction l as [|a l IH]; intros r; [reflexivity|]. cbn [every]. destruct r as [|r]; cbn [length]; [pose proof (IH k)|pose proof (IH r)]; lia. Qed.
Lemma take_every_spec : forall {X} k (l : list X), (0 < k)%nat -> (N.of_nat k < two64)%N -> take_every k l = every (k - 1) 0 l.
Proof.
  intros X k l Hk Hk64. unfold take_every.
  assert (G : forall l c, (1 <= c <= k)%nat -> exists c', run_filter (ten_filter (N.of_nat k)) (N.of_nat c) (map (fun x : X => (x, tt)) l) = Ok (c', map (fun x => (x, tt)) (every (k - 1) (k - c) l))).
  { induction l0 as [|a l0 IH]; intros c Hc; [eexists; reflexivity|]. cbn [map run_filter]. unfold ten_filter at 1.
    destruct (N.eqb_spec (N.of_nat k) 0) as [E0|E0]; [lia|]. destruct (N.eqb_spec (N.of_nat c mod N.of_nat k) 0) as [Em|Em].
    - assert (c = k).
      { destruct (Nat.eq_dec c k) as [|Hne]; [assumption|]. rewrite N.mod_small in Em by lia. lia. }
      subst c. cbn [bind]. destruct (IH 1%nat) as (c' & HIH); [lia|]. change (N.of_nat 1) with 1%N in HIH. rewrite HIH. cbn [bind]. exists c'. rewrite Nat.sub_diag. reflexivity.
    - assert (c <> k) by (intros ->; apply Em; apply N.mod_same; lia).
      cbn [bind]. unfold wrap64. rewrite N.mod_small by lia. replace (N.of_nat c + 1)%N with (N.of_nat (S c)) by lia. destruct (IH (S c)) as (c' & HIH); [lia|]. rewrite HIH. cbn [bind].
      exists c'. replace (k - c)%nat with (S (k - S c)) by lia. reflexivity. }
  destruct l as [|a l]; [reflexivity|]. cbn [map run_filter]. unfold ten_filter at 1, ten_init. destruct (N.eqb_spec (N.of_nat k) 0) as [E0|E0]; [lia|].
  rewrite N.mod_0_l by exact E0. cbn [N.eqb bind]. destruct (G l 1%nat) as (c' & H); [lia|]. change (N.of_nat 1) with 1%N in H. rewrite H. cbn [bind every map]. f_equal. rewrite map_map. apply map_id.
Qed.
Lemma map_fst_tag : forall {A} (l : list A), map fst (map (fun x => (x, tt)) l) = l.
Proof. intros A l. induction l as [|a l IH]; [reflexivity|]. cbn. now rewrite IH. Qed.
Lemma pick_map : forall {A B} (g : A -> B) P l, pick P (map g l) = map g (pick P l).
Proof. intros A B g P l. revert P. induction l as [|a l IH]; intros P; [reflexivity|]. cbn [map]. rewrite !pick_cons, IH, map_app. destruct (P O); reflexivity. Qed.
Lemma every_pick : forall {X} k (l : list X), (0 < k)%nat -> (N.of_nat k < two64)%N -> every (k - 1) 0 l = pick (fun i => (i mod k =? 0)%nat) l.
Proof.
  intros X k l Hk Hk64. rewrite <- take_every_spec by assumption. unfold take_every. destruct (ten_correct (N.of_nat k) (map (fun x => (x, tt)) l)) as (c & ->); [lia|].
  rewrite pick_map, map_fst_tag. apply pick_ext. intros i _. rewrite <- Nat2N.inj_mod. destruct (i mod k)%nat; reflexivity.
Qed.
Section Sampler.
Context {X : Type}.
Variables (eqX : forall x y : X, {x = y} + {x <> y}) (states : list X) (ll : X -> R).
Variables (K q : X -> X -> R) (E : X -> nat -> (list X -> R) -> R -> Prop).
Hypothesis states_nodup : NoDup states.
Hypothesis HS : sampler eqX states ll K q E.
Local Notation p := (target states ll).
Let facts := sampler_ok X eqX states ll K q E states_nodup HS.
Let K_nonneg := sf_nonneg facts.
Let K_sum := sf_sum facts.
Let p_stationary := sf_stationary facts.
Local Notation consistent := (consistent states K).

Lemma up : forall least limit code Z c, consistent Z c -> (forall l, good states l -> (least <= length l)%nat -> (N.of_nat (length l) < limit)%N -> code l = Z l) ->
  converges states least limit E code Z c.
Proof.
  intros least limit code Z c (C & H) Heq. exists C. intros x0 n Hx0 Hn. pose proof (sf_law facts x0 n (fun l => (Z l - c) ^ 2) Hx0) as HZ. eexists. split; [now apply (H x0 n)|]. split; [exact HZ|].
  intros Hleast Hlim. rewrite (markov_eq_in states K K_nonneg n x0 (fun l => (Z l - c) ^ 2) (fun l => (code l - c) ^ 2)); [now apply (sf_law facts)| |exact Hx0].
  intros l Hl Hin. rewrite Heq; [reflexivity| |now rewrite Hl|now rewrite Hl]. split; [|exact Hin]. intros ->. cbn in Hl. lia.
Qed.
Lemma down : forall least limit code Z c, converges states least limit E code Z c -> consistent Z c /\
  forall x n, In x states -> (0 < n)%nat -> (least <= n)%nat -> (N.of_nat n < limit)%N -> markov states K n x (fun l => (code l - c) ^ 2) = markov states K n x (fun l => (Z l - c) ^ 2).
Proof.
  intros least limit code Z c (C & H). split.
  - exists C. intros x n Hx Hn. destruct (H x n Hx Hn) as (v & Hle & Hv & _). rewrite (sf_unique facts _ _ _ _ _ (sf_law facts x n _ Hx) Hv). exact Hle.
  - intros x n Hx Hn Hl Hlim. destruct (H x n Hx Hn) as (v & _ & Hv & Hc). rewrite (sf_unique facts _ _ _ _ _ (sf_law facts x n _ Hx) Hv).
    exact (sf_unique facts _ _ _ _ _ (sf_law facts x n _ Hx) (Hc Hl Hlim)).
Qed.
Lemma chebyshev1 : forall Z c C x0 n eps, 0 < eps -> In x0 states -> (0 < n)%nat -> markov states K n x0 (fun l => (Z l - c) ^ 2) <= C / INR n ->
  exists v, 0 <= v <= C / (INR n * eps ^ 2) /\ E x0 n (fun l => indicator (far eps (Z l) c)) v.
Proof.
  intros Z c C x0 n eps He Hx0 Hn Hle. eexists. split; [|apply (sf_law facts); exact Hx0].
  assert (HI : 0 < INR n) by (apply lt_0_INR; exact Hn).
  assert (He2 : 0 < eps ^ 2) by (apply pow_lt; exact He).
  split.
  - rewrite <- (markov_const states K K_sum n x0 0 Hx0). apply markov_le; auto.
    intros l. unfold indicator. destruct (far _ _ _); lra.
  - apply Rmult_le_reg_l with (eps ^ 2); [exact He2|].
    apply Rle_trans with (C / INR n); [|right; field; lra].
    eapply Rle_trans; [|exact Hle]. clear Hle.
    rewrite <- (Rplus_0_r (eps ^ 2 * _)).
    rewrite <- (markov_const states K K_sum n x0 0 Hx0) at 1.
    rewrite <- (markov_lin states K n x0 (eps ^ 2) (fun l => indicator (far eps (Z l) c)) (fun _ => 0)).
    apply markov_le; auto. intros l. unfold indicator, far.
    destruct (Rle_dec eps (Rabs (Z l - c))) as [Hf|Hf].
    + rewrite <- (pow2_abs (Z l - _)). rewrite Rmult_1_r, Rplus_0_r. apply pow_incr. lra.
    + pose proof (pow2_ge_0 (Z l - c)). lra.
Qed.
Lemma chebyshev : forall least limit code Z c, converges states least limit E code Z c ->
  exists C, forall eps x0 n, 0 < eps -> In x0 states -> (0 < n)%nat ->
  (exists v, 0 <= v <= C / (INR n * eps ^ 2) /\ E x0 n (fun l => indicator (far eps (Z l) c)) v) /\
  ((least <= n)%nat -> (N.of_nat n < limit)%N -> exists v, 0 <= v <= C / (INR n * eps ^ 2) /\ E x0 n (fun l => indicator (far eps (code l) c)) v).
Proof.
  intros least limit code Z c H. apply down in H. destruct H as ((C & H) & Hc). exists C. intros eps x0 n He Hx0 Hn. split.
  - apply chebyshev1; auto.
  - intros Hl Hlim. apply chebyshev1; auto. rewrite Hc by assumption. now apply H.
Qed.

(** ** Burn-in *)
Lemma discard_skipn : forall k (l : list X), (N.of_nat (length l) < two64)%N -> discard k l = skipn k l.
Proof.
  intros k l Hl. unfold discard. destruct (dfn_correct k (map (fun x => (x, tt)) l)) as (c & ->); [now rewrite map_length|].
  rewrite skipn_map, map_map. apply map_id.
Qed.
Lemma markov_skip : forall k n x h, markov states K (k + n) x (fun l => h (skipn k l)) = it states K k (fun y => markov states K n y h) x.
Proof.
  induction k as [|k IH]; intros n x h; [reflexivity|]. cbn [Nat.add markov it]. unfold P. apply MarkovFinite.sumR_ext_in. intros y _. f_equal. cbn [skipn]. apply IH.
Qed.
Theorem burn_in : forall k least limit code Z c, (0 < least)%nat -> (limit <= two64)%N -> converges states least limit E code Z c ->
  converges states (k + least) limit E (fun l => code (discard k l)) (fun l => Z (skipn k l)) c.
Proof.
  intros k least limit code Z c H0 Hlim H. apply down in H. destruct H as (HZ & Hc).
  pose proof (cons_skip states K K_nonneg K_sum k Z c HZ) as (C & HC). exists C. intros x0 n Hx0 Hn.
  pose proof (sf_law facts x0 n (fun l => (Z (skipn k l) - c) ^ 2) Hx0) as HS1. eexists. split; [now apply (HC x0 n)|]. split; [exact HS1|]. intros Hl Hlim'.
  pose proof (sf_law facts x0 n (fun l => (code (discard k l) - c) ^ 2) Hx0) as HS2.
  replace (markov states K n x0 (fun l => (Z (skipn k l) - c) ^ 2)) with (markov states K n x0 (fun l => (code (discard k l) - c) ^ 2)); [exact HS2|].
  rewrite (markov_eq_in states K K_nonneg n x0 _ (fun l => (code (skipn k l) - c) ^ 2)); [|intros l Hll _; rewrite discard_skipn; [reflexivity|rewrite Hll; lia]|exact Hx0].
  replace n with (k + (n - k))%nat by lia. rewrite (markov_skip k (n - k) x0 (fun l => (code l - c) ^ 2)), (markov_skip k (n - k) x0 (fun l => (Z l - c) ^ 2)).
  apply it_ext; [|exact Hx0]. intros y Hy. apply Hc; [exact Hy|lia|lia|lia].
Qed.

(** ** MaximumProbabilitySample *)
Section Connected.
Hypothesis Hc : connected states q.
Lemma in_exists_max : forall (lq : X -> QArith_base.Q) (l : list X), l <> [] -> exists x, In x l /\ forall y, In y l -> (lq y <= lq x)%Q.
Proof.
  intros lq l. induction l as [|a l IH]; intros H; [congruence|]. destruct l as [|b l].
  - exists a. split; [now left|]. intros y [<-|[]]. apply Qle_refl.
  - destruct IH as (x & Hx & Hm); [discriminate|]. destruct (Qlt_le_dec (lq x) (lq a)) as [Ha|Ha].
    + exists a. split; [now left|]. intros y [<-|Hy]; [apply Qle_refl|]. eapply Qle_trans; [now apply Hm|now apply Qlt_le_weak].
    + exists x. split; [now right|]. intros y [<-|Hy]; [exact Ha|now apply Hm].
Qed.
Theorem avoid_decay : forall H : X -> bool, (exists y, In y states /\ H y = true) ->
  exists m e, (0 < m)%nat /\ 0 < e <= 1 /\ forall n x, In x states -> avoid states K H n x <= (1 - e) ^ (n / m).
Proof.
  intros H (y0 & Hy0 & HH).
  destruct (upper_bound (fun x k => exists z, In z states /\ 0 < q x z /\ reaches states q k z y0) states) as (m & Hm).
  { intros x Hx. destruct (sf_q facts x Hx) as (z & Hz & Hp). destruct (Hc z y0 Hz Hy0) as (k & Hk). exists k, z. auto. }
  assert (Hpos : forall x, In x states -> exists k, (k <= m)%nat /\ 0 < step eqX states K (S k) x y0).
  { intros x Hx. destruct (Hm x Hx) as (k & Hk & z & Hz & Hp & Hr). exists k. split; [exact Hk|].
    apply (c_reaches_pos eqX states K K_nonneg q (sf_pos facts) (S k) x y0 Hx Hy0). exists z. auto. }
  assert (Hlow : exists e, 0 < e /\ forall x, In x states -> exists k, (k <= m)%nat /\ e <= step eqX states K (S k) x y0).
  { clear - Hpos. assert (G : forall l, incl l states -> exists e, 0 < e /\ forall x, In x l -> exists k, (k <= m)%nat /\ e <= step eqX states K (S k) x y0).
    { induction l as [|a l IH]; intros Hl; [exists 1; split; [lra|intros x []]|].
      destruct IH as (e & He & HIH); [intros z Hz; apply Hl; now right|]. destruct (Hpos a (Hl a (or_introl eq_refl))) as (k & Hk & Hp).
      exists (Rmin e (step eqX states K (S k) a y0)). split; [now apply Rmin_glb_lt|]. intros x [<-|Hx].
      - exists k. split; [exact Hk|apply Rmin_r].
      - destruct (HIH x Hx) as (k' & Hk' & Hle). exists k'. split; [exact Hk'|]. eapply Rle_trans; [apply Rmin_l|exact Hle]. }
    apply G. apply incl_refl. }
  destruct Hlow as (e & He & Hle).
  assert (He1 : e <= 1).
  { destruct (Hle y0 Hy0) as (k & _ & Hk). eapply Rle_trans; [exact Hk|]. rewrite <- (step_sum eqX states states_nodup K K_sum (S k) y0 Hy0).
    apply sumR_member; [|exact Hy0]. intros z Hz. now apply step_nonneg. }
  exists (S m), e. split; [lia|]. split; [lra|]. intros n x Hx.
  rewrite (Nat.div_mod n (S m)) at 1 by lia. rewrite Nat.add_comm, (Nat.mul_comm (S m)).
  apply avoid_pow; [exact K_nonneg|exact K_sum|lra| |exact Hx]. intros z Hz. destruct (Hle z Hz) as (k & Hk & Hle').
  eapply Rle_trans; [apply (avoid_it states K K_nonneg K_sum H k (S m) z); [lia|exact Hz]|].
  apply Rplus_le_compat_l, Ropp_le_contravar. eapply Rle_trans; [exact Hle'|].
  unfold MarkovFinite.step. rewrite (it_step eqX states states_nodup K (S k) (inH H) z Hz).
  rewrite <- (Rmult_1_r (it states K (S k) (delta eqX y0) z)).
  apply Rle_trans with (step eqX states K (S k) z y0 * inH H y0); [right; unfold inH; rewrite HH; reflexivity|].
  apply (sumR_member (fun y => step eqX states K (S k) z y * inH H y)); [|exact Hy0]. intros y Hy. apply Rmult_le_pos; [now apply step_nonneg|]. unfold inH. destruct (H y); lra.
Qed.

Lemma finds_spec : forall (lq : X -> QArith_base.Q), (forall x, In x states -> deq (DFin (lq x)) lowest = false) -> forall l, incl l states ->
  indicator (negb (finds_maximum states lq l)) = (if existsb (fun x => forallb (fun y => Qle_bool (lq y) (lq x)) states) l then 0 else 1).
Proof.
  intros lq Hlow l Hl. unfold finds_maximum. set (tag := fun x : X => (x, [(ConsumerModel.ll_key, AnyDouble (DFin (lq x)))])). set (H := fun x => forallb (fun y => Qle_bool (lq y) (lq x)) states).
  assert (Hll : forall x, log_lik (tag x) = Some (DFin (lq x))) by reflexivity.
  destruct (max_correct (map tag l)) as (s & -> & Hs).
  { apply Forall_forall. intros x Hx. apply in_map_iff in Hx. destruct Hx as (y & <- & Hy). right. exists (DFin (lq y)). split; [reflexivity|]. split; [discriminate|]. now apply Hlow, Hl. }
  destruct Hs as [[Hs ->]|(x & Hx & ->)].
  - cbn [fst]. destruct l as [|a l]; [reflexivity|]. specialize (Hs (tag a) (or_introl eq_refl)). rewrite Hll in Hs. discriminate Hs.
  - cbn [fst]. destruct Hx as (pre & post & e & Heq & He & Hpre & Hpost). fold (H (fst x)).
    assert (Hxin : In x (map tag l)) by (rewrite Heq; apply in_or_app; right; now left).
    apply in_map_iff in Hxin. destruct Hxin as (w & <- & Hw). cbn [fst]. rewrite Hll in He. injection He as <-.
    assert (Hle : forall y, In y l -> (lq y <= lq w)%Q).
    { intros y Hy. apply (in_map tag) in Hy. rewrite Heq in Hy. apply in_app_or in Hy. destruct Hy as [Hy|[Hy|Hy]].
      - specialize (Hpre _ _ Hy (Hll y)). cbn in Hpre. apply Bool.negb_true_iff in Hpre. destruct (Qlt_le_dec (lq y) (lq w)) as [Hlt|Hge]; [now apply Qlt_le_weak|].
        apply Qle_bool_iff in Hge. congruence.
      - assert (Hwy : w = y) by exact (f_equal fst Hy). rewrite Hwy. apply Qle_refl.
      - specialize (Hpost _ _ Hy (Hll y)). cbn in Hpost. apply Bool.negb_false_iff in Hpost. now apply Qle_bool_iff. }
    change (fst (tag w)) with w. destruct (H w) eqn:Hw'.
    + destruct (existsb H l) eqn:Ex; [reflexivity|]. exfalso. assert (existsb H l = true) by (apply existsb_exists; exists w; auto). congruence.
    + destruct (existsb H l) eqn:Ex; [|reflexivity]. exfalso. apply existsb_exists in Ex. destruct Ex as (y & Hy & HHy).
      assert (H w = true); [|congruence]. unfold H in *. rewrite forallb_forall in *. intros z Hz. specialize (HHy z Hz). apply Qle_bool_iff in HHy. apply Qle_bool_iff.
      eapply Qle_trans; [exact HHy|now apply Hle].
Qed.
Theorem maximum_found : forall (lq : X -> QArith_base.Q), (forall x, In x states -> deq (DFin (lq x)) lowest = false) ->
  exists m e, (0 < m)%nat /\ 0 < e <= 1 /\ forall x0 n, In x0 states -> exists v, E x0 n (fun l => indicator (negb (finds_maximum states lq l))) v /\ 0 <= v <= (1 - e) ^ (n / m).
Proof.
  intros lq Hlow. destruct states as [|s0 st] eqn:Es.
  { exists 1%nat, 1. split; [lia|]. split; [lra|]. intros x0 n []. }
  rewrite <- Es in *. assert (Hne : states <> []) by (rewrite Es; discriminate).
  set (H := fun x => forallb (fun y => Qle_bool (lq y) (lq x)) states).
  destruct (in_exists_max lq states Hne) as (x & Hx & Hmax).
  destruct (avoid_decay H) as (m & e & Hm & He & Hav).
  { exists x. split; [exact Hx|]. unfold H. apply forallb_forall. intros y Hy. apply Qle_bool_iff. now apply Hmax. }
  exists m, e. split; [exact Hm|]. split; [exact He|]. intros x0 n Hx0. eexists. split; [apply (sf_law facts); exact Hx0|].
  rewrite (markov_eq_in states K K_nonneg n x0 _ (fun l => if existsb H l then 0 else 1)); [|intros l _ Hl; now apply finds_spec|exact Hx0].
  rewrite avoid_markov by (try exact K_sum; exact Hx0). split; [now apply avoid_range|now apply Hav].
Qed.

(** ** Statistics *)
Lemma average : forall f, consistent (fun l => sumR f l / INR (length l)) (mean_in states p f).
Proof.
  intros f. destruct (c_minorization eqX ll states K K_nonneg q (sf_pos facts) Hc) as (m & d & Hd & Hmin).
  exact (cons_average eqX ll states K states_nodup K_nonneg K_sum p_stationary m d Hd Hmin f).
Qed.
Lemma lag : forall j F z, In z states -> consistent (fun l => lagsum F j z l / INR (length l)) (mean_in states p (fun x => it states K j (F x) x)).
Proof.
  intros j F z Hz. destruct (c_minorization eqX ll states K K_nonneg q (sf_pos facts) Hc) as (m & d & Hd & Hmin).
  exact (cons_lag eqX ll states K states_nodup K_nonneg K_sum p_stationary m d Hd Hmin j F z Hz).
Qed.
Lemma suml_map : forall {A} (h : A -> R) (phi : X -> A) l, suml R_ops h (map phi l) = sumR (fun x => h (phi x)) l.
Proof. intros A h phi l. induction l as [|a l IH]; [reflexivity|]. cbn [map suml sumR]. rewrite IH. reflexivity. Qed.
Lemma avg_bounded : forall f, exists B, 0 <= B /\ forall l, good states l -> Rabs (sumR f l / INR (length l)) <= B.
Proof.
  intros f. exists (norm states f). split.
  - unfold norm, lnorm. clear. induction states as [|a s IH]; cbn; [lra|]. eapply Rle_trans; [exact IH|apply Rmax_r].
  - intros l Hl. pose proof (good_INR states l Hl) as HI. destruct Hl as (_ & Hin). rewrite Rabs_div, (Rabs_pos_eq (INR _)) by lra.
    apply Rmult_le_reg_r with (INR (length l)); [lra|]. unfold Rdiv. rewrite Rmult_assoc, Rinv_l, Rmult_1_r by lra.
    eapply Rle_trans; [apply sumR_abs|]. clear HI. induction l as [|a l IH]; cbn [sumR length]; [cbn; lra|].
    rewrite S_INR. assert (Rabs (f a) <= norm states f) by (apply norm_within, Hin; now left).
    assert (sumR (fun x => Rabs (f x)) l <= norm states f * INR (length l)) by (apply IH; intros z Hz; apply Hin; now right). lra.
Qed.
Lemma lag_bounded : forall F j z, exists B, 0 <= B /\ forall l, good states l -> Rabs (lagsum F j z l / INR (length l)) <= B.
Proof.
  intros F j z. destruct (bounded2 states F) as (B & HB0 & HB). exists B. split; [exact HB0|].
  intros l Hl. pose proof (good_INR states l Hl) as HI. destruct Hl as (_ & Hin). rewrite Rabs_div, (Rabs_pos_eq (INR _)) by lra.
  apply Rmult_le_reg_r with (INR (length l)); [lra|]. unfold Rdiv. rewrite Rmult_assoc, Rinv_l, Rmult_1_r by lra.
  unfold lagsum. apply Rle_trans with (INR (length l - j) * B).
  - eapply Rle_trans; [apply sumR_abs|]. apply Rle_trans with (sumR (fun _ : nat => B) (seq 0 (length l - j))).
    + apply sumR_le_in. intros t Ht. apply in_seq in Ht. apply HB; apply Hin, nth_In; lia.
    + right. rewrite <- (seq_length (length l - j) 0) at 2. generalize (seq 0 (length l - j)) as s. induction s as [|a s IH]; [cbn; ring|]. cbn [sumR length]. rewrite IH, S_INR. ring.
  - rewrite Rmult_comm. apply Rmult_le_compat_l; [exact HB0|]. apply le_INR. lia.
Qed.
Lemma all_size_map : forall d (phi : X -> list R) l, (forall x, In x states -> length (phi x) = d) -> incl l states -> all_size d (map phi l).
Proof. intros d phi l Hd Hl. apply Forall_forall. intros x Hx. apply in_map_iff in Hx. destruct Hx as (y & <- & Hy). apply Hd, Hl, Hy. Qed.
Lemma map_nonempty : forall {A} (phi : X -> A) l, l <> [] -> map phi l <> [].
Proof. intros A phi [|a l] H; [congruence|discriminate]. Qed.

Section Vectors.
Variables (phi : X -> list R) (d : nat).
Hypothesis phi_size : forall x, In x states -> length (phi x) = d.
Local Notation comp i := (fun x : X => nth i (phi x) 0).
Local Notation mu i := (mean_in states p (fun x : X => nth i (phi x) 0)).

Lemma the_mean_avg : forall i l, the_mean R_ops (map phi l) i = sumR (comp i) l / INR (length l).
Proof. intros i l. unfold the_mean. cbn [R_ops kdiv kofN]. rewrite map_length, Nat2N.id. f_equal. apply (suml_map (fun x => nth i x 0)). Qed.
Theorem mean_converges : forall i, (i < d)%nat -> converges states 1 two64 E (fun l => mean_value i (map phi l)) (fun l => the_mean R_ops (map phi l) i) (mu i).
Proof.
  intros i Hi. apply up. { apply (cons_ext states K K_nonneg K_sum _ (fun l => sumR (comp i) l / INR (length l))); [apply average|]. intros l _. apply the_mean_avg. }
  intros l (Hne & Hin) _ Hl. unfold mean_value, report.
  destruct (top_mean R_ops R_exact None (map phi l) d) as (s & m & -> & -> & Hlen & Hm); [now apply map_nonempty|now apply all_size_map|now rewrite map_length|].
  cbn [bind]. exact (Hm i Hi).
Qed.

Lemma centered_product : forall f g : X -> R, states <> [] ->
  mean_in states p (fun x => (f x - mean_in states p f) * (g x - mean_in states p g)) = -1 * (mean_in states p f * mean_in states p g) + mean_in states p (fun x => f x * g x).
Proof.
  intros f g Hne. pose proof (t_sum ll states Hne) as Hs. set (a := mean_in states p f). set (b := mean_in states p g).
  unfold mean_in at 1. rewrite (sumR_ext_in _ (fun x => (p x * (f x * g x) - p x * f x * b) - (p x * g x * a - p x * (a * b)))) by (intros; ring).
  rewrite !sumR_minus, !sumR_mult_r, Hs. fold (mean_in states p f). fold (mean_in states p g). fold (mean_in states p (fun x => f x * g x)). fold a. fold b. ring.
Qed.
Theorem covariance_converges : forall garbage i j, (i < d)%nat -> (j < d)%nat ->
  converges states 2 two64 E (fun l => covariance garbage i j (map phi l)) (fun l => the_covariance R_ops (map phi l) i j) (mean_in states p (fun x => (nth i (phi x) 0 - mu i) * (nth j (phi x) 0 - mu j))).
Proof.
  intros garbage i j Hi Hj. destruct states as [|s0 st] eqn:Es. { exists 0. intros x0 n []. } rewrite <- Es in *. assert (Hne : states <> []) by (rewrite Es; discriminate). clear Es.
  apply up.
  2:{ intros l (Hl0 & Hin) Hl2 Hl. unfold covariance, report. destruct (top_cov R_ops R_exact garbage (map phi l) d) as (s & -> & _ & _ & H2); [now apply map_nonempty|now apply all_size_map|now rewrite map_length|].
      apply H2; rewrite ?map_length; first [lia|assumption]. }
  rewrite centered_product by exact Hne.
  destruct (avg_bounded (comp i)) as (Bi & HBi0 & HBi). destruct (avg_bounded (comp j)) as (Bj & HBj0 & HBj). destruct (avg_bounded (fun x => nth i (phi x) 0 * nth j (phi x) 0)) as (Bp & HBp0 & HBp).
  set (W := fun l : list X => -1 * (sumR (comp i) l / INR (length l) * (sumR (comp j) l / INR (length l))) + sumR (fun x => nth i (phi x) 0 * nth j (phi x) 0) l / INR (length l)).
  assert (HW : forall l, good states l -> Rabs (W l) <= Bi * Bj + Bp).
  { intros l Hl. unfold W. eapply Rle_trans; [apply Rabs_triang|]. rewrite Rabs_mult, (Rabs_left (-1)) by lra. rewrite Rabs_mult. pose proof (HBp l Hl).
    assert (Rabs (sumR (comp i) l / INR (length l)) * Rabs (sumR (comp j) l / INR (length l)) <= Bi * Bj) by (apply Rmult_le_compat; try apply Rabs_pos; auto). lra. }
  apply (cons_scale states K K_nonneg K_sum _ W _ 1 (Bi * Bj + Bp)); [|exact HW| |].
  - apply (cons_lin states K K_nonneg K_sum (-1)); [|apply average]. apply (cons_mul states K K_nonneg K_sum _ _ _ _ Bj); [apply average|apply average|exact HBj].
  - intros l (Hl0 & Hin) Hlen. assert (Hl1 : length l = 1%nat) by (destruct l; [congruence|cbn in *; lia]).
    unfold the_covariance. cbn [R_ops kdiv kofN]. rewrite map_length, Hl1. change (N.to_nat (N.of_nat 1 - 1)) with 0%nat. cbn [INR]. unfold Rdiv. rewrite Rinv_0, Rmult_0_r, Rabs_R0.
    pose proof (Rmult_le_pos _ _ HBi0 HBj0). lra.
  - intros l Hl Hlen. pose proof (good_INR states l Hl) as HI. destruct Hl as (Hl0 & Hin).
    unfold the_covariance. rewrite !the_mean_avg. cbn [R_ops kdiv kofN kmul ksub kconj]. rewrite map_length.
    replace (N.to_nat (N.of_nat (length l) - 1)) with (length l - 1)%nat by lia.
    assert (HI1 : 0 < INR (length l - 1)) by (apply lt_0_INR; lia).
    set (a := sumR (comp i) l / INR (length l)). set (b := sumR (comp j) l / INR (length l)).
    rewrite (suml_map (fun x => (nth i x 0 - a) * (nth j x 0 - b))).
    rewrite (sumR_ext_in _ (fun x => (nth i (phi x) 0 * nth j (phi x) 0 - nth i (phi x) 0 * b) - (nth j (phi x) 0 * a - a * b))) by (intros; ring).
    rewrite !sumR_minus.
    assert (Hconst : sumR (fun _ : X => a * b) l = INR (length l) * (a * b)).
    { clear. generalize (a * b) as c. intros c. induction l as [|y l IH]; [cbn; ring|]. cbn [sumR length]. rewrite S_INR, IH. ring. }
    rewrite Hconst, !sumR_mult_r. unfold W. fold a. fold b.
    assert (Ea : sumR (comp i) l = INR (length l) * a) by (unfold a; field; lra). assert (Eb : sumR (comp j) l = INR (length l) * b) by (unfold b; field; lra).
    rewrite Ea, Eb. field. lra.
Qed.

(** autocovariances *)
Lemma X_nth : forall l z t i, (t < length l)%nat -> StatsSpec.X R_ops (map phi l) t i = nth i (phi (nth t l z)) 0.
Proof. intros l z t i Ht. unfold StatsSpec.X, StatsModel.comp. cbn [R_ops k0]. rewrite (nth_indep _ [] (phi z)) by (now rewrite map_length). now rewrite map_nth. Qed.
Lemma sumn_seq : forall f n, StatsSpec.sumn R_ops f n = sumR f (seq 0 n).
Proof. intros f n. unfold StatsSpec.sumn. generalize (seq 0 n) as s. induction s as [|a s IH]; [reflexivity|]. cbn [suml sumR]. now rewrite IH. Qed.
Lemma autocov_lag : forall k i j l z, good states l -> (k + 1 < length l)%nat ->
  the_autocovariance R_ops (map phi l) k i j =
  INR (length l) / INR (length l - (k + 1)) *
   (- (sumR (comp i) l / INR (length l)) * (lagsum (fun x _ => nth j (phi x) 0) k z l / INR (length l)) +
    (- (sumR (comp j) l / INR (length l)) * (lagsum (fun _ y => nth i (phi y) 0) k z l / INR (length l)) +
     (sumR (comp i) l / INR (length l) * (sumR (comp j) l / INR (length l)) * (lagsum (fun _ _ => 1) k z l / INR (length l)) +
      lagsum (fun x y => nth j (phi x) 0 * nth i (phi y) 0) k z l / INR (length l)))).
Proof.
  intros k i j l z Hg Hk. pose proof (good_INR states l Hg) as HI. unfold the_autocovariance. rewrite !the_mean_avg. cbn [R_ops kdiv kofN kmul ksub]. rewrite map_length.
  replace (N.to_nat (N.of_nat (length l) - N.of_nat k - 1)) with (length l - (k + 1))%nat by lia.
  assert (HI1 : 0 < INR (length l - (k + 1))) by (apply lt_0_INR; lia).
  rewrite sumn_seq. set (a := sumR (comp i) l / INR (length l)). set (b := sumR (comp j) l / INR (length l)).
  rewrite (sumR_ext_in _ (fun t => (nth j (phi (nth t l z)) 0 * nth i (phi (nth (t + k) l z)) 0 - nth i (phi (nth (t + k) l z)) 0 * b) - (nth j (phi (nth t l z)) 0 * a - 1 * (a * b)))).
  2:{ intros t Ht. apply in_seq in Ht. rewrite !(X_nth l z) by lia. ring. }
  rewrite !sumR_minus, !sumR_mult_r. unfold lagsum. field. lra.
Qed.
Definition autocov_limit (k i j : nat) : R :=
  mean_in states p (fun x => (nth j (phi x) 0 - mu j) * after states K k (fun y => nth i (phi y) 0 - mu i) x).
Lemma autocov_limit_ok : forall k i j, states <> [] ->
  autocov_limit k i j = - mu i * mu j + (- mu j * mu i + (mu i * mu j * 1 + mean_in states p (fun x => it states K k (fun y => nth j (phi x) 0 * nth i (phi y) 0) x))).
Proof.
  intros k i j Hne. unfold autocov_limit. pose proof (t_sum ll states Hne) as Hs.
  assert (Hit : mean_in states p (it states K k (comp i)) = mu i) by exact (it_mean states K p p_stationary k (comp i)).
  transitivity (mean_in states p (fun x => nth j (phi x) 0 * it states K k (comp i) x) - mu j * mu i).
  - assert (Ej : sumR (fun x => p x * nth j (phi x) 0) states = mu j) by reflexivity. set (mi := mu i) in *. set (mj := mu j) in *. clearbody mi mj. unfold mean_in in Hit |- *.
    rewrite (MarkovFinite.sumR_ext_in _ (fun x => (p x * (nth j (phi x) 0 * it states K k (comp i) x) - p x * nth j (phi x) 0 * mi) - (p x * it states K k (comp i) x * mj - p x * (mi * mj)))).
    + rewrite !sumR_minus, !sumR_mult_r, Hs, Hit, Ej. ring.
    + intros x Hx. assert (Ha : after states K k (fun y => nth i (phi y) 0 - mi) x = it states K k (comp i) x - mi).
      { unfold after. rewrite (markov_last states K k x (fun y => nth i (phi y) 0 - mi)).
        rewrite (it_ext states K k _ (fun y => 1 * (nth i (phi y) 0) + (fun _ => - mi) y)) by (first [intros; ring|exact Hx]).
        rewrite (it_lin states K k 1), (it_const states K K_sum) by exact Hx. ring. }
      rewrite Ha. ring.
  - assert (Hm : mean_in states p (fun x => it states K k (fun y => nth j (phi x) 0 * nth i (phi y) 0) x) = mean_in states p (fun x => nth j (phi x) 0 * it states K k (comp i) x)).
    { unfold mean_in. apply MarkovFinite.sumR_ext_in. intros x _. f_equal. apply it_scal. }
    rewrite Hm. ring.
Qed.
Lemma autocov_consistent : forall k i j, states <> [] -> consistent (fun l => the_autocovariance R_ops (map phi l) k i j) (autocov_limit k i j).
Proof.
  intros k i j Hne. destruct states as [|z st] eqn:Es; [congruence|]. rewrite <- Es in *. assert (Hz : In z states) by (rewrite Es; now left). clear Es.
  rewrite autocov_limit_ok by exact Hne.
  set (A := fun i (l : list X) => sumR (comp i) l / INR (length l)).
  set (L := fun (F : X -> X -> R) (l : list X) => lagsum F k z l / INR (length l)).
  set (W := fun l => - A i l * L (fun x _ => nth j (phi x) 0) l + (- A j l * L (fun _ y => nth i (phi y) 0) l + (A i l * A j l * L (fun _ _ => 1) l + L (fun x y => nth j (phi x) 0 * nth i (phi y) 0) l))).
  destruct (avg_bounded (comp i)) as (Bi & HBi0 & HBi). destruct (avg_bounded (comp j)) as (Bj & HBj0 & HBj).
  destruct (lag_bounded (fun x _ => nth j (phi x) 0) k z) as (B1 & HB10 & HB1). destruct (lag_bounded (fun _ y => nth i (phi y) 0) k z) as (B2 & HB20 & HB2).
  destruct (lag_bounded (fun _ _ => 1) k z) as (B3 & HB30 & HB3). destruct (lag_bounded (fun x y => nth j (phi x) 0 * nth i (phi y) 0) k z) as (B4 & HB40 & HB4).
  set (BW := Bi * B1 + (Bj * B2 + (Bi * Bj * B3 + B4))).
  assert (HBW : forall l, good states l -> Rabs (W l) <= BW).
  { intros l Hl. unfold W, BW.
    assert (M1 : Rabs (- A i l * L (fun x _ => nth j (phi x) 0) l) <= Bi * B1) by (rewrite Rabs_mult, Rabs_Ropp; apply Rmult_le_compat; try apply Rabs_pos; first [exact (HBi l Hl)|exact (HBj l Hl)|exact (HB1 l Hl)|exact (HB2 l Hl)]).
    assert (M2 : Rabs (- A j l * L (fun _ y => nth i (phi y) 0) l) <= Bj * B2) by (rewrite Rabs_mult, Rabs_Ropp; apply Rmult_le_compat; try apply Rabs_pos; first [exact (HBi l Hl)|exact (HBj l Hl)|exact (HB1 l Hl)|exact (HB2 l Hl)]).
    assert (M3 : Rabs (A i l * A j l * L (fun _ _ => 1) l) <= Bi * Bj * B3).
    { rewrite !Rabs_mult. apply Rmult_le_compat; [apply Rmult_le_pos; apply Rabs_pos|apply Rabs_pos| |now apply HB3]. apply Rmult_le_compat; try apply Rabs_pos; first [exact (HBi l Hl)|exact (HBj l Hl)|exact (HB1 l Hl)|exact (HB2 l Hl)]. }
    pose proof (HB4 l Hl) as M4. fold (L (fun x y => nth j (phi x) 0 * nth i (phi y) 0) l) in M4.
    eapply Rle_trans; [apply Rabs_triang|]. apply Rplus_le_compat; [exact M1|]. eapply Rle_trans; [apply Rabs_triang|]. apply Rplus_le_compat; [exact M2|].
    eapply Rle_trans; [apply Rabs_triang|]. apply Rplus_le_compat; [exact M3|exact M4]. }
  apply (cons_scale states K K_nonneg K_sum _ W _ (k + 1) BW).
  - assert (CI : forall i, consistent (A i) (mu i)) by (intros i'; apply average).
    assert (CN : forall i, consistent (fun l => - A i l) (- mu i)).
    { intros i'. replace (- mu i') with (-1 * mu i' + 0) by ring. apply (cons_ext states K K_nonneg K_sum _ (fun l => -1 * A i' l + 0)); [|intros; ring].
      apply (cons_lin states K K_nonneg K_sum (-1) (A i') (fun _ => 0)); [apply CI|apply (cons_zero states K K_sum)]. }
    assert (C1 : consistent (L (fun x _ => nth j (phi x) 0)) (mu j)).
    { replace (mu j) with (mean_in states p (fun x => it states K k (fun _ => nth j (phi x) 0) x)); [now apply lag|]. unfold mean_in. apply MarkovFinite.sumR_ext_in. intros x Hx.
      now rewrite (it_const states K K_sum). }
    assert (C2 : consistent (L (fun _ y => nth i (phi y) 0)) (mu i)).
    { replace (mu i) with (mean_in states p (fun x => it states K k (comp i) x)); [exact (lag k (fun _ y => nth i (phi y) 0) z Hz)|]. exact (it_mean states K p p_stationary k (comp i)). }
    assert (C3 : consistent (L (fun _ _ => 1)) 1).
    { assert (H1 : mean_in states p (fun x => it states K k (fun _ => 1) x) = 1).
      { unfold mean_in. etransitivity; [|exact (t_sum ll states Hne)]. apply MarkovFinite.sumR_ext_in. intros x Hx. rewrite (it_const states K K_sum) by exact Hx. ring. }
      pose proof (lag k (fun _ _ => 1) z Hz) as HL. cbv beta in HL. rewrite H1 in HL. exact HL. }
    assert (C4 := lag k (fun x y => nth j (phi x) 0 * nth i (phi y) 0) z Hz).
    assert (Plus : forall Z1 Z2 c1 c2, consistent Z1 c1 -> consistent Z2 c2 -> consistent (fun l => Z1 l + Z2 l) (c1 + c2)).
    { intros Z1 Z2 c1 c2 H1 H2. replace (c1 + c2) with (1 * c1 + c2) by ring. apply (cons_ext states K K_nonneg K_sum _ (fun l => 1 * Z1 l + Z2 l)); [|intros; ring].
      now apply (cons_lin states K K_nonneg K_sum). }
    unfold W. apply Plus.
    + apply (cons_mul states K K_nonneg K_sum _ _ _ _ B1); auto.
    + apply Plus; [apply (cons_mul states K K_nonneg K_sum _ _ _ _ B2); auto|]. apply Plus; [|exact C4].
      apply (cons_mul states K K_nonneg K_sum (fun l => A i l * A j l) _ _ _ B3); auto. apply (cons_mul states K K_nonneg K_sum _ _ _ _ Bj); auto.
  - exact HBW.
  - intros l Hl Hlen. unfold the_autocovariance. cbn [R_ops kdiv kofN]. rewrite map_length. replace (N.to_nat (N.of_nat (length l) - N.of_nat k - 1)) with 0%nat by lia. cbn [INR]. unfold Rdiv.
    rewrite Rinv_0, Rmult_0_r. eapply Rle_trans; [|exact (HBW l Hl)]. rewrite Rabs_R0. apply Rabs_pos.
  - intros l Hl Hlen. now apply autocov_lag.
Qed.
Theorem trace_converges : forall max_lag k, (k <= max_lag)%nat ->
  converges states (k + 2) two64 E (fun l => autocovariance_trace max_lag k (map phi l)) (fun l => the_autocovariance_trace R_ops d (map phi l) k) (sumR (fun i => autocov_limit k i i) (seq 0 d)).
Proof.
  intros max_lag k Hk. destruct states as [|s0 st] eqn:Es. { exists 0. intros x0 n []. } rewrite <- Es in *. assert (Hne : states <> []) by (rewrite Es; discriminate). clear Es.
  apply up.
  - apply (cons_ext states K K_nonneg K_sum _ (fun l => sumR (fun i => (fun i l => the_autocovariance R_ops (map phi l) k i i) i l) (seq 0 d))).
    + apply cons_sum; [exact K_nonneg|exact K_sum|]. intros i _. now apply autocov_consistent.
    + intros l _. unfold the_autocovariance_trace. now rewrite sumn_seq.
  - intros l (Hl0 & Hin) Hlen Hl. unfold autocovariance_trace, report.
    destruct (top_act R_ops R_exact max_lag (map phi l) d) as (s & -> & Hs); [now apply map_nonempty|now apply all_size_map|now rewrite map_length|].
    rewrite (Hs k Hk), map_length. destruct (length l <=? k + 1)%nat eqn:El; [apply Nat.leb_le in El; lia|reflexivity].
Qed.
Theorem matrix_converges : forall garbage max_lag k i j, (k <= max_lag)%nat -> (i < d)%nat -> (j < d)%nat ->
  converges states (k + 2) two64 E (fun l => autocovariance garbage max_lag k i j (map phi l))
    (fun l => the_autocovariance R_ops (map phi l) k i j + garbage k i j / INR (length l - (k + 1))) (autocov_limit k i j).
Proof.
  intros garbage max_lag k i j Hk Hi Hj. destruct states as [|s0 st] eqn:Es. { exists 0. intros x0 n []. } rewrite <- Es in *. assert (Hne : states <> []) by (rewrite Es; discriminate). clear Es.
  apply up.
  2:{ intros l (Hl0 & Hin) Hlen Hl. unfold autocovariance, report.
      destruct (top_acm R_ops R_exact garbage max_lag (map phi l) d) as (s & -> & Hs); [now apply map_nonempty|now apply all_size_map|now rewrite map_length|].
      rewrite (Hs k i j Hk Hi Hj), map_length. destruct (length l <=? k + 1)%nat eqn:El; [apply Nat.leb_le in El; lia|]. cbn [R_ops kadd kdiv kofN].
      now replace (N.to_nat (N.of_nat (length l) - N.of_nat k - 1)) with (length l - (k + 1))%nat by lia. }
  set (g := garbage k i j).
  apply (cons_near states K K_nonneg K_sum _ (fun l => the_autocovariance R_ops (map phi l) k i j) _ (Rabs g * (INR k + 2))); [now apply autocov_consistent|].
  - intros l Hg. pose proof (good_INR states l Hg) as HI. pose proof (Rabs_pos g) as Hg0. pose proof (pos_INR k) as Hk0. destruct (le_lt_dec (length l) (k + 1)) as [El|El].
    + replace (length l - (k + 1))%nat with 0%nat by lia. cbn [INR]. unfold Rdiv at 1. rewrite Rinv_0, Rmult_0_r. rewrite Rplus_0_r, Rminus_eq_0, Rabs_R0.
      apply Rmult_le_pos; [apply Rmult_le_pos; lra|apply Rlt_le, Rinv_0_lt_compat; lra].
    + rewrite minus_INR by lia. assert (Hn : INR k + 2 <= INR (length l)) by (replace (INR k + 2) with (INR (k + 2)) by (rewrite plus_INR; cbn; ring); apply le_INR; lia).
      rewrite plus_INR. cbn [INR]. set (n := INR (length l)) in *. set (c := the_autocovariance R_ops (map phi l) k i j).
      replace (c + g / (n - (INR k + 1)) - c) with (g / (n - (INR k + 1))) by ring.
      rewrite Rabs_div by lra. rewrite (Rabs_pos_eq (n - _)) by lra. unfold Rdiv. rewrite Rmult_assoc. apply Rmult_le_compat_l; [exact Hg0|].
      apply Rmult_le_reg_r with (n * (n - (INR k + 1))); [apply Rmult_lt_0_compat; lra|].
      replace (/ (n - (INR k + 1)) * (n * (n - (INR k + 1)))) with n by (field; lra). replace ((INR k + 2) * / n * (n * (n - (INR k + 1)))) with ((INR k + 2) * (n - (INR k + 1))) by (field; lra).
      assert (0 <= (INR k + 1) * (n - (INR k + 2))) by (apply Rmult_le_pos; lra). lra.
Qed.

(** cosines *)
Theorem cosine_converges : forall garbage1 garbage2 history_length k, (forall x, In x states -> StatsCosSpec.nonzero (phi x)) -> (0 < history_length < 2 ^ 32)%N -> (k < N.to_nat history_length)%nat ->
  converges states (k + 2) (2 ^ 32) E (fun l => average_cosine garbage1 garbage2 history_length k (map phi l)) (fun l => StatsCosSpec.average (cosines (map phi l) (k + 1))) (mean_in states p (fun x => after states K (k + 1) (fun y => cos_angle (phi y) (phi x)) x)).
Proof.
  intros garbage1 garbage2 hl k Hnz Hhl Hk. destruct states as [|z st] eqn:Es. { exists 0. intros x0 n []. } rewrite <- Es in *. assert (Hz : In z states) by (rewrite Es; now left). clear Es.
  set (F := fun x y => cos_angle (phi y) (phi x)). set (W := fun l : list X => lagsum F (k + 1) z l / INR (length l)).
  assert (HW : consistent W (mean_in states p (fun x => after states K (k + 1) (fun y => cos_angle (phi y) (phi x)) x))).
  { replace (mean_in states p (fun x => after states K (k + 1) (fun y => cos_angle (phi y) (phi x)) x)) with (mean_in states p (fun x => it states K (k + 1) (F x) x)); [now apply lag|].
    unfold mean_in. apply MarkovFinite.sumR_ext_in. intros x _. f_equal. unfold after. symmetry. exact (markov_last states K (k + 1) x (F x)). }
  destruct (lag_bounded F (k + 1) z) as (B & HB0 & HB).
  assert (HZ : forall l, good states l -> StatsCosSpec.average (cosines (map phi l) (k + 1)) = INR (length l) / INR (length l - (k + 1)) * W l).
  { intros l Hg. pose proof (good_INR states l Hg) as HI. unfold StatsCosSpec.average, cosines. rewrite !map_length, seq_length. unfold W.
    replace (INR (length l) / INR (length l - (k + 1)) * (lagsum F (k + 1) z l / INR (length l))) with (lagsum F (k + 1) z l / INR (length l - (k + 1))) by (unfold Rdiv; rewrite (Rmult_comm (INR (length l))), Rmult_assoc, <- (Rmult_assoc (INR (length l))), (Rmult_comm (INR (length l))), Rmult_assoc, Rinv_r, Rmult_1_r by lra; ring).
    f_equal. unfold lagsum.
    assert (G : forall ts, (forall t, In t ts -> (t + (k + 1) < length l)%nat) -> rsum (map (fun t => cos_angle (nth (t + (k + 1)) (map phi l) []) (nth t (map phi l) [])) ts) = sumR (fun t => F (nth t l z) (nth (t + (k + 1)) l z)) ts).
    { induction ts as [|t ts IH]; intros Ht; [reflexivity|]. cbn [map rsum sumR]. rewrite IH by (intros; apply Ht; now right). f_equal.
      specialize (Ht t (or_introl eq_refl)). unfold F. rewrite !(nth_indep (map phi l) [] (phi z)) by (rewrite map_length; lia). now rewrite !map_nth. }
    apply G. intros t Ht. apply in_seq in Ht. lia. }
  apply up.
  - apply (cons_scale states K K_nonneg K_sum _ W _ (k + 1) B HW HB).
    + intros l Hg Hl. rewrite (HZ l Hg). replace (length l - (k + 1))%nat with 0%nat by lia. cbn [INR]. unfold Rdiv at 1. rewrite Rinv_0, Rmult_0_r, Rmult_0_l, Rabs_R0. exact HB0.
    + intros l Hg _. now apply HZ.
  - intros l (Hl0 & Hin) Hlen Hl. unfold average_cosine, report.
    destruct (cos_correct hl garbage1 garbage2 (map phi l) d) as (s & -> & _ & Hs).
    + now apply map_nonempty.
    + now apply all_size_map.
    + apply Forall_forall. intros x Hx. apply in_map_iff in Hx. destruct Hx as (y & <- & Hy). apply Hnz, Hin, Hy.
    + exact Hhl.
    + now rewrite map_length.
    + rewrite (proj1 (Hs k Hk)), map_length. destruct (length l <=? k + 1)%nat eqn:El; [apply Nat.leb_le in El; lia|reflexivity].
Qed.
End Vectors.

(** ** AcceptanceRatio, Histogram *)
Lemma changes_lag : forall z l, INR (changes (fun x y => if eqX x y then true else false) l) = lagsum (fun x y => if eqX y x then 0 else 1) 1 z l.
Proof.
  intros z l. unfold lagsum. induction l as [|a l IH]; [reflexivity|]. destruct l as [|b l]; [reflexivity|].
  cbn [changes]. replace (length (a :: b :: l) - 1)%nat with (S (length (b :: l) - 1)) by (cbn; lia). cbn [seq sumR]. rewrite sumR_seq_shift, plus_INR. cbn [changes] in IH.
  rewrite IH. f_equal. cbn [nth Nat.add]. destruct (eqX b a); reflexivity.
Qed.
Theorem acceptance_converges : converges states 1 two64 E (acceptance_ratio eqX)
  (fun l => INR (1 + changes (fun x y => if eqX x y then true else false) l) / INR (length l)) (mean_in states p (fun x => 1 - K x x)).
Proof.
  destruct states as [|z st] eqn:Es. { exists 0. intros x0 n []. } rewrite <- Es in *. assert (Hz : In z states) by (rewrite Es; now left). clear Es.
  apply up.
  - apply (cons_near states K K_nonneg K_sum _ (fun l => lagsum (fun x y => if eqX y x then 0 else 1) 1 z l / INR (length l)) _ 1).
    + replace (mean_in states p (fun x => 1 - K x x)) with (mean_in states p (fun x => it states K 1 (fun y => if eqX y x then 0 else 1) x)); [now apply (lag 1 (fun x y => if eqX y x then 0 else 1))|].
      unfold mean_in. apply MarkovFinite.sumR_ext_in. intros x Hx. f_equal. cbn [it]. unfold P.
      rewrite (MarkovFinite.sumR_ext_in _ (fun y => K x y - (if eqX y x then K x y else 0))) by (intros y _; destruct (eqX y x); ring).
      rewrite sumR_minus, K_sum by exact Hx. f_equal. now apply (sumR_delta eqX (K x)).
    + intros l Hg. pose proof (good_INR states l Hg) as HI. rewrite <- changes_lag, plus_INR. cbn [INR]. set (n := INR (length l)) in *. set (c := INR (changes _ _)).
      replace ((1 + c) / n - c / n) with (1 / n) by (field; lra). rewrite Rabs_pos_eq; [lra|]. apply Rlt_le, Rdiv_lt_0_compat; lra.
  - intros l (Hl0 & Hin) _ Hl. destruct l as [|a l]; [congruence|]. assert (HI : 0 < INR (length (a :: l))) by (apply lt_0_INR; cbn; lia).
    unfold acceptance_ratio, report.
    destruct (acc_correct (fun x y => if eqX x y then true else false)) with (x := a) (xs := l) as (s & -> & Hs & _).
    + intros x y. destruct (eqX x y), (eqX y x); congruence.
    + intros x y w. destruct (eqX x y), (eqX y w), (eqX x w); congruence.
    + exact Hl.
    + rewrite (Qeq_eqR _ _ Hs). rewrite Q2R_div by (intros H0; unfold Qeq in H0; cbn in H0; lia).
      assert (Qn : forall n, Q2R (Z.of_nat n # 1) = INR n) by (intros n; unfold Q2R; cbn; rewrite <- INR_IZR_INZ; field).
      now rewrite !Qn.
Qed.
Theorem histogram_converges : forall (b : build) (phi : X -> dbl) pts n k, subdivision pts -> length pts = (n + 1)%nat -> (k < n)%nat -> (forall x, In x states -> phi x <> DNaN) ->
  converges states 1 two64 E (fun l => bin_frequency b pts n k (map phi l)) (sample_average (fun x => indicator (belongs pts k (phi x)))) (mean_in states p (fun x => indicator (belongs pts k (phi x)))).
Proof.
  intros b phi pts n k Hsub Hlen Hk Hnan. apply up; [apply average|].
  intros l (Hl0 & Hin) _ Hl. unfold bin_frequency, report, sample_average. rewrite map_length. f_equal.
  destruct (hist_total b pts n (map phi l) Hsub Hlen) as (s & rows & -> & -> & -> & _).
  - intros v Hv. apply in_map_iff in Hv. destruct Hv as (x & <- & Hx). apply Hnan, Hin, Hx.
  - now rewrite map_length.
  - cbn [bind]. rewrite (nth_indep _ _ ((fun k0 : nat => (nth k0 pts DNaN, nth (k0 + 1) pts DNaN, count (belongs pts k0) (map phi l))) n)) by (now rewrite map_length, seq_length).
    rewrite (map_nth (fun k0 : nat => (nth k0 pts DNaN, nth (k0 + 1) pts DNaN, count (belongs pts k0) (map phi l)))).
    rewrite seq_nth by exact Hk. cbn [snd Nat.add]. unfold count. rewrite Nat2N.id. clear. induction l as [|a l IH]; [reflexivity|]. cbn [map filter sumR]. unfold indicator at 1.
    destruct (belongs pts k (phi a)); [cbn [length]; rewrite S_INR, IH; ring|rewrite IH; ring].
Qed.
End Connected.

(** ** Thinning *)
Theorem thinning : mixing states q -> forall k f, (0 < k)%nat -> (N.of_nat k < two64)%N ->
  converges states 1 two64 E (fun l => estimate f (take_every k l)) (fun l => sample_average f (pick (fun i => (i mod k =? 0)%nat) l)) (mean_in states p f).
Proof.
  intros (m & Hm & Hr) k f Hk Hk64. destruct k as [|k]; [lia|].
  set (Kk := step eqX states K (S k)).
  assert (Kk_nonneg : forall x y, In x states -> In y states -> 0 <= Kk x y) by (intros; now apply step_nonneg).
  assert (Kk_sum : forall x, In x states -> sumR (Kk x) states = 1) by (intros; now apply step_sum).
  assert (Kk_stat : forall y, In y states -> sumR (fun x => p x * Kk x y) states = p y).
  { intros y Hy. rewrite <- (mean_delta eqX ll states states_nodup y Hy). exact (it_mean states K p p_stationary (S k) (delta eqX y)). }
  assert (Hreach : forall j x y, In x states -> In y states -> reaches states q (j + m) x y).
  { induction j as [|j IH]; intros x y Hx Hy; [now apply Hr|]. cbn [Nat.add reaches]. destruct (sf_q facts x Hx) as (z & Hz & Hp). exists z. auto. }
  assert (Hpos : forall xy, In xy (list_prod states states) -> 0 < step eqX states Kk m (fst xy) (snd xy)).
  { intros [x y] Hxy. apply in_prod_iff in Hxy. destruct Hxy as [Hx Hy]. cbn [fst snd]. unfold step. unfold Kk. rewrite it_thin by assumption.
    apply (c_reaches_pos eqX states K K_nonneg q (sf_pos facts) (m * S k) x y Hx Hy). replace (m * S k)%nat with (m * k + m)%nat by lia. now apply Hreach. }
  destruct (lower_bound _ _ Hpos) as (e & He & Hl).
  assert (Hmin : forall x y, In x states -> In y states -> e / INR (S m) * p y <= Qstep eqX states Kk m x y).
  { intros x y Hx Hy. pose proof (p_pos ll states y Hy). pose proof (t_le_1 ll states y Hy). unfold Qstep. assert (HS0 : 0 < INR (S m)) by (apply lt_0_INR; lia).
    replace (e / INR (S m) * p y) with (/ INR (S m) * (e * p y)) by (field; lra). apply Rmult_le_compat_l; [apply Rlt_le, Rinv_0_lt_compat, HS0|].
    apply Rle_trans with (step eqX states Kk m x y).
    - apply Rle_trans with e; [|apply (Hl (x, y)); now apply in_prod]. rewrite <- (Rmult_1_r e) at 2. apply Rmult_le_compat_l; lra.
    - apply (sumn_member (fun j => step eqX states Kk j x y)); [|lia]. intros j. now apply step_nonneg. }
  assert (Hed : 0 < e / INR (S m)) by (apply Rdiv_lt_0_compat; [exact He|apply lt_0_INR; lia]).
  destruct (cons_average eqX ll states Kk states_nodup Kk_nonneg Kk_sum Kk_stat m (e / INR (S m)) Hed Hmin f) as (C & HC).
  set (mu := mean_in states p f) in *. set (B := norm states (fun x => f x - mu)).
  assert (HB : forall x, In x states -> Rabs (f x - mu) <= B) by (apply norm_within).
  assert (HB0 : 0 <= B) by (unfold B; generalize (fun x => f x - mu) as g; intros g; unfold norm, lnorm; clear; induction states as [|a s IH]; cbn; [lra|]; eapply Rle_trans; [exact IH|apply Rmax_r]).
  apply up.
  2:{ intros l Hg _ Hl64. rewrite take_every_spec by assumption. rewrite estimate_mean.
      - unfold sample_average. now rewrite every_pick by assumption.
      - destruct l as [|a l]; [destruct Hg; congruence|]. discriminate.
      - eapply N.le_lt_trans; [|exact Hl64]. pose proof (every_bound (S k - 1) 0 l). lia. }
  exists ((2 * (2 * Rabs C) + 2 * B ^ 2) * INR (S k)). intros x n Hx Hn.
  assert (HSk : 0 < INR (S k)) by (apply lt_0_INR; lia).
  destruct n as [|n]; [lia|].
  rewrite (markov_ext states K (S n) x _ (fun l => (fun t => (sample_average f t - mu) ^ 2) (every k 0 l))).
  2:{ intros l _. rewrite <- every_pick by assumption. replace (S k - 1)%nat with k by lia. reflexivity. }
  cbn [markov every].
  set (a := (n / S k)%nat). set (r := (n mod S k)%nat).
  assert (Hn' : n = (a * S k + r)%nat) by (unfold a, r; rewrite Nat.mul_comm; apply Nat.div_mod; lia).
  assert (Hrk : (r <= k)%nat) by (unfold r; pose proof (Nat.mod_upper_bound n (S k)); lia).
  clearbody a r.
  assert (Hstep : forall y, In y states -> markov states K n y (fun l => (sample_average f (y :: every k k l) - mu) ^ 2) <= (2 * (2 * Rabs C) + 2 * B ^ 2) / INR (S a)).
  { intros y Hy. rewrite Hn'. rewrite (thin_markov eqX states K states_nodup K_sum k a r y (fun l => (sample_average f (y :: l) - mu) ^ 2) Hrk Hy). fold Kk.
    pose proof (Rabs_pos C) as HC0. pose proof (RRle_abs C) as HC1.
    assert (HSa : 1 <= INR (S a)) by (rewrite S_INR; pose proof (pos_INR a); lra).
    apply Rle_trans with (markov states Kk a y (fun l => 2 * ((INR a / INR (S a)) ^ 2 * (sumR f l / INR (length l) - mu) ^ 2) + 2 * B ^ 2 / INR (S a) ^ 2)).
    - apply (markov_le_in states Kk Kk_nonneg); [|exact Hy]. intros l Hll Hin. unfold sample_average.
      cbn [sumR length]. rewrite Hll. set (A := INR (S a)). set (s := sumR f l). set (fy := f y - mu).
      assert (Hu : fy ^ 2 <= B ^ 2) by (rewrite <- (pow2_abs fy); apply pow_incr; split; [apply Rabs_pos|now apply HB]).
      assert (Hsq : forall u v : R, (u + v) ^ 2 <= 2 * u ^ 2 + 2 * v ^ 2) by (intros u v; pose proof (pow2_ge_0 (u - v)); lra).
      destruct (Nat.eq_dec a 0) as [Ea|Ea].
      + subst A. rewrite Ea in *. destruct l as [|? ?]; [|discriminate Hll]. unfold s. cbn [sumR]. cbn [INR]. replace ((f y + 0) / 1 - mu) with fy by (unfold fy; field).
        replace (2 * ((0 / 1) ^ 2 * (0 / 0 - mu) ^ 2) + 2 * B ^ 2 / 1 ^ 2) with (2 * B ^ 2) by (unfold Rdiv; rewrite pow1, Rinv_1; ring). pose proof (pow2_ge_0 fy). lra.
      + assert (Hpa : 0 < INR a) by (apply lt_0_INR; lia). assert (HA : A = INR a + 1) by (unfold A; rewrite S_INR; reflexivity).
        assert (Eq : (f y + s) / A - mu = (INR a / A * (s / INR a - mu)) + fy / A) by (unfold fy; rewrite HA; field; lra).
        rewrite Eq. eapply Rle_trans; [apply Hsq|]. apply Rplus_le_compat.
        * right. ring.
        * replace (2 * (fy / A) ^ 2) with (2 * (fy ^ 2 * (/ A) ^ 2)) by (unfold Rdiv; ring). replace (2 * B ^ 2 / A ^ 2) with (2 * (B ^ 2 * (/ A) ^ 2)) by (field; lra).
          apply Rmult_le_compat_l; [lra|]. apply Rmult_le_compat_r; [apply pow2_ge_0|exact Hu].
    - rewrite (markov_ext states Kk a y _ (fun l => (2 * (INR a / INR (S a)) ^ 2) * (sumR f l / INR (length l) - mu) ^ 2 + (fun _ => 2 * B ^ 2 / INR (S a) ^ 2) l)) by (intros; ring).
      rewrite markov_lin, (markov_const states Kk Kk_sum) by exact Hy.
      assert (H2 : 2 * B ^ 2 / INR (S a) ^ 2 <= 2 * B ^ 2 / INR (S a)).
      { apply Rmult_le_compat_l; [pose proof (pow2_ge_0 B); lra|]. apply Rinv_le_contravar; [lra|]. cbn [pow]. rewrite Rmult_1_r. apply Rle_trans with (INR (S a) * 1); [lra|]. apply Rmult_le_compat_l; lra. }
      assert (H1 : 2 * (INR a / INR (S a)) ^ 2 * markov states Kk a y (fun l => (sumR f l / INR (length l) - mu) ^ 2) <= 2 * (2 * Rabs C) / INR (S a)).
      { destruct (Nat.eq_dec a 0) as [Ea|Ea].
        - rewrite Ea. cbn [INR]. unfold Rdiv. rewrite !Rmult_0_l. cbn [pow]. rewrite !Rmult_0_l, Rmult_0_r, Rmult_0_l. rewrite Rinv_1. lra.
        - assert (Hpa : 0 < INR a) by (apply lt_0_INR; lia).
          assert (Hc1 := HC y a Hy). assert (Hc2 : markov states Kk a y (fun l => (sumR f l / INR (length l) - mu) ^ 2) <= C / INR a) by (apply Hc1; lia).
          apply Rle_trans with (2 * (INR a / INR (S a)) ^ 2 * (Rabs C / INR a)).
          + apply Rmult_le_compat_l; [pose proof (pow2_ge_0 (INR a / INR (S a))); lra|]. eapply Rle_trans; [exact Hc2|]. apply Rmult_le_compat_r; [apply Rlt_le, Rinv_0_lt_compat; lra|exact HC1].
          + rewrite S_INR. replace (2 * (INR a / (INR a + 1)) ^ 2 * (Rabs C / INR a)) with (2 * Rabs C / (INR a + 1) * (INR a / (INR a + 1))) by (field; lra).
            replace (2 * (2 * Rabs C) / (INR a + 1)) with (2 * Rabs C / (INR a + 1) * 2) by (field; lra). apply Rmult_le_compat_l.
            * apply Rmult_le_pos; [lra|]. apply Rlt_le, Rinv_0_lt_compat. lra.
            * apply Rmult_le_reg_r with (INR a + 1); [lra|]. replace (INR a / (INR a + 1) * (INR a + 1)) with (INR a) by (field; lra). lra. }
      replace ((2 * (2 * Rabs C) + 2 * B ^ 2) / INR (S a)) with (2 * (2 * Rabs C) / INR (S a) + 2 * B ^ 2 / INR (S a)) by (field; lra). lra. }
  apply Rle_trans with (sumR (fun y => K x y * ((2 * (2 * Rabs C) + 2 * B ^ 2) / INR (S a))) states).
  - apply sumR_le_in. intros y Hy. apply Rmult_le_compat_l; [now apply K_nonneg|]. now apply Hstep.
  - rewrite sumR_mult_r, K_sum by exact Hx. rewrite Rmult_1_l.
    assert (Hcov : INR (S n) <= INR (S k) * INR (S a)) by (rewrite <- mult_INR; apply le_INR; lia).
    assert (HSa : 0 < INR (S a)) by (apply lt_0_INR; lia). assert (HSn : 0 < INR (S n)) by (apply lt_0_INR; lia).
    set (c := 2 * (2 * Rabs C) + 2 * B ^ 2). assert (Hc0 : 0 <= c) by (unfold c; pose proof (Rabs_pos C); pose proof (pow2_ge_0 B); lra).
    unfold Rdiv. rewrite Rmult_assoc. apply Rmult_le_compat_l; [exact Hc0|].
    apply Rmult_le_reg_r with (INR (S a) * INR (S n)); [apply Rmult_lt_0_compat; assumption|].
    replace (/ INR (S a) * (INR (S a) * INR (S n))) with (INR (S n)) by (field; lra).
    replace (INR (S k) * / INR (S n) * (INR (S a) * INR (S n))) with (INR (S k) * INR (S a)) by (field; lra). exact Hcov.
Qed.
End Sampler.

(** ** Thinning a periodic chain *)
Definition one_if (x : bool) : R := if x then 1 else 0.
Fixpoint alternate (n : nat) (x : bool) : list bool := match n with O => [] | S n' => negb x :: alternate n' (negb x) end.
Lemma flip_sampler : sampler Bool.bool_dec both (fun _ => 0) (mh_kernel both Bool.bool_dec (fun _ => 0) flip) flip (expectation (fun _ => 0) flip both).
Proof. apply metropolis_hastings; [exact (fun _ => zero_nonzero)|exact flip_distribution]. Qed.
Lemma flip_markov : forall n x g, markov both (mh_kernel both Bool.bool_dec (fun _ => 0) flip) n x g = g (alternate n x).
Proof.
  induction n as [|n IH]; intros x g; [reflexivity|]. cbn [markov alternate both sumR]. rewrite !flip_kernel, !IH. destruct x; cbn; ring.
Qed.
Lemma alternate_length : forall n x, length (alternate n x) = n.
Proof. induction n as [|n IH]; intros x; [reflexivity|]. cbn. now rewrite IH. Qed.
Lemma every_alternate : forall m n x, (n <= m)%nat -> forall y, In y (every 1 0 (alternate n x)) -> y = negb x.
Proof.
  induction m as [|m IH]; intros n x Hn y; [destruct n; [|lia]; intros []|]. destruct n as [|n]; [intros []|]. cbn [alternate every]. intros [<-|Hy]; [reflexivity|].
  destruct n as [|n]; [destruct Hy|]. cbn [alternate every] in Hy. rewrite (IH n (negb (negb x))) with (y := y) by (first [lia|exact Hy]). now rewrite !Bool.negb_involutive.
Qed.
Lemma flip_thinned : forall n, (0 < n)%nat -> markov both (mh_kernel both Bool.bool_dec (fun _ => 0) flip) n true (fun l => (sample_average one_if (pick (fun i => (i mod 2 =? 0)%nat) l) - 1/2) ^ 2) = 1/4.
Proof.
  intros n Hn. rewrite flip_markov, <- every_pick by (first [lia|reflexivity]). change (2 - 1)%nat with 1%nat. unfold sample_average.
  replace (sumR one_if (every 1 0 (alternate n true))) with 0; [unfold Rdiv; rewrite Rmult_0_l; lra|].
  assert (G : forall l, (forall y, In y l -> y = false) -> 0 = sumR one_if l).
  { induction l as [|a l IH]; intros Hl; [reflexivity|]. cbn [sumR]. rewrite <- IH by (intros; apply Hl; now right). rewrite (Hl a (or_introl eq_refl)). cbn. ring. }
  apply G. intros y Hy. exact (every_alternate n n true (le_n n) y Hy).
Qed.
Lemma flip_code : forall n, (0 < n)%nat -> (N.of_nat n < two64)%N -> expectation (fun _ => 0) flip both true n (fun l => (estimate one_if (take_every 2 l) - 1/2) ^ 2) (1/4).
Proof.
  intros n Hn Hn64. pose proof (sf_law (sampler_ok _ _ _ _ _ _ _ both_nodup flip_sampler) true n (fun l => (estimate one_if (take_every 2 l) - 1/2) ^ 2) (or_introl eq_refl)) as H.
  rewrite <- (flip_thinned n Hn). rewrite flip_markov in H |- *. rewrite take_every_spec in H by (first [lia|reflexivity]). rewrite <- every_pick by (first [lia|reflexivity]).
  rewrite estimate_mean in H; [exact H| |].
  - destruct n; [lia|]. discriminate.
  - eapply N.le_lt_trans; [|exact Hn64]. pose proof (every_bound (2 - 1) 0 (alternate n true)) as Hb. rewrite alternate_length in Hb. lia.
Qed.
Lemma flip_mean : mean_in both (target both (fun _ => 0)) one_if = 1/2.
Proof. unfold mean_in, target. cbn. rewrite exp_0. field. Qed.
Theorem flip_not : ~ converges both 1 two64 (expectation (fun _ => 0) flip both) (fun l => estimate one_if (take_every 2 l)) (fun l => sample_average one_if (pick (fun i => (i mod 2 =? 0)%nat) l))
  (mean_in both (target both (fun _ => 0)) one_if).
Proof.
  rewrite flip_mean. intros (C & H). destruct (archimed (Rmax 0 (4 * C))) as [Ha _]. pose proof (Rmax_l 0 (4 * C)) as H0. pose proof (Rmax_r 0 (4 * C)) as H1.
  set (n := Z.to_nat (Rdefinitions.up (Rmax 0 (4 * C)))). assert (Hup : (0 < Rdefinitions.up (Rmax 0 (4 * C)))%Z) by (apply lt_IZR; lra).
  assert (Hn : INR n = IZR (Rdefinitions.up (Rmax 0 (4 * C)))) by (unfold n; rewrite INR_IZR_INZ, Z2Nat.id by lia; reflexivity).
  assert (Hn0 : (0 < n)%nat) by (unfold n; lia).
  destruct (H true n (or_introl eq_refl) Hn0) as (v & Hle & Hv & _).
  pose proof (sf_law (sampler_ok _ _ _ _ _ _ _ both_nodup flip_sampler) true n (fun l => (sample_average one_if (pick (fun i => (i mod 2 =? 0)%nat) l) - 1/2) ^ 2) (or_introl eq_refl)) as HL.
  rewrite (flip_thinned n Hn0) in HL. pose proof (sf_unique (sampler_ok _ _ _ _ _ _ _ both_nodup flip_sampler) _ _ _ _ _ HL Hv) as Hvv. rewrite <- Hvv in Hle.
  assert (HI : 0 < INR n) by (rewrite Hn; lra).
  apply (Rmult_le_compat_r (INR n)) in Hle; [|lra]. replace (C / INR n * INR n) with C in Hle by (field; lra). rewrite Hn in Hle. lra.
Qed.
