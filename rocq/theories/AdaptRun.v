(** Proofs: runs of MetropolisHastings with proposals that depend on the samples so far are the textbook adaptive chain. *)
From Coq Require Import Reals Lra Lia Field.
From Coquelicot Require Import Coquelicot.
From Verif Require StatsTop.
From Verif Require Import Prelude ConsumerModel ProducerModel ProducerSpec ProducerProofs XReal MHSpec MHProofs StatsModel StatsSpec StatsInst MHRunSpec DEStat MarkovFinite MHRun AdaptSpec.
Import ListNotations.
Local Open Scope R_scope.
Local Open Scope list_scope.
Local Notation length := List.length.

Section Run.
Context {X : Type}.
Variable eqX : forall x y : X, {x = y} + {x <> y}.
Variables (ll : X -> R) (q : list X -> X -> X -> R) (states : list X).
Hypothesis states_nodup : NoDup states.
Hypothesis ll_nonzero : forall x, nonzero (ll x).
Variable hor : nat.
Hypothesis Hq : forall h, incl h states -> (length h < hor)%nat -> proposal_distribution states (q h).

Local Notation ratio h x y := (mh_ratio ll x y (q h x y / q h y x)).
Definition anext (h : list X) (x y : X) (u : R) : X := if Rle_dec u (ratio h x y) then y else x.
Fixpoint achain (h : list X) (x : X) (script : list (X * R)) : list X :=
  match script with [] => [] | (y, u) :: s => let z := anext h x y u in z :: achain (h ++ [z]) z s end.
Fixpoint aok (h : list X) (x : X) (script : list (X * R)) : Prop :=
  match script with [] => True | (y, u) :: s => In y states /\ 0 < q h x y /\ 0 <= u < 1 /\ aok (h ++ [anext h x y u]) (anext h x y u) s end.

Lemma aq_ratio : forall h x y, incl h states -> (length h < hor)%nat -> 0 < q h x y -> 0 < q h x y / q h y x.
Proof. intros h x y Hh Hl H. exact (q_ratio (q h) states (Hq h Hh Hl) x y H). Qed.
Lemma aratio_pos : forall h x y, incl h states -> (length h < hor)%nat -> 0 < q h x y -> 0 < ratio h x y.
Proof. intros h x y Hh Hl H. exact (ratio_pos ll (q h) states (Hq h Hh Hl) x y H). Qed.
Lemma anext_state : forall h x y u, In x states -> In y states -> In (anext h x y u) states.
Proof. intros. unfold anext. destruct (Rle_dec _ _); assumption. Qed.
Lemma incl_app1 : forall h z, incl h states -> In z states -> incl (h ++ [z]) states.
Proof. intros h z H1 H2 w H. apply in_app_iff in H. destruct H as [H|[<-|[]]]; auto. Qed.

Lemma aloop_chain : forall rest pre h x t, n_proposed t = length pre -> map fst (issued t) = h -> incl h states -> In x states -> aok h x rest -> (length h + length rest <= hor)%nat ->
  exists t', mh_loop xops (ascripted ll q (pre ++ rest)) (length rest) x (XFin (ll x)) t = (t', RVal tt) /\
    map fst (issued t') = h ++ achain h x rest.
Proof.
  induction rest as [|[y u] rest IH]; intros pre h x t Ht Hi Hh Hx Hok Hlen; cbn [length mh_loop achain].
  - exists t. split; [reflexivity|]. now rewrite app_nil_r.
  - destruct Hok as (Hy & Hxy & Hu & Hok). cbn [length] in Hlen. assert (Hlt : (length h < hor)%nat) by lia. set (E := ascripted ll q (pre ++ (y, u) :: rest)).
    assert (Hn : nth_error (pre ++ (y, u) :: rest) (n_proposed t) = Some (y, u)) by (rewrite Ht, nth_error_app2, Nat.sub_diag by lia; reflexivity).
    unfold mbind at 1. unfold propose_sample, call. cbn [e_prop E ascripted]. rewrite Hn. cbv zeta. rewrite Hi.
    unfold mbind at 1. unfold log_likelihood, call. cbn [e_ll E ascripted].
    unfold mbind at 1. rewrite mh_accept_finite by (auto using aq_ratio).
    fold (mh_ratio ll x y (q h x y / q h y x)). fold E.
    set (t2 := (t ++ [EPropose x []]) ++ [EEval y]).
    assert (Hn2 : n_proposed t2 = S (length pre)).
    { unfold t2. rewrite !n_proposed_app, Ht. cbn. lia. }
    assert (Hun : e_unif E t2 = XFin u).
    { cbn [e_unif E ascripted]. rewrite Hn2. cbn [Nat.sub]. rewrite Nat.sub_0_r, <- Ht, Hn. reflexivity. }
    set (z := anext h x y u).
    assert (Hstep : exists t3, n_proposed t3 = S (length pre) /\ issued t3 = issued t /\
      (if Rlt_dec 1 (ratio h x y) then (t2, RVal true) else (t2 ++ [EUnif], RVal (xge (XFin (ratio h x y)) (e_unif E t2)))) =
      (t3, RVal (if Rle_dec u (ratio h x y) then true else false))).
    { destruct (Rlt_dec 1 (ratio h x y)) as [H1|H1].
      - exists t2. split; [exact Hn2|]. split; [unfold t2; rewrite !issued_app; cbn; now rewrite !app_nil_r|].
        destruct (Rle_dec u (ratio h x y)); [reflexivity|lra].
      - exists (t2 ++ [EUnif]). split; [rewrite n_proposed_app, Hn2; cbn; lia|]. split; [unfold t2; rewrite !issued_app; cbn; now rewrite !app_nil_r|].
        rewrite Hun, xge_fin. reflexivity. }
    destruct Hstep as (t3 & Hn3 & Hi3 & Hst).
    match goal with |- context [let (t1, r) := ?e in _] => replace e with (t3, RVal (if Rle_dec u (ratio h x y) then true else false)) by (symmetry; exact Hst) end.
    unfold mbind, issue_sample, call. cbn [e_issue E ascripted].
    assert (Hz1 : (if if Rle_dec u (ratio h x y) then true else false then y else x) = z) by (unfold z, anext; destruct (Rle_dec u (ratio h x y)); reflexivity).
    assert (Hz2 : (if if Rle_dec u (ratio h x y) then true else false then XFin (ll y) else XFin (ll x)) = XFin (ll z)) by (unfold z, anext; destruct (Rle_dec u (ratio h x y)); reflexivity).
    rewrite Hz1, Hz2. set (a := [_; _]).
    assert (Hz : In z states) by now apply anext_state.
    destruct (IH (pre ++ [(y, u)]) (h ++ [z]) z (t3 ++ [EIssue z a])) as (t' & Hl & Hm).
    + rewrite n_proposed_app, Hn3, app_length. cbn. lia.
    + rewrite issued_app, Hi3, map_app, Hi. reflexivity.
    + now apply incl_app1.
    + exact Hz.
    + exact Hok.
    + rewrite app_length. cbn [length]. lia.
    + exists t'. rewrite <- app_assoc in Hl. cbn [app] in Hl. split; [exact Hl|].
      rewrite Hm. fold z. now rewrite <- app_assoc.
Qed.

Lemma arun_chain : forall x0 script, In x0 states -> aok [] x0 script -> (length script <= hor)%nat -> snd (arun ll q x0 script) = RVal tt /\ asamples ll q x0 script = achain [] x0 script.
Proof.
  intros x0 script Hx Hok Hlen. destruct (aloop_chain script [] [] x0 [EEval x0] eq_refl eq_refl ltac:(intros ? []) Hx Hok Hlen) as (t' & Hl & Hi). cbn [app] in Hl, Hi.
  assert (Hr : arun ll q x0 script = ((t' ++ [EFlush]) ++ [EFlush], RVal tt)).
  { unfold arun, mh_sample, with_scope_exit. unfold mbind at 1. unfold log_likelihood, call. cbn [e_ll ascripted].
    unfold mbind. cbn [app]. rewrite Hl. reflexivity. }
  split; [now rewrite Hr|]. unfold asamples. rewrite Hr. cbn [fst]. rewrite !issued_app. cbn. rewrite !app_nil_r. exact Hi.
Qed.
Lemma achain_snoc : forall s h x y u, achain h x (s ++ [(y, u)]) = achain h x s ++ [anext (h ++ achain h x s) (last (achain h x s) x) y u].
Proof.
  induction s as [|[y' u'] s IH]; intros h x y u; [cbn; now rewrite app_nil_r|]. cbn [app achain]. cbv zeta. rewrite IH. cbn [app]. rewrite last_cons.
  rewrite <- app_assoc. reflexivity.
Qed.
Lemma aok_snoc : forall s h x y u, aok h x s -> In y states -> 0 < q (h ++ achain h x s) (last (achain h x s) x) y -> 0 <= u < 1 -> aok h x (s ++ [(y, u)]).
Proof.
  induction s as [|[y' u'] s IH]; intros h x y u Hok Hy Hp Hu; cbn [app aok achain] in *; cbv zeta in *.
  - rewrite app_nil_r in Hp. repeat split; auto; lra.
  - destruct Hok as (H1 & H2 & H3 & H4). rewrite last_cons in Hp. split; [exact H1|]. split; [exact H2|]. split; [exact H3|].
    apply IH; [exact H4|exact Hy| |exact Hu]. now rewrite <- app_assoc.
Qed.
Lemma achain_states : forall s h x, In x states -> aok h x s -> incl (achain h x s) states /\ In (last (achain h x s) x) states.
Proof.
  induction s as [|[y u] s IH]; intros h x Hx Hok; cbn [aok achain] in *; cbv zeta in *; [split; [intros ? []|exact Hx]|]. destruct Hok as (Hy & _ & _ & Hok). rewrite last_cons.
  destruct (IH (h ++ [anext h x y u]) (anext h x y u) (anext_state h x y u Hx Hy) Hok) as [I1 I2]. split; [|exact I2].
  intros w [<-|Hw]; [now apply anext_state|now apply I1].
Qed.

Lemma achain_length : forall s h x, length (achain h x s) = length s.
Proof. induction s as [|[y u] s IH]; intros h x; cbn [achain length]; cbv zeta; [reflexivity|]. cbn [length]. now rewrite IH. Qed.
Local Notation K := (adaptive_kernel states eqX ll q).
Lemma achain_ext : forall (K' : list X -> X -> X -> R) n h x f g, (forall l, length l = n -> f l = g l) -> adaptive_chain states K' n h x f = adaptive_chain states K' n h x g.
Proof.
  intros K' n. induction n as [|n IH]; intros h x f g H; [now apply H|]. cbn. apply sumR_ext_in. intros y _. f_equal. apply IH. intros l Hl. apply H. cbn. lia.
Qed.

Theorem alaw : forall x0, In x0 states -> forall (g : list X -> R) n script, aok [] x0 script -> (length script + n <= hor)%nat ->
  aexpects ll q x0 states n script (fun s => g (asamples ll q x0 s))
    (adaptive_chain states K n (asamples ll q x0 script) (last (asamples ll q x0 script) x0) (fun l => g (asamples ll q x0 script ++ l))).
Proof.
  intros x0 Hx0 g n. induction n as [|n IH]; intros script Hok Hlen.
  - cbn. now rewrite app_nil_r.
  - set (S0 := asamples ll q x0 script). set (c := last S0 x0).
    assert (HS : S0 = achain [] x0 script) by exact (proj2 (arun_chain x0 script Hx0 Hok ltac:(lia))).
    assert (HL : (length S0 < hor)%nat) by (rewrite HS, achain_length; lia).
    destruct (achain_states script [] x0 Hx0 Hok) as [Hincl Hc]. rewrite <- HS in Hincl, Hc. fold c in Hc.
    set (va := fun y => adaptive_chain states K n (S0 ++ [y]) y (fun l => g (S0 ++ y :: l))).
    cbn [aexpects]. cbv zeta. fold S0. fold c.
    exists (fun y u => if Rle_dec u (ratio S0 c y) then va y else va c).
    exists (fun y => Rmin 1 (ratio S0 c y) * va y + (1 - Rmin 1 (ratio S0 c y)) * va c).
    split; [|split].
    + intros y u Hy Hp Hu.
      assert (Hok' : aok [] x0 (script ++ [(y, u)])) by (apply aok_snoc; auto; cbn [app]; rewrite <- HS; exact Hp).
      assert (Hlen' : (length (script ++ [(y, u)]) + n <= hor)%nat) by (rewrite app_length; cbn; lia).
      assert (Hs : asamples ll q x0 (script ++ [(y, u)]) = S0 ++ [anext S0 c y u]).
      { rewrite (proj2 (arun_chain _ _ Hx0 Hok' ltac:(lia))), achain_snoc. cbn [app]. rewrite <- HS. reflexivity. }
      specialize (IH _ Hok' Hlen'). rewrite Hs, last_last in IH.
      assert (He : forall z, adaptive_chain states K n (S0 ++ [z]) z (fun l => g ((S0 ++ [z]) ++ l)) = va z).
      { intros z. unfold va. apply achain_ext. intros l _. now rewrite <- app_assoc. }
      rewrite He in IH. revert IH. unfold anext. destruct (Rle_dec u (ratio S0 c y)); exact (fun H => H).
    + intros y Hy Hp. apply RInt_choice. now apply Rlt_le, aratio_pos.
    + cbn [adaptive_chain].
      change (fun y : X => K S0 c y * adaptive_chain states K n (S0 ++ [y]) y (fun l : list X => g (S0 ++ y :: l))) with (fun y => K S0 c y * va y).
      unfold adaptive_kernel, mh_kernel, kernel. cbv beta. set (A := fun y => Rmin 1 (ratio S0 c y)). set (s := sumR (fun z => q S0 c z * A z) states).
      rewrite (sumR_ext_in _ (fun y => q S0 c y * A y * va y + (if eqX y c then (1 - s) * va y else 0))).
      2:{ intros y _. change (Rmin 1 (ratio S0 c y)) with (A y). change (sumR (fun z => q S0 c z * Rmin 1 (ratio S0 c z)) states) with s. destruct (eqX c y), (eqX y c); try congruence; ring. }
      rewrite sumR_plus, (sumR_delta eqX (fun y => (1 - s) * va y) c states states_nodup Hc).
      rewrite (sumR_ext_in (fun y => q S0 c y * (_ + _)) (fun y => q S0 c y * A y * va y + (q S0 c y - q S0 c y * A y) * va c)) by (intros; unfold A; ring).
      rewrite sumR_plus, sumR_mult_r, sumR_minus, (pd_sum _ _ (Hq S0 Hincl HL) c Hc). reflexivity.
Qed.
Lemma aexpects_unique : forall x0, In x0 states -> forall n script g v v', aok [] x0 script -> (length script + n <= hor)%nat -> aexpects ll q x0 states n script g v -> aexpects ll q x0 states n script g v' -> v = v'.
Proof.
  intros x0 Hx0 n. induction n as [|n IH]; intros script g v v' Hok Hlen H H'; [cbn in *; congruence|].
  assert (HS : asamples ll q x0 script = achain [] x0 script) by exact (proj2 (arun_chain x0 script Hx0 Hok ltac:(lia))).
  assert (HL : (length (asamples ll q x0 script) < hor)%nat) by (rewrite HS, achain_length; lia).
  destruct (achain_states script [] x0 Hx0 Hok) as [Hincl _]. rewrite <- HS in Hincl.
  destruct H as (h & I & Hh & HI & ->). destruct H' as (h' & I' & Hh' & HI' & ->).
  apply sumR_ext_in. intros y Hy. destruct (pd_nonneg _ _ (Hq _ Hincl HL) (last (asamples ll q x0 script) x0) y) as [Hp|Hp]; [|rewrite <- Hp; ring].
  f_equal. rewrite <- (is_RInt_unique (V := R_CompleteNormedModule) _ _ _ _ (HI y Hy Hp)).
  apply (is_RInt_unique (V := R_CompleteNormedModule)). apply (is_RInt_ext (V := R_NormedModule) (h' y)); [|exact (HI' y Hy Hp)].
  intros u Hu. rewrite Rmin_left, Rmax_right in Hu by lra. apply (IH (script ++ [(y, u)]) g); [|rewrite app_length; cbn; lia|apply Hh'|apply Hh]; auto; try lra.
  apply aok_snoc; auto; [|lra]. cbn [app]. rewrite <- HS. exact Hp.
Qed.
Theorem arun_law : forall x0, In x0 states -> forall g, aexpectation ll q states x0 hor g (adaptive_chain states K hor [] x0 g).
Proof.
  intros x0 Hx0 g. pose proof (alaw x0 Hx0 g hor [] Logic.I ltac:(cbn; lia)) as H.
  assert (Hs : asamples ll q x0 [] = []) by (exact (proj2 (arun_chain x0 [] Hx0 Logic.I ltac:(cbn; lia)))).
  rewrite Hs in H. cbn [last app] in H. split; [exact H|].
  intros v' Hv'. exact (aexpects_unique x0 Hx0 hor [] _ _ _ Logic.I ltac:(cbn; lia) Hv' H).
Qed.
(** Only the transition probabilities of short histories matter. *)
Lemma achain_kernel : forall (K1 K2 : list X -> X -> X -> R) n h x g, incl h states -> In x states ->
  (forall h' x y, incl h' states -> In x states -> In y states -> (length h' < length h + n)%nat -> K1 h' x y = K2 h' x y) ->
  adaptive_chain states K1 n h x g = adaptive_chain states K2 n h x g.
Proof.
  intros K1 K2 n. induction n as [|n IH]; intros h x g Hh Hx H; [reflexivity|]. cbn [adaptive_chain]. apply sumR_ext_in. intros y Hy. rewrite H by (auto; lia).
  f_equal. apply IH; auto using incl_app1. intros h' u v Hh' Hu Hv Hl. apply H; auto. rewrite app_length in Hl. cbn in Hl. lia.
Qed.
End Run.
Theorem arun_law_all : forall {X} eqX ll q states, NoDup states -> (forall x : X, nonzero (ll x)) -> adaptive_proposals states q ->
  forall x0, In x0 states -> forall n g, aexpectation ll q states x0 n g (adaptive_chain states (adaptive_kernel states eqX ll q) n [] x0 g).
Proof. intros X eqX ll q states H1 H2 H3 x0 Hx0 n g. apply arun_law; auto. Qed.
