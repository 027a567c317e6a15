(** Proofs: runs of DelayedRejectionMetropolisHastings are the Markov chain of DRRunSpec. *)
From Coq Require Import Reals Lra Lia.
From Coquelicot Require Import Coquelicot.
From Verif Require Import Prelude ProducerModel ProducerSpec ProducerProofs XReal MHSpec MHProofs DRReal DRAlpha DRRun MHRunSpec DEStat MarkovFinite MHRun DRRunSpec.
Import ListNotations.
Local Open Scope R_scope.
Local Open Scope list_scope.
Local Notation length := List.length.

Lemma decides_RInt : forall a (A B : R), is_RInt (fun u => if dr_decides a u then A else B) 0 1 (accept_probability a * A + (1 - accept_probability a) * B).
Proof.
  assert (C : forall c : R, is_RInt (fun _ : R => c) 0 1 c).
  { intros c. pose proof (is_RInt_const (V := R_NormedModule) 0 1 c) as H. match type of H with is_RInt _ _ _ ?v => replace v with c in H; [exact H|] end. cbv [scal]. cbn. cbv [mult]. cbn. ring. }
  intros a A B. destruct a as [ | |r| ]; cbn [accept_probability].
  - replace (0 * A + (1 - 0) * B) with B by ring. apply C.
  - replace (0 * A + (1 - 0) * B) with B by ring. apply C.
  - destruct (Rle_dec 0 r) as [Hr|Hr].
    + rewrite Rmax_right by (apply Rmin_glb; lra). apply (is_RInt_ext (V := R_NormedModule) (fun u => if Rle_dec u r then A else B)); [|now apply RInt_choice].
      intros u Hu. rewrite Rmin_left, Rmax_right in Hu by lra. rewrite dr_decides_fin by lra. destruct (Rle_dec u r); reflexivity.
    + assert (Rmin 1 r <= r) by apply Rmin_r. rewrite Rmax_left by lra. replace (0 * A + (1 - 0) * B) with B by ring.
      apply (is_RInt_ext (V := R_NormedModule) (fun u => B)); [|apply C].
      intros u Hu. rewrite Rmin_left, Rmax_right in Hu by lra. rewrite dr_decides_fin by lra. destruct (Rle_dec u r); [lra|reflexivity].
  - replace (1 * A + (1 - 1) * B) with A by ring. apply C.
Qed.

Section Run.
Context {X : Type}.
Variables (ll : X -> R) (prop ratio : X -> list X -> X -> R) (states : list X) (x0 : X) (m : nat).

Local Notation E := (dr_scripted ll ratio).
(** the ratio of the code *)
Definition cratio (x : X) (ys : list X) : xr := alpha xops (x, XFin (ll x)) (with_ll ll ys).
Lemma cratio_fn : forall x ys y, alpha_fn xops false (length (with_ll ll ys ++ [(y, XFin (ll y))])) (x, XFin (ll x)) (with_ll ll ys ++ [(y, XFin (ll y))]) = Some (cratio x (ys ++ [y])).
Proof.
  intros x ys y. unfold cratio, with_ll. rewrite map_app. cbn [map]. apply alpha_any_fuel. rewrite app_length. cbn. lia.
Qed.
Lemma code_accepts_cratio : forall x ys y, code_accepts ll x (ys ++ [y]) = accept_probability (cratio x (ys ++ [y])).
Proof.
  intros x ys y. unfold code_accepts. pose proof (cratio_fn x ys y) as H. unfold with_ll in H.
  rewrite map_app. cbn [map]. rewrite app_length, map_length in H. rewrite app_length. cbn [length] in *. now rewrite H.
Qed.

(** The state of a run: how many trials are left in this iteration, the current sample, what was rejected in this
    iteration, how many samples are to be issued, what was issued. *)
Record mstate := { s_left : nat; s_x : X; s_rej : list X; s_todo : nat; s_out : list X }.
Definition feed (s : mstate) (yu : X * R) : mstate :=
  let (y, u) := yu in
  match s_todo s, s_left s with
  | O, _ => s
  | S td, O => s
  | S td, S k =>
    if dr_decides (cratio (s_x s) (s_rej s ++ [y])) u then {| s_left := m + 1; s_x := y; s_rej := []; s_todo := td; s_out := s_out s ++ [y] |}
    else match k with
         | O => {| s_left := m + 1; s_x := s_x s; s_rej := []; s_todo := td; s_out := s_out s ++ [s_x s] |}
         | S _ => {| s_left := k; s_x := s_x s; s_rej := s_rej s ++ [y]; s_todo := S td; s_out := s_out s |}
         end
  end.
Lemma feed_done : forall rest s, s_todo s = O -> fold_left feed rest s = s.
Proof. induction rest as [|[y u] rest IH]; intros s H; [reflexivity|]. cbn [fold_left]. unfold feed at 2. rewrite H. now apply IH. Qed.

(** the rest of the loop from the middle of an iteration *)
Definition resume (script : list (X * R)) (k : nat) (x : X) (rj : list X) (td : nat) : trace X xr -> trace X xr * res unit :=
  mbind (dr_stages xops (E script) false k (x, XFin (ll x)) (with_ll ll rj)) (fun accepted =>
    mbind (issue_sample (E script) (fst match accepted with Some y => y | None => (x, XFin (ll x)) end)
       [(ll_key, PDouble (snd match accepted with Some y => y | None => (x, XFin (ll x)) end)); (rep_key, PBool match accepted with Some _ => false | None => true end)])
      (fun _ => dr_loop xops (E script) false m td match accepted with Some y => y | None => (x, XFin (ll x)) end)).
Lemma loop_resume : forall script td x, dr_loop xops (E script) false m (S td) (x, XFin (ll x)) = resume script (m + 1) x [] td.
Proof. reflexivity. Qed.

Lemma calls_app : forall s t : trace X xr, prop_calls (s ++ t) = prop_calls s ++ prop_calls t.
Proof. intros. unfold prop_calls. now rewrite flat_map_app. Qed.
Lemma calls_length : forall t : trace X xr, length (prop_calls t) = n_proposed t.
Proof. induction t as [|e t IH]; [reflexivity|]. unfold prop_calls, n_proposed in *. cbn. destruct e; cbn; auto. Qed.

Lemma accept_decides : forall script a u t, e_unif (E script) t = XFin u ->
  exists d, dr_accept xops (E script) a t = (t ++ d, RVal (dr_decides a u)) /\ prop_calls d = [] /\ issued d = [].
Proof.
  intros script a u t Hu. unfold dr_accept, dr_decides. change (d_gt xops a (d_one xops)) with (xgt a (XFin 1)).
  destruct (xgt a (XFin 1)).
  - exists []. rewrite app_nil_r. auto.
  - exists [EUnif]. unfold mbind, uniform, call, ret. rewrite Hu. auto.
Qed.

(** what a piece of trace [d] and an outcome say about a state and the number of entries of the script *)
Definition agrees (s : mstate) (used : nat) (d : trace X xr) (r : res unit) (out0 : list X) : Prop :=
  out0 ++ map fst (issued d) = s_out s /\
  match s_todo s with
  | O => r = RVal tt /\ (length (prop_calls d) <= used)%nat
  | S _ => r = RExc /\ exists cs, prop_calls d = cs ++ [(s_x s, s_rej s)] /\ length cs = used
  end.

Lemma resume_feed : forall rest pre k x rj td t out0, n_proposed t = length pre ->
  exists d r, resume (pre ++ rest) (S k) x rj td t = (t ++ d, r) /\
    agrees (fold_left feed rest {| s_left := S k; s_x := x; s_rej := rj; s_todo := S td; s_out := out0 |}) (length rest) d r out0.
Proof.
  induction rest as [|[y u] rest IH]; intros pre k x rj td t out0 Ht.
  - exists [EPropose x rj], RExc. split.
    + unfold resume. cbn [dr_stages]. unfold mbind at 1 2. unfold propose_sample, call. cbn [fst e_prop dr_scripted].
      rewrite with_ll_fst, app_nil_r, Ht. replace (nth_error pre (length pre)) with (@None (X * R)) by (symmetry; apply nth_error_None; lia). reflexivity.
    + split; [cbn; apply app_nil_r|]. cbn. split; [reflexivity|]. exists []. auto.
  - set (script := pre ++ (y, u) :: rest).
    assert (Hn : nth_error script (n_proposed t) = Some (y, u)) by (unfold script; rewrite Ht, nth_error_app2, Nat.sub_diag by lia; reflexivity).
    set (t1 := t ++ [EPropose x rj]). set (t2 := t1 ++ [EEval y]).
    assert (Hn2 : n_proposed t2 = S (length pre)) by (unfold t2, t1; rewrite !n_proposed_app, Ht; cbn; lia).
    assert (Hu : e_unif (E script) t2 = XFin u).
    { cbn [e_unif dr_scripted]. rewrite Hn2. cbn [Nat.sub]. rewrite Nat.sub_0_r, <- Ht, Hn. reflexivity. }
    set (a := cratio x (rj ++ [y])).
    destruct (accept_decides script a u t2 Hu) as (d0 & Hacc & Hd0 & Hi0).
    assert (Hst : dr_stages xops (E script) false (S k) (x, XFin (ll x)) (with_ll ll rj) t =
      if dr_decides a u then (t2 ++ d0, RVal (Some (y, XFin (ll y)))) else dr_stages xops (E script) false k (x, XFin (ll x)) (with_ll ll (rj ++ [y])) (t2 ++ d0)).
    { cbn [dr_stages]. unfold mbind at 1. unfold propose_sample, call. cbn [fst e_prop dr_scripted]. rewrite with_ll_fst, Hn. fold t1.
      unfold mbind at 1. unfold log_likelihood, call. cbn [e_ll dr_scripted]. fold t2. fold (E script).
      rewrite cratio_fn. fold a. unfold mbind. rewrite Hacc. destruct (dr_decides a u); [reflexivity|].
      unfold with_ll. now rewrite map_app. }
    assert (Hnt : n_proposed (t2 ++ d0) = S (length pre)) by (rewrite n_proposed_app, Hn2, <- (calls_length d0), Hd0; cbn; lia).
    assert (Hpre : length (pre ++ [(y, u)]) = S (length pre)) by (rewrite app_length; cbn; lia).
    assert (Hscr : script = (pre ++ [(y, u)]) ++ rest) by (unfold script; now rewrite <- app_assoc).
    (* after an issued sample *)
    assert (Hnext : forall z av, exists d r, dr_loop xops (E script) false m td (z, XFin (ll z)) ((t2 ++ d0) ++ [EIssue z av]) = ((t2 ++ d0) ++ [EIssue z av] ++ d, r) /\
      agrees (fold_left feed rest {| s_left := m + 1; s_x := z; s_rej := []; s_todo := td; s_out := out0 ++ [z] |}) (length rest) d r (out0 ++ [z])).
    { intros z av. destruct td as [|td'].
      - exists [], (RVal tt). cbn [dr_loop]. split; [unfold ret; rewrite app_nil_r; reflexivity|]. rewrite feed_done by reflexivity.
        split; [cbn; apply app_nil_r|]. cbn. split; [reflexivity|lia].
      - rewrite loop_resume, Hscr, !Nat.add_1_r. destruct (IH (pre ++ [(y, u)]) m z [] td' ((t2 ++ d0) ++ [EIssue z av]) (out0 ++ [z])) as (d & r & H1 & H2).
        + rewrite n_proposed_app, Hnt, Hpre. cbn. lia.
        + exists d, r. split; [|exact H2]. rewrite H1. f_equal. now rewrite <- !app_assoc. }
    assert (Hcons : forall z av d r, agrees (fold_left feed rest {| s_left := m + 1; s_x := z; s_rej := []; s_todo := td; s_out := out0 ++ [z] |}) (length rest) d r (out0 ++ [z]) ->
      agrees (fold_left feed rest {| s_left := m + 1; s_x := z; s_rej := []; s_todo := td; s_out := out0 ++ [z] |}) (length ((y, u) :: rest))
        ([EPropose x rj] ++ [EEval y] ++ d0 ++ [EIssue z av] ++ d) r out0).
    { intros z av d r [Ha Hb]. split.
      - rewrite <- Ha. rewrite !issued_app, Hi0. cbn. now rewrite <- app_assoc.
      - rewrite !calls_app, Hd0. cbn [app prop_calls flat_map]. destruct (s_todo _).
        + destruct Hb as [-> Hb]. split; [reflexivity|]. cbn. cbn in Hb. lia.
        + destruct Hb as [-> (cs & Hc & Hl)]. split; [reflexivity|]. exists ((x, rj) :: cs). fold (prop_calls d). rewrite Hc. split; [reflexivity|]. cbn. now rewrite Hl. }
    cbn [fold_left]. unfold feed at 2. cbn [s_todo s_left s_x s_rej s_out]. fold a.
    unfold resume. unfold mbind at 1. rewrite Hst. destruct (dr_decides a u).
    + cbn [fst snd]. unfold mbind, issue_sample, call. cbn [e_issue dr_scripted]. fold (E script).
      set (av := [_; _]). destruct (Hnext y av) as (d & r & H1 & H2).
      exists ([EPropose x rj] ++ [EEval y] ++ d0 ++ [EIssue y av] ++ d), r. split; [|now apply Hcons].
      etransitivity; [exact H1|]. f_equal. unfold t2, t1. now rewrite <- !app_assoc.
    + destruct k as [|k].
      * cbn [dr_stages]. unfold ret. cbn [fst snd]. unfold mbind, issue_sample, call. cbn [e_issue dr_scripted]. fold (E script).
        set (av := [_; _]). destruct (Hnext x av) as (d & r & H1 & H2).
        exists ([EPropose x rj] ++ [EEval y] ++ d0 ++ [EIssue x av] ++ d), r. split; [|now apply Hcons].
        etransitivity; [exact H1|]. f_equal. unfold t2, t1. now rewrite <- !app_assoc.
      * destruct (IH (pre ++ [(y, u)]) k x (rj ++ [y]) td (t2 ++ d0) out0) as (d & r & H1 & H2); [rewrite Hnt; now symmetry|].
        rewrite <- Hscr in H1. exists ([EPropose x rj] ++ [EEval y] ++ d0 ++ d), r. split.
        { unfold resume, mbind at 1 in H1. etransitivity; [exact H1|]. f_equal. unfold t2, t1. now rewrite <- !app_assoc. }
        destruct H2 as [Ha Hb]. split.
        { rewrite <- Ha. rewrite !issued_app, Hi0. reflexivity. }
        rewrite !calls_app, Hd0. cbn [app prop_calls flat_map]. destruct (s_todo _).
        { destruct Hb as [-> Hb]. split; [reflexivity|]. cbn. cbn in Hb. lia. }
        { destruct Hb as [-> (cs & Hc & Hl)]. split; [reflexivity|]. exists ((x, rj) :: cs). fold (prop_calls d). rewrite Hc. split; [reflexivity|]. cbn. now rewrite Hl. }
Qed.

Variable n : nat.
Definition minit : mstate := {| s_left := m + 1; s_x := x0; s_rej := []; s_todo := n; s_out := [] |}.
Local Notation state script := (fold_left feed script minit).
Local Notation dsamples := (dr_samples ll ratio x0 m n).
Local Notation dnext := (next_call ll ratio x0 m n).

Lemma run_feed : forall script,
  dsamples script = s_out (state script) /\
  dnext script = match s_todo (state script) with O => None | S _ => Some (s_x (state script), s_rej (state script)) end.
Proof.
  intros script.
  assert (H : exists d r, dr_loop xops (E script) false m n (x0, XFin (ll x0)) [EEval x0] = ([EEval x0] ++ d, r) /\ agrees (state script) (length script) d r []).
  { unfold minit. destruct n as [|td].
    - exists [], (RVal tt). split; [reflexivity|]. rewrite feed_done by reflexivity. split; [reflexivity|]. cbn. split; [reflexivity|lia].
    - rewrite loop_resume, !Nat.add_1_r. destruct (resume_feed script [] m x0 [] td [EEval x0] [] eq_refl) as (d & r & H1 & H2). exists d, r. split; [exact H1|exact H2]. }
  destruct H as (d & r & H1 & H2 & H3).
  assert (Hr : exists e, fst (dr_run_of ll ratio x0 m n script) = EEval x0 :: d ++ e /\ issued e = [] /\ prop_calls e = []).
  { assert (Hd : dr_run_of ll ratio x0 m n script =
      match r with RVal _ => ((([EEval x0] ++ d) ++ [EFlush]) ++ [EFlush], RVal tt) | RExc => (([EEval x0] ++ d) ++ [EFlush], RExc)
        | RUB => ([EEval x0] ++ d, RUB) | RAssert => ([EEval x0] ++ d, RAssert) | RTerm => ([EEval x0] ++ d, RTerm) | RLoop => ([EEval x0] ++ d, RLoop) end).
    { unfold dr_run_of, dr_sample, with_scope_exit. unfold mbind at 1. unfold log_likelihood, call. cbn [e_ll dr_scripted]. cbn [app]. fold (E script).
      unfold mbind. rewrite H1. destruct r as [[]| | | | |]; reflexivity. }
    rewrite Hd. destruct r; cbn [fst app]; [exists [EFlush; EFlush]|exists [EFlush]|exists []|exists []|exists []|exists []]; rewrite ?app_nil_r, <- ?app_assoc; auto. }
  destruct Hr as (e & He & Hie & Hce). split.
  - unfold dr_samples. rewrite He. change (EEval x0 :: d ++ e) with ([EEval x0] ++ d ++ e). rewrite !issued_app, Hie, app_nil_r. cbn [issued app]. exact H2.
  - unfold next_call. rewrite He. change (EEval x0 :: d ++ e) with ([EEval x0] ++ d ++ e). rewrite !calls_app, Hce, app_nil_r. cbn [prop_calls flat_map app]. fold (prop_calls d).
    destruct (s_todo (state script)).
    + apply nth_error_None. exact (proj2 H3).
    + destruct H3 as [_ (cs & -> & <-)]. rewrite nth_error_app2, Nat.sub_diag by lia. reflexivity.
Qed.

(** ** The law *)
Variable eqX : forall x y : X, {x = y} + {x <> y}.
Hypothesis states_nodup : NoDup states.
Hypothesis Hd : dr_distribution states prop.
Local Notation A := (code_accepts ll).
Local Notation K := (fun x y => dr_kernel states eqX prop A (m + 1) x [] y).

Lemma kernel_apply : forall k x rj (w : X -> R),
  sumR (fun z => dr_kernel states eqX prop A (S k) x rj z * w z) states =
  sumR (fun y => prop x rj y * (A x (rj ++ [y]) * w y + (1 - A x (rj ++ [y])) * sumR (fun z => dr_kernel states eqX prop A k x (rj ++ [y]) z * w z) states)) states.
Proof.
  intros k x rj w. cbn [dr_kernel].
  rewrite (sumR_ext_in _ (fun z => sumR (fun y => prop x rj y * (A x (rj ++ [y]) * (if eqX y z then 1 else 0) + (1 - A x (rj ++ [y])) * dr_kernel states eqX prop A k x (rj ++ [y]) z) * w z) states)) by (intros; symmetry; apply sumR_mult_r).
  rewrite (sumR_swap (fun z y => prop x rj y * (A x (rj ++ [y]) * (if eqX y z then 1 else 0) + (1 - A x (rj ++ [y])) * dr_kernel states eqX prop A k x (rj ++ [y]) z) * w z)).
  apply sumR_ext_in. intros y Hy. rewrite <- sumR_scal.
  rewrite <- (sumR_delta eqX w y states states_nodup Hy) at 1. rewrite <- !sumR_scal, <- sumR_plus, <- sumR_scal. apply sumR_ext_in. intros z _.
  destruct (eqX y z), (eqX z y); try congruence; ring.
Qed.
Lemma kernel_end : forall x rj (w : X -> R), In x states -> sumR (fun z => dr_kernel states eqX prop A 0 x rj z * w z) states = w x.
Proof.
  intros x rj w Hx. rewrite <- (sumR_delta eqX w x states states_nodup Hx) at 1. cbn [dr_kernel]. apply sumR_ext_in. intros z _.
  destruct (eqX x z), (eqX z x); try congruence; ring.
Qed.

Local Notation ex g := (dr_expects ll prop ratio states x0 m n (fun s => g (dsamples s))).
Lemma law : forall (g : list X -> R) td,
  (forall s x out, state s = {| s_left := m + 1; s_x := x; s_rej := []; s_todo := td; s_out := out |} -> In x states ->
    ex g s (markov states K td x (fun l => g (out ++ l)))) /\
  (forall k s x rj out, state s = {| s_left := S k; s_x := x; s_rej := rj; s_todo := S td; s_out := out |} -> In x states -> incl rj states ->
    ex g s (sumR (fun z => dr_kernel states eqX prop A (S k) x rj z * markov states K td z (fun l => g (out ++ z :: l))) states)).
Proof.
  intros g.
  assert (Hstep : forall td, (forall s x out, state s = {| s_left := m + 1; s_x := x; s_rej := []; s_todo := td; s_out := out |} -> In x states ->
      ex g s (markov states K td x (fun l => g (out ++ l)))) ->
    (forall k s x rj out, state s = {| s_left := S k; s_x := x; s_rej := rj; s_todo := S td; s_out := out |} -> In x states -> incl rj states ->
      ex g s (sumR (fun z => dr_kernel states eqX prop A (S k) x rj z * markov states K td z (fun l => g (out ++ z :: l))) states))).
  { intros td Htd. induction k as [|k IH]; intros s x rj out Hs Hx Hrj.
    all: set (w := fun z => markov states K td z (fun l => g (out ++ z :: l))).
    1: change (ex g s (sumR (fun z => dr_kernel states eqX prop A 1 x rj z * w z) states)).
    2: change (ex g s (sumR (fun z => dr_kernel states eqX prop A (S (S k)) x rj z * w z) states)).
    all: destruct (run_feed s) as [Hs1 Hs2]; rewrite Hs in Hs1, Hs2; cbn [s_todo s_x s_rej s_out] in Hs1, Hs2.
    all: rewrite kernel_apply.
    all: assert (Hw : forall y u z, In z states -> state (s ++ [(y, u)]) = {| s_left := m + 1; s_x := z; s_rej := []; s_todo := td; s_out := out ++ [z] |} -> ex g (s ++ [(y, u)]) (w z)).
    1,3: intros y u z Hz Hf; pose proof (Htd _ _ _ Hf Hz) as H; unfold w; rewrite (markov_ext states K td z (fun l => g (out ++ z :: l)) (fun l => g ((out ++ [z]) ++ l))); [exact H|]; intros l _; now rewrite <- app_assoc.
    - apply random_entry with (h := fun y u => if dr_decides (cratio x (rj ++ [y])) u then w y else w x); [exact Hs2|..].
      + intros y u Hy Hp Hu. assert (Hf : state (s ++ [(y, u)]) = feed (state s) (y, u)) by (rewrite fold_left_app; reflexivity).
        rewrite Hs in Hf. unfold feed in Hf. cbn [s_todo s_left s_x s_rej s_out] in Hf. destruct (dr_decides _ u); apply Hw; assumption.
      + intros y Hy Hp. rewrite code_accepts_cratio, kernel_end by exact Hx. apply decides_RInt.
    - apply random_entry with (h := fun y u => if dr_decides (cratio x (rj ++ [y])) u then w y else sumR (fun z => dr_kernel states eqX prop A (S k) x (rj ++ [y]) z * w z) states); [exact Hs2|..].
      + intros y u Hy Hp Hu. assert (Hf : state (s ++ [(y, u)]) = feed (state s) (y, u)) by (rewrite fold_left_app; reflexivity).
        rewrite Hs in Hf. unfold feed in Hf. cbn [s_todo s_left s_x s_rej s_out] in Hf. destruct (dr_decides _ u); [now apply Hw|].
        apply IH; [exact Hf|exact Hx|]. apply incl_app; [exact Hrj|]. intros z [->|[]]. exact Hy.
      + intros y Hy Hp. rewrite code_accepts_cratio. apply decides_RInt. }
  induction td as [|td [IH1 IH2]].
  - assert (H0 : forall s x out, state s = {| s_left := m + 1; s_x := x; s_rej := []; s_todo := 0; s_out := out |} -> In x states ->
      ex g s (markov states K 0 x (fun l => g (out ++ l)))).
    { intros s x out Hs Hx. cbn [markov]. rewrite app_nil_r. destruct (run_feed s) as [Hs1 Hs2]. rewrite Hs in Hs1, Hs2. cbn [s_todo s_out] in Hs1, Hs2.
      rewrite <- Hs1. apply (run_is_over ll prop ratio states x0 m n (fun s => g (dsamples s)) s Hs2). }
    split; [exact H0|]. apply Hstep. exact H0.
  - assert (H1 : forall s x out, state s = {| s_left := m + 1; s_x := x; s_rej := []; s_todo := S td; s_out := out |} -> In x states ->
      ex g s (markov states K (S td) x (fun l => g (out ++ l)))).
    { intros s x out Hs Hx. cbn [markov]. rewrite Nat.add_1_r in Hs. assert (Hi : incl [] states) by (intros z []).
      pose proof (IH2 m s x [] out Hs Hx Hi) as H. rewrite <- (Nat.add_1_r m) in H. exact H. }
    split; [exact H1|]. apply Hstep. exact H1.
Qed.

Lemma expects_unique : forall g s v, dr_expects ll prop ratio states x0 m n g s v -> forall v', dr_expects ll prop ratio states x0 m n g s v' -> v' = v.
Proof.
  intros g s v H. induction H as [s Hs|s x rj h I Hs Hh IH HI]; intros v' H'; inversion H'; subst; try congruence.
  assert (E0 : (x1, rejected) = (x, rj)) by congruence. injection E0 as -> ->.
  apply sumR_ext_in. intros y Hy. destruct (dd_nonneg _ _ Hd x rj y) as [Hp|Hp]; [|rewrite <- Hp; ring].
  f_equal. rewrite <- (is_RInt_unique (V := R_CompleteNormedModule) _ _ _ _ (H1 y Hy Hp)).
  apply (is_RInt_unique (V := R_CompleteNormedModule)). apply (is_RInt_ext (V := R_NormedModule) (h y)); [|exact (HI y Hy Hp)].
  intros u Hu. rewrite Rmin_left, Rmax_right in Hu by lra. symmetry. apply (IH y u); auto; try lra. apply H0; auto; lra.
Qed.

Theorem dr_law : In x0 states -> forall g, dr_expectation ll prop ratio states x0 m n g (markov states K n x0 g).
Proof.
  intros Hx0 g. destruct (law g n) as [H _]. specialize (H [] x0 [] eq_refl Hx0). cbn [app] in H. split; [exact H|].
  intros v' Hv'. eapply expects_unique; [exact H|exact Hv'].
Qed.
End Run.
