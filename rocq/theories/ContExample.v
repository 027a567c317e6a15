(** Continuing a run: where it does not give the same samples. *)
From Coq Require Import Reals Lra Lia List.
From Verif Require Import Prelude ProducerModel ProducerSpec XReal MHSpec MHProofs MHRun ContSpec.
Import ListNotations.
Local Open Scope R_scope.
Local Open Scope list_scope.
Local Notation length := List.length.

(** ** A noisy likelihood: every other evaluation says that the sample is impossible. *)
Definition evals (t : trace nat xr) : nat := length (filter (fun e => match e with EEval _ => true | _ => false end) t).
Definition noisy : env nat xr := {|
  e_ll := fun t _ => Some (if Nat.even (evals t) then XFin 0 else XNInf); e_prop := fun _ x _ => Some (Datatypes.S x, XFin 1); e_cross := fun _ x _ _ => Some x;
  e_unif := fun _ => XFin (/ 2); e_uint := fun _ _ => 0%N; e_issue := fun _ _ _ => false; e_flush := fun _ => false |}.
Lemma accept_same : forall t, mh_accept xops noisy (XFin 0) (XFin 0) (XFin 1) t = (t ++ [EUnif], RVal true).
Proof.
  intros t. unfold mh_accept. rewrite (nonzero_false 0 zero_nonzero). cbn [andb negb]. cbn [d_gt d_sub d_log xops xlog xsub xadd xneg xgt d_div d_exp d_ge xdiv xexp].
  destruct (Rlt_dec 1 0) as [|_]; [lra|]. destruct (Req_EM_T 1 0) as [|_]; [lra|]. unfold mbind, ret. cbn [xneg xadd xgt]. rewrite ln_1. destruct (Rlt_dec 0 _) as [H|_]; [lra|].
  cbn. replace (0 + - 0) with 0 by lra. rewrite exp_0. unfold xge, xgt. destruct (Rlt_dec (/ 2) (1 / 1)) as [|H]; [reflexivity|lra].
Qed.
Lemma reject_zero : forall t, mh_accept xops noisy XNInf (XFin 0) (XFin 1) t = (t, RVal false).
Proof. intros t. unfold mh_accept. rewrite (nonzero_false 0 zero_nonzero). assert (H : has_zero_probability xops XNInf = true) by (apply zero_cases; auto). rewrite H. reflexivity. Qed.
Lemma noisy_once : map fst (issued (fst (mh_sample xops noisy 0%nat 2 []))) = [0; 1]%nat.
Proof.
  unfold mh_sample, with_scope_exit, mbind, log_likelihood, propose_sample, call. cbn [mh_loop]. unfold mbind, log_likelihood, propose_sample, issue_sample, call. cbn [e_ll e_prop noisy evals filter app length Nat.even]. 
  rewrite reject_zero. cbn [app evals filter length Nat.even e_issue]. rewrite accept_same. cbn. reflexivity.
Qed.
Lemma noisy_twice : map fst (issued (fst (sessions (mh_sample xops noisy) 0%nat [1; 1]%nat []))) = [0; 0]%nat.
Proof.
  assert (H : forall t, Nat.even (evals t) = true -> forall x, exists t1 a, mh_sample xops noisy x 1 t = (t1, RVal tt) /\ Nat.even (evals t1) = true /\ issued t1 = issued t ++ [(x, a)]).
  { intros t Ht x. unfold mh_sample, with_scope_exit, mbind, log_likelihood, propose_sample, call. cbn [mh_loop]. unfold mbind, log_likelihood, propose_sample, issue_sample, call. cbn [e_ll e_prop noisy]. rewrite Ht.
    assert (Ho : Nat.even (evals ((t ++ [EEval x]) ++ [EPropose x []])) = false). { unfold evals in *. rewrite !filter_app, !app_length, !Nat.even_add, Ht. reflexivity. }
    rewrite Ho, reject_zero. cbn. eexists. eexists. split; [reflexivity|]. split.
    - unfold evals in *. rewrite !filter_app, !app_length, !Nat.even_add, Ht. reflexivity.
    - rewrite <- !app_assoc. cbn [app]. rewrite ProducerProofs.issued_app. reflexivity. }
  cbn [sessions]. destruct (H [] eq_refl 0%nat) as (t1 & a & E1 & H1 & I1). rewrite E1. cbn [sessions].
  assert (L : last_sample 0%nat t1 = 0%nat) by (unfold last_sample; rewrite I1; reflexivity). rewrite L.
  destruct (H t1 H1 0%nat) as (t2 & a2 & E2 & H2 & I2). rewrite E2. cbn [fst]. rewrite I2, I1. reflexivity.
Qed.

(** ** A new object for every call: the random numbers start again. *)
(** The generator returns 9/10 first; every proposal is accepted with probability 1/2. *)
Definition drawn (t : trace nat xr) : nat := length (filter (fun e => match e with EUnif => true | _ => false end) t).
Definition half : env nat xr := {|
  e_ll := fun t _ => Some (XFin 0); e_prop := fun _ x _ => Some (Datatypes.S x, XFin 2); e_cross := fun _ x _ _ => Some x;
  e_unif := fun t => if Nat.eqb (drawn t) 0 then XFin (9 / 10) else XFin (1 / 10); e_uint := fun _ _ => 0%N; e_issue := fun _ _ _ => false; e_flush := fun _ => false |}.
Lemma half_accept : forall t, mh_accept xops half (XFin 0) (XFin 0) (XFin 2) t = (t ++ [EUnif], RVal (negb (Nat.eqb (drawn t) 0))).
Proof.
  intros t. unfold mh_accept. rewrite (nonzero_false 0 zero_nonzero). cbn [andb negb]. cbn [d_gt d_sub d_log xops xlog xsub xadd xneg xgt d_div d_exp d_ge xdiv xexp].
  destruct (Rlt_dec 2 0) as [|_]; [lra|]. destruct (Req_EM_T 2 0) as [|_]; [lra|]. unfold mbind, ret. cbn [xneg xadd xgt]. pose proof (ln_lt_2) as L. assert (0 < ln 2) by (apply Rlt_trans with (/ 2); lra). destruct (Rlt_dec 0 _) as [H'|_]; [lra|].
  unfold uniform, call. cbn [e_unif half]. replace (0 + - 0) with 0 by lra. rewrite exp_0. unfold xge, xgt, xeq. destruct (Nat.eqb (drawn t) 0); cbn [negb].
  - destruct (Rlt_dec _ _) as [|_]; [lra|]. destruct (Req_EM_T _ _) as [|_]; [lra|]. reflexivity.
  - destruct (Rlt_dec _ _) as [|H']; [reflexivity|lra].
Qed.
(** One object for each call: what the consumers get. *)
Fixpoint new_objects {X D} (sample : X -> nat -> trace X D -> trace X D * res unit) (x : X) (ns : list nat) : list X :=
  match ns with
  | [] => []
  | n :: ns' => let t := fst (sample x n []) in map fst (issued t) ++ new_objects sample (last_sample x t) ns'
  end.
Lemma half_once : forall n, map fst (issued (fst (mh_sample xops half 0%nat (Datatypes.S n) []))) = seq 0 (Datatypes.S n).
Proof.
  intros n. unfold mh_sample, with_scope_exit, mbind, log_likelihood, propose_sample, call. cbn [mh_loop e_ll half]. unfold mbind, log_likelihood, propose_sample, issue_sample, call. cbn [e_ll e_prop half].
  rewrite half_accept. cbn [drawn filter app length Nat.eqb negb e_issue half].
  assert (G : forall n c t, Nat.eqb (drawn t) 0 = false -> exists t1, mh_loop xops half n c (XFin 0) t = (t1, RVal tt) /\ map fst (issued t1) = map fst (issued t) ++ seq (Datatypes.S c) n).
  { clear. induction n as [|n IH]; intros c t Ht; [eexists; split; [reflexivity|symmetry; apply app_nil_r]|]. cbn [mh_loop]. unfold mbind, log_likelihood, propose_sample, issue_sample, call. cbn [e_ll e_prop half].
    assert (Hd : forall e t, Nat.eqb (drawn t) 0 = false -> Nat.eqb (drawn (t ++ [e])) 0 = false). { clear. intros e t H. apply Nat.eqb_neq in H. apply Nat.eqb_neq. unfold drawn in *. rewrite filter_app, app_length. lia. }
    rewrite half_accept. rewrite (Hd _ _ (Hd _ _ Ht)). cbn [negb e_issue half]. destruct (IH (Datatypes.S c) ((((t ++ [EPropose c []]) ++ [EEval (Datatypes.S c)]) ++ [EUnif]) ++ [EIssue (Datatypes.S c) [(ll_key, PDouble (XFin 0)); (rep_key, PBool false)]])) as (t1 & H1 & H2).
    { exact (Hd _ _ (Hd _ _ (Hd _ _ (Hd _ _ Ht)))). }
    exists t1. split; [exact H1|]. rewrite H2, !ProducerProofs.issued_app, !map_app. cbn. rewrite !app_nil_r, <- app_assoc. reflexivity. }
  match goal with |- context [mh_loop xops half n 0%nat (XFin 0) ?t] => destruct (G n 0%nat t eq_refl) as (t1 & H1 & H2) end.
  rewrite H1. unfold flush_consumers, call. cbn [e_flush half fst]. rewrite !ProducerProofs.issued_app, !map_app, H2. cbn. rewrite !app_nil_r. reflexivity.
Qed.
Lemma half_stuck : forall k, new_objects (mh_sample xops half) 0%nat (repeat 1%nat k) = repeat 0%nat k.
Proof.
  assert (G : issued (fst (mh_sample xops half 0%nat 1 [])) = [(0%nat, mh_aux (XFin 0) true)]).
  { unfold mh_sample, with_scope_exit, mbind, log_likelihood, propose_sample, call. cbn [mh_loop e_ll half]. unfold mbind, log_likelihood, propose_sample, issue_sample, call. cbn [e_ll e_prop half]. rewrite half_accept. reflexivity. }
  induction k as [|k IH]; [reflexivity|]. cbn [repeat new_objects]. unfold last_sample. rewrite G. cbn. now rewrite IH.
Qed.

(** ** DifferentialEvaluationMetropolisHastings: the first generation of every call is one without crossover. *)
Section OneGeneration.
Context {X D : Type}.
Variables (O : dops D) (E : env X D).
Notation M A := (trace X D -> trace X D * res A).
Definition crosses (e : event X D) : bool := match e with ECross _ _ _ => true | _ => false end.
Definition quiet {A} (m : M A) : Prop := forall t, existsb crosses t = false -> existsb crosses (fst (m t)) = false.
Lemma quiet_ret : forall {A} (a : A), quiet (ret a).
Proof. intros A a t H. exact H. Qed.
Lemma quiet_fail : forall {A} (a : res A), quiet (fail a).
Proof. intros A a t H. exact H. Qed.
Lemma quiet_bind : forall {A B} (m : M A) (k : A -> M B), quiet m -> (forall a, quiet (k a)) -> quiet (mbind m k).
Proof. intros A B m k Hm Hk t H. unfold mbind. pose proof (Hm t H) as H1. destruct (m t) as [t1 [a| | | | |]]; cbn [fst] in *; try exact H1. apply Hk. exact H1. Qed.
Lemma quiet_call : forall {A} e (f : trace X D -> option A), crosses e = false -> quiet (call e f).
Proof. intros A e f He t H. unfold call. cbn [fst]. rewrite existsb_app, H. cbn. now rewrite He. Qed.
Lemma quiet_at : forall {T} (l : list T) i, quiet (at_ (X := X) (D := D) l i).
Proof. intros T l i. unfold at_. destruct (nth_error _ _); [apply quiet_ret|apply quiet_fail]. Qed.
Lemma quiet_launch : forall gap nc ns cur k chain s, quiet (de_launch O E gap 0 nc ns cur k chain s).
Proof.
  intros gap nc ns cur k. induction k as [|k IH]; intros chain s; cbn [de_launch]; [apply quiet_ret|]. destruct (_ <=? _)%N; [apply quiet_ret|]. apply quiet_bind.
  - unfold de_trial, do_crossover. change (0 <? 0)%N with false. rewrite Bool.andb_false_r. apply quiet_bind; [apply quiet_at|]. intros x. now apply quiet_call.
  - intros [y r]. apply quiet_bind; [now apply quiet_call|]. intros u. apply quiet_bind; [|intros; apply IH].
    intros t H. unfold de_task. pose proof (quiet_call (EEval y) (fun t => e_ll E t y) eq_refl t H) as H1. unfold log_likelihood. destruct (call (EEval y) (fun t => e_ll E t y) t) as [t1 [l| | | | |]]; try exact H1.
    destruct (nth_error cur chain); [|exact H1]. destruct (nth_error (g_ll s) chain); [|exact H1]. destruct (de_decide _ _ _ _ _ _ _) as [[a b] c]. exact H1.
Qed.
Lemma quiet_issue : forall b g nc ns k chain s, quiet (de_issue E b g nc ns k chain s).
Proof.
  intros b g nc ns k. induction k as [|k IH]; intros chain s; cbn [de_issue]; [apply quiet_ret|]. destruct (_ <=? _)%N; [apply quiet_ret|]. destruct (nth_error _ _) as [[a|]|]; [|apply quiet_fail|apply quiet_fail].
  apply quiet_bind; [apply quiet_at|]. intros x. apply quiet_bind; [apply quiet_at|]. intros l. apply quiet_bind; [now apply quiet_call|]. intros _. apply IH.
Qed.
Lemma quiet_init : forall xs, quiet (de_init E xs).
Proof. induction xs as [|x xs IH]; cbn [de_init]; [apply quiet_ret|]. apply quiet_bind; [now apply quiet_call|]. intros l. apply quiet_bind; [apply IH|]. intros. apply quiet_ret. Qed.
Lemma quiet_exit : forall {A} (m : M A), quiet m -> quiet (with_scope_exit E m).
Proof.
  intros A m H t Ht. unfold with_scope_exit. pose proof (H t Ht) as H1. destruct (m t) as [t1 [a| | | | |]]; cbn [fst] in *; try exact H1;
  pose proof (quiet_call EFlush (fun t => if e_flush E t then None else Some tt) eq_refl t1 H1) as H2; unfold flush_consumers; destruct (call EFlush _ t1) as [t2 r]; exact H2.
Qed.
Lemma de_one_generation : forall b fuel xs gap ns, (N.of_nat (length xs) < two64)%N -> (ns <= N.of_nat (length xs))%N ->
  forall e, In e (fst (de_sample O E b fuel xs gap ns [])) -> crosses e = false.
Proof.
  intros b fuel xs gap ns Hl Hn e He. assert (Q : quiet (de_sample O E b fuel xs gap ns)).
  { unfold de_sample. destruct (match b with Debug => _ | Release => _ end); [apply quiet_fail|]. apply quiet_exit. apply quiet_bind; [apply quiet_init|]. intros lls.
    destruct fuel as [|fuel]; cbn [de_loop]; [apply quiet_fail|]. destruct (_ <? ns)%N; [|apply quiet_ret]. apply quiet_bind; [apply quiet_launch|]. intros s. apply quiet_bind; [apply quiet_issue|]. intros _.
    destruct fuel as [|fuel]; cbn [de_loop]; [apply quiet_fail|]. assert (W : wrap64 (wrap64 (0 + 1) * N.of_nat (length xs)) = N.of_nat (length xs)).
    { change (wrap64 (0 + 1)) with 1%N. rewrite N.mul_1_l. apply N.mod_small. exact Hl. }
    rewrite W. destruct (N.ltb_spec (N.of_nat (length xs)) ns) as [H|H]; [|apply quiet_ret]. exfalso. revert H Hn. clear. lia. }
  specialize (Q [] eq_refl). destruct (crosses e) eqn:Ec; [|reflexivity]. assert (X1 : existsb crosses (fst (de_sample O E b fuel xs gap ns [])) = true) by (apply existsb_exists; eauto). congruence.
Qed.
End OneGeneration.
Lemma half_steady : steady half (fun _ => XFin 0).
Proof.
  assert (G : forall t, drawn (without_evaluations t) = drawn t). { unfold drawn, without_evaluations. induction t as [|e t IH]; [reflexivity|]. destruct e; cbn; try exact IH; now f_equal. }
  constructor; try reflexivity. intros t t' H. cbn. rewrite <- (G t), <- (G t'), H. reflexivity.
Qed.
Lemma de_never_cross : forall {X D} (O : dops D) (E : env X D) b fuel xs gap ns, (N.of_nat (length xs) < two64)%N -> (ns <= N.of_nat (length xs))%N ->
  forall x p q, ~ In (ECross x p q) (fst (de_sample O E b fuel xs gap ns [])).
Proof. intros X D O E b fuel xs gap ns H1 H2 x p q H. pose proof (de_one_generation O E b fuel xs gap ns H1 H2 _ H). discriminate. Qed.
