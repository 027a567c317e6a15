(** Proofs: continuing a run. *)
From Coq Require Import Lia List.
From Verif Require Import Prelude ProducerModel ProducerSpec ProducerProofs ContSpec.
Import ListNotations.
Local Open Scope list_scope.
Local Notation length := List.length.

Section Cont.
Context {X D : Type}.
Variables (O : dops D) (E : env X D) (ll : X -> D).
Hypothesis HE : steady E ll.
Notation core := (@without_evaluations X D).
Notation M A := (trace X D -> trace X D * res A).

Definition cong {A} (m : M A) : Prop := forall t t', core t = core t' -> core (fst (m t)) = core (fst (m t')) /\ snd (m t) = snd (m t').
Lemma core_app : forall t t', core (t ++ t') = core t ++ core t'.
Proof. intros. apply filter_app. Qed.
Lemma cong_ret : forall {A} (a : A), cong (ret a).
Proof. intros A a t t' H. now split. Qed.
Lemma cong_fail : forall {A} (a : res A), cong (fail a).
Proof. intros A a t t' H. now split. Qed.
Lemma cong_bind : forall {A B} (m : M A) (k : A -> M B), cong m -> (forall a, cong (k a)) -> cong (mbind m k).
Proof.
  intros A B m k Hm Hk t t' H. unfold mbind. destruct (Hm t t' H) as [H1 H2]. destruct (m t) as [t1 r1], (m t') as [t1' r1']. cbn [fst snd] in *. subst r1'.
  destruct r1; cbn [fst snd]; try (now split). now apply Hk.
Qed.
Lemma cong_call : forall {A} e (f : trace X D -> option A), (forall t t', core t = core t' -> f t = f t') -> cong (call e f).
Proof. intros A e f Hf t t' H. unfold call. cbn [fst snd]. rewrite !core_app, H, (Hf t t' H). now split. Qed.
Lemma cong_ll : forall x, cong (log_likelihood E x).
Proof. intros x. apply cong_call. intros t t' _. now rewrite !(st_ll _ _ HE). Qed.
Lemma cong_prop : forall x r, cong (propose_sample E x r).
Proof. intros x r. apply cong_call. intros t t' H. now apply (st_prop _ _ HE). Qed.
Lemma cong_unif : cong (uniform E).
Proof. apply cong_call. intros t t' H. f_equal. now apply (st_unif _ _ HE). Qed.
Lemma cong_issue : forall x a, cong (issue_sample E x a).
Proof. intros x a. apply cong_call. intros t t' H. now rewrite (st_issue _ _ HE t t' x a H). Qed.

(** ** Loops *)
Section Loop.
Variable step : X * D -> M (X * D).
Fixpoint loop (n : nat) (s : X * D) : M (X * D) := match n with 0 => ret s | S n' => mbind (step s) (loop n') end.
Hypothesis step_cong : forall s, cong (step s).
(** Every step issues one sample, last thing, and keeps the likelihood of the state. *)
Hypothesis step_good : forall s t t1 s', snd s = ll (fst s) -> step s t = (t1, RVal s') -> snd s' = ll (fst s') /\ exists t0 a, t1 = t0 ++ [EIssue (fst s') a].
Hypothesis step_res : forall s t, match snd (step s t) with RVal _ | RExc | RUB => True | _ => False end.
Lemma loop_cong : forall n s, cong (loop n s).
Proof. induction n as [|n IH]; intros s; [apply cong_ret|]. apply cong_bind; auto. Qed.
Lemma loop_res : forall n s t, match snd (loop n s t) with RVal _ | RExc | RUB => True | _ => False end.
Proof.
  induction n as [|n IH]; intros s t; [exact I|]. cbn [loop]. unfold mbind. pose proof (step_res s t) as H. destruct (step s t) as [t1 [s'| | | | |]]; cbn [snd] in *; try exact I; try contradiction. apply IH.
Qed.
Lemma loop_split : forall n m s t, loop (n + m) s t = mbind (loop n s) (loop m) t.
Proof.
  induction n as [|n IH]; intros m s t; [reflexivity|]. cbn [Nat.add loop]. unfold mbind. destruct (step s t) as [t1 [s'| | | | |]]; auto. rewrite IH. reflexivity.
Qed.
Lemma last_issue : forall x t0 y a, last_sample x (t0 ++ [@EIssue X D y a]) = y.
Proof.
  intros. unfold last_sample. rewrite issued_app, map_app. cbn. apply last_last.
Qed.
Lemma loop_good : forall n s t t1 s', snd s = ll (fst s) -> last_sample (fst s) t = fst s -> loop n s t = (t1, RVal s') -> snd s' = ll (fst s') /\ forall z, (n <> 0 \/ last_sample z t = fst s) -> last_sample z t1 = fst s'.
Proof.
  induction n as [|n IH]; intros s t t1 s' Hs Ht H.
  - cbn in H. injection H as <- <-. split; [exact Hs|]. intros z [Hz|Hz]; [congruence|exact Hz].
  - cbn [loop] in H. unfold mbind in H. destruct (step s t) as [t2 [s2| | | | |]] eqn:E2; try discriminate H.
    destruct (step_good s t t2 s2 Hs E2) as (G1 & t0 & a & ->). destruct (IH s2 _ t1 s' G1 (last_issue _ _ _ _) H) as [I1 I2]. split; [exact I1|].
    intros z _. apply I2. right. apply last_issue.
Qed.

(** A call of sample(). *)
Definition call_sample (x : X) (n : nat) : M unit :=
  with_scope_exit E (mbind (log_likelihood E x) (fun l => mbind (loop n (x, l)) (fun _ => flush_consumers E))).
Definition value {A} (r : res A) : res unit := match r with RVal _ => RVal tt | RExc => RExc | RUB => RUB | RAssert => RAssert | RTerm => RTerm | RLoop => RLoop end.
Lemma call_sample_core : forall x n t, core (fst (call_sample x n t)) = core (fst (loop n (x, ll x) t)) /\ snd (call_sample x n t) = value (snd (loop n (x, ll x) t)).
Proof.
  intros x n t. unfold call_sample, with_scope_exit, log_likelihood, flush_consumers, mbind, call. rewrite (st_ll _ _ HE).
  assert (Hc : core (t ++ [EEval x]) = core t) by (rewrite core_app; cbn; apply app_nil_r).
  destruct (loop_cong n (x, ll x) _ _ Hc) as [H1 H2]. pose proof (loop_res n (x, ll x) (t ++ [EEval x])) as HR.
  destruct (loop n (x, ll x) (t ++ [EEval x])) as [t1 r1]. destruct (loop n (x, ll x) t) as [t1' r1']. cbn [fst snd] in *. subst r1'.
  destruct r1; cbn [snd] in HR; try contradiction; cbn [fst snd value]; rewrite ?(st_flush _ _ HE); cbn [fst snd]; rewrite ?core_app; cbn; rewrite ?app_nil_r; now split.
Qed.
Lemma issued_core : forall t : trace X D, issued (core t) = issued t.
Proof.
  intros t. unfold issued. assert (G : forall t b b', collect (fun (_ : trace X D) (e : event X D) => match e with EIssue x a => Some (x, a) | _ => None end) b (core t) =
    collect (fun _ e => match e with EIssue x a => Some (x, a) | _ => None end) b' t).
  { clear. induction t as [|e t IH]; intros b b'; [reflexivity|]. cbn [without_evaluations filter]. destruct e; cbn [collect app]; try (f_equal; apply IH); apply IH. }
  apply G.
Qed.
Lemma last_core : forall x (t t' : trace X D), core t = core t' -> last_sample x t = last_sample x t'.
Proof. intros x t t' H. unfold last_sample. rewrite <- (issued_core t), <- (issued_core t'), H. reflexivity. Qed.
Lemma sessions_core : forall ns x t t', core t = core t' -> last_sample x t = x ->
  core (fst (sessions call_sample x ns t)) = core (fst (loop (list_sum ns) (x, ll x) t')) /\ snd (sessions call_sample x ns t) = value (snd (loop (list_sum ns) (x, ll x) t')).
Proof.
  induction ns as [|n ns IH]; intros x t t' Hc Hx; [split; [exact Hc|reflexivity]|]. change (list_sum (n :: ns)) with (n + list_sum ns). rewrite loop_split. unfold mbind. cbn [sessions].
  destruct (call_sample_core x n t) as [C1 C2]. destruct (loop_cong n (x, ll x) t t' Hc) as [L1 L2].
  destruct (call_sample x n t) as [t1 r1]. destruct (loop n (x, ll x) t) as [t2 r2] eqn:EL. destruct (loop n (x, ll x) t') as [t2' r2'] eqn:EL'. cbn [fst snd] in *. subst r2' r1.
  assert (Hcc : core t1 = core t2') by congruence.
  destruct r2 as [[x' l']| | | | |]; cbn [value]; try (cbn [fst snd]; now split).
  destruct (loop_good n (x, ll x) t t2 (x', l') eq_refl Hx EL) as [G1 G2]. cbn [fst snd] in G1, G2. subst l'.
  assert (Hl : last_sample x t1 = x'). { rewrite (last_core x t1 t2 C1). apply G2. right. exact Hx. }
  rewrite Hl. apply IH; [exact Hcc|]. rewrite (last_core x' t1 t2 C1). destruct n as [|n'].
  - cbn in EL. injection EL as <- <-. exact Hx.
  - apply G2. left. discriminate.
Qed.
Lemma sessions_one : forall ns x, issued (fst (sessions call_sample x ns [])) = issued (fst (call_sample x (list_sum ns) [])) /\ snd (sessions call_sample x ns []) = snd (call_sample x (list_sum ns) []).
Proof.
  intros ns x. destruct (sessions_core ns x [] [] eq_refl eq_refl) as [H1 H2]. destruct (call_sample_core x (list_sum ns) []) as [C1 C2].
  split; [|congruence]. rewrite <- issued_core, H1, <- C1. apply issued_core.
Qed.
End Loop.

Lemma sessions_ext : forall f g, (forall x n t, f x n t = g x n t) -> forall ns (x : X) (t : trace X D), sessions f x ns t = sessions g x ns t.
Proof. intros f g H. induction ns as [|n ns IH]; intros x t; [reflexivity|]. cbn [sessions]. rewrite H. destruct (g x n t) as [t1 [a| | | | |]]; auto. Qed.
Lemma scope_ext : forall {A} (m m' : M A) t, m t = m' t -> with_scope_exit E m t = with_scope_exit E m' t.
Proof. intros A m m' t H. unfold with_scope_exit. now rewrite H. Qed.

(** ** MetropolisHastings *)
Definition mh_step (s : X * D) : M (X * D) :=
  mbind (propose_sample E (fst s) []) (fun '(trial, ratio) => mbind (log_likelihood E trial) (fun trial_ll => mbind (mh_accept O E trial_ll (snd s) ratio) (fun accepted : bool =>
    mbind (issue_sample E (if accepted then trial else fst s) [(ll_key, PDouble (if accepted then trial_ll else snd s)); (rep_key, PBool (negb accepted))])
      (fun _ => ret (if accepted then trial else fst s, if accepted then trial_ll else snd s))))).
Lemma accept_cong : forall a b c, cong (mh_accept O E a b c).
Proof.
  intros a b c. unfold mh_accept. destruct (_ && _)%bool; [apply cong_ret|]. apply cong_bind.
  - destruct (_ && _)%bool; [|apply cong_ret]. apply cong_bind; [apply cong_unif|intros; apply cong_ret].
  - intros [|]; [apply cong_ret|]. destruct (d_gt _ _ _); [apply cong_ret|]. apply cong_bind; [apply cong_unif|intros; apply cong_ret].
Qed.
Lemma mh_step_cong : forall s, cong (mh_step s).
Proof.
  intros s. apply cong_bind; [apply cong_prop|]. intros [y r]. apply cong_bind; [apply cong_ll|]. intros l. apply cong_bind; [apply accept_cong|]. intros a.
  apply cong_bind; [apply cong_issue|]. intros. apply cong_ret.
Qed.
Lemma accept_ok : forall a b c t, exists v, snd (mh_accept O E a b c t) = RVal v.
Proof.
  intros a b c t. unfold mh_accept, mbind, uniform, call. destruct (_ && negb _)%bool; [eexists; reflexivity|]. destruct (_ && _)%bool; cbn.
  - destruct (d_ge _ _ _); [eexists; reflexivity|]. destruct (d_gt _ _ _); eexists; reflexivity.
  - destruct (d_gt _ _ _); eexists; reflexivity.
Qed.
Lemma mh_step_good : forall s t t1 s', snd s = ll (fst s) -> mh_step s t = (t1, RVal s') -> snd s' = ll (fst s') /\ exists t0 a, t1 = t0 ++ [EIssue (fst s') a].
Proof.
  intros s t t1 s' Hs H. unfold mh_step, mbind at 1 2 3 4, propose_sample, log_likelihood, issue_sample, call in H. destruct (e_prop E t (fst s) []) as [[y r]|]; [|discriminate H]. rewrite (st_ll _ _ HE) in H.
  destruct (mh_accept O E (ll y) (snd s) r _) as [t2 [a| | | | |]]; try discriminate H. destruct (e_issue _ _ _ _); try discriminate H. cbn in H. injection H as <- <-. cbn [fst snd].
  split; [destruct a; auto|]. eexists. eexists. reflexivity.
Qed.
Lemma mh_step_res : forall s t, match snd (mh_step s t) with RVal _ | RExc | RUB => True | _ => False end.
Proof.
  intros s t. unfold mh_step, mbind at 1 2 3 4, propose_sample, log_likelihood, issue_sample, call. destruct (e_prop E t (fst s) []) as [[y r]|]; [|exact I]. rewrite (st_ll _ _ HE).
  match goal with |- context [mh_accept O E ?a ?b ?c ?t] => destruct (accept_ok a b c t) as [v Hv]; destruct (mh_accept O E a b c t) as [t2 r2] end. cbn [snd] in Hv. subst r2.
  destruct (e_issue _ _ _ _); exact I.
Qed.
Lemma bind_eta : forall {A B} (m m' : M A) (k k' : A -> M B) t, m t = m' t -> (forall a t, k a t = k' a t) -> mbind m k t = mbind m' k' t.
Proof. intros A B m m' k k' t H1 H2. unfold mbind. rewrite H1. destruct (m' t) as [t1 [a| | | | |]]; auto. Qed.
Lemma mh_loop_is : forall n c l t, mh_loop O E n c l t = mbind (loop mh_step n (c, l)) (fun _ => ret tt) t.
Proof.
  induction n as [|n IH]; intros c l t; [reflexivity|]. cbn [mh_loop loop]. unfold mh_step at 1, mbind. cbn [fst snd].
  destruct (propose_sample E c [] t) as [t1 [[y r]| | | | |]]; auto. destruct (log_likelihood E y t1) as [t2 [ly| | | | |]]; auto. destruct (mh_accept O E ly l r t2) as [t3 [a| | | | |]]; auto.
  destruct (issue_sample E _ _ t3) as [t4 [[]| | | | |]]; auto. cbn [ret]. rewrite IH. reflexivity.
Qed.
Lemma mh_sample_is : forall x n t, mh_sample O E x n t = call_sample mh_step x n t.
Proof.
  intros x n t. unfold mh_sample, call_sample. apply scope_ext. apply bind_eta; [reflexivity|]. intros l t1. unfold mbind at 1 2. rewrite mh_loop_is. unfold mbind.
  destruct (loop mh_step n (x, l) t1) as [t2 [s| | | | |]]; reflexivity.
Qed.
Theorem mh_sessions : forall x ns, issued (fst (sessions (mh_sample O E) x ns [])) = issued (fst (mh_sample O E x (list_sum ns) [])) /\ snd (sessions (mh_sample O E) x ns []) = snd (mh_sample O E x (list_sum ns) []).
Proof.
  intros x ns. rewrite (sessions_ext _ _ mh_sample_is), mh_sample_is. apply sessions_one; [exact mh_step_cong|exact mh_step_good|exact mh_step_res].
Qed.

(** ** DelayedRejectionMetropolisHastings *)
Section DR.
Variables (strict : bool) (max_delays : nat).
Definition dr_step (s : X * D) : M (X * D) :=
  mbind (dr_stages O E strict (max_delays + 1) s []) (fun accepted =>
    let s' := match accepted with Some y => y | None => s end in
    mbind (issue_sample E (fst s') [(ll_key, PDouble (snd s')); (rep_key, PBool (match accepted with Some _ => false | None => true end))]) (fun _ => ret s')).
Lemma stages_cong : forall k s p, cong (dr_stages O E strict k s p).
Proof.
  induction k as [|k IH]; intros s p; [apply cong_ret|]. cbn [dr_stages]. apply cong_bind; [apply cong_prop|]. intros [y r]. apply cong_bind; [apply cong_ll|]. intros l.
  destruct (alpha_fn _ _ _ _ _) as [ratio|]; [|apply cong_fail]. apply cong_bind.
  - unfold dr_accept. destruct (d_gt _ _ _); [apply cong_ret|]. apply cong_bind; [apply cong_unif|intros; apply cong_ret].
  - intros [|]; [apply cong_ret|apply IH].
Qed.
Lemma dr_step_cong : forall s, cong (dr_step s).
Proof. intros s. apply cong_bind; [apply stages_cong|]. intros [y|]; (apply cong_bind; [apply cong_issue|intros; apply cong_ret]). Qed.
Lemma stages_res : forall k s p t, match dr_stages O E strict k s p t with (_, RVal (Some y)) => snd y = ll (fst y) | (_, RVal None) | (_, RExc) | (_, RUB) => True | _ => False end.
Proof.
  induction k as [|k IH]; intros s p t; [exact I|]. cbn [dr_stages]. unfold mbind at 1 2 3, propose_sample, log_likelihood, call. destruct (e_prop _ _ _ _) as [[y r]|]; [|exact I]. rewrite (st_ll _ _ HE).
  destruct (alpha_fn _ _ _ _ _) as [ratio|]; [|exact I]. unfold dr_accept, uniform, call, mbind. destruct (d_gt _ _ _); [reflexivity|]. cbn [ret]. destruct (d_ge _ _ _); [reflexivity|]. apply IH.
Qed.
Lemma dr_step_good : forall s t t1 s', snd s = ll (fst s) -> dr_step s t = (t1, RVal s') -> snd s' = ll (fst s') /\ exists t0 a, t1 = t0 ++ [EIssue (fst s') a].
Proof.
  intros s t t1 s' Hs H. unfold dr_step, mbind at 1 2 in H. pose proof (stages_res (max_delays + 1) s [] t) as R. destruct (dr_stages O E strict (max_delays + 1) s [] t) as [t2 [[y|]| | | | |]]; try discriminate H;
  unfold issue_sample, call in H; destruct (e_issue _ _ _ _); try discriminate H; cbn in H; injection H as <- <-; (split; [assumption|eexists; eexists; reflexivity]).
Qed.
Lemma dr_step_res : forall s t, match snd (dr_step s t) with RVal _ | RExc | RUB => True | _ => False end.
Proof.
  intros s t. unfold dr_step, mbind at 1 2. pose proof (stages_res (max_delays + 1) s [] t) as R. destruct (dr_stages O E strict (max_delays + 1) s [] t) as [t2 [[y|]| | | | |]]; try exact I; try contradiction;
  unfold issue_sample, call; destruct (e_issue _ _ _ _); exact I.
Qed.
Lemma dr_loop_is : forall n s t, dr_loop O E strict max_delays n s t = mbind (loop dr_step n s) (fun _ => ret tt) t.
Proof.
  induction n as [|n IH]; intros s t; [reflexivity|]. cbn [dr_loop loop]. unfold dr_step at 1, mbind.
  destruct (dr_stages O E strict (max_delays + 1) s [] t) as [t1 [a| | | | |]]; auto. destruct (issue_sample E _ _ t1) as [t4 [[]| | | | |]]; auto. cbn [ret]. rewrite IH. reflexivity.
Qed.
Lemma dr_sample_is : forall x n t, dr_sample O E strict x max_delays n t = call_sample dr_step x n t.
Proof.
  intros x n t. unfold dr_sample, call_sample. apply scope_ext. apply bind_eta; [reflexivity|]. intros l t1. unfold mbind at 1 2. rewrite dr_loop_is. unfold mbind.
  destruct (loop dr_step n (x, l) t1) as [t2 [s| | | | |]]; reflexivity.
Qed.
Theorem dr_sessions : forall x ns, issued (fst (sessions (fun x n => dr_sample O E strict x max_delays n) x ns [])) = issued (fst (dr_sample O E strict x max_delays (list_sum ns) [])) /\
  snd (sessions (fun x n => dr_sample O E strict x max_delays n) x ns []) = snd (dr_sample O E strict x max_delays (list_sum ns) []).
Proof.
  intros x ns. rewrite (sessions_ext (fun x n => dr_sample O E strict x max_delays n) _ dr_sample_is), dr_sample_is. apply sessions_one; [exact dr_step_cong|exact dr_step_good|exact dr_step_res].
Qed.
End DR.
End Cont.
