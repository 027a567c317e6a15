(** Proofs of C76. *)
From Verif Require Import Prelude ProducerModel ProducerSpec ProducerProofs ExcSpec.
Local Open Scope list_scope.
Local Notation length := List.length.

Section Rel.
Context {X D : Type}.
Variables (E' E : env X D).
Hypothesis FE : fewer_exceptions E' E.

Definition ext {A} (m : M A) : Prop := forall t, exists s, fst (m t) = (t ++ s : trace X D).
(** [m] (with E) and [m'] (with E') do the same, or [m] ends with a throwing call *)
Definition sim {A} (m m' : @M X D A) : Prop := forall t,
  m t = m' t \/
  (snd (m t) = RExc /\ exists s e rest, fst (m t) = t ++ s ++ [e] /\ throws E (t ++ s) e = true /\ fst (m' t) = t ++ s ++ e :: rest).

Lemma ext_ret {A} (a : A) : ext (ret a). Proof. intros t; exists []; simpl; now rewrite app_nil_r. Qed.
Lemma ext_fail {A} (r : res A) : ext (fail r). Proof. intros t; exists []; simpl; now rewrite app_nil_r. Qed.
Lemma ext_call {A} e (f : trace X D -> option A) : ext (call e f). Proof. intros t; exists [e]; reflexivity. Qed.
Lemma ext_bind {A B} (m : M A) (k : A -> M B) : ext m -> (forall a, ext (k a)) -> ext (mbind m k).
Proof.
  intros H K t. unfold mbind. destruct (H t) as [s Hs]. destruct (m t) as [t1 r]. simpl in Hs. subst t1.
  destruct r; try (exists s; reflexivity). destruct (K a (t ++ s)) as [s2 H2]. exists (s ++ s2). now rewrite H2, app_assoc.
Qed.
Lemma sim_refl {A} (m : M A) : sim m m. Proof. intros t; now left. Qed.
Lemma sim_bind {A B} (m m' : M A) (k k' : A -> M B) : sim m m' -> ext m -> (forall a, sim (k a) (k' a)) -> (forall a, ext (k' a)) -> sim (mbind m k) (mbind m' k').
Proof.
  intros H HE K KE t. unfold mbind. destruct (H t) as [Eq|(R & s & e & rest & T & Th & T')].
  - rewrite <- Eq. destruct (HE t) as [s Hs]. destruct (m t) as [t1 r]. simpl in Hs. subst t1. destruct r; try (left; reflexivity).
    destruct (K a (t ++ s)) as [Q|(R & s2 & e & rest & T & Th & T')]; [left; exact Q|right].
    split; [exact R|]. exists (s ++ s2), e, rest. rewrite T, T', <- !app_assoc in *. repeat split; try reflexivity. exact Th.
  - right. destruct (m t) as [t1 r]. destruct (m' t) as [t1' r']. simpl in *. subst r t1 t1'. split; [reflexivity|].
    exists s, e. destruct r' as [a| | | | |].
    + destruct (KE a (t ++ s ++ e :: rest)) as [s2 H2]. exists (rest ++ s2). rewrite H2. repeat split; try assumption. now rewrite <- !app_assoc.
    + exists rest. auto. + exists rest. auto. + exists rest. auto. + exists rest. auto. + exists rest. auto.
Qed.
Lemma sim_call {A} e (f f' : trace X D -> option A) : (forall t, f t = f' t \/ (f t = None /\ throws E t e = true)) -> sim (call e f) (call e f').
Proof.
  intros H t. unfold call. destruct (H t) as [Q|(Q & Th)]; [left; now rewrite Q|right]. rewrite Q. split; [reflexivity|].
  exists [], e, []. simpl. rewrite app_nil_r. auto.
Qed.
Lemma sim_ll x : sim (log_likelihood E x) (log_likelihood E' x).
Proof. apply sim_call. intros t. unfold throws. destruct (e_ll E t x) eqn:Q; [left|now right]. symmetry. rewrite (fe_ll E' E FE); rewrite Q; congruence. Qed.
Lemma sim_prop x r : sim (propose_sample E x r) (propose_sample E' x r).
Proof. apply sim_call. intros t. unfold throws. destruct (e_prop E t x r) eqn:Q; [left|now right]. symmetry. rewrite (fe_prop E' E FE); rewrite Q; congruence. Qed.
Lemma sim_cross x a b : sim (crossover E x a b) (crossover E' x a b).
Proof. apply sim_call. intros t. unfold throws. destruct (e_cross E t x a b) eqn:Q; [left|now right]. symmetry. rewrite (fe_cross E' E FE); rewrite Q; congruence. Qed.
Lemma sim_unif : sim (uniform E) (uniform E').
Proof. apply sim_call. intros t. left. now rewrite (fe_unif E' E FE). Qed.
Lemma sim_uint hi : sim (uniform_int E hi) (uniform_int E' hi).
Proof. apply sim_call. intros t. left. now rewrite (fe_uint E' E FE). Qed.
Lemma sim_issue x a : sim (issue_sample E x a) (issue_sample E' x a).
Proof. apply sim_call. intros t. unfold throws. destruct (e_issue E t x a) eqn:Q; [now right|left]. now rewrite (fe_issue E' E FE _ _ _ Q). Qed.
Lemma sim_flush : sim (flush_consumers E) (flush_consumers E').
Proof. apply sim_call. intros t. unfold throws. left. now rewrite (fe_flush E' E FE). Qed.

(** the whole of sample(): the result of a run that was cut short *)
Definition cut {A} (m m' : @M X D A) : Prop := forall t r t' r', m [] = (t, r) -> m' [] = (t', r') ->
  (t = t' /\ r = r') \/
  exists d e, t = d ++ [e; EFlush] /\ throws E d e = true /\ starts_with t' (d ++ [e]) /\ r = (if e_flush E (d ++ [e]) then RTerm else RExc).
Lemma ext_scope {A} (F : env X D) (m : M A) : ext m -> ext (with_scope_exit F m).
Proof.
  intros H t. unfold with_scope_exit. destruct (H t) as [s Hs]. destruct (m t) as [t1 r]. simpl in Hs. subst t1.
  destruct r; try (exists s; reflexivity); unfold flush_consumers, call; exists (s ++ [EFlush]); simpl; now rewrite app_assoc.
Qed.
Lemma cut_scope {A} (m m' : M A) : sim m m' -> ext m -> cut (with_scope_exit E m) (with_scope_exit E' m').
Proof.
  intros H HE t r t' r' H1 H2. unfold with_scope_exit in *. destruct (H []) as [Q|(R & s & e & rest & T & Th & T')].
  - left. rewrite <- Q in H2. destruct (m []) as [t1 q].
    assert (G : flush_consumers E t1 = flush_consumers E' t1) by (unfold flush_consumers, call; now rewrite (fe_flush E' E FE)).
    rewrite <- G in H2. rewrite H1 in H2. now injection H2.
  - right. destruct (m []) as [t1 q]. destruct (m' []) as [t1' q']. simpl in *. subst q t1 t1'. unfold flush_consumers, call in *.
    exists s, e. injection H1 as <- <-. rewrite <- app_assoc. split; [reflexivity|]. split; [exact Th|]. split; [|now destruct (e_flush E _)].
    destruct q'; injection H2 as <- <-; unfold starts_with.
    all: try (exists rest; now rewrite <- app_assoc). all: exists (rest ++ [EFlush]); now rewrite <- !app_assoc.
Qed.

(** ** Range, MetropolisHastings, DelayedRejection *)
Variable O : dops D.
Ltac go := repeat first [ progress intros | apply sim_refl | apply ext_ret | apply ext_fail | apply ext_call | apply ext_bind | apply sim_ll | apply sim_prop | apply sim_cross | apply sim_unif | apply sim_uint | apply sim_issue | apply sim_flush
  | apply sim_bind | match goal with |- context [match ?x with _ => _ end] => destruct x end ].

Lemma range_both : forall xs, sim (range_loop E xs) (range_loop E' xs) /\ ext (range_loop E xs) /\ ext (range_loop E' xs).
Proof.
  induction xs as [|[x|] xs IH]; simpl; try (split; [|split]; go; fail).
  destruct IH as (I1 & I2 & I3). split; [|split]; [apply sim_bind|apply ext_bind|apply ext_bind]; intros; try assumption; go.
Qed.
Lemma accept_both tl cl q : sim (mh_accept O E tl cl q) (mh_accept O E' tl cl q) /\ ext (mh_accept O E tl cl q) /\ ext (mh_accept O E' tl cl q).
Proof. unfold mh_accept. split; [|split]; go. Qed.
Lemma mh_both : forall n x l, sim (mh_loop O E n x l) (mh_loop O E' n x l) /\ ext (mh_loop O E n x l) /\ ext (mh_loop O E' n x l).
Proof.
  induction n as [|n IH]; intros x l; simpl; [split; [|split]; go|].
  split; [|split].
  - apply sim_bind; [apply sim_prop|apply ext_call| |]; intros [trial ratio].
    + apply sim_bind; [apply sim_ll|apply ext_call| |]; intros tl.
      * apply sim_bind; [apply accept_both|apply accept_both| |]; intros acc.
        -- apply sim_bind; [apply sim_issue|apply ext_call| |]; intros _; apply IH.
        -- apply ext_bind; [apply ext_call|]; intros _; apply IH.
      * apply ext_bind; [apply accept_both|]; intros acc. apply ext_bind; [apply ext_call|]; intros _; apply IH.
    + apply ext_bind; [apply ext_call|]; intros tl. apply ext_bind; [apply accept_both|]; intros acc. apply ext_bind; [apply ext_call|]; intros _; apply IH.
  - apply ext_bind; [apply ext_call|]; intros [trial ratio]. apply ext_bind; [apply ext_call|]; intros tl. apply ext_bind; [apply accept_both|]; intros acc.
    apply ext_bind; [apply ext_call|]; intros _; apply IH.
  - apply ext_bind; [apply ext_call|]; intros [trial ratio]. apply ext_bind; [apply ext_call|]; intros tl. apply ext_bind; [apply accept_both|]; intros acc.
    apply ext_bind; [apply ext_call|]; intros _; apply IH.
Qed.
Theorem range_cut : forall xs, cut (range_sample E xs) (range_sample E' xs).
Proof. intros. apply cut_scope; apply range_both. Qed.
Theorem mh_cut : forall x n, cut (mh_sample O E x n) (mh_sample O E' x n).
Proof.
  intros. apply cut_scope.
  - apply sim_bind; [apply sim_ll|apply ext_call| |]; intros l.
    + apply sim_bind; [apply mh_both|apply mh_both| |]; intros _; [apply sim_flush|apply ext_call].
    + apply ext_bind; [apply mh_both|]; intros _; apply ext_call.
  - apply ext_bind; [apply ext_call|]; intros l. apply ext_bind; [apply mh_both|]; intros _; apply ext_call.
Qed.
Lemma dr_accept_both q : sim (dr_accept O E q) (dr_accept O E' q) /\ ext (dr_accept O E q) /\ ext (dr_accept O E' q).
Proof. unfold dr_accept. split; [|split]; go. Qed.
Lemma stages_both strict : forall k c p, sim (dr_stages O E strict k c p) (dr_stages O E' strict k c p) /\ ext (dr_stages O E strict k c p) /\ ext (dr_stages O E' strict k c p).
Proof.
  induction k as [|k IH]; intros c p; simpl; [split; [|split]; go|].
  split; [|split].
  - apply sim_bind; [apply sim_prop|apply ext_call| |]; intros [trial ratio].
    + apply sim_bind; [apply sim_ll|apply ext_call| |]; intros tl.
      * destruct (alpha_fn _ _ _ _ _); [|apply sim_refl]. apply sim_bind; [apply dr_accept_both|apply dr_accept_both| |]; intros [|]; try apply sim_refl; try apply ext_ret; apply IH.
      * destruct (alpha_fn _ _ _ _ _); [|apply ext_fail]. apply ext_bind; [apply dr_accept_both|]; intros [|]; [apply ext_ret|apply IH].
    + apply ext_bind; [apply ext_call|]; intros tl. destruct (alpha_fn _ _ _ _ _); [|apply ext_fail]. apply ext_bind; [apply dr_accept_both|]; intros [|]; [apply ext_ret|apply IH].
  - apply ext_bind; [apply ext_call|]; intros [trial ratio]. apply ext_bind; [apply ext_call|]; intros tl.
    destruct (alpha_fn _ _ _ _ _); [|apply ext_fail]. apply ext_bind; [apply dr_accept_both|]; intros [|]; [apply ext_ret|apply IH].
  - apply ext_bind; [apply ext_call|]; intros [trial ratio]. apply ext_bind; [apply ext_call|]; intros tl.
    destruct (alpha_fn _ _ _ _ _); [|apply ext_fail]. apply ext_bind; [apply dr_accept_both|]; intros [|]; [apply ext_ret|apply IH].
Qed.
Lemma dr_both strict md : forall n c, sim (dr_loop O E strict md n c) (dr_loop O E' strict md n c) /\ ext (dr_loop O E strict md n c) /\ ext (dr_loop O E' strict md n c).
Proof.
  induction n as [|n IH]; intros c; cbn [dr_loop]; [split; [|split]; go|].
  split; [|split].
  - apply sim_bind; [apply stages_both|apply stages_both| |]; intros a.
    + apply sim_bind; [apply sim_issue|apply ext_call| |]; intros _; apply IH.
    + apply ext_bind; [apply ext_call|]; intros _; apply IH.
  - apply ext_bind; [apply stages_both|]; intros a. apply ext_bind; [apply ext_call|]; intros _; apply IH.
  - apply ext_bind; [apply stages_both|]; intros a. apply ext_bind; [apply ext_call|]; intros _; apply IH.
Qed.
Theorem dr_cut : forall strict x md n, cut (dr_sample O E strict x md n) (dr_sample O E' strict x md n).
Proof.
  intros. apply cut_scope.
  - apply sim_bind; [apply sim_ll|apply ext_call| |]; intros l.
    + apply sim_bind; [apply dr_both|apply dr_both| |]; intros _; [apply sim_flush|apply ext_call].
    + apply ext_bind; [apply dr_both|]; intros _; apply ext_call.
  - apply ext_bind; [apply ext_call|]; intros l. apply ext_bind; [apply dr_both|]; intros _; apply ext_call.
Qed.
End Rel.
