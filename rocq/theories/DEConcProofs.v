(** Proofs about asynchronous evaluation in DifferentialEvaluationMetropolisHastings. *)
From Coq Require Import Permutation.
From Verif Require Import Prelude ProducerModel DEConcModel DEConcSpec.
Local Open Scope nat_scope.

Lemma upd_length {T} (l : list T) i v : length (upd l i v) = length l.
Proof.
  assert (H : length l = length (firstn i l) + length (skipn i l)) by (rewrite <- app_length, firstn_skipn; reflexivity).
  unfold upd. rewrite app_length, H. f_equal. destruct (skipn i l); reflexivity.
Qed.
Lemma upd_nth {T} (l : list T) i v j : nth_error (upd l i v) j = if j =? i then (if i <? length l then Some v else None) else nth_error l j.
Proof.
  revert i j. induction l as [|a l IH]; intros i j.
  - assert (H : upd ([] : list T) i v = []) by (unfold upd; rewrite firstn_nil, skipn_nil; reflexivity). rewrite H. destruct (j =? i); [|reflexivity]. destruct j; destruct i; reflexivity.
  - destruct i as [|i].
    + destruct j; reflexivity.
    + change (upd (a :: l) (S i) v) with (a :: upd l i v). destruct j as [|j]; [reflexivity|]. cbn [nth_error length]. rewrite IH. change (S j =? S i) with (j =? i). change (S i <? S (length l)) with (i <? length l). reflexivity.
Qed.
Lemma upd_nth_in {T} (l : list T) i v : i < length l -> nth_error (upd l i v) i = Some v.
Proof. intros H. rewrite upd_nth, Nat.eqb_refl. apply Nat.ltb_lt in H. rewrite H. reflexivity. Qed.
Lemma upd_nth_other {T} (l : list T) i v j : j <> i -> nth_error (upd l i v) j = nth_error l j.
Proof. intros H. rewrite upd_nth. apply Nat.eqb_neq in H. rewrite H. reflexivity. Qed.
Lemma nth_ext {T} (l l' : list T) : (forall i, nth_error l i = nth_error l' i) -> l = l'.
Proof.
  revert l'. induction l as [|a l IH]; intros [|b l'] H; [reflexivity|specialize (H 0); discriminate|specialize (H 0); discriminate|].
  f_equal; [specialize (H 0); cbn in H; congruence|]. apply IH. intros i. apply (H (S i)).
Qed.
Lemma upd_same {T} (l : list T) i v : nth_error l i = Some v -> upd l i v = l.
Proof. intros H. apply nth_ext. intros j. rewrite upd_nth. destruct (Nat.eqb_spec j i) as [->|]; [|reflexivity].
  assert (i < length l) by (apply nth_error_Some; congruence). apply Nat.ltb_lt in H0. rewrite H0. congruence. Qed.

Section P.
Context {X D : Type}.
Variable (O : dops D).
Variable (E : env X D).

(** ** Sequential interpretation of programs *)
Record qstate := { q_cur : list X; q_next : list X; q_ll : list D; q_fut : list (option bool) }.

Definition qspawn (c : nat) (x : X) (r u : D) (q : qstate) (a : option D) : option qstate :=
  match a with
  | None => Some {| q_cur := q_cur q; q_next := q_next q; q_ll := q_ll q; q_fut := q_fut q ++ [None] |}
  | Some l =>
    match nth_error (q_cur q) c, nth_error (q_ll q) c with
    | Some cur, Some cur_ll =>
      let '(acc, nx, nl) := de_decide O x r u l cur cur_ll in
      Some {| q_cur := q_cur q; q_next := upd (q_next q) c nx; q_ll := upd (q_ll q) c nl; q_fut := q_fut q ++ [Some acc] |}
    | _, _ => None
    end
  end.
Section Interp.
Context {A : Type}.
Fixpoint interp (p : prog X D A) (q : qstate) (t : trace X D) : trace X D * res A * qstate :=
  match p with
  | PRet r => (t, r, q)
  | PAsk e k => interp (k (answer E t e)) q (t ++ [e])
  | PCur i k => interp (k (nth_error (q_cur q) (N.to_nat i))) q t
  | PNext i k => interp (k (nth_error (q_next q) i)) q t
  | PLL i k => interp (k (nth_error (q_ll q) i)) q t
  | PSpawn c x r u k => match qspawn c x r u q (e_ll E t x) with Some q' => interp k q' (t ++ [EEval x]) | None => (t ++ [EEval x], RUB, q) end
  | PGet i k => interp (k (nth_error (q_fut q) i)) q t
  | PCopy k => interp k {| q_cur := q_next q; q_next := q_next q; q_ll := q_ll q; q_fut := q_fut q |} t
  | PStart l k => interp k {| q_cur := q_cur q; q_next := q_next q; q_ll := l; q_fut := q_fut q |} t
  | PJoin k => interp k {| q_cur := q_cur q; q_next := q_next q; q_ll := q_ll q; q_fut := [] |} t
  end.
End Interp.
(** The continuation does with an UB result what it should: nothing. *)
Lemma interp_pthen {A B} (p : prog X D A) (k : res A -> prog X D B) q t :
  (k RUB = PRet RUB) ->
  interp (pthen p k) q t = let '(t1, r, q1) := interp p q t in interp (k r) q1 t1.
Proof.
  intros HU. revert q t. induction p as [r|e f IH|i f IH|i f IH|i f IH|c x r u f IH|i f IH|f IH|l f IH|f IH]; intros q t; cbn; try apply IH; try reflexivity.
  destruct (qspawn c x r u q (e_ll E t x)); [apply IH|]. rewrite HU. reflexivity.
Qed.
Lemma interp_pbind {A B} (p : prog X D A) (k : A -> prog X D B) q t :
  interp (pbind p k) q t = let '(t1, r, q1) := interp p q t in
    match r with RVal a => interp (k a) q1 t1 | RExc => (t1, RExc, q1) | RUB => (t1, RUB, q1) | RAssert => (t1, RAssert, q1) | RTerm => (t1, RTerm, q1) | RLoop => (t1, RLoop, q1) end.
Proof. unfold pbind. rewrite interp_pthen by reflexivity. destruct (interp p q t) as [[t1 r] q1]. destruct r; reflexivity. Qed.

(** [p] does in state [q] what [m] does, and leaves [q] alone. *)
Definition reads {A} (p : prog X D A) (m : M A) (q : qstate) : Prop := forall t, interp p q t = (fst (m t), snd (m t), q).
Lemma reads_bind {A B} (p : prog X D A) (m : M A) (k : A -> prog X D B) (k' : A -> M B) q :
  reads p m q -> (forall a, reads (k a) (k' a) q) -> reads (pbind p k) (mbind m k') q.
Proof. intros H1 H2 t. rewrite interp_pbind, H1. unfold mbind. destruct (m t) as [t1 r]. cbn. destruct r; try reflexivity. apply H2. Qed.
Lemma reads_ask {A} (e : event X D) (f : ansT e -> A) (m : M A) q :
  (forall t, m t = (t ++ [e], match answer E t e with Some v => RVal (f v) | None => RExc end)) -> reads (PAsk e (fun a => PRet (match a with Some v => RVal (f v) | None => RExc end))) m q.
Proof. intros H t. cbn. rewrite H. reflexivity. Qed.
Lemma reads_cur i q : reads (pcur i) (at_ (q_cur q) i) q.
Proof. intros t. cbn. unfold at_. destruct (nth_error (q_cur q) (N.to_nat i)); reflexivity. Qed.
Lemma reads_next i q : reads (pnext i) (at_ (q_next q) (N.of_nat i)) q.
Proof. intros t. cbn. unfold at_. rewrite Nnat.Nat2N.id. destruct (nth_error (q_next q) i); reflexivity. Qed.
Lemma reads_pll i q : reads (pll i) (at_ (q_ll q) (N.of_nat i)) q.
Proof. intros t. cbn. unfold at_. rewrite Nnat.Nat2N.id. destruct (nth_error (q_ll q) i); reflexivity. Qed.

Lemma reads_trial gap gen nc chain q : reads (pde_trial gap gen nc chain) (de_trial E gap gen nc chain (q_cur q)) q.
Proof.
  unfold pde_trial, de_trial. destruct (do_crossover gap gen).
  - apply reads_bind; [intros t; reflexivity|intros da].
    apply reads_bind; [apply reads_cur|intros xa].
    apply reads_bind; [intros t; reflexivity|intros db].
    apply reads_bind; [apply reads_cur|intros xb].
    apply reads_bind; [apply reads_cur|intros xc].
    apply reads_bind; [intros t; reflexivity|intros c]. intros t; reflexivity.
  - apply reads_bind; [apply reads_cur|intros xc]. intros t; reflexivity.
Qed.
Definition gq (cur : list X) (g : @gstate X D) : qstate := {| q_cur := cur; q_next := g_next g; q_ll := g_ll g; q_fut := g_fut g |}.
Lemma interp_launch gap gen nc ns cur : forall k chain g t,
  let '(t1, r) := de_launch O E gap gen nc ns cur k chain g t in
  exists q1, interp (pde_launch gap gen nc ns k chain) (gq cur g) t = (t1, match r with RVal _ => RVal tt | RExc => RExc | RUB => RUB | RAssert => RAssert | RTerm => RTerm | RLoop => RLoop end, q1) /\
             match r with RVal g1 => q1 = gq cur g1 | _ => True end.
Proof.
  induction k as [|k IH]; intros chain g t; cbn [de_launch pde_launch]; [eexists; split; [reflexivity|reflexivity]|].
  destruct (ns <=? _)%N; [eexists; split; [reflexivity|reflexivity]|].
  rewrite interp_pbind, (reads_trial gap gen nc chain (gq cur g) t). unfold mbind at 1. cbn [q_cur gq].
  destruct (de_trial E gap gen nc chain cur t) as [t1 r1]. cbn [fst snd]. destruct r1 as [[trial ratio]| | | | |]; try (eexists; split; [reflexivity|exact I]).
  rewrite interp_pbind. cbn [pask interp answer]. unfold mbind at 1. cbn [uniform call]. unfold uniform, call. 
  unfold mbind at 1. unfold de_task at 1. cbn [log_likelihood call]. unfold log_likelihood, call. cbn [interp].
  destruct (e_ll E (t1 ++ [EUnif]) trial) as [l|] eqn:El; cbn [qspawn gq q_cur q_ll q_next q_fut].
  - destruct (nth_error cur chain) as [xc|]; [|eexists; split; [reflexivity|exact I]].
    destruct (nth_error (g_ll g) chain) as [lc|]; [|eexists; split; [reflexivity|exact I]].
    destruct (de_decide O trial ratio (e_unif E t1) l xc lc) as [[acc nx] nl].
    specialize (IH (S chain) {| g_next := upd (g_next g) chain nx; g_ll := upd (g_ll g) chain nl; g_fut := g_fut g ++ [Some acc] |} ((t1 ++ [EUnif]) ++ [EEval trial])). exact IH.
  - specialize (IH (S chain) {| g_next := g_next g; g_ll := g_ll g; g_fut := g_fut g ++ [None] |} ((t1 ++ [EUnif]) ++ [EEval trial])). exact IH.
Qed.
Lemma reads_issue b gen nc ns g cur : forall k chain, reads (pde_issue b gen nc ns k chain) (de_issue E b gen nc ns k chain g) (gq cur g).
Proof.
  induction k as [|k IH]; intros chain; cbn [de_issue pde_issue]; [intros t; reflexivity|].
  destruct (ns <=? _)%N; [intros t; reflexivity|].
  intros t. cbn [interp gq q_fut]. destruct (nth_error (g_fut g) chain) as [[acc|]|]; [|reflexivity|reflexivity].
  revert t. apply reads_bind; [apply (reads_next chain (gq cur g))|intros x].
  apply reads_bind; [apply (reads_pll chain (gq cur g))|intros l].
  apply reads_bind; [|intros ?; apply IH].
  intros t. cbn. destruct (e_issue E t x _); reflexivity.
Qed.
Definition strip {A B} (r : res A) (b : B) : res B := match r with RVal _ => RVal b | RExc => RExc | RUB => RUB | RAssert => RAssert | RTerm => RTerm | RLoop => RLoop end.
Lemma interp_loop b gap nc ns : forall fuel gen cur next lls t,
  fst (interp (pde_loop b fuel gap nc ns gen) {| q_cur := cur; q_next := next; q_ll := lls; q_fut := [] |} t) = de_loop O E b fuel gap nc ns gen cur next lls t.
Proof.
  induction fuel as [|fuel IH]; intros gen cur next lls t; cbn [pde_loop de_loop]; [reflexivity|].
  destruct (wrap64 (gen * nc) <? ns)%N; [|reflexivity].
  rewrite interp_pbind. unfold pscoped. rewrite interp_pthen by reflexivity. rewrite interp_pbind.
  pose proof (interp_launch gap gen nc ns cur (N.to_nat nc) 0 {| g_next := next; g_ll := lls; g_fut := [] |} t) as HL.
  unfold mbind at 1. destruct (de_launch O E gap gen nc ns cur (N.to_nat nc) 0 {| g_next := next; g_ll := lls; g_fut := [] |} t) as [t1 r].
  destruct HL as [q1 [HL Hq]]. unfold gq in HL at 1. cbn [g_next g_ll g_fut] in HL. rewrite HL. clear HL.
  destruct r as [g1| | | | |]; try reflexivity. subst q1.
  rewrite interp_pbind, (reads_issue b gen nc ns g1 cur (N.to_nat nc) 0 t1).
  unfold mbind at 1. destruct (de_issue E b gen nc ns (N.to_nat nc) 0 g1 t1) as [t2 r2]. cbn [fst snd]. destruct r2; try reflexivity.
  cbn [interp gq q_cur q_next q_ll q_fut]. apply IH.
Qed.
Lemma reads_init q : forall sps, reads (pde_init sps) (de_init E sps) q.
Proof. induction sps as [|x sps IH]; cbn [pde_init de_init]; [intros t; reflexivity|]. apply reads_bind; [intros t; reflexivity|intros l]. apply reads_bind; [exact IH|intros ls]. intros t; reflexivity. Qed.
Theorem interp_sample b fuel sps gap ns q t : q_cur q = sps -> q_next q = sps -> q_fut q = [] ->
  fst (interp (pde_sample b fuel sps gap ns) q t) = de_sample O E b fuel sps gap ns t.
Proof.
  intros H1 H2 H3. unfold pde_sample, de_sample. destruct (match b with Debug => negb (3 <=? N.of_nat (length sps))%N | Release => false end); [reflexivity|].
  unfold pwith_scope_exit, with_scope_exit. rewrite interp_pthen by reflexivity. rewrite interp_pbind, reads_init. unfold mbind at 1.
  destruct (de_init E sps t) as [t1 r]. cbn [fst snd]. destruct r as [lls| | | | |]; cbn [interp]; try reflexivity.
  - rewrite H1, H2, H3. pose proof (interp_loop b gap (N.of_nat (length sps)) ns fuel 0 sps sps lls t1) as HL.
    destruct (interp (pde_loop b fuel gap (N.of_nat (length sps)) ns 0) _ t1) as [[t2 r2] q2]. cbn in HL. rewrite <- HL.
    destruct r2; cbn; unfold flush_consumers, call; try reflexivity; destruct (e_flush E t2); reflexivity.
  - cbn. unfold flush_consumers, call. destruct (e_flush E t1); reflexivity.
Qed.
End P.
