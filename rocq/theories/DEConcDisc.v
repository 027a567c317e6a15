(** The discipline the main thread keeps when it works with tasks. *)
From Verif Require Import Prelude ProducerModel DEConcModel DEConcSpec DEConcProofs.
Local Open Scope nat_scope.

Section P.
Context {X D : Type}.
Variable nch : nat.

Definition isval {A} (r : res A) : bool := match r with RVal _ => true | _ => false end.
Section NV.
Context {A : Type}.
(** The program only calls things outside, and no path ends in a value. *)
Fixpoint noval (p : prog X D A) : Prop :=
  match p with
  | PRet r => isval r = false
  | PAsk e k => forall a, noval (k a)
  | PJoin k => noval k
  | _ => False
  end.
(** [st]: the initial log likelihoods are set; [n] tasks were launched; the results of the first [g] were got. *)
Fixpoint disc (Q : bool -> nat -> nat -> res A -> Prop) (st : bool) (n g : nat) (p : prog X D A) : Prop :=
  match p with
  | PRet r => Q st n g r
  | PAsk e k => forall a, disc Q st n g (k a)
  | PCur _ k => forall a, disc Q st n g (k a)
  | PNext i k => i < g /\ forall a, disc Q st n g (k a)
  | PLL i k => i < g /\ forall a, disc Q st n g (k a)
  | PSpawn c _ _ _ k => st = true /\ c = n /\ c < nch /\ g = 0 /\ disc Q st (S n) g k
  | PGet i k => i = g /\ (n <= g -> disc Q st n g (k None)) /\ (g < n -> forall r, disc Q st n (S g) (k (Some r)))
  | PCopy k => g = n /\ disc Q st n g k
  | PStart l k => n = 0 /\ length l = nch /\ disc Q true n g k
  | PJoin k => (g = n \/ noval k) /\ disc Q st 0 0 k
  end.
End NV.
Lemma noval_pthen {A B} (p : prog X D A) (k : res A -> prog X D B) : (forall r, isval r = false -> noval (k r)) -> noval p -> noval (pthen p k).
Proof. intros HK. induction p as [r|e f IH|i f IH|i f IH|i f IH|c x r u f IH|i f IH|f IH|l f IH|f IH]; cbn; intros H; auto; contradiction. Qed.
Lemma disc_pthen {A B} Q Q' (p : prog X D A) (k : res A -> prog X D B) : (forall r, isval r = false -> noval (k r)) ->
  forall st n g, disc Q st n g p -> (forall st n g r, Q st n g r -> disc Q' st n g (k r)) -> disc Q' st n g (pthen p k).
Proof.
  intros HK st n g H HQ. revert st n g H. induction p as [r|e f IH|i f IH|i f IH|i f IH|c x r u f IH|i f IH|f IH|l f IH|f IH]; intros st n g; cbn.
  - apply HQ.
  - intros H a. apply IH, H.
  - intros H a. apply IH, H.
  - intros [H1 H] . split; [exact H1|]. intros a. apply IH, H.
  - intros [H1 H] . split; [exact H1|]. intros a. apply IH, H.
  - intros (H1 & H2 & H3 & H4 & H). auto 10.
  - intros (H1 & H2 & H3). split; [exact H1|]. split; [intros Hn; apply IH, H2, Hn|]. intros Hg a. apply IH, H3, Hg.
  - intros [H1 H]. auto.
  - intros (H1 & H2 & H). auto.
  - intros [H1 H]. split; [|auto]. destruct H1 as [H1|H1]; [auto|]. right. apply noval_pthen; assumption.
Qed.
Lemma disc_mono {A} (Q Q' : bool -> nat -> nat -> res A -> Prop) (p : prog X D A) st n g : disc Q st n g p -> (forall st n g r, Q st n g r -> Q' st n g r) -> disc Q' st n g p.
Proof.
  intros H HQ. revert st n g H. induction p as [r|e f IH|i f IH|i f IH|i f IH|c x r u f IH|i f IH|f IH|l f IH|f IH]; intros st n g; cbn.
  - apply HQ.
  - intros H a. apply IH, H.
  - intros H a. apply IH, H.
  - intros [H1 H] . split; [exact H1|]. intros a. apply IH, H.
  - intros [H1 H] . split; [exact H1|]. intros a. apply IH, H.
  - intros (H1 & H2 & H3 & H4 & H). auto 10.
  - intros (H1 & H2 & H3). split; [exact H1|]. split; [intros Hn; apply IH, H2, Hn|]. intros Hg a. apply IH, H3, Hg.
  - intros [H1 H]. auto.
  - intros (H1 & H2 & H). auto.
  - intros [H1 H]. auto.
Qed.
Lemma disc_pbind {A B} (Q : bool -> nat -> nat -> res A -> Prop) (Q' : bool -> nat -> nat -> res B -> Prop) (p : prog X D A) (k : A -> prog X D B) st n g :
  disc Q st n g p -> (forall st n g a, Q st n g (RVal a) -> disc Q' st n g (k a)) ->
  (forall st n g r r', Q st n g r -> isval r = false -> isval r' = false -> (r = RExc <-> r' = RExc) -> Q' st n g r') -> disc Q' st n g (pbind p k).
Proof.
  intros H HK HQ. unfold pbind. apply (disc_pthen Q); [intros []; cbn; congruence|exact H|].
  intros st' n' g' r Hr. destruct r as [a| | | | |]; [apply HK, Hr| | | | |]; cbn; (eapply HQ; [exact Hr|reflexivity|reflexivity|split; (congruence || reflexivity)]).
Qed.

(** Programs which do not touch tasks. *)
Definition Pure (st0 : bool) (n0 g0 : nat) {A} : bool -> nat -> nat -> res A -> Prop := fun st n g _ => st = st0 /\ n = n0 /\ g = g0.
Lemma pure_trial gap gen nc chain st n g : disc (Pure st n g) st n g (@pde_trial X D gap gen nc chain).
Proof.
  assert (HE : forall (e : event X D) , disc (Pure st n g) st n g (pask e)) by (intros e; cbn; intros a; repeat split).
  assert (HC : forall i, disc (Pure st n g) st n g (@pcur X D i)) by (intros e; cbn; intros a; repeat split).
  assert (HB : forall A B (p : prog X D A) (k : A -> prog X D B), disc (Pure st n g) st n g p -> (forall a, disc (Pure st n g) st n g (k a)) -> disc (Pure st n g) st n g (pbind p k)).
  { intros A B p k H1 H2. apply (disc_pbind (Pure st n g)); [exact H1| |].
    - intros st' n' g' a (-> & -> & ->). apply H2.
    - intros st' n' g' r r' Hr _ _ _. exact Hr. }
  unfold pde_trial. destruct (do_crossover gap gen).
  - apply HB; [apply HE|intros]. apply HB; [apply HC|intros]. apply HB; [apply HE|intros]. apply HB; [apply HC|intros]. apply HB; [apply HC|intros]. apply HB; [apply HE|intros]. apply HE.
  - apply HB; [apply HC|intros]. apply HE.
Qed.
(** How many chains of this generation are still to do, starting with [chain]. *)
Fixpoint todo (gen nc ns : N) (k chain : nat) : nat :=
  match k with 0 => 0 | S k' => if (ns <=? wrap64 (gen * nc + N.of_nat chain))%N then 0 else S (todo gen nc ns k' (S chain)) end.
Definition Launched (total : nat) : bool -> nat -> nat -> res unit -> Prop := fun st n g r => st = true /\ g = 0 /\ (isval r = true -> n = total).
Lemma disc_launch gap gen nc ns : forall k chain, chain + k <= nch ->
  disc (Launched (chain + todo gen nc ns k chain)) true chain 0 (@pde_launch X D gap gen nc ns k chain).
Proof.
  induction k as [|k IH]; intros chain Hk; cbn [pde_launch todo].
  - cbn. repeat split. lia.
  - destruct (ns <=? _)%N; [cbn; repeat split; lia|].
    apply (disc_pbind (Pure true chain 0)); [apply pure_trial| |].
    + intros st n g [trial ratio] (-> & -> & ->). apply (disc_pbind (Pure true chain 0)).
      * cbn. intros a. repeat split.
      * intros st n g u (-> & -> & ->). cbn. repeat split; try lia. rewrite Nat.add_succ_r. apply (IH (S chain)). lia.
      * intros st n g r r' (-> & -> & ->) Hr Hr' _. repeat split. congruence.
    + intros st n g r r' (-> & -> & ->) Hr Hr' _. repeat split. congruence.
Qed.
Definition Issued : bool -> nat -> nat -> res unit -> Prop := fun st n g r => st = true /\ (isval r = true -> g = n).
Lemma disc_issue b gen nc ns : forall k chain n, n = chain + todo gen nc ns k chain ->
  disc Issued true n chain (@pde_issue X D b gen nc ns k chain).
Proof.
  induction k as [|k IH]; intros chain n Hn; cbn [pde_issue todo] in *.
  - cbn. split; [reflexivity|]. lia.
  - destruct (ns <=? _)%N; [cbn; split; [reflexivity|lia]|].
    cbn [disc]. split; [reflexivity|]. split; [intros; lia|].
    intros Hg [acc|].
    + assert (HQ : forall st n' g (r r' : res unit), Pure true n (S chain) st n' g r -> isval r = false -> isval r' = false -> (r = RExc <-> r' = RExc) -> Issued st n' g r').
      { intros st n' g r r' (-> & -> & ->) Hr Hr' _. split; [reflexivity|congruence]. }
      apply (disc_pbind (Pure true n (S chain))); [cbn; split; [lia|]; intros a; repeat split| |].
      2:{ intros st n' g r r' (-> & -> & ->) Hr Hr' _. split; [reflexivity|congruence]. }
      intros st n' g x (-> & -> & ->).
      apply (disc_pbind (Pure true n (S chain))); [cbn; split; [lia|]; intros a; repeat split| |].
      2:{ intros st n' g r r' (-> & -> & ->) Hr Hr' _. split; [reflexivity|congruence]. }
      intros st n' g l (-> & -> & ->).
      apply (disc_pbind (Pure true n (S chain))); [cbn; intros a; repeat split| |].
      2:{ intros st n' g r r' (-> & -> & ->) Hr Hr' _. split; [reflexivity|congruence]. }
      intros st n' g [] (-> & -> & ->). apply IH. lia.
    + cbn. split; [reflexivity|]. intros Hc; discriminate Hc.
Qed.
(** At the end no task is left, unless the program was aborted. *)
Definition Final {A} : bool -> nat -> nat -> res A -> Prop := fun st n g r => (isval r = true -> st = true) /\ (isval r = true \/ r = RExc -> n = 0 /\ g = 0).
Definition unaborted {A} (r : res A) : Prop := isval r = true \/ r = RExc.
Lemma disc_scoped b gap gen nc ns : N.to_nat nc <= nch ->
  disc Final true 0 0 (pscoped (pbind (@pde_launch X D gap gen nc ns (N.to_nat nc) 0) (fun _ => pbind (pde_issue b gen nc ns (N.to_nat nc) 0) (fun _ => PCopy (PRet (RVal tt)))))).
Proof.
  intros Hnc. unfold pscoped.
  apply (disc_pthen (fun st n g (r : res unit) => st = true /\ (isval r = true -> g = n))).
  - intros []; cbn; congruence.
  - apply (disc_pbind (Launched (0 + todo gen nc ns (N.to_nat nc) 0))).
    + apply disc_launch. lia.
    + intros st n g a (-> & -> & Hn). specialize (Hn eq_refl).
      apply (disc_pbind Issued).
      * apply disc_issue. exact Hn.
      * intros st' n' g' a' (-> & Hg'). cbn. split; [apply Hg'; reflexivity|]. split; [reflexivity|]. intros _. apply Hg'. reflexivity.
      * intros st' n' g' r r' (-> & Hg') Hr Hr' _. split; [reflexivity|congruence].
    + intros st' n' g' r r' (-> & -> & Hg') Hr Hr' _. split; [reflexivity|congruence].
  - intros st n g r (-> & Hg). destruct r; cbn.
    + split; [left; apply Hg; reflexivity|]. split; [reflexivity|]. intros _. auto.
    + split; [right; reflexivity|]. split; [reflexivity|]. intros _. auto.
    + split; [reflexivity|]. intros [H|H]; discriminate.
    + split; [reflexivity|]. intros [H|H]; discriminate.
    + split; [reflexivity|]. intros [H|H]; discriminate.
    + split; [reflexivity|]. intros [H|H]; discriminate.
Qed.
Lemma disc_loop b gap nc ns : N.to_nat nc <= nch -> forall fuel gen, disc Final true 0 0 (@pde_loop X D b fuel gap nc ns gen).
Proof.
  intros Hnc. induction fuel as [|fuel IH]; intros gen; cbn [pde_loop].
  - cbn. split; [congruence|]. intros [H|H]; discriminate.
  - destruct (wrap64 (gen * nc) <? ns)%N.
    + apply (disc_pbind Final); [apply disc_scoped; exact Hnc| |].
      * intros st n g a [H1 H2]. destruct (H2 (or_introl eq_refl)) as [-> ->]. rewrite (H1 eq_refl). apply IH.
      * intros st n g r r' [H1 H2] Hr Hr' [He He']. split; [congruence|]. intros [H|H]; [congruence|]. apply H2. auto.
    + cbn. split; [reflexivity|]. auto.
Qed.
Lemma disc_init : forall sps, disc (fun st n g r => st = false /\ n = 0 /\ g = 0 /\ match r with RVal l => length l = length sps | _ => True end) false 0 0 (@pde_init X D sps).
Proof.
  induction sps as [|x sps IH]; cbn [pde_init]; [cbn; auto|].
  apply (disc_pbind (Pure false 0 0)); [cbn; intros a; repeat split| |].
  - intros st n g l (-> & -> & ->). eapply disc_pbind; [exact IH| |].
    + intros st n g ls (-> & -> & -> & H). cbn. rewrite H. auto.
    + intros st n g r r' (-> & -> & -> & H) Hr Hr' _. destruct r'; try discriminate; auto.
  - intros st n g r r' (-> & -> & ->) Hr Hr' _. destruct r'; try discriminate; auto.
Qed.
Theorem disc_sample b fuel sps gap ns : length sps = nch ->
  disc (fun st n g r => unaborted r -> n = 0) false 0 0 (@pde_sample X D b fuel sps gap ns).
Proof.
  intros HL. unfold pde_sample. destruct (match b with Debug => negb (3 <=? N.of_nat (length sps))%N | Release => false end).
  - cbn. intros [H|H]; discriminate.
  - unfold pwith_scope_exit. apply (disc_pthen (fun st n g r => unaborted r -> n = 0)).
    + intros [a| | | | |]; cbn; try congruence. intros _ [[]|]; reflexivity.
    + eapply disc_pbind; [apply disc_init| |].
      * intros st n g l (-> & -> & -> & H). cbn [disc]. split; [reflexivity|]. split; [congruence|].
        eapply disc_mono; [apply disc_loop; rewrite Nnat.Nat2N.id; lia|]. intros st n g r [H1 H2] Hr. apply H2, Hr.
      * intros st n g r r' (-> & -> & -> & H) _ _ _ _. reflexivity.
    + intros st n g r H. destruct r; cbn.
      * intros _ _. apply H. left; reflexivity.
      * intros _ _. apply H. right; reflexivity.
      * exact H.
      * exact H.
      * exact H.
      * exact H.
Qed.
End P.
