(** Asynchronous evaluation: structural invariant, data races, progress, termination, and the comparison with sequential evaluation. *)
From Coq Require Import Permutation Wellfounded.
From Verif Require Import Prelude ProducerModel DEConcModel DEConcSpec DEConcProofs DEConcDisc DEConcSim.
Local Open Scope nat_scope.

Section P.
Context {X D : Type}.
Variable (O : dops D).
Variable (E : env X D).
Variable nch : nat.

Record Struct (m : @mem X D) (ts : list (task X D)) (st : bool) (n g : nat) : Prop := {
  s_n : length ts = n; s_nch : n <= nch; s_g : g <= n;
  s_chain : forall i k, nth_error ts i = Some k -> tk_chain k = i;
  s_done : forall i k, i < g -> nth_error ts i = Some k -> is_done k;
  s_lcur : length (m_cur m) = nch; s_lnext : length (m_next m) = nch; s_lll : st = true -> length (m_ll m) = nch; s_st : n <> 0 -> st = true }.
Definition SInv (s : @cstate X D) : Prop :=
  (exists st n g, disc nch Q st n g (c_main s) /\ Struct (c_mem s) (c_tasks s) st n g) \/ (noval (c_main s) /\ c_tasks s = []).

Lemma struct_upd m m' ts st n g i k k' : Struct m ts st n g -> nth_error ts i = Some k -> tk_chain k' = tk_chain k -> ~ is_done k ->
  m_cur m' = m_cur m -> length (m_next m') = length (m_next m) -> length (m_ll m') = length (m_ll m) -> Struct m' (upd ts i k') st n g.
Proof.
  intros H Hi Hc Hnd H1 H2 H3. pose proof (lt_nth _ _ _ Hi) as Hlt. apply Nat.ltb_lt in Hlt. destruct H. constructor; auto; try congruence.
  - rewrite upd_length. assumption.
  - intros j k0. rewrite upd_nth. destruct (Nat.eqb_spec j i) as [->|Hj]; [|apply s_chain0]. rewrite Hlt. intros [= <-]. rewrite Hc. eapply s_chain0, Hi.
  - intros j k0 Hj. rewrite upd_nth. destruct (Nat.eqb_spec j i) as [->|Hji]; [|apply s_done0; assumption]. exfalso. apply Hnd. eapply s_done0; [|exact Hi]. assumption.
  - rewrite H3. assumption.
Qed.
Lemma sinv_step im who s s' : SInv s -> cstep O E im who s = Some s' -> SInv s'.
Proof.
  intros HI Hs. destruct s as [m ts main tr]. unfold SInv in HI. cbn [c_mem c_tasks c_main c_trace] in HI. destruct who as [i|]; cbn [cstep c_tasks c_mem c_trace c_main] in Hs.
  - destruct (nth_error ts i) as [k|] eqn:Hk; [|discriminate]. destruct (tstep O E k m tr) as [[[k' m'] tr']|] eqn:Ht; [|discriminate]. injection Hs as <-.
    destruct HI as [(st & n & g & Hd & HS)|[_ ->]]; [|destruct i; discriminate]. left. exists st, n, g. split; [exact Hd|]. cbn [c_mem c_tasks].
    unfold tstep in Ht. destruct (tk_ph k) as [| |[l|]|acc nx l|acc l|res] eqn:Hph; try discriminate.
    + injection Ht as <- <- <-. eapply struct_upd; try exact HS; try exact Hk; try reflexivity. unfold is_done. rewrite Hph. auto.
    + destruct (nth_error (m_cur m) (tk_chain k)), (nth_error (m_ll m) (tk_chain k)); try discriminate. destruct (de_decide O (tk_trial k) (tk_ratio k) (tk_u k) l x d) as [[acc nx] nl].
      injection Ht as <- <- <-. eapply struct_upd; try exact HS; try exact Hk; try reflexivity. unfold is_done. rewrite Hph. auto.
    + injection Ht as <- <- <-. eapply struct_upd; try exact HS; try exact Hk; try reflexivity. unfold is_done. rewrite Hph. auto.
    + injection Ht as <- <- <-. eapply struct_upd; try exact HS; try exact Hk; try reflexivity; cbn; [unfold is_done; rewrite Hph; auto|apply upd_length].
    + injection Ht as <- <- <-. eapply struct_upd; try exact HS; try exact Hk; try reflexivity; cbn; [unfold is_done; rewrite Hph; auto|destruct l; [apply upd_length|reflexivity]].
  - unfold mstep in Hs. cbn [c_tasks c_mem c_trace c_main] in Hs.
    destruct main as [r|e f|i f|i f|i f|c x r u f|i f|f|l f|f]; unfold SInv.
    + discriminate.
    + injection Hs as <-. cbn [c_tasks c_mem c_trace c_main]. destruct HI as [(st & n & g & Hd & HS)|[Hn Hts]]; [left; exists st, n, g; split; [apply Hd|exact HS]|right; split; [apply Hn|exact Hts]].
    + injection Hs as <-. destruct HI as [(st & n & g & Hd & HS)|[[] Hts]]. left; exists st, n, g; split; [apply Hd|exact HS].
    + injection Hs as <-. destruct HI as [(st & n & g & Hd & HS)|[[] Hts]]. left; exists st, n, g; split; [apply Hd|exact HS].
    + injection Hs as <-. destruct HI as [(st & n & g & Hd & HS)|[[] Hts]]. left; exists st, n, g; split; [apply Hd|exact HS].
    + injection Hs as <-. destruct HI as [(st & n & g & Hd & HS)|[[] Hts]]. destruct Hd as (-> & -> & Hc & -> & Hd). left; exists true, (S n), 0; split; [apply Hd|]. cbn [c_tasks c_mem]. destruct HS. constructor; auto; try lia.
      * rewrite app_length. cbn. lia.
      * intros i k Hk. destruct (Nat.lt_ge_cases i (length ts)) as [Hi|Hi]; [rewrite nth_error_app1 in Hk by exact Hi; eapply s_chain0, Hk|]. pose proof (lt_nth _ _ _ Hk) as Hlt. rewrite app_length in Hlt. cbn in Hlt.
        rewrite nth_error_app2 in Hk by exact Hi. assert (Hi' : i = n) by lia. subst i. replace (n - length ts) with 0 in Hk by lia. injection Hk as <-. reflexivity.
    + destruct HI as [(st & n & g & Hd & HS)|[[] Hts]]. destruct Hd as (-> & Hd1 & Hd2). destruct (nth_error ts g) as [k|] eqn:Hk.
      * pose proof (lt_nth _ _ _ Hk) as Hlt. rewrite (s_n _ _ _ _ _ HS) in Hlt. destruct (tk_ph k) as [| |a|acc nx l|acc l|res] eqn:Hph; try discriminate.
        -- injection Hs as <-. left. exists st, n, g. split; [cbn [c_main disc]; auto|]. eapply struct_upd; try exact HS; try exact Hk; try reflexivity. unfold is_done. rewrite Hph. auto.
        -- injection Hs as <-. left. exists st, n, (S g). split; [apply Hd2; exact Hlt|]. cbn [c_tasks c_mem]. destruct HS. constructor; auto. intros i k0 Hi Hk0. destruct (Nat.eq_dec i g) as [->|]; [|eapply s_done0; [|exact Hk0]; lia]. assert (k0 = k) by congruence. subst k0. unfold is_done. rewrite Hph. exact I.
      * injection Hs as <-. left. exists st, n, g. split; [|exact HS]. apply Hd1. apply nth_error_None in Hk. rewrite (s_n _ _ _ _ _ HS) in Hk. exact Hk.
    + injection Hs as <-. destruct HI as [(st & n & g & Hd & HS)|[[] Hts]]. destruct Hd as [-> Hd]. left. exists st, n, n. split; [exact Hd|]. destruct HS. constructor; auto.
    + injection Hs as <-. destruct HI as [(st & n & g & Hd & HS)|[[] Hts]]. destruct Hd as (-> & Hlen & Hd). left. exists true, 0, g. split; [exact Hd|]. destruct HS. constructor; auto.
    + destruct (forallb settled ts) eqn:Hset; [|discriminate]. injection Hs as <-. destruct HI as [(st & n & g & Hd & HS)|[Hn Hts]]; [|right; split; [exact Hn|reflexivity]].
      destruct Hd as [_ Hd]. left. exists st, 0, 0. split; [exact Hd|]. destruct HS. constructor; auto; try lia.
      * intros i k Hk. destruct i; discriminate.
Qed.
Lemma sinv_run sched : forall s, SInv s -> SInv (crun O E sched s).
Proof.
  induction sched as [|[who im] sched IH]; intros s HI; cbn [crun]; [exact HI|]. destruct (cstep O E im who s) eqn:Hs; [|apply IH, HI]. apply IH. eapply sinv_step; [exact HI|exact Hs].
Qed.
Lemma sinv_init b fuel sps gap ns : length sps = nch -> SInv (cinit b fuel sps gap ns).
Proof.
  intros HL. left. exists false, 0, 0. split; [apply disc_sample, HL|]. cbn [cinit c_mem c_tasks]. constructor; cbn; auto; try lia; try congruence. intros i k Hk. destruct i; discriminate.
Qed.

(** ** No data race *)
Lemma done_no_access k : is_done k -> @task_access X D k = [].
Proof. unfold is_done, task_access. destruct (tk_ph k); try contradiction. reflexivity. Qed.
Lemma task_access_chain k (a : access) : In a (@task_access X D k) -> exists v w, a = (v, Some (tk_chain k), w) /\ (w = true -> v <> Current).
Proof.
  unfold task_access. destruct (tk_ph k) as [| |[l|]|acc nx l|acc [l|]|res]; cbn; intros H; repeat destruct H as [<-|H]; try contradiction; eexists; eexists; (split; [reflexivity|]); congruence.
Qed.
Lemma sinv_no_race s : SInv s -> ~ data_race s.
Proof.
  intros HI [H|H].
  - destruct H as (k & a & b & Hk & Ha & Hb & Hc). destruct HI as [(st & n & g & Hd & HS)|[_ Hts]]; [|rewrite Hts in Hk; contradiction].
    apply In_nth_error in Hk. destruct Hk as [i Hk]. pose proof (s_chain _ _ _ _ _ HS _ _ Hk) as Hch.
    assert (HD : i < g -> False). { intros Hi. rewrite (done_no_access k) in Hb; [contradiction|]. eapply (s_done _ _ _ _ _ HS); eassumption. }
    destruct (task_access_chain _ _ Hb) as (v & w & -> & Hw). rewrite Hch in *.
    destruct (c_main s) as [r|e f|j f|j f|j f|c x r u f|j f|f|l f|f]; cbn in Ha; repeat destruct Ha as [<-|Ha]; try contradiction; cbn in Hc, Hd.
    + destruct w; cbn in Hc; [|rewrite andb_false_r in Hc; discriminate]. specialize (Hw eq_refl). destruct v; try discriminate. congruence.
    + apply andb_prop in Hc. destruct Hc as [Hc _]. apply andb_prop in Hc. destruct Hc as [_ Hc]. apply Nat.eqb_eq in Hc. apply HD. lia.
    + apply andb_prop in Hc. destruct Hc as [Hc _]. apply andb_prop in Hc. destruct Hc as [_ Hc]. apply Nat.eqb_eq in Hc. apply HD. lia.
    + apply HD. destruct Hd as [-> _]. rewrite <- (s_n _ _ _ _ _ HS). eapply lt_nth, Hk.
    + apply HD. destruct Hd as [-> _]. rewrite <- (s_n _ _ _ _ _ HS). eapply lt_nth, Hk.
    + pose proof (lt_nth _ _ _ Hk) as Hlt. rewrite (s_n _ _ _ _ _ HS) in Hlt. lia.
  - destruct H as (i & j & k & k' & a & b & Hij & Hk & Hk' & Ha & Hb & Hc). destruct HI as [(st & n & g & Hd & HS)|[_ Hts]]; [|rewrite Hts in Hk; destruct i; discriminate].
    destruct (task_access_chain _ _ Ha) as (v & w & -> & _). destruct (task_access_chain _ _ Hb) as (v' & w' & -> & _).
    rewrite (s_chain _ _ _ _ _ HS _ _ Hk), (s_chain _ _ _ _ _ HS _ _ Hk') in Hc. cbn in Hc. apply Nat.eqb_neq in Hij. rewrite Hij, andb_false_r in Hc. discriminate.
Qed.
(** ** No task is left when sample() returns or throws *)
Lemma sinv_no_task s r : SInv s -> c_main s = PRet r -> r = RVal tt \/ r = RExc -> c_tasks s = [].
Proof.
  intros [(st & n & g & Hd & HS)|[_ H]] Hm Hr; [|exact H]. rewrite Hm in Hd. cbn in Hd. apply length_zero_iff_nil. rewrite (s_n _ _ _ _ _ HS). apply Hd. unfold unaborted. destruct Hr as [->| ->]; cbn; auto.
Qed.
(** ** Progress *)
Lemma task_progress m ts st n g i k tr : Struct m ts st n g -> nth_error ts i = Some k -> settled k = false -> tstep O E k m tr <> None.
Proof.
  intros HS Hk Hset. pose proof (lt_nth _ _ _ Hk) as Hlt. pose proof (s_chain _ _ _ _ _ HS _ _ Hk) as Hch. assert (Hst : st = true) by (destruct HS; apply s_st0; lia).
  unfold tstep, settled in *. destruct (tk_ph k) as [| |[l|]|acc nx l|acc l|res]; try discriminate.
  rewrite Hch. destruct (nth_error (m_cur m) i) eqn:E1; [|apply nth_error_None in E1; destruct HS; lia].
  destruct (nth_error (m_ll m) i) eqn:E2; [|apply nth_error_None in E2; destruct HS; specialize (s_lll0 Hst); lia].
  destruct (de_decide O (tk_trial k) (tk_ratio k) (tk_u k) l x d) as [[? ?] ?]. discriminate.
Qed.
Lemma sinv_progress im s : SInv s -> (exists r, c_main s = PRet r) \/ exists who s', cstep O E im who s = Some s'.
Proof.
  intros HI. destruct (mstep E im s) as [s'|] eqn:Hs; [right; exists None, s'; exact Hs|].
  assert (HT : forall i k st n g, Struct (c_mem s) (c_tasks s) st n g -> nth_error (c_tasks s) i = Some k -> settled k = false -> exists who s', cstep O E im who s = Some s').
  { intros i k st n g HS Hk Hset. pose proof (task_progress _ _ _ _ _ _ _ (c_trace s) HS Hk Hset) as HN. destruct (tstep O E k (c_mem s) (c_trace s)) as [[[k' m'] tr']|] eqn:Et; [|congruence].
    exists (Some i). cbn [cstep]. rewrite Hk, Et. eauto. }
  unfold mstep in Hs. destruct (c_main s) as [r|e f|j f|j f|j f|c x r u f|j f|f|l f|f] eqn:Hm; try discriminate; [left; eauto| |].
  - right. destruct (nth_error (c_tasks s) j) as [k|] eqn:Hk; [|discriminate]. destruct HI as [(st & n & g & Hd & HS)|[_ Hts]]; [|rewrite Hts in Hk; destruct j; discriminate].
    eapply HT; [exact HS|exact Hk|]. unfold settled. destruct (tk_ph k); try discriminate; reflexivity.
  - right. destruct HI as [(st & n & g & Hd & HS)|[_ Hts]]; [|rewrite Hts in Hs; discriminate]. destruct (forallb settled (c_tasks s)) eqn:Hf; [discriminate|].
    assert (HX : exists k, In k (c_tasks s) /\ settled k = false).
    { clear - Hf. induction (c_tasks s) as [|k ts IH]; [discriminate|]. cbn in Hf. destruct (settled k) eqn:Hk; [|exists k; cbn; auto]. destruct (IH Hf) as (k0 & H1 & H2). exists k0. cbn; auto. }
    destruct HX as (k & Hk & Hset). apply In_nth_error in Hk. destruct Hk as [i Hk]. eapply HT; eassumption.
Qed.

(** ** Every execution ends *)
Definition weight (k : task X D) : nat := match tk_ph k with TDeferred => 5 | TReady => 4 | TCalled _ => 3 | TWriteNext _ _ _ => 2 | TWriteLL _ _ => 1 | TDone _ => 0 end.
Definition weights (l : list (task X D)) : nat := list_sum (map weight l).
Lemma weights_upd ts i k k' : nth_error ts i = Some k -> weight k' < weight k -> weights (upd ts i k') < weights ts.
Proof.
  intros Hi Hw. apply nth_error_split in Hi. destruct Hi as (l1 & l2 & -> & <-). rewrite upd_app. unfold weights. rewrite !map_app, !list_sum_app. cbn. lia.
Qed.
Definition next (s' s : @cstate X D) : Prop := exists im who, cstep O E im who s = Some s'.
Lemma task_weight k m tr k' m' tr' : tstep O E k m tr = Some (k', m', tr') -> weight k' < weight k.
Proof.
  unfold tstep, weight. destruct (tk_ph k) as [| |[l|]|acc nx l|acc l|res]; intros H; try discriminate; try (injection H as <- <- <-; cbn; lia).
  destruct (nth_error (m_cur m) (tk_chain k)), (nth_error (m_ll m) (tk_chain k)); try discriminate. destruct (de_decide O (tk_trial k) (tk_ratio k) (tk_u k) l x d) as [[? ?] ?]. injection H as <- <- <-. cbn. lia.
Qed.
(** It is enough to look at the steps of the main thread that change its program. *)
Lemma acc_main (main : prog X D unit) :
  (forall s s' im, c_main s = main -> mstep E im s = Some s' -> (c_main s' = main /\ weights (c_tasks s') < weights (c_tasks s)) \/ Acc next s') ->
  forall s, c_main s = main -> Acc next s.
Proof.
  intros H s Hm. remember (weights (c_tasks s)) as w eqn:Hw. revert s Hm Hw. induction w as [w IH] using lt_wf_ind. intros s Hm Hw. constructor. intros s' (im & who & Hs).
  destruct who as [i|]; cbn [cstep] in Hs.
  - destruct (nth_error (c_tasks s) i) as [k|] eqn:Hk; [|discriminate]. destruct (tstep O E k (c_mem s) (c_trace s)) as [[[k' m'] tr']|] eqn:Ht; [|discriminate]. injection Hs as <-.
    eapply IH; [|exact Hm|reflexivity]. cbn. rewrite Hw. eapply weights_upd; [exact Hk|]. eapply task_weight, Ht.
  - destruct (H s s' im Hm Hs) as [[H1 H2]|H1]; [|exact H1]. eapply IH; [|exact H1|reflexivity]. rewrite Hw. exact H2.
Qed.
Theorem all_terminate s : Acc next s.
Proof.
  remember (c_main s) as main eqn:Hm. symmetry in Hm. revert s Hm.
  induction main as [r|e f IH|i f IH|i f IH|i f IH|c x r u f IH|i f IH|f IH|l f IH|f IH]; apply acc_main; intros s s' im Hm H0; unfold mstep in H0; rewrite Hm in H0.
  - discriminate.
  - right. injection H0 as <-. eapply IH. reflexivity.
  - right. injection H0 as <-. eapply IH. reflexivity.
  - right. injection H0 as <-. eapply IH. reflexivity.
  - right. injection H0 as <-. eapply IH. reflexivity.
  - right. injection H0 as <-. eapply IH. reflexivity.
  - destruct (nth_error (c_tasks s) i) as [k|] eqn:Hk; [|right; injection H0 as <-; eapply IH; reflexivity].
    destruct (tk_ph k) eqn:Hph; try discriminate.
    + left. injection H0 as <-. cbn. split; [reflexivity|]. eapply weights_upd; [exact Hk|]. unfold weight. rewrite Hph. cbn. lia.
    + right. injection H0 as <-. eapply IH. reflexivity.
  - right. injection H0 as <-. eapply IH. reflexivity.
  - right. injection H0 as <-. eapply IH. reflexivity.
  - destruct (forallb settled (c_tasks s)); [|discriminate]. right. injection H0 as <-. eapply IH. reflexivity.
Qed.
End P.

(** ** The comparison with sequential evaluation *)
Section Q.
Context {X D : Type}.
Variable (O : dops D).
Variable (E : env X D).
Theorem schedule_independent ll b fuel sps gap ns sched r :
  pure_likelihood E ll ->
  let s := crun O E sched (cinit b fuel sps gap ns) in
  let '(t', r') := de_sample O E b fuel sps gap ns [] in
  c_main s = PRet r ->
  r = r' /\ visible (c_trace s) = visible t' /\
  exists lost, Permutation (evals t') (evals (c_trace s) ++ lost) /\ (r = RVal tt -> lost = []) /\ (forallb snd sched = true -> r = RExc -> lost = []).
Proof.
  intros HP. cbn zeta. destruct (de_sample O E b fuel sps gap ns []) as [t' r'] eqn:HS. intros Hm.
  set (q0 := {| q_cur := sps; q_next := sps; q_ll := ([] : list D); q_fut := [] |}).
  assert (H0 : Inv O E ll (length sps) (t', r') (forallb snd sched) (cinit b fuel sps gap ns)).
  { exists q0, [], []. cbn [cinit c_main c_trace c_tasks c_mem]. split; [rewrite <- HS; apply interp_sample; reflexivity|]. split; [reflexivity|]. split; [apply Permutation_refl|]. split; [intros _; split; [reflexivity|intros k []]|].
    left. split; [reflexivity|]. exists false, 0, 0. split; [apply disc_sample; reflexivity|]. constructor; cbn; auto; try lia; try congruence.
    - intros i k Hk. destruct i; discriminate.
    - intros i. destruct (nth_error (@nil (task X D)) i) eqn:Hk; [destruct i; discriminate|reflexivity].
    - intros i. destruct (nth_error (@nil (task X D)) i) eqn:Hk; [destruct i; discriminate|reflexivity].
    - intros i. destruct i; reflexivity. }
  assert (HI : Inv O E ll (length sps) (t', r') (forallb snd sched) (crun O E sched (cinit b fuel sps gap ns))) by (apply inv_run; auto).
  destruct HI as (q & t1 & lost & HR & HV & HE & Hnd & HD). rewrite Hm in HR. cbn in HR. injection HR as -> ->.
  split; [reflexivity|]. split; [congruence|]. exists (pend (c_tasks (crun O E sched (cinit b fuel sps gap ns))) ++ lost). split; [exact HE|].
  pose proof (sinv_no_task _ _ _ (sinv_run O E _ sched _ (sinv_init (length sps) b fuel sps gap ns eq_refl)) Hm) as HN.
  split.
  - intros ->. rewrite (HN (or_introl eq_refl)). cbn. destruct HD as [[Hl _]|[Hn _]]; [exact Hl|]. rewrite Hm in Hn. cbn in Hn. discriminate.
  - intros Hf ->. rewrite (HN (or_intror eq_refl)). cbn. apply Hnd, Hf.
Qed.
End Q.
