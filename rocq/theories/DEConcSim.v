(** Simulation of the asynchronous by the sequential execution. *)
From Coq Require Import Permutation.
From Verif Require Import Prelude ProducerModel DEConcModel DEConcSpec DEConcProofs DEConcDisc.
Local Open Scope nat_scope.

Lemma upd_app {T} (l1 l2 : list T) k v : upd (l1 ++ k :: l2) (length l1) v = l1 ++ v :: l2.
Proof. unfold upd. rewrite firstn_app, Nat.sub_diag, firstn_all, skipn_app, Nat.sub_diag, skipn_all. cbn. rewrite app_nil_r. reflexivity. Qed.

Section P.
Context {X D : Type}.
Variable (O : dops D).
Variable (E : env X D).
Variable ll : X -> option D.
Hypothesis HP : pure_likelihood E ll.
Variable nch : nat.
Variable R : trace X D * res unit.
Variable nd : bool.

Lemma visible_app (t t' : trace X D) : visible (t ++ t') = visible t ++ visible t'.
Proof. apply filter_app. Qed.
Lemma evals_app (t t' : trace X D) : evals (t ++ t') = evals t ++ evals t'.
Proof. apply flat_map_app. Qed.
Lemma answer_visible t t' e : visible t = visible t' -> answer E t e = answer E t' e.
Proof.
  destruct HP as [Hl Hv]. intros H. destruct (Hv t t' H) as (H1 & H2 & H3 & H4 & H5 & H6). destruct e; cbn.
  - rewrite H5. reflexivity.
  - rewrite H6. reflexivity.
  - rewrite !Hl. reflexivity.
  - apply H1.
  - apply H2.
  - rewrite H3. reflexivity.
  - rewrite H4. reflexivity.
Qed.

(** What a task will still do: write to next_samples, write to current_log_likelihoods, and the result of its future. *)
Definition decided (k : task X D) (m : @mem X D) (a : option D) : option X * option D * option bool :=
  match a with
  | None => (None, None, None)
  | Some l =>
    match nth_error (m_cur m) (tk_chain k), nth_error (m_ll m) (tk_chain k) with
    | Some cur, Some cur_ll => let '(acc, nx, nl) := de_decide O (tk_trial k) (tk_ratio k) (tk_u k) l cur cur_ll in (Some nx, Some nl, Some acc)
    | _, _ => (None, None, None)
    end
  end.
Definition out (k : task X D) (m : @mem X D) : option X * option D * option bool :=
  match tk_ph k with
  | TDeferred | TReady => decided k m (ll (tk_trial k))
  | TCalled a => decided k m a
  | TWriteNext acc x l => (Some x, l, Some acc)
  | TWriteLL acc l => (None, l, Some acc)
  | TDone r => (None, None, r)
  end.
Definition o_next (o : option X * option D * option bool) := fst (fst o).
Definition o_ll (o : option X * option D * option bool) := snd (fst o).
Definition o_fut (o : option X * option D * option bool) := snd o.
Definition over {T} (w : option T) (old : option T) : option T := match w with Some x => Some x | None => old end.
Definition is_done (k : task X D) : Prop := match tk_ph k with TDone _ => True | _ => False end.
Definition is_deferred (k : task X D) : bool := match tk_ph k with TDeferred => true | _ => false end.
Definition pending (k : task X D) : bool := match tk_ph k with TDeferred | TReady => true | _ => false end.
Definition pend (l : list (task X D)) : list X := map tk_trial (filter pending l).

Record Rel (q : qstate) (m : @mem X D) (ts : list (task X D)) (st : bool) (n g : nat) : Prop := {
  r_n : length ts = n;
  r_nch : n <= nch;
  r_g : g <= n;
  r_chain : forall i k, nth_error ts i = Some k -> tk_chain k = i;
  r_done : forall i k, i < g -> nth_error ts i = Some k -> is_done k;
  r_lcur : length (m_cur m) = nch;
  r_lnext : length (m_next m) = nch;
  r_lll : st = true -> length (m_ll m) = nch;
  r_st : n <> 0 -> st = true;
  r_cur : q_cur q = m_cur m;
  r_next : forall i, nth_error (q_next q) i = match nth_error ts i with Some k => over (o_next (out k m)) (nth_error (m_next m) i) | None => nth_error (m_next m) i end;
  r_ll : forall i, nth_error (q_ll q) i = match nth_error ts i with Some k => over (o_ll (out k m)) (nth_error (m_ll m) i) | None => nth_error (m_ll m) i end;
  r_fut : forall i, nth_error (q_fut q) i = match nth_error ts i with Some k => Some (o_fut (out k m)) | None => None end }.

Definition Q : bool -> nat -> nat -> res unit -> Prop := fun st n g r => unaborted r -> n = 0.

Definition Inv (s : @cstate X D) : Prop :=
  exists (q : qstate) (t' : trace X D) (lost : list X),
    fst (interp O E (c_main s) q t') = R /\ visible t' = visible (c_trace s) /\
    Permutation (evals t') (evals (c_trace s) ++ pend (c_tasks s) ++ lost) /\
    (nd = true -> lost = [] /\ forall k, In k (c_tasks s) -> is_deferred k = false) /\
    ((lost = [] /\ exists st n g, disc nch Q st n g (c_main s) /\ Rel q (c_mem s) (c_tasks s) st n g) \/ (noval (c_main s) /\ c_tasks s = [])).

Lemma in_upd {T} (l : list T) i v x : In x (upd l i v) -> x = v \/ In x l.
Proof.
  intros H. apply In_nth_error in H. destruct H as [j H]. rewrite upd_nth in H. destruct (j =? i).
  - destruct (i <? length l); [injection H as <-; auto|discriminate].
  - right. eapply nth_error_In, H.
Qed.
Lemma lt_nth {T} (l : list T) i x : nth_error l i = Some x -> i < length l.
Proof. intros H. apply nth_error_Some. congruence. Qed.

(** Replacing task [i] by one with the same outcome, with memory changed at cell [i] only. *)
Lemma rel_task q m ts st n g i k k' m' :
  Rel q m ts st n g -> nth_error ts i = Some k -> tk_chain k' = tk_chain k -> ~ is_done k ->
  m_cur m' = m_cur m -> length (m_next m') = length (m_next m) -> length (m_ll m') = length (m_ll m) ->
  (forall j, j <> i -> nth_error (m_next m') j = nth_error (m_next m) j) -> (forall j, j <> i -> nth_error (m_ll m') j = nth_error (m_ll m) j) ->
  over (o_next (out k' m')) (nth_error (m_next m') i) = over (o_next (out k m)) (nth_error (m_next m) i) ->
  over (o_ll (out k' m')) (nth_error (m_ll m') i) = over (o_ll (out k m)) (nth_error (m_ll m) i) ->
  o_fut (out k' m') = o_fut (out k m) ->
  Rel q m' (upd ts i k') st n g.
Proof.
  intros H Hi Hc Hnd Hm1 Hm2 Hm3 Hm4 Hm5 Ho1 Ho2 Ho3. pose proof (lt_nth _ _ _ Hi) as Hlt. apply Nat.ltb_lt in Hlt.
  assert (HO : forall j k0, j <> i -> nth_error ts j = Some k0 -> out k0 m' = out k0 m).
  { intros j k0 Hj Hk0. pose proof (r_chain _ _ _ _ _ _ H _ _ Hk0) as Hch. unfold out, decided. rewrite Hm1, Hch, Hm5 by exact Hj. reflexivity. }
  destruct H. constructor; try assumption.
  - rewrite upd_length. assumption.
  - intros j k0. rewrite upd_nth. destruct (Nat.eqb_spec j i) as [->|Hj]; [|apply r_chain0]. rewrite Hlt. intros [= <-]. rewrite Hc. eapply r_chain0, Hi.
  - intros j k0 Hj. rewrite upd_nth. destruct (Nat.eqb_spec j i) as [->|Hji]; [|apply r_done0; assumption]. exfalso. apply Hnd. eapply r_done0; [|exact Hi]. assumption.
  - congruence.
  - congruence.
  - rewrite Hm3. assumption.
  - congruence.
  - intros j. rewrite upd_nth. rewrite r_next0. destruct (Nat.eqb_spec j i) as [->|Hj].
    + rewrite Hlt, Hi. symmetry. exact Ho1.
    + destruct (nth_error ts j) as [k0|] eqn:Hk0; rewrite ?Hm4 by exact Hj; [|reflexivity]. rewrite (HO j k0 Hj Hk0). reflexivity.
  - intros j. rewrite upd_nth. rewrite r_ll0. destruct (Nat.eqb_spec j i) as [->|Hj].
    + rewrite Hlt, Hi. symmetry. exact Ho2.
    + destruct (nth_error ts j) as [k0|] eqn:Hk0; rewrite ?Hm5 by exact Hj; [|reflexivity]. rewrite (HO j k0 Hj Hk0). reflexivity.
  - intros j. rewrite upd_nth. rewrite r_fut0. destruct (Nat.eqb_spec j i) as [->|Hj].
    + rewrite Hlt, Hi. rewrite Ho3. reflexivity.
    + destruct (nth_error ts j) as [k0|] eqn:Hk0; [|reflexivity]. rewrite (HO j k0 Hj Hk0). reflexivity.
Qed.
Lemma pend_upd ts i (k k' : task X D) : nth_error ts i = Some k -> tk_trial k' = tk_trial k ->
  Permutation (pend ts ++ (if pending k' then [tk_trial k] else [])) (pend (upd ts i k') ++ (if pending k then [tk_trial k] else [])).
Proof.
  intros Hi Ht. apply nth_error_split in Hi. destruct Hi as (l1 & l2 & -> & <-). rewrite upd_app. unfold pend. rewrite !filter_app, !map_app. cbn [filter].
  destruct (pending k), (pending k'); cbn [map app]; rewrite ?app_nil_r, ?Ht; try reflexivity.
  - rewrite <- app_assoc. apply Permutation_app_head. apply (Permutation_cons_append (map tk_trial (filter pending l2)) (tk_trial k)).
  - symmetry. rewrite <- app_assoc. apply Permutation_app_head. apply (Permutation_cons_append (map tk_trial (filter pending l2)) (tk_trial k)).
Qed.

Lemma over_same {T} (a : option T) : over a a = a.
Proof. destruct a; reflexivity. Qed.

Lemma inv_task s i k k' m' tr' : Inv s -> nth_error (c_tasks s) i = Some k -> tstep O E k (c_mem s) (c_trace s) = Some (k', m', tr') ->
  Inv {| c_mem := m'; c_tasks := upd (c_tasks s) i k'; c_main := c_main s; c_trace := tr' |}.
Proof.
  intros (q & t' & lost & HR & HV & HE & Hnd & HD) Hi Hs. exists q, t', lost. cbn [c_mem c_tasks c_main c_trace].
  split; [exact HR|].
  destruct HD as [(Hl & st & n & g & Hdisc & HRel)|[_ Hts]]; [|rewrite Hts in Hi; destruct i; discriminate].
  pose proof (r_chain _ _ _ _ _ _ HRel _ _ Hi) as Hch.
  pose proof (lt_nth _ _ _ Hi) as Hlt. assert (HiN : i < nch) by (destruct HRel; lia).
  assert (Hst : st = true) by (apply (r_st _ _ _ _ _ _ HRel); destruct HRel; lia).
  assert (Hk' : tk_chain k' = tk_chain k /\ tk_trial k' = tk_trial k /\ is_deferred k' = false /\ ~ is_done k /\
    (pending k' = pending k \/ (pending k' = false /\ pending k = true)) /\ visible tr' = visible (c_trace s) /\
    evals tr' = evals (c_trace s) ++ (if pending k then if pending k' then [] else [tk_trial k] else []) /\
    m_cur m' = m_cur (c_mem s) /\ length (m_next m') = length (m_next (c_mem s)) /\ length (m_ll m') = length (m_ll (c_mem s)) /\
    (forall j, j <> i -> nth_error (m_next m') j = nth_error (m_next (c_mem s)) j) /\ (forall j, j <> i -> nth_error (m_ll m') j = nth_error (m_ll (c_mem s)) j) /\
    over (o_next (out k' m')) (nth_error (m_next m') i) = over (o_next (out k (c_mem s))) (nth_error (m_next (c_mem s)) i) /\
    over (o_ll (out k' m')) (nth_error (m_ll m') i) = over (o_ll (out k (c_mem s))) (nth_error (m_ll (c_mem s)) i) /\
    o_fut (out k' m') = o_fut (out k (c_mem s))).
  { destruct k as [c x r u ph]. cbn in Hch. subst c. unfold tstep in Hs. unfold is_done, pending, is_deferred, out. cbn [tk_chain tk_trial tk_ph tk_ratio tk_u] in *.
    destruct ph as [| |[l|]|acc nx l|acc l|res].
    - discriminate.
    - injection Hs as <- <- <-. cbn. rewrite visible_app, evals_app. cbn. rewrite app_nil_r. destruct HP as [Hll _]. rewrite Hll. repeat split; auto.
    - destruct (nth_error (m_cur (c_mem s)) i) as [xc|] eqn:Ec; [|discriminate]. destruct (nth_error (m_ll (c_mem s)) i) as [lc|] eqn:El; [|discriminate].
      unfold de_decide in Hs. unfold decided, de_decide. cbn [tk_chain tk_trial tk_ratio tk_u]. rewrite Ec, El.
      destruct (d_ge O _ u); injection Hs as <- <- <-; cbn; rewrite app_nil_r; repeat split; auto.
    - injection Hs as <- <- <-. cbn. rewrite app_nil_r; repeat split; auto.
    - injection Hs as <- <- <-. cbn [with_ph tk_chain tk_trial tk_ph m_cur m_next m_ll o_next o_ll o_fut fst snd over]. rewrite upd_length, app_nil_r. repeat split; auto.
      + intros j Hj. apply upd_nth_other, Hj.
      + apply upd_nth_in. rewrite (r_lnext _ _ _ _ _ _ HRel). exact HiN.
    - injection Hs as <- <- <-. cbn [with_ph tk_chain tk_trial tk_ph m_cur m_next m_ll o_next o_ll o_fut fst snd over]. rewrite app_nil_r. repeat split; auto.
      + destruct l; [apply upd_length|reflexivity].
      + intros j Hj. destruct l; [apply upd_nth_other, Hj|reflexivity].
      + destruct l; [|reflexivity]. cbn. apply upd_nth_in. rewrite (r_lll _ _ _ _ _ _ HRel Hst). exact HiN.
    - discriminate. }
  destruct Hk' as (K1 & K2 & K3 & K4 & K5 & K6 & K7 & K8 & K9 & K10 & K11 & K12 & K13 & K14 & K15).
  split; [congruence|]. split.
  { rewrite K7. pose proof (pend_upd _ _ _ k' Hi K2) as HPu. rewrite HE. rewrite <- app_assoc. apply Permutation_app_head.
    destruct K5 as [K5|[K5 K5']].
    - rewrite K5 in *. replace (if pending k then if pending k then [] else [tk_trial k] else []) with (@nil X) by (destruct (pending k); reflexivity). cbn. apply Permutation_app_tail.
      eapply Permutation_app_inv_r, HPu.
    - rewrite K5, K5' in *. rewrite app_nil_r in HPu. rewrite HPu. rewrite app_assoc. apply Permutation_app_tail. apply Permutation_app_comm. }
  split.
  { intros H. destruct (Hnd H) as [H1 H2]. split; [exact H1|]. intros k0 H0. apply in_upd in H0. destruct H0 as [->|H0]; [exact K3|apply H2, H0]. }
  left. split; [exact Hl|]. exists st, n, g. split; [exact Hdisc|]. eapply rel_task; eassumption.
Qed.

Lemma all_done_next q m ts st n : Rel q m ts st n n -> q_next q = m_next m /\ q_ll q = m_ll m.
Proof.
  intros H. assert (HD : forall i k, nth_error ts i = Some k -> is_done k).
  { intros i k Hk. eapply (r_done _ _ _ _ _ _ H); [|exact Hk]. rewrite <- (r_n _ _ _ _ _ _ H). eapply lt_nth, Hk. }
  split; apply nth_ext; intros i.
  - rewrite (r_next _ _ _ _ _ _ H). destruct (nth_error ts i) as [k|] eqn:Hk; [|reflexivity]. specialize (HD i k Hk). unfold is_done, out in *. destruct (tk_ph k); try contradiction. reflexivity.
  - rewrite (r_ll _ _ _ _ _ _ H). destruct (nth_error ts i) as [k|] eqn:Hk; [|reflexivity]. specialize (HD i k Hk). unfold is_done, out in *. destruct (tk_ph k); try contradiction. reflexivity.
Qed.
Lemma pend_done ts : (forall k, In k ts -> is_done k) -> pend ts = [].
Proof.
  intros H. unfold pend. replace (filter pending ts) with (@nil (task X D)); [reflexivity|]. induction ts as [|k ts IH]; [reflexivity|]. cbn.
  specialize (H k (or_introl eq_refl)) as Hk. unfold is_done in Hk. unfold pending at 1. destruct (tk_ph k); try contradiction. apply IH. intros k0 H0. apply H. right. exact H0.
Qed.

Lemma inv_main im s s' : Inv s -> (nd = true -> im = true) -> mstep E im s = Some s' -> Inv s'.
Proof.
  intros (q & t' & lost & HR & HV & HE & Hnd & HD) Him Hs. destruct s as [m ts main tr]. cbn [c_mem c_tasks c_main c_trace] in *. unfold mstep in Hs. cbn [c_mem c_tasks c_main c_trace] in Hs.
  destruct main as [r|e f|i f|i f|i f|c x r u f|i f|f|l f|f].
  - discriminate.
  - injection Hs as <-. exists q, (t' ++ [e]), lost. cbn [c_mem c_tasks c_main c_trace]. cbn [interp] in HR.
    rewrite (answer_visible _ _ e HV) in HR. split; [exact HR|]. rewrite !visible_app, HV. split; [reflexivity|]. rewrite !evals_app. split; [|split; [exact Hnd|]].
    + rewrite HE. rewrite <- !app_assoc. apply Permutation_app_head. rewrite app_assoc. apply Permutation_app_comm.
    + destruct HD as [(Hl & st & n & g & Hdisc & HRel)|[Hn Hts]]; [left|right].
      * split; [exact Hl|]. exists st, n, g. split; [apply Hdisc|exact HRel].
      * split; [apply Hn|exact Hts].
  - injection Hs as <-. exists q, t', lost. cbn [c_mem c_tasks c_main c_trace]. destruct HD as [(Hl & st & n & g & Hdisc & HRel)|[[] Hts]].
    cbn [interp] in HR. rewrite (r_cur _ _ _ _ _ _ HRel) in HR. repeat (split; [assumption|]). left. split; [exact Hl|]. exists st, n, g. split; [apply Hdisc|exact HRel].
  - injection Hs as <-. exists q, t', lost. cbn [c_mem c_tasks c_main c_trace]. destruct HD as [(Hl & st & n & g & Hdisc & HRel)|[[] Hts]].
    destruct Hdisc as [Hig Hdisc]. cbn [interp] in HR.
    assert (Hn : nth_error (q_next q) i = nth_error (m_next m) i).
    { rewrite (r_next _ _ _ _ _ _ HRel). destruct (nth_error ts i) as [k|] eqn:Hk; [|reflexivity]. pose proof (r_done _ _ _ _ _ _ HRel _ _ Hig Hk) as Hdn. unfold is_done, out in *. destruct (tk_ph k); try contradiction. reflexivity. }
    rewrite Hn in HR. repeat (split; [assumption|]). left. split; [exact Hl|]. exists st, n, g. split; [apply Hdisc|exact HRel].
  - injection Hs as <-. exists q, t', lost. cbn [c_mem c_tasks c_main c_trace]. destruct HD as [(Hl & st & n & g & Hdisc & HRel)|[[] Hts]].
    destruct Hdisc as [Hig Hdisc]. cbn [interp] in HR.
    assert (Hn : nth_error (q_ll q) i = nth_error (m_ll m) i).
    { rewrite (r_ll _ _ _ _ _ _ HRel). destruct (nth_error ts i) as [k|] eqn:Hk; [|reflexivity]. pose proof (r_done _ _ _ _ _ _ HRel _ _ Hig Hk) as Hdn. unfold is_done, out in *. destruct (tk_ph k); try contradiction. reflexivity. }
    rewrite Hn in HR. repeat (split; [assumption|]). left. split; [exact Hl|]. exists st, n, g. split; [apply Hdisc|exact HRel].
  - (* PSpawn *) injection Hs as <-. destruct HD as [(Hl & st & n & g & Hdisc & HRel)|[[] Hts]].
    destruct Hdisc as (-> & -> & Hc & -> & Hdisc). cbn [interp] in HR. destruct HP as [Hll _]. rewrite Hll in HR. clear Hll.
    set (k0 := {| tk_chain := n; tk_trial := x; tk_ratio := r; tk_u := u; tk_ph := if im then TReady else TDeferred |}).
    assert (Hno : nth_error ts n = None) by (apply nth_error_None; rewrite (r_n _ _ _ _ _ _ HRel); lia).
    assert (Hmid : forall j, nth_error (ts ++ [k0]) j = if j =? n then Some k0 else nth_error ts j).
    { intros j. pose proof (r_n _ _ _ _ _ _ HRel) as Hn. destruct (Nat.eqb_spec j n) as [->|Hj].
      - rewrite nth_error_app2, Hn, Nat.sub_diag by lia. reflexivity.
      - destruct (Nat.lt_ge_cases j n); [apply nth_error_app1; lia|]. rewrite nth_error_app2 by lia. destruct (j - length ts) as [|[|y]] eqn:Ey; [lia|cbn; symmetry; apply nth_error_None; lia|cbn; symmetry; apply nth_error_None; lia]. }
    assert (Ho : out k0 m = decided k0 m (ll x)) by (unfold out; cbn; destruct im; reflexivity).
    destruct (nth_error (m_cur m) n) as [xc|] eqn:Exc; [|apply nth_error_None in Exc; destruct HRel; lia].
    destruct (nth_error (m_ll m) n) as [lc|] eqn:Elc; [|apply nth_error_None in Elc; pose proof (r_lll _ _ _ _ _ _ HRel eq_refl); lia].
    assert (HQ : exists q', qspawn O n x r u q (ll x) = Some q' /\ Rel q' m (ts ++ [k0]) true (S n) 0).
    { assert (Hql : nth_error (q_ll q) n = Some lc) by (rewrite (r_ll _ _ _ _ _ _ HRel), Hno; exact Elc).
      assert (Hqn : length (q_next q) <> 0 -> True) by auto.
      assert (Hqx : exists xn, nth_error (q_next q) n = Some xn).
      { rewrite (r_next _ _ _ _ _ _ HRel), Hno. destruct (nth_error (m_next m) n) eqn:Exn; [eauto|]. apply nth_error_None in Exn. destruct HRel; lia. }
      destruct Hqx as [xn Hqx].
      assert (Hfl : length (q_fut q) = n).
      { pose proof (r_fut _ _ _ _ _ _ HRel) as HF. pose proof (HF n) as HFn. rewrite Hno in HFn. apply nth_error_None in HFn.
        destruct n as [|n']; [lia|]. pose proof (HF n') as HF'. destruct (nth_error ts n') eqn:Et; [apply lt_nth in HF'; lia|]. apply nth_error_None in Et. rewrite (r_n _ _ _ _ _ _ HRel) in Et. lia. }
      assert (Hfut : forall o j, nth_error (q_fut q ++ [o]) j = if j =? n then Some o else nth_error (q_fut q) j).
      { intros o j. destruct (Nat.eqb_spec j n) as [->|Hj].
        - rewrite nth_error_app2, Hfl, Nat.sub_diag by lia. reflexivity.
        - destruct (Nat.lt_ge_cases j n); [apply nth_error_app1; lia|]. rewrite nth_error_app2 by lia. destruct (j - length (q_fut q)) as [|[|y]] eqn:Ey; [lia|cbn; symmetry; apply nth_error_None; lia|cbn; symmetry; apply nth_error_None; lia]. }
      assert (HB : forall q', q_cur q' = q_cur q -> 
         (forall j, nth_error (q_next q') j = if j =? n then over (o_next (decided k0 m (ll x))) (nth_error (m_next m) n) else nth_error (q_next q) j) ->
         (forall j, nth_error (q_ll q') j = if j =? n then over (o_ll (decided k0 m (ll x))) (nth_error (m_ll m) n) else nth_error (q_ll q) j) ->
         (forall j, nth_error (q_fut q') j = if j =? n then Some (o_fut (decided k0 m (ll x))) else nth_error (q_fut q) j) -> Rel q' m (ts ++ [k0]) true (S n) 0).
      { intros q' B1 B2 B3 B4. destruct HRel. constructor; auto; try lia.
        - rewrite app_length. cbn. lia.
        - intros j k. rewrite Hmid. destruct (Nat.eqb_spec j n) as [->|Hj]; [intros [= <-]; reflexivity|apply r_chain0].
        - congruence.
        - intros j. rewrite B2, Hmid. destruct (Nat.eqb_spec j n) as [->|Hj]; [rewrite Ho; reflexivity|apply r_next0].
        - intros j. rewrite B3, Hmid. destruct (Nat.eqb_spec j n) as [->|Hj]; [rewrite Ho; reflexivity|apply r_ll0].
        - intros j. rewrite B4, Hmid. destruct (Nat.eqb_spec j n) as [->|Hj]; [rewrite Ho; reflexivity|apply r_fut0]. }
      unfold qspawn, decided in *. cbn [tk_chain tk_trial tk_ratio tk_u k0] in *. destruct (ll x) as [l|].
      - rewrite (r_cur _ _ _ _ _ _ HRel), Exc, Hql. rewrite Elc in HB. rewrite Exc in HB. destruct (de_decide O x r u l xc lc) as [[acc nx] nl]. eexists. split; [reflexivity|].
        apply HB; cbn [q_cur q_next q_ll q_fut o_next o_ll o_fut fst snd over].
        + symmetry. apply (r_cur _ _ _ _ _ _ HRel).
        + intros j. rewrite upd_nth. apply lt_nth in Hqx. apply Nat.ltb_lt in Hqx. rewrite Hqx. reflexivity.
        + intros j. rewrite upd_nth. apply lt_nth in Hql. apply Nat.ltb_lt in Hql. rewrite Hql. reflexivity.
        + apply Hfut.
      - eexists. split; [reflexivity|]. apply HB; cbn [q_cur q_next q_ll q_fut o_next o_ll o_fut fst snd over].
        + reflexivity.
        + intros j. destruct (Nat.eqb_spec j n) as [->|Hj]; [|reflexivity]. rewrite (r_next _ _ _ _ _ _ HRel), Hno. reflexivity.
        + intros j. destruct (Nat.eqb_spec j n) as [->|Hj]; [|reflexivity]. congruence.
        + apply Hfut. }
    destruct HQ as (q' & HQ & HRel'). rewrite HQ in HR. exists q', (t' ++ [EEval x]), lost. cbn [c_mem c_tasks c_main c_trace].
    split; [exact HR|]. rewrite visible_app, evals_app. cbn. rewrite app_nil_r. split; [exact HV|]. split; [|split].
    + unfold pend. rewrite filter_app, map_app. assert (Hp : pending k0 = true) by (unfold pending, k0; cbn; destruct im; reflexivity). cbn [filter]. rewrite Hp. cbn.
      rewrite HE. unfold pend. rewrite <- !app_assoc. do 2 apply Permutation_app_head. apply Permutation_app_comm.
    + intros H. destruct (Hnd H) as [H1 H2]. split; [exact H1|]. intros k Hk. apply in_app_or in Hk. destruct Hk as [Hk|[<-|[]]]; [apply H2, Hk|]. unfold k0, is_deferred. cbn. rewrite (Him H). reflexivity.
    + left. split; [exact Hl|]. exists true, (S n), 0. split; [exact Hdisc|exact HRel'].
  - (* PGet *) destruct HD as [(Hl & st & n & g & Hdisc & HRel)|[[] Hts]]. destruct Hdisc as (-> & Hd1 & Hd2). cbn [interp] in HR.
    pose proof (r_fut _ _ _ _ _ _ HRel g) as HF.
    destruct (nth_error ts g) as [k|] eqn:Hk.
    + pose proof (lt_nth _ _ _ Hk) as Hlt. rewrite (r_n _ _ _ _ _ _ HRel) in Hlt.
      destruct (tk_ph k) as [| |a|acc nx l|acc l|res] eqn:Hph; try discriminate.
      * injection Hs as <-. exists q, t', lost. cbn [c_mem c_tasks c_main c_trace interp]. split; [exact HR|]. split; [exact HV|]. split; [|split].
        -- rewrite HE. apply Permutation_app_head, Permutation_app_tail. pose proof (pend_upd ts g k (with_ph k TReady) Hk eq_refl) as HPu.
           assert (Hpk : pending k = true) by (unfold pending; rewrite Hph; reflexivity). rewrite Hpk in HPu. change (pending (with_ph k TReady)) with true in HPu. eapply Permutation_app_inv_r, HPu.
        -- intros H. destruct (Hnd H) as [H1 H2]. split; [exact H1|]. intros k0 Hk0. apply in_upd in Hk0. destruct Hk0 as [->|Hk0]; [reflexivity|apply H2, Hk0].
        -- left. split; [exact Hl|]. exists st, n, g. split; [cbn [disc]; auto|].
           eapply rel_task; try exact HRel; try exact Hk; try reflexivity; unfold is_done, out; rewrite ?Hph; auto.
      * injection Hs as <-. exists q, t', lost. cbn [c_mem c_tasks c_main c_trace]. unfold out in HF. rewrite Hph in HF. cbn in HF. rewrite HF in HR.
        repeat (split; [assumption|]). left. split; [exact Hl|]. exists st, n, (S g). split; [apply Hd2; exact Hlt|].
        destruct HRel. constructor; auto. intros i k0 Hi Hk0. destruct (Nat.eq_dec i g) as [->|]; [|eapply r_done0; [|exact Hk0]; lia]. assert (k0 = k) by congruence. subst k0. unfold is_done. rewrite Hph. exact I.
    + injection Hs as <-. exists q, t', lost. cbn [c_mem c_tasks c_main c_trace]. rewrite HF in HR. repeat (split; [assumption|]). left. split; [exact Hl|]. exists st, n, g. split; [|exact HRel].
      apply Hd1. apply nth_error_None in Hk. rewrite (r_n _ _ _ _ _ _ HRel) in Hk. exact Hk.
  - (* PCopy *) injection Hs as <-. destruct HD as [(Hl & st & n & g & Hdisc & HRel)|[[] Hts]]. destruct Hdisc as [-> Hdisc]. cbn [interp] in HR.
    destruct (all_done_next _ _ _ _ _ HRel) as [Hn1 Hn2]. eexists. exists t', lost. cbn [c_mem c_tasks c_main c_trace]. split; [exact HR|]. repeat (split; [assumption|]). left. split; [exact Hl|]. exists st, n, n. split; [exact Hdisc|].
    assert (HDn : forall i k, nth_error ts i = Some k -> is_done k).
    { intros i k Hk. eapply (r_done _ _ _ _ _ _ HRel); [|exact Hk]. rewrite <- (r_n _ _ _ _ _ _ HRel). eapply lt_nth, Hk. }
    destruct HRel. constructor; cbn [m_cur m_next m_ll q_cur q_next q_ll q_fut]; auto.
    * intros i. rewrite r_next0. destruct (nth_error ts i) as [k|] eqn:Hk; [|reflexivity]. specialize (HDn i k Hk). unfold is_done, out in *. destruct (tk_ph k); try contradiction. reflexivity.
    * intros i. rewrite r_ll0. destruct (nth_error ts i) as [k|] eqn:Hk; [|reflexivity]. specialize (HDn i k Hk). unfold is_done, out in *. destruct (tk_ph k); try contradiction. reflexivity.
    * intros i. rewrite r_fut0. destruct (nth_error ts i) as [k|] eqn:Hk; [|reflexivity]. specialize (HDn i k Hk). unfold is_done, out in *. destruct (tk_ph k); try contradiction. reflexivity.
  - (* PStart *) injection Hs as <-. destruct HD as [(Hl & st & n & g & Hdisc & HRel)|[[] Hts]]. destruct Hdisc as (-> & Hlen & Hdisc). cbn [interp] in HR.
    eexists. exists t', lost. cbn [c_mem c_tasks c_main c_trace]. split; [exact HR|]. repeat (split; [assumption|]). left. split; [exact Hl|]. exists true, 0, g. split; [exact Hdisc|].
    assert (ts = []) by (apply length_zero_iff_nil, (r_n _ _ _ _ _ _ HRel)). subst ts.
    destruct HRel. constructor; cbn [m_cur m_next m_ll q_cur q_next q_ll q_fut]; auto.
    * intros i. rewrite r_next0. destruct (nth_error (@nil (task X D)) i) eqn:Hk; [destruct i; discriminate|reflexivity].
    * intros i. destruct (nth_error (@nil (task X D)) i) eqn:Hk; [destruct i; discriminate|reflexivity].
    * intros i. rewrite r_fut0. destruct (nth_error (@nil (task X D)) i) eqn:Hk; [destruct i; discriminate|reflexivity].
  - (* PJoin *) destruct (forallb settled ts) eqn:Hset; [|discriminate]. injection Hs as <-. rewrite forallb_forall in Hset. cbn [interp] in HR.
    destruct HD as [(Hl & st & n & g & Hdisc & HRel)|[Hn Hts]].
    + destruct Hdisc as [Hor Hdisc]. destruct Hor as [->|Hnv].
      * destruct (all_done_next _ _ _ _ _ HRel) as [Hn1 Hn2]. eexists. exists t', lost. cbn [c_mem c_tasks c_main c_trace]. split; [exact HR|]. split; [exact HV|]. split; [|split].
        -- rewrite pend_done in HE; [exact HE|]. intros k Hk. apply In_nth_error in Hk. destruct Hk as [i Hk]. eapply (r_done _ _ _ _ _ _ HRel); [|exact Hk]. rewrite <- (r_n _ _ _ _ _ _ HRel). eapply lt_nth, Hk.
        -- intros H. split; [apply Hnd, H|]. intros k [].
        -- left. split; [exact Hl|]. exists st, 0, 0. split; [exact Hdisc|].
           destruct HRel. constructor; cbn [m_cur m_next m_ll q_cur q_next q_ll q_fut]; auto; try lia; try congruence.
           ++ intros i k Hk. destruct i; discriminate.
           ++ intros i. rewrite Hn1. destruct i; reflexivity.
           ++ intros i. rewrite Hn2. destruct i; reflexivity.
           ++ intros i. destruct i; reflexivity.
      * subst lost. eexists. exists t', (pend ts). cbn [c_mem c_tasks c_main c_trace]. split; [exact HR|]. split; [exact HV|]. split; [|split].
        -- cbn. rewrite app_nil_r in HE. exact HE.
        -- intros H. destruct (Hnd H) as [_ H2]. split; [|intros k []]. apply pend_done. intros k Hk. specialize (Hset k Hk). specialize (H2 k Hk). unfold settled, is_deferred, is_done in *. destruct (tk_ph k); try discriminate. exact I.
        -- right. split; [exact Hnv|reflexivity].
    + subst ts. eexists. exists t', lost. cbn [c_mem c_tasks c_main c_trace]. split; [exact HR|]. repeat (split; [assumption|]). right. split; [exact Hn|reflexivity].
Qed.
Lemma inv_step im who s s' : Inv s -> (nd = true -> im = true) -> cstep O E im who s = Some s' -> Inv s'.
Proof.
  intros HI Him Hs. destruct who as [i|]; cbn [cstep] in Hs; [|eapply inv_main; eassumption].
  destruct (nth_error (c_tasks s) i) as [k|] eqn:Hk; [|discriminate]. destruct (tstep O E k (c_mem s) (c_trace s)) as [[[k' m'] tr']|] eqn:Ht; [|discriminate]. injection Hs as <-. eapply inv_task; eassumption.
Qed.
Lemma inv_run sched : forall s, Inv s -> (nd = true -> forallb snd sched = true) -> Inv (crun O E sched s).
Proof.
  induction sched as [|[who im] sched IH]; intros s HI Hn; cbn [crun]; [exact HI|].
  assert (H1 : nd = true -> im = true) by (intros H; specialize (Hn H); cbn in Hn; apply andb_prop in Hn; tauto).
  assert (H2 : nd = true -> forallb snd sched = true) by (intros H; specialize (Hn H); cbn in Hn; apply andb_prop in Hn; tauto).
  destruct (cstep O E im who s) eqn:Hs; [|apply IH; assumption]. apply IH; [|exact H2]. eapply inv_step; [exact HI|exact H1|exact Hs].
Qed.
End P.
