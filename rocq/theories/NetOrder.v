(** The network does exactly what the reference semantics of NetOrderSpec says. *)
From Verif Require Import Prelude NetModel NetSpec NetProofs NetEmit NetHist NetIso NetOrderSpec.
Local Open Scope nat_scope.

Section Order.
Context {X St : Type}.
Variable filt : nat -> option (St -> X -> outcome (St * option X)).
Implicit Types (n m : net X St).

Definition ew (e : entry) : wire := (e_sample e, e_prod e, e_cons e).
Definition wires n : list wire := map ew (n_map n).
Definition keeps n n' : Prop := same n n' /\ n_st n' = n_st n.

(** ** Flushing *)
Lemma flush_exact fuel : forall n p n', Inv n -> flush_sig filt fuel n p = Ok n' ->
  keeps n n' /\ n_log n' = n_log n ++ map EFlush (flush_order filt fuel (wires n) p).
Proof.
  induction fuel as [|fuel IH]; intros n p n' I H; [discriminate|]. cbn [flush_sig] in H. rewrite (inv_flush n I), slots_of_map in H. cbn [flush_order].
  assert (HG : forall es n1 n2, same n n1 -> Inv n1 -> flush_all filt (flush_sig filt fuel) n1 (map mk (filter (fun e => e_prod e =? p) es)) = Ok n2 ->
    keeps n1 n2 /\ n_log n2 = n_log n1 ++ map EFlush (flat_map (fun w => if w_from w =? p then w_to w :: (match filt (w_to w) with None => [] | Some _ => flush_order filt fuel (wires n) (w_to w) end) else []) (map ew es))).
  { induction es as [|e es IHe]; intros n1 n2 S1 I1 H1; cbn [filter map flat_map] in *.
    - injection H1 as <-. split; [split; [apply same_refl|reflexivity]|rewrite app_nil_r; reflexivity].
    - unfold w_from, w_to at 1 2 3. cbn [ew fst snd]. destruct (e_prod e =? p); [|apply IHe; assumption].
      cbn [map flush_all mk s_cons] in H1. destruct (dead n1 (e_cons e)); [discriminate|]. unfold flush_one in H1. cbv zeta in H1.
      assert (S2 : same n1 (log (EFlush (e_cons e)) n1)) by apply same_log.
      destruct (filt (e_cons e)) as [f|] eqn:Hf.
      + destruct (flush_sig filt fuel (log (EFlush (e_cons e)) n1) (e_cons e)) as [n3| | |] eqn:E3; try discriminate. cbn [bind] in H1.
        destruct (IH _ _ _ (Inv_same _ _ S2 I1) E3) as ([S3 T3] & L3).
        assert (W : wires (log (EFlush (e_cons e)) n1) = wires n) by (unfold wires; rewrite <- (same_map _ _ S1); reflexivity). rewrite W in L3.
        pose proof (same_trans _ _ _ S2 S3) as S4. destruct (IHe n3 n2 (same_trans _ _ _ S1 S4) (Inv_same _ _ S4 I1) H1) as ([S5 T5] & L5).
        split; [split; [eapply same_trans; eassumption|rewrite T5, T3; reflexivity]|]. rewrite L5, L3. cbn [log n_log map app]. rewrite map_app. cbn [app]. rewrite <- !app_assoc. reflexivity.
      + cbn [bind] in H1. destruct (IHe _ n2 (same_trans _ _ _ S1 S2) (Inv_same _ _ S2 I1) H1) as ([S5 T5] & L5).
        split; [split; [eapply same_trans; eassumption|rewrite T5; reflexivity]|]. rewrite L5. cbn [log n_log map app]. rewrite <- !app_assoc. reflexivity. }
  apply (HG (n_map n) n n' (same_refl n) I H).
Qed.
Lemma flush_one_exact fuel n c n' : Inv n -> flush_one filt (flush_sig filt fuel) n c = Ok n' ->
  keeps n n' /\ n_log n' = n_log n ++ map EFlush (flush_from filt fuel (wires n) c).
Proof.
  intros I H. unfold flush_one in H. cbv zeta in H. assert (S2 : same n (log (EFlush c) n)) by apply same_log. unfold flush_from.
  destruct (filt c) as [f|].
  - destruct (flush_exact fuel _ _ _ (Inv_same _ _ S2 I) H) as ([S3 T3] & L3). split; [split; [eapply same_trans; eassumption|rewrite T3; reflexivity]|].
    rewrite L3. cbn [log n_log map app]. rewrite <- app_assoc. reflexivity.
  - injection H as <-. split; [split; [exact S2|reflexivity]|]. reflexivity.
Qed.

(** ** Sending *)
Definition stepw (fuel : nat) (ws : list wire) (p : nat) (x : X) : (nat -> St) * list (event X) -> wire -> (nat -> St) * list (event X) :=
  fun '(st, D) (w : wire) =>
      if w_from w =? p then
        let c := w_to w in
        let D1 := D ++ [ERecv (fst (fst w)) c x] in
        match filt c with
        | None => (st, D1)
        | Some f =>
          match f (st c) x with
          | Ok (s', o) =>
            let st1 := fun j => if j =? c then s' else st j in
            match o with
            | None => (st1, D1)
            | Some y => let (st2, D2) := send filt fuel ws st1 c y in (st2, D1 ++ D2)
            end
          | _ => (st, D1)
          end
        end
      else (st, D).
Lemma issue_exact fuel : forall n p x n', Inv n -> issue filt fuel n p x = Ok n' ->
  same n n' /\ exists D, send filt fuel (wires n) (n_st n) p x = (n_st n', D) /\ n_log n' = n_log n ++ D.
Proof.
  induction fuel as [|fuel IH]; intros n p x n' I H; [discriminate|]. cbn [issue] in H. cbn [send].
  set (n0 := log (EIssue p x) n) in *. assert (S0 : same n n0) by apply same_log. assert (I0 : Inv n0) by (eapply Inv_same; eassumption).
  rewrite (inv_sample n0 I0), slots_of_map in H.
  assert (HG : forall es n1 n2 D0, (forall e, In e es -> In e (n_map n)) -> same n n1 -> Inv n1 -> deliver_all filt (issue filt fuel) n1 (map mk (filter (fun e => e_prod e =? p) es)) x = Ok n2 ->
    same n1 n2 /\ exists D, fold_left (stepw fuel (wires n) p x) (map ew es) (n_st n1, D0) = (n_st n2, D0 ++ D) /\ n_log n2 = n_log n1 ++ D).
  { induction es as [|e es IHe]; intros n1 n2 D0 Hin S1 I1 H1; cbn [filter map fold_left] in *.
    - injection H1 as <-. split; [apply same_refl|]. exists []. rewrite !app_nil_r. split; reflexivity.
    - cbn [stepw]. unfold w_from, w_to. cbn [ew fst snd]. assert (Hin' : forall e0, In e0 es -> In e0 (n_map n)) by (intros; apply Hin; right; assumption).
      destruct (e_prod e =? p); [|apply IHe; assumption].
      cbn [map deliver_all] in H1. unfold deliver in H1 at 1. cbn [mk s_cons s_conn] in H1. destruct (dead n1 (e_cons e)) eqn:Hdd; [discriminate|].
      assert (He : In e (entries_of n1 (e_cons e))).
      { unfold entries_of. apply filter_In. split; [rewrite (same_map _ _ S1); apply Hin; left; reflexivity|apply Nat.eqb_refl]. }
      destruct (entries_of n1 (e_cons e)) as [|e0 l0]; [contradiction|]. clear He.
      set (n1' := log (ERecv (e_sample e) (e_cons e) x) n1) in *. cbv zeta in H1.
      assert (S2 : same n1 n1') by apply same_log.
      destruct (filt (e_cons e)) as [f|] eqn:Hf.
      + change (n_st n1' (e_cons e)) with (n_st n1 (e_cons e)) in H1. destruct (f (n_st n1 (e_cons e)) x) as [[s' o]| | |]; try discriminate. cbn [bind] in H1.
        set (n2' := set_st (e_cons e) s' n1') in *. assert (S3 : same n1 n2') by (eapply same_trans; [exact S2|apply same_set_st]).
        destruct o as [y|].
        * destruct (issue filt fuel n2' (e_cons e) y) as [n3| | |] eqn:E3; try discriminate. cbn [bind] in H1.
          destruct (IH _ _ _ _ (Inv_same _ _ S3 I1) E3) as (S4 & D3 & HD3 & L3).
          assert (W : wires n2' = wires n) by (unfold wires; rewrite <- (same_map _ _ S1); reflexivity). rewrite W in HD3.
          pose proof (same_trans _ _ _ S3 S4) as S5.
          destruct (IHe n3 n2 ((D0 ++ [ERecv (e_sample e) (e_cons e) x]) ++ D3) Hin' (same_trans _ _ _ S1 S5) (Inv_same _ _ S5 I1) H1) as (S6 & D6 & HD6 & L6).
          split; [eapply same_trans; eassumption|]. exists (ERecv (e_sample e) (e_cons e) x :: D3 ++ D6). split.
          -- change (n_st n2') with (fun j => if j =? e_cons e then s' else n_st n1 j) in HD3. rewrite HD3. rewrite HD6. f_equal. rewrite <- !app_assoc. reflexivity.
          -- rewrite L6, L3. cbn. rewrite <- !app_assoc. reflexivity.
        * destruct (IHe n2' n2 (D0 ++ [ERecv (e_sample e) (e_cons e) x]) Hin' (same_trans _ _ _ S1 S3) (Inv_same _ _ S3 I1) H1) as (S6 & D6 & HD6 & L6).
          split; [eapply same_trans; eassumption|]. exists (ERecv (e_sample e) (e_cons e) x :: D6). split.
          -- change (n_st n2') with (fun j => if j =? e_cons e then s' else n_st n1 j) in HD6. rewrite HD6. f_equal. rewrite <- !app_assoc. reflexivity.
          -- rewrite L6. cbn. rewrite <- !app_assoc. reflexivity.
      + cbn [bind] in H1. destruct (IHe n1' n2 (D0 ++ [ERecv (e_sample e) (e_cons e) x]) Hin' (same_trans _ _ _ S1 S2) (Inv_same _ _ S2 I1) H1) as (S6 & D6 & HD6 & L6).
        split; [eapply same_trans; eassumption|]. exists (ERecv (e_sample e) (e_cons e) x :: D6). split.
        * change (n_st n1') with (n_st n1) in HD6. rewrite HD6. f_equal. rewrite <- !app_assoc. reflexivity.
        * rewrite L6. cbn. rewrite <- !app_assoc. reflexivity. }
  destruct (HG (n_map n0) n0 n' [] (fun e He => He) S0 I0 H) as (S1 & D & HD & L).
  split; [eapply same_trans; eassumption|]. exists (EIssue p x :: D). split.
  - change (n_map n0) with (n_map n) in HD. change (n_st n0) with (n_st n) in HD. cbn [app] in HD. change (map ew (n_map n)) with (wires n) in HD. unfold stepw in HD. rewrite HD. reflexivity.
  - rewrite L. cbn. rewrite <- app_assoc. reflexivity.
Qed.

(** ** Steps *)
Definition view n : nat * list wire * (nat -> St) := (n_next n, wires n, n_st n).
Lemma wires_filter (P : wire -> bool) (l : list entry) : map ew (filter (fun e => P (ew e)) l) = filter P (map ew l).
Proof. rewrite filter_map. reflexivity. Qed.
Lemma disconnect_exact fuel c n n' : Inv n -> disconnect_and_flush filt fuel c n = Ok n' ->
  Inv n' /\ n_next n' = n_next n /\ wires n' = filter (fun w => negb (w_to w =? c)) (wires n) /\ n_st n' = n_st n /\
  n_log n' = n_log n ++ map EFlush (flush_from filt fuel (filter (fun w => negb (w_to w =? c)) (wires n)) c).
Proof.
  intros I H. unfold disconnect_and_flush in H. cbv zeta in H. rewrite (disconnect_core n c I) in H.
  assert (I2 : Inv (restrict (fun e => negb (e_cons e =? c)) n)) by (apply Inv_restrict, I).
  assert (W : wires (restrict (fun e => negb (e_cons e =? c)) n) = filter (fun w => negb (w_to w =? c)) (wires n)) by apply (wires_filter (fun w => negb (w_to w =? c))).
  destruct (flush_one_exact _ _ _ _ I2 H) as ([S1 T1] & L1). rewrite W in L1.
  split; [eapply Inv_same; eassumption|]. split; [rewrite (same_next _ _ S1); reflexivity|]. split; [|split; [rewrite T1; reflexivity|exact L1]].
  rewrite <- W. unfold wires. rewrite (same_map _ _ S1). reflexivity.
Qed.
Lemma step_exact b fuel o n n' : Inv n -> step filt FindFirst b fuel o n = Ok n' ->
  Inv n' /\ exists D, spec_step filt fuel o (view n) = (view n', D) /\ n_log n' = n_log n ++ EOp o :: D.
Proof.
  intros I H. unfold step in H. cbv zeta in H. set (n1 := log (EOp o) n) in *. assert (S1 : same n n1) by apply same_log. assert (I1 : Inv n1) by (eapply Inv_same; eassumption).
  assert (L1 : n_log n1 = n_log n ++ [EOp o]) by reflexivity. assert (V1 : view n1 = view n) by reflexivity.
  unfold view. destruct o as [p c|p x|p|c|i].
  - split; [exact (Inv_connect filt (fun _ => false) _ _ _ _ I1 H)|]. unfold connect in H. destruct (dead n1 p || dead n1 c); [discriminate|]. injection H as <-. exists []. cbn. split; [|reflexivity]. unfold wires. cbn. rewrite map_app. reflexivity.
  - destruct (dead n1 p); [discriminate|]. destruct (issue_exact _ _ _ _ _ I1 H) as (S2 & D & HD & L2). split; [eapply Inv_same; eassumption|]. exists D. cbn [spec_step].
    change (wires n1) with (wires n) in HD. change (n_st n1) with (n_st n) in HD. rewrite HD. split; [|rewrite L2, L1, <- app_assoc; reflexivity]. rewrite (same_next _ _ S2). unfold wires. rewrite (same_map _ _ S2). reflexivity.
  - destruct (dead n1 p); [discriminate|]. destruct (flush_exact _ _ _ _ I1 H) as ([S2 T2] & L2). split; [eapply Inv_same; eassumption|]. eexists. cbn [spec_step]. split; [|rewrite L2, L1, <- app_assoc; reflexivity].
    rewrite (same_next _ _ S2), T2. unfold wires. rewrite (same_map _ _ S2). reflexivity.
  - destruct (dead n1 c); [discriminate|]. destruct (disconnect_exact _ _ _ _ I1 H) as (I2 & E1 & E2 & E3 & L2). split; [exact I2|]. eexists. cbn [spec_step]. split; [|rewrite L2, L1, <- app_assoc; reflexivity].
    rewrite E1, E2, E3. reflexivity.
  - destruct (destroy_ok filt b fuel i n1 n' I1 H) as (n2 & _ & H2 & ->). destruct (disconnect_exact _ _ _ _ I1 H2) as (I2 & E1 & E2 & E3 & L2).
    destruct (disconnect_gone filt _ _ _ _ I1 H2) as (_ & Hg). split; [exact (finish_inv _ _ I2 Hg)|]. eexists. cbn [spec_step finish n_next n_st n_log]. split; [|rewrite L2, L1, <- app_assoc; reflexivity].
    rewrite E1, E3. f_equal. f_equal. f_equal. unfold wires at 2. cbn [finish n_map]. rewrite (wires_filter (fun w => negb (w_from w =? i))). fold (wires n2). rewrite E2. reflexivity.
Qed.
Theorem exact_log b fuel s0 ops n : exec filt FindFirst b fuel ops (init s0) = Ok n ->
  n_log n = spec_log filt fuel ops (0, [], s0).
Proof.
  assert (HG : forall ops n0 n, Inv n0 -> exec filt FindFirst b fuel ops n0 = Ok n -> n_log n = n_log n0 ++ spec_log filt fuel ops (view n0)).
  { clear. induction ops as [|o ops IH]; intros n0 n I H; cbn [exec spec_log] in *; [injection H as <-; rewrite app_nil_r; reflexivity|].
    destruct (step filt FindFirst b fuel o n0) as [n1| | |] eqn:E; try discriminate. cbn [bind] in H. destruct (step_exact _ _ _ _ _ I E) as (I1 & D & HD & L). rewrite HD. rewrite (IH _ _ I1 H), L, <- app_assoc. reflexivity. }
  intros H. apply (HG ops (init s0) n (Inv_init s0) H).
Qed.
End Order.
