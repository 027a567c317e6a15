(** Moves and calls on Chains: the theorems. *)
From Verif Require Import Prelude NetModel NetSpec NetProofs NetIso ConsumerModel MoveModel MoveSpec MoveNet MoveProofs.

Lemma ren_id i : ren 0 0 i = i.
Proof. unfold ren. destruct (Nat.eqb_spec i 0); congruence. Qed.
Lemma ren_call_id {X St} (c : call X St) : ren_call 0 0 c = c.
Proof. destruct c as [| [] [] | | | | | | | | ]; cbn; now rewrite !ren_id. Qed.
Lemma map_ren_id {X St} (h : list (call X St)) : map (ren_call 0 0) h = h.
Proof. rewrite (map_ext _ (fun c => c)); [apply map_id|apply ren_call_id]. Qed.
Lemma all_ok {X St} (h : list (call X St)) : Forall (fun c => Forall (ok 0 0) (names c)) h.
Proof. apply Forall_forall. intros c _. apply Forall_forall. intros i _. now left. Qed.
Lemma ren_kind_id d : renk 0 0 d = d.
Proof. destruct d as [|[] []]; cbn; now rewrite ?ren_id. Qed.

Section T.
  Context {X St : Type}.
  Variable filt : nat -> option (St -> X -> outcome (St * option X)).
  Variable b : build.
  Variable f : nat.
  Local Notation fuel := (S f).
  Variable s0 : nat -> St.
  Implicit Types w : world X St.

  Lemma W_start : W 0 0 (start s0 : world X St) (start s0).
  Proof.
    constructor; cbn; try reflexivity; try congruence; try (intros; discriminate).
    - intros i _ _. split; reflexivity.
    - constructor; cbn; try reflexivity; contradiction.
  Qed.
  Lemma reachable h w : run filt b fuel h (start s0) = Ok w -> W 0 0 w w.
  Proof. intros E. pose proof (run_W filt b f 0 0 h _ _ W_start (all_ok h)) as H. rewrite map_ren_id, E in H. exact H. Qed.
  Lemma run_app h1 h2 : forall w, run filt b fuel (h1 ++ h2) w = bind (run filt b fuel h1 w) (run filt b fuel h2).
  Proof. induction h1 as [|c h1 IH]; intros w; [reflexivity|]. cbn. destruct (perform filt b fuel c w) as [a| | |]; cbn; [apply IH|reflexivity|reflexivity|reflexivity]. Qed.

  (** Two worlds that differ only in a network without visible difference, or in the mode of a Chain. *)
  Lemma W_same_net w n : W 0 0 w w -> R (plain w) (w_net w) n -> n_dead n = n_dead (w_net w) -> W 0 0 w (set_net n w).
  Proof.
    intros H HR E. pose proof (W_net 0 0 w w (w_net w) n H HR (fun _ => eq_refl) (dead_eq _ _ E)) as HW. now replace (set_net (w_net w) w) with w in HW by (destruct w; reflexivity).
  Qed.
  Lemma idle_call_W w k c : W 0 0 w w -> is_chain w k -> idle_call c k -> exists w', perform filt b fuel c w = Ok w' /\ W 0 0 w w'.
  Proof.
    intros H (Hu & l & r & Hk) Hc. assert (Hn : ~ plain w k) by (intros [_ A]; congruence). pose proof (R_refl_l _ _ _ (W_R _ _ _ _ H)) as HR.
    destruct Hc as [->|[->|(m & q & -> & Hm)]]; cbn [perform]; rewrite Hu.
    - destruct (flush_idle filt (plain w) f (w_net w) k HR Hn) as (n & E & R1). rewrite E. cbn [bind]. eexists. split; [reflexivity|]. apply W_same_net; [exact H|exact R1|].
      apply flush_one_dead in E; [exact E|apply flush_sig_dead].
    - destruct (disconnect_idle filt (plain w) f (log (EOp (ODisconnect k)) (w_net w)) k) as (n & E & R1); [now apply R_log2|exact Hn|]. rewrite E. cbn [bind]. eexists. split; [reflexivity|].
      apply W_same_net; [exact H| |now apply disconnect_dead in E]. eapply R_trans; [|exact R1]. now apply R_log1'.
    - pose proof (usable_used w k Hu) as Hu'. rewrite (W_chain _ _ _ _ H k l r Hu' Hk). rewrite (entries_idle (plain w) _ k (R_pmap _ _ _ HR) Hn).
      unfold set_parallel_mode, assert_then. cbn [length Nat.eqb]. destruct (N.eqb_spec (N.land m synchronous) 0) as [E|_]; [contradiction|]. cbn [negb bind]. eexists. split; [reflexivity|].
      destruct H. constructor; cbn [w_net w_kind w_modes w_conn_modes]; try assumption.
      + intros i Hp. unfold upd. destruct (Nat.eqb_spec i k) as [->|]; [contradiction|reflexivity].
      + intros i Hi. rewrite ren_id. unfold upd. destruct (Nat.eqb_spec i k) as [->|]; [|reflexivity]. cbn. symmetry. now apply (W_chain k l r).
  Qed.
  Theorem calls_on_a_chain h1 h2 w k c : run filt b fuel h1 (start s0) = Ok w -> is_chain w k -> idle_call c k ->
    observe (run filt b fuel (h1 ++ c :: h2) (start s0)) = observe (run filt b fuel (h1 ++ h2) (start s0)).
  Proof.
    intros E Hk Hc. rewrite !run_app, E. cbn [bind run]. destruct (idle_call_W w k c (reachable h1 w E) Hk Hc) as (w' & -> & HW). cbn [bind].
    symmetry. apply (W_observe 0 0). pose proof (run_W filt b f 0 0 h2 w w' HW (all_ok h2)) as H. now rewrite map_ren_id in H.
  Qed.

  (** Moving a Chain. *)
  Lemma move_chain_W w k j g : W 0 0 w w -> is_chain w k -> unreferenced w k -> used w j = false -> exists w', do_move b k j g w = Ok w' /\ W k j w w'.
  Proof.
    intros H (Hu & l & r & Hk) Href Hj. assert (Hn : ~ plain w k) by (intros [_ A]; congruence). pose proof (R_refl_l _ _ _ (W_R _ _ _ _ H)) as HR. pose proof (usable_used w k Hu) as Hu'.
    assert (Hkj : k <> j) by (intros ->; congruence). assert (Hnj : ~ plain w j) by (intros [A _]; congruence).
    unfold do_move. rewrite Hu, Hj, Hk. cbn [andb negb]. rewrite (entries_idle (plain w) _ k (R_pmap _ _ _ HR) Hn). rewrite !(slots_idle (plain w) _ k) by (exact Hn || apply HR). cbn [is_nil andb assert_then].
    eexists. split; [reflexivity|]. destruct (W_undead _ _ _ _ H j Hj (or_introl eq_refl)) as [D _].
    assert (Hnotj : forall i, used w i = true -> i <> j) by (intros i Hi ->; congruence).
    assert (Hid : forall i a c, used w i = true -> w_kind w i = Chain a c -> renk k j (Chain a c) = Chain a c).
    { intros i a c Hi E. destruct (Href i a c Hi E) as (A1 & A2 & A3 & A4). cbn. unfold renp.
      destruct a as [x|x|]; destruct c as [y|y|]; unfold ren; repeat (match goal with |- context [?u =? k] => destruct (Nat.eqb_spec u k); [subst; congruence|] end); reflexivity. }
    destruct H as [_ _ _ Hparts _ Hund Hmod Hsup Hch _ _]. constructor; cbn [w_net w_kind w_modes w_conn_modes].
    - intros _. split; [exact Hu'|]. split; [congruence|]. rewrite !used_move, Nat.eqb_refl. split; [reflexivity|]. split; [exact Hj|]. unfold upd. now rewrite Nat.eqb_refl.
    - intros i [Hi|Hi]; [contradiction|]. rewrite used_move. destruct (Nat.eqb_spec i j); [contradiction|reflexivity].
    - intros i Hi. unfold upd, ren. destruct (Nat.eqb_spec i k) as [Ei|Ni].
      + subst i. destruct (Nat.eqb_spec j k) as [E|_]; [congruence|]. rewrite Nat.eqb_refl, Hk. now rewrite (Hid k l r Hu' Hk).
      + destruct (Nat.eqb_spec i k); [contradiction|]. destruct (Nat.eqb_spec i j) as [E|_]; [destruct (Hnotj i Hi E)|]. destruct (w_kind w i) as [|a c] eqn:Ek; [reflexivity|]. now rewrite (Hid i a c Hi Ek).
    - exact Hparts.
    - intros i Hi. unfold ren. change (dead (w_net w) (if i =? k then j else i) = dead (w_net w) i). destruct (Nat.eqb_spec i k) as [Ei|Ni]; [|reflexivity]. subst i. rewrite D. unfold usable in Hu. destruct (dead (w_net w) k); [|reflexivity].
      rewrite andb_false_r in Hu. discriminate.
    - intros i Hi _. apply Hund; [exact Hi|now left].
    - intros i [Hi Hp]. unfold upd. destruct (Nat.eqb_spec i j) as [E|_]; [destruct (Hnotj i Hi E)|reflexivity].
    - intros i Hi. unfold upd, ren. destruct (Nat.eqb_spec i k) as [Ei|Ni]; [subst i; now rewrite Nat.eqb_refl|]. destruct (Nat.eqb_spec i j) as [E|_]; [destruct (Hnotj i Hi E)|reflexivity].
    - exact Hch.
    - reflexivity.
    - destruct HR as [Q1 Q2 Q3 Q4 Q5 Q6 Q7 Q8 Q9 Q10 Q11 Q12]. constructor; cbn [set_st n_next n_sample n_flush n_disc n_map n_st n_log]; try reflexivity; try assumption.
      intros i Hp. destruct (Nat.eqb_spec i k) as [E|_]; [subst i; contradiction|]. destruct (Nat.eqb_spec i j) as [E|_]; [subst i; contradiction|reflexivity].
  Qed.
  (** The destructor of a Chain that was moved from. *)
  Lemma destroy_moved_W w w' k j l r : W k j w w' -> k <> j -> usable w' k = true -> w_kind w' k = Chain (moved_from l) (moved_from r) -> exists w2, do_destroy filt b fuel fuel k w' = Ok w2 /\ W k j w w2.
  Proof.
    intros H N Hu Hk. cbn [do_destroy]. rewrite Hu, Hk.
    replace (match moved_from r with Own a => do_destroy filt b fuel f a w' | _ => Ok w' end) with (Ok w') by (destruct r; reflexivity). cbn [bind].
    replace (match moved_from l with Own a => do_destroy filt b fuel f a w' | _ => Ok w' end) with (Ok w') by (destruct l; reflexivity). cbn [bind].
    assert (Hn : ~ plain w k) by (intros [_ A]; destruct (W_k _ _ _ _ H N) as (_ & B & _); contradiction).
    destruct (destroy_base_idle (plain w) b (w_net w') k (W_R' _ _ _ _ H) Hn) as (n & -> & R1 & D1). cbn [bind]. eexists. split; [reflexivity|].
    pose proof H as H0. destruct H as [H1 H2 H3 H4 H5 H6 H7 H8 H9 H10 H11]. constructor; try assumption; cbn [set_net w_net w_kind w_modes w_conn_modes].
    - intros i Hi. rewrite <- (H5 i Hi). unfold dead. rewrite D1. cbn [existsb]. destruct (Nat.eqb_spec (ren k j i) k) as [E|_]; [|reflexivity]. exfalso. revert E. unfold ren. destruct (Nat.eqb_spec i k); congruence.
    - intros i Hi Ho. destruct (H6 i Hi Ho) as [A B]. split; [exact A|]. revert B. unfold dead. rewrite D1. cbn [existsb]. destruct (Nat.eqb_spec i k) as [E|_]; [|easy]. subst i. destruct (H1 N) as (C & _). congruence.
    - eapply R_trans; [exact H11|exact R1].
  Qed.
  Theorem moving_a_chain h1 h2 w k j g gone : run filt b fuel h1 (start s0) = Ok w -> is_chain w k -> unreferenced w k -> used w j = false -> (forall c, In c h2 -> ~ In j (names c)) ->
    gone = [] \/ gone = [KDestroy k] ->
    observe (run filt b fuel (h1 ++ KMove k j g :: gone ++ map (ren_call k j) h2) (start s0)) = observe (run filt b fuel (h1 ++ h2) (start s0)).
  Proof.
    intros E Hk Hr Hj Hh Hg. rewrite !run_app, E. cbn [bind run]. pose proof Hk as (Hu & l & r & Hkk). assert (N : k <> j) by (intros ->; apply usable_used in Hu; congruence).
    destruct (move_chain_W w k j g (reachable h1 w E) Hk Hr Hj) as (w' & Em & HW). cbn [perform]. rewrite Em. cbn [bind].
    assert (HD : exists w2, run filt b fuel gone w' = Ok w2 /\ W k j w w2).
    { destruct Hg as [->| ->]; [exists w'; split; [reflexivity|exact HW]|]. cbn [run perform].
      assert (A : usable w' k = true /\ w_kind w' k = Chain (moved_from l) (moved_from r)).
      { unfold do_move in Em. rewrite Hu, Hj, Hkk in Em. cbn [andb negb] in Em. unfold assert_then in Em.
        assert (B : forall w3, Ok w3 = Ok w' -> usable w3 k = true /\ w_kind w3 k = Chain (moved_from l) (moved_from r) -> usable w' k = true /\ w_kind w' k = Chain (moved_from l) (moved_from r)) by (intros w3 Q; injection Q as <-; easy).
        destruct (is_nil (entries_of (w_net w) k)); [|destruct b; [discriminate|]]; (match type of Em with context [if ?t then _ else _] => destruct t end; [|destruct b; try discriminate]); apply (B _ Em); (split; [|cbn; unfold upd; now rewrite Nat.eqb_refl]);
          unfold usable, used, dead in *; cbn; apply andb_true_iff in Hu; destruct Hu as [U1 U2]; rewrite U1, U2; now rewrite orb_true_r. }
      destruct (destroy_moved_W w w' k j l r HW N (proj1 A) (proj2 A)) as (w2 & -> & H2). exists w2. split; [reflexivity|exact H2]. }
    destruct HD as (w2 & Eg & HW2). rewrite run_app, Eg. cbn [bind].
    symmetry. apply (W_observe k j). apply run_W; [exact HW2|]. apply Forall_forall. intros c Hc. apply Forall_forall. intros i Hi. right. intros ->. now apply (Hh c Hc).
  Qed.

  (** Moving other objects: the connections known on both sides. *)
  Lemma deliver_same g (n : net X St) s x n' : (forall n p y n', g n p y = Ok n' -> same n n') -> deliver filt g n s x = Ok n' -> same n n'.
  Proof.
    intros Hg. unfold deliver. destruct (dead n (s_cons s)); [discriminate|]. destruct (entries_of n (s_cons s)); [intros E; injection E as <-; apply same_refl|].
    destruct (filt (s_cons s)) as [g0|]; [|intros E; injection E as <-; apply same_log]. destruct (g0 _ x) as [[st' [y|]]| | |]; cbn; try discriminate; intros E.
    - apply Hg in E. eapply same_trans; [|exact E]. eapply same_trans; [apply same_log|apply same_set_st].
    - injection E as <-. eapply same_trans; [apply same_log|apply same_set_st].
  Qed.
  Lemma deliver_all_same g x l : (forall n p y n', g n p y = Ok n' -> same n n') -> forall (n n' : net X St), deliver_all filt g n l x = Ok n' -> same n n'.
  Proof.
    intros Hg. induction l as [|s l IH]; intros n n' E; [injection E as <-; apply same_refl|]. cbn in E. destruct (deliver filt g n s x) as [a| | |] eqn:E1; try discriminate. cbn in E.
    apply IH in E. eapply same_trans; [|exact E]. now apply (deliver_same g n s x).
  Qed.
  Lemma issue_same d : forall (n : net X St) p x n', issue filt d n p x = Ok n' -> same n n'.
  Proof. induction d as [|d IH]; intros n p x n' E; [discriminate|]. cbn in E. apply (deliver_all_same _ _ _ IH) in E. eapply same_trans; [|exact E]. apply same_log. Qed.
  Lemma flush_one_same g (n : net X St) c n' : (forall n p n', g n p = Ok n' -> same n n') -> flush_one filt g n c = Ok n' -> same n n'.
  Proof. intros Hg. unfold flush_one. destruct (filt c); intros E; [apply Hg in E; eapply same_trans; [apply same_log|exact E]|injection E as <-; apply same_log]. Qed.
  Lemma flush_all_same g l : (forall n p n', g n p = Ok n' -> same n n') -> forall (n n' : net X St), flush_all filt g n l = Ok n' -> same n n'.
  Proof.
    intros Hg. induction l as [|s l IH]; intros n n' E; [injection E as <-; apply same_refl|]. cbn in E. destruct (dead n (s_cons s)); [discriminate|]. destruct (flush_one filt g n (s_cons s)) as [a| | |] eqn:E1; try discriminate. cbn in E.
    apply IH in E. eapply same_trans; [|exact E]. now apply (flush_one_same g n (s_cons s)).
  Qed.
  Lemma flush_sig_same d : forall (n : net X St) p n', flush_sig filt d n p = Ok n' -> same n n'.
  Proof. induction d as [|d IH]; intros n p n' E; [discriminate|]. cbn in E. apply (flush_all_same _ _ IH) in E. exact E. Qed.
  Lemma Inv_log (n : net X St) e : Inv n -> Inv (log e n).
  Proof. clear. apply Inv_same, same_log. Qed.

  Lemma destroy_Inv d : forall w i w2, W 0 0 w w -> Inv (w_net w) -> do_destroy filt b fuel d i w = Ok w2 -> Inv (w_net w2) /\ W 0 0 w2 w2.
  Proof.
    induction d as [|d IH]; intros w i w2 H HI E; [discriminate|].
    assert (HW2 : W 0 0 w2 w2).
    { pose proof (destroy_W filt b f 0 0 (Datatypes.S d) w w i H (or_introl eq_refl)) as A. rewrite ren_id, E in A. exact A. }
    split; [|exact HW2]. cbn [do_destroy] in E. destruct (usable w i) eqn:Eu; [|discriminate]. destruct (w_kind w i) as [|l r] eqn:Ek.
    - destruct (destroy filt FindFirst b fuel i (log (EOp (ODestroy i)) (w_net w))) as [n| | |] eqn:E1; try discriminate. cbn in E. injection E as <-. cbn.
      pose proof (Inv_log _ (EOp (ODestroy i)) HI) as HIl. destruct (destroy_ok filt b fuel i _ _ HIl E1) as (n1 & _ & Ed & ->). destruct (disconnect_gone filt fuel i _ _ HIl Ed) as [I1 I2]. now apply finish_inv.
    - assert (K : forall (p : part) u u2, W 0 0 u u -> Inv (w_net u) -> match p with Own a => do_destroy filt b fuel d a u | _ => Ok u end = Ok u2 -> Inv (w_net u2) /\ W 0 0 u2 u2).
      { intros p u u2 Hu HIu E1. destruct p; [injection E1 as <-; now split|now apply IH in E1|injection E1 as <-; now split]. }
      destruct (match r with Own a => do_destroy filt b fuel d a w | _ => Ok w end) as [w1| | |] eqn:E1; try discriminate. cbn [bind] in E.
      destruct (match l with Own a => do_destroy filt b fuel d a w1 | _ => Ok w1 end) as [w3| | |] eqn:E3; try discriminate. cbn [bind] in E.
      assert (F : forall (p : part) u u2, match p with Own a => do_destroy filt b fuel d a u | _ => Ok u end = Ok u2 -> w_kind u2 = w_kind u).
      { intros p u u2 E2. destruct p; [injection E2 as <-; reflexivity|apply destroy_frame in E2; apply E2|injection E2 as <-; reflexivity]. }
      pose proof (F _ _ _ E1) as F1. pose proof (F _ _ _ E3) as F3. destruct (K _ _ _ H HI E1) as [I1 H1]. destruct (K _ _ _ H1 I1 E3) as [I3 H3].
      assert (Hn : ~ plain w3 i) by (intros [_ A]; congruence). pose proof (R_refl_l _ _ _ (W_R _ _ _ _ H3)) as HR.
      destruct (destroy_base_idle (plain w3) b (w_net w3) i HR Hn) as (n & E4 & R1 & D1). rewrite E4 in E. cbn in E. injection E as <-. cbn [set_net w_net].
      destruct I3 as [J1 J2 J3 J4 J5 J6 J7]. destruct R1 as [Q1 Q2 Q3 Q4 Q5 Q6 Q7 Q8 Q9 Q10 Q11 Q12]. constructor; rewrite ?Q1, ?Q2, ?Q3, ?Q4, ?Q5; try assumption.
      intros e He. destruct (J6 e He) as [L1 L2]. unfold dead in *. rewrite D1. cbn [existsb]. rewrite L1, L2, !orb_false_r.
      assert (Hs : In (mk e) (n_sample (w_net w3))) by (rewrite J1; now apply in_map). destruct (Q6 _ Hs) as [Pp Pc]. cbn in Pp, Pc.
      split; apply Nat.eqb_neq; intros Eq; apply Hn; rewrite <- Eq; assumption.
  Qed.
  Lemma move_Inv w i j g w2 : Inv (w_net w) -> do_move b i j g w = Ok w2 -> Inv (w_net w2).
  Proof.
    intros HI E. unfold do_move in E. destruct (usable w i && negb (used w j)); [|discriminate]. unfold assert_then in E.
    assert (K : Inv (set_st i g (set_st j (n_st (w_net w) i) (w_net w)))) by (eapply Inv_same; [|exact HI]; eapply same_trans; apply same_set_st).
    destruct (is_nil (entries_of (w_net w) i)); [|destruct b; [discriminate|]]; (match type of E with context [if ?t then _ else _] => destruct t end; [|destruct b; try discriminate]); injection E as <-; exact K.
  Qed.
  Lemma connect_world_Inv w p c w2 : Inv (w_net w) -> do_connect fuel p c w = Ok w2 -> Inv (w_net w2).
  Proof.
    intros HI E. unfold do_connect in E. destruct (right_end fuel w p) as [pe|]; [|discriminate]. destruct (left_end fuel w c) as [ce|]; [|discriminate].
    destruct (NetModel.connect pe ce (log (EOp (OConnect pe ce)) (w_net w))) as [n| | |] eqn:E1; try discriminate. cbn in E. injection E as <-. cbn. eapply (Inv_connect filt (fun _ => false)); [|exact E1]. now apply Inv_log.
  Qed.
  Lemma perform_Inv c w w2 : W 0 0 w w -> Inv (w_net w) -> perform filt b fuel c w = Ok w2 -> Inv (w_net w2).
  Proof.
    intros H HI E. destruct c as [i s supp|l r m|i m g|p c|c m q|c|c|p x|p|i]; cbn [perform] in E.
    - destruct (used w i); [discriminate|]. injection E as <-. cbn. eapply Inv_same; [apply same_set_st|exact HI].
    - destruct (take b l w) as [[w1 [pl l1]]| | |] eqn:E1; try discriminate. cbn [bind] in E. destruct (take b r w1) as [[w3 [pr r1]]| | |] eqn:E3; try discriminate. cbn [bind] in E.
      assert (K : forall (o : operand St) (u u2 : world X St) z, Inv (w_net u) -> take b o u = Ok (u2, z) -> Inv (w_net u2)).
      { intros o u u2 z Hu E0. destruct o as [a|a a2 g]; cbn in E0.
        - destruct (usable u a); [|discriminate]. now injection E0 as <- _.
        - destruct (do_move b a a2 g u) as [u3| | |] eqn:Em; try discriminate. cbn in E0. injection E0 as <- _. now apply move_Inv in Em. }
      destruct (used w3 m); [discriminate|]. apply connect_world_Inv in E; [exact E|]. cbn. eapply Inv_same; [apply same_set_st|]. eapply K; [|exact E3]. eapply K; [exact HI|exact E1].
    - now apply move_Inv in E.
    - now apply connect_world_Inv in E.
    - destruct (usable w c); [|discriminate]. destruct (set_parallel_mode _ _ _ _); try discriminate. cbn in E. now injection E as <-.
    - destruct (usable w c); [|discriminate]. destruct (flush_one filt (flush_sig filt fuel) (w_net w) c) as [n| | |] eqn:E1; try discriminate. cbn in E. injection E as <-. cbn. eapply Inv_same; [|exact HI]. eapply flush_one_same; [apply flush_sig_same|exact E1].
    - destruct (usable w c); [|discriminate]. destruct (disconnect_and_flush filt fuel c (log (EOp (ODisconnect c)) (w_net w))) as [n| | |] eqn:E1; try discriminate. cbn in E. injection E as <-. cbn.
      eapply disconnect_gone; [apply Inv_log, HI|exact E1].
    - destruct (usable w p); [|discriminate]. destruct (issue filt fuel (log (EOp (OIssue p x)) (w_net w)) p x) as [n| | |] eqn:E1; try discriminate. cbn in E. injection E as <-. cbn. eapply Inv_same; [eapply issue_same; exact E1|apply Inv_log, HI].
    - destruct (usable w p); [|discriminate]. destruct (flush_sig filt fuel (log (EOp (OFlush p)) (w_net w)) p) as [n| | |] eqn:E1; try discriminate. cbn in E. injection E as <-. cbn. eapply Inv_same; [eapply flush_sig_same; exact E1|apply Inv_log, HI].
    - now apply (destroy_Inv _ _ _ _ H HI) in E.
  Qed.
  Lemma reachable_Inv h : forall w w2, W 0 0 w w -> Inv (w_net w) -> run filt b fuel h w = Ok w2 -> Inv (w_net w2).
  Proof.
    induction h as [|c h IH]; intros w w2 H HI E; [now injection E as <-|]. cbn in E. destruct (perform filt b fuel c w) as [w1| | |] eqn:E1; try discriminate. cbn in E.
    apply (IH w1 w2); [|now apply (perform_Inv c w w1)|exact E].
    pose proof (perform_W filt b f 0 0 w w c H) as A. rewrite ren_call_id, E1 in A. apply A. apply Forall_forall. intros i _. now left.
  Qed.
  Lemma linked_entries w i : Inv (w_net w) -> (is_nil (entries_of (w_net w) i) = true <-> forall p, ~ linked w p i).
  Proof.
    intros HI. unfold linked. rewrite (inv_sample _ HI). split.
    - intros E p (k & Hk). apply in_map_iff in Hk. destruct Hk as (e & Ee & He). unfold mk in Ee. injection Ee as _ _ Ec.
      assert (In e (entries_of (w_net w) i)) as A by (apply filter_In; split; [exact He|now apply Nat.eqb_eq]). destruct (entries_of (w_net w) i); [contradiction|discriminate].
    - intros A. destruct (entries_of (w_net w) i) as [|e l] eqn:E; [reflexivity|]. assert (In e (entries_of (w_net w) i)) as B by (rewrite E; now left). apply filter_In in B. destruct B as [B1 B2]. apply Nat.eqb_eq in B2.
      destruct (A (e_prod e)). exists (e_sample e). apply in_map_iff. exists e. split; [unfold mk; now rewrite B2|exact B1].
  Qed.
  Lemma linked_slots w i : Inv (w_net w) ->
    (is_nil (slots_of (n_sample (w_net w)) i) && is_nil (slots_of (n_flush (w_net w)) i) && is_nil (slots_of (n_disc (w_net w)) i) = true <-> forall c, ~ linked w i c).
  Proof.
    intros HI. unfold linked. rewrite (inv_flush _ HI), (inv_disc _ HI), <- (inv_sample _ HI). rewrite !andb_diag. split.
    - intros E c (k & Hk). assert (In {| s_conn := k; s_prod := i; s_cons := c |} (slots_of (n_sample (w_net w)) i)) as A by (apply filter_In; split; [exact Hk|apply Nat.eqb_refl]).
      destruct (slots_of (n_sample (w_net w)) i); [contradiction|discriminate].
    - intros A. destruct (slots_of (n_sample (w_net w)) i) as [|s l] eqn:E; [reflexivity|]. assert (In s (slots_of (n_sample (w_net w)) i)) as B by (rewrite E; now left). apply filter_In in B. destruct B as [B1 B2]. apply Nat.eqb_eq in B2.
      destruct (A (s_cons s)). exists (s_conn s). destruct s; cbn in *. now subst.
  Qed.
End T.

Section P.
  Context {X St : Type}.
  Variable filt : nat -> option (St -> X -> outcome (St * option X)).
  Variable s0 : nat -> St.
  Implicit Types w : world X St.

  Theorem moving_an_object b f h w i j g : run filt b (S f) h (start s0) = Ok w -> usable w i = true -> w_kind w i = Plain -> used w j = false ->
    (b = Debug -> (exists p, linked w p i \/ linked w i p) -> perform filt b (S f) (KMove i j g) w = AssertFail) /\
    (b = Release \/ (forall p, ~ linked w p i /\ ~ linked w i p) -> exists w', perform filt b (S f) (KMove i j g) w = Ok w' /\
       n_st (w_net w') j = n_st (w_net w) i /\ md_mode (w_modes w' j) = md_mode (w_modes w i) /\ md_supported (w_modes w' j) = md_supported (w_modes w i) /\ md_queue (w_modes w' j) = 0%N /\
       (forall p c, linked w' p c <-> linked w p c) /\ (forall p, ~ linked w' p j /\ ~ linked w' j p) /\ n_log (w_net w') = n_log (w_net w)).
  Proof.
    intros E Hu Hk Hj. pose proof (reachable filt b f s0 h w E) as H.
    assert (HI : Inv (w_net w)) by (eapply (reachable_Inv filt b f); [apply W_start|apply Inv_init|exact E]).
    pose proof (linked_entries w i HI) as LE. pose proof (linked_slots w i HI) as LS.
    cbn [perform]. unfold do_move. rewrite Hu, Hj, Hk. cbn [andb negb].
    set (w' := {| w_net := set_st i g (set_st j (n_st (w_net w) i) (w_net w)); w_kind := upd (w_kind w) j Plain;
                  w_modes := upd (w_modes w) j {| md_supported := md_supported (w_modes w i); md_mode := md_mode (w_modes w i); md_queue := 0 |}; w_used := j :: w_used w; w_conn_modes := w_conn_modes w |}).
    assert (Hij : i <> j) by (intros ->; apply usable_used in Hu; congruence).
    assert (K : n_st (w_net w') j = n_st (w_net w) i /\ md_mode (w_modes w' j) = md_mode (w_modes w i) /\ md_supported (w_modes w' j) = md_supported (w_modes w i) /\ md_queue (w_modes w' j) = 0%N /\
       (forall p c, linked w' p c <-> linked w p c) /\ (forall p, ~ linked w' p j /\ ~ linked w' j p) /\ n_log (w_net w') = n_log (w_net w)).
    { cbn. unfold upd. rewrite Nat.eqb_refl. destruct (Nat.eqb_spec j i); [congruence|]. do 4 (split; [reflexivity|]).
      pose proof (R_psample _ _ _ (W_R _ _ _ _ H)) as Hp.
      split; [intros p c; reflexivity|]. split; [|reflexivity]. intros p. split; intros (n0 & Hn); apply Hp in Hn; destruct Hn as [[A _] [B _]]; cbn in A, B; congruence. }
    set (t1 := is_nil (entries_of (w_net w) i)) in *. set (t2 := is_nil (slots_of (n_sample (w_net w)) i) && is_nil (slots_of (n_flush (w_net w)) i) && is_nil (slots_of (n_disc (w_net w)) i)) in *.
    split.
    - intros -> (p & Hp). unfold assert_then. destruct t1; [|reflexivity]. destruct t2; [|reflexivity]. exfalso. destruct Hp as [Hp|Hp]; [now apply (proj1 LE eq_refl p)|now apply (proj1 LS eq_refl p)].
    - intros Hb. exists w'. split; [|exact K]. unfold assert_then. destruct Hb as [->|Hb]; [destruct t1, t2; reflexivity|].
      rewrite (proj2 LE) by (intros p; apply Hb). rewrite (proj2 LS) by (intros p; apply Hb). reflexivity.
  Qed.
End P.
