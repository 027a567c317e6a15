(** Programs that differ in the name of a Chain, or in what was done to the base classes of Chains, behave alike. *)
From Verif Require Import Prelude NetModel NetSpec NetProofs ConsumerModel MoveModel MoveSpec MoveNet.

Lemma R_mono {X St} (P P' : nat -> Prop) (n m : net X St) :
  R P n m -> (forall i, P i -> P' i) -> (forall i, P' i -> P i \/ (dead m i = dead n i /\ n_st m i = n_st n i)) -> R P' n m.
Proof.
  intros [] H1 H2. constructor; try assumption.
  - intros s Hs. destruct (R_psample s Hs). split; apply H1; assumption.
  - intros s Hs. destruct (R_pflush s Hs). split; apply H1; assumption.
  - intros s Hs. destruct (R_pdisc s Hs). split; apply H1; assumption.
  - intros e He. apply H1, R_pmap, He.
  - intros i Hi. destruct (H2 i Hi) as [Hp|[E _]]; [now apply R_dead|exact E].
  - intros i Hi. destruct (H2 i Hi) as [Hp|[_ E]]; [now apply R_st|exact E].
Qed.
Lemma R_set_idle {X St} (P : nat -> Prop) (n m : net X St) i i' s s' : R P n m -> ~ P i -> ~ P i' -> R P (set_st i s n) (set_st i' s' m).
Proof.
  intros [] H1 H2. constructor; try assumption. intros a Ha. cbn. destruct (Nat.eqb_spec a i') as [->|]; [contradiction|]. destruct (Nat.eqb_spec a i) as [->|]; [contradiction|]. now apply R_st.
Qed.

Section W.
  Context {X St : Type}.
  Variable filt : nat -> option (St -> X -> outcome (St * option X)).
  Variable b : build.
  Variable f : nat.
  Local Notation fuel := (S f).
  Variables k j : nat.
  Local Notation rho := (ren k j).
  Definition ok (i : nat) : Prop := k = j \/ i <> j.
  Definition renp (p : part) : part := match p with Ref i => Ref (rho i) | Own i => Own (rho i) | Null => Null end.
  Definition renk (d : kind) : kind := match d with Plain => Plain | Chain l r => Chain (renp l) (renp r) end.
  Definition plain (w : world X St) (i : nat) : Prop := used w i = true /\ w_kind w i = Plain.
  Definition part_ok (w : world X St) (p : part) : Prop := match p with Ref i | Own i => used w i = true | Null => True end.

  Record W (w w' : world X St) : Prop := {
    W_k : k <> j -> used w k = true /\ w_kind w k <> Plain /\ used w' j = true /\ used w j = false /\ w_kind w' k <> Plain;
    W_used : forall i, ok i -> used w' i = used w i;
    W_kind : forall i, used w i = true -> w_kind w' (rho i) = renk (w_kind w i);
    W_parts : forall i l r, used w i = true -> w_kind w i = Chain l r -> part_ok w l /\ part_ok w r;
    W_dead : forall i, used w i = true -> dead (w_net w') (rho i) = dead (w_net w) i;
    W_undead : forall i, used w i = false -> ok i -> dead (w_net w) i = false /\ dead (w_net w') i = false;
    W_modes : forall i, plain w i -> w_modes w' i = w_modes w i;
    W_supp : forall i, used w i = true -> md_supported (w_modes w' (rho i)) = md_supported (w_modes w i);
    W_chain : forall i l r, used w i = true -> w_kind w i = Chain l r -> md_supported (w_modes w i) = synchronous;
    W_cm : w_conn_modes w' = w_conn_modes w;
    W_R : R (plain w) (w_net w) (w_net w') }.

  Lemma rho_other i : i <> k -> rho i = i.
  Proof. intros H. unfold ren. destruct (Nat.eqb_spec i k); [contradiction|reflexivity]. Qed.
  Lemma rho_inj i i' : ok i -> ok i' -> rho i = rho i' -> i = i'.
  Proof. unfold ok, ren. intros H H'. destruct (Nat.eqb_spec i k), (Nat.eqb_spec i' k); intros E; subst; try congruence; destruct H as [H|H], H' as [H'|H']; try congruence. Qed.
  Lemma rho_eqb i i' : ok i -> ok i' -> (rho i =? rho i') = (i =? i').
  Proof.
    intros H H'. destruct (Nat.eqb_spec i i') as [->|N]; [apply Nat.eqb_refl|]. apply Nat.eqb_neq. intros E. apply N. now apply rho_inj.
  Qed.
  Lemma used_ok w w' i : W w w' -> used w i = true -> ok i.
  Proof. intros H Hi. unfold ok. destruct (Nat.eq_dec k j) as [E|N]; [now left|right]. intros ->. destruct (W_k _ _ H N) as (_ & _ & _ & A & _). congruence. Qed.
  Lemma plain_rho w w' i : W w w' -> plain w i -> rho i = i.
  Proof.
    intros H [Hi Hp]. unfold ren. destruct (Nat.eqb_spec i k) as [->|]; [|reflexivity]. destruct (Nat.eq_dec k j) as [E|N]; [now rewrite E|]. now destruct (W_k _ _ H N) as (_ & A & _).
  Qed.
  Lemma unused_rho w w' i : W w w' -> used w i = false -> ok i -> rho i = i.
  Proof.
    intros H Hi Ho. unfold ren. destruct (Nat.eqb_spec i k) as [->|]; [|reflexivity]. destruct (Nat.eq_dec k j) as [E|N]; [now rewrite E|]. destruct (W_k _ _ H N) as (A & _). congruence.
  Qed.
  Lemma used_W w w' i : W w w' -> ok i -> used w' (rho i) = used w i.
  Proof.
    intros H Ho. unfold ren. destruct (Nat.eqb_spec i k) as [->|]; [|now apply (W_used _ _ H)]. destruct (Nat.eq_dec k j) as [E|N].
    - rewrite <- E. apply (W_used _ _ H). now left.
    - destruct (W_k _ _ H N) as (A & _ & B & _). congruence.
  Qed.
  Lemma usable_W w w' i : W w w' -> ok i -> usable w' (rho i) = usable w i.
  Proof.
    intros H Ho. unfold usable. rewrite (used_W w w' i H Ho). destruct (used w i) eqn:E; [|reflexivity]. now rewrite (W_dead _ _ H i E).
  Qed.
  Lemma usable_used (w : world X St) i : usable w i = true -> used w i = true.
  Proof. clear. unfold usable. destruct (used w i); [reflexivity|discriminate]. Qed.
  Lemma plain_not w w' i : W w w' -> ok i -> used w i = true -> w_kind w i <> Plain -> ~ plain w (rho i).
  Proof.
    intros H Ho Hu Hk. unfold ren. destruct (Nat.eqb_spec i k) as [->|].
    - intros [A B]. destruct (Nat.eq_dec k j) as [E|N]; [rewrite <- E in B; contradiction|]. destruct (W_k _ _ H N) as (_ & _ & _ & C & _). congruence.
    - now intros [_ B].
  Qed.
  Lemma left_end_plain d : forall (w : world X St) i e, left_end d w i = Some e -> plain w e.
  Proof.
    clear. induction d as [|d IH]; intros w i e H; [discriminate|]. cbn in H. destruct (usable w i) eqn:E; [|discriminate].
    destruct (w_kind w i) as [|[a|a|] r] eqn:Ek; try discriminate; [|eauto|eauto]. injection H as <-. split; [now apply usable_used|exact Ek].
  Qed.
  Lemma right_end_plain d : forall (w : world X St) i e, right_end d w i = Some e -> plain w e.
  Proof.
    clear. induction d as [|d IH]; intros w i e H; [discriminate|]. cbn in H. destruct (usable w i) eqn:E; [|discriminate].
    destruct (w_kind w i) as [|l [a|a|]] eqn:Ek; try discriminate; [|eauto|eauto]. injection H as <-. split; [now apply usable_used|exact Ek].
  Qed.
  Lemma left_end_W w w' : W w w' -> forall d i, ok i -> left_end d w' (rho i) = left_end d w i.
  Proof.
    intros H. induction d as [|d IH]; intros i Ho; [reflexivity|]. cbn. rewrite (usable_W w w' i H Ho). destruct (usable w i) eqn:E; [|reflexivity].
    apply usable_used in E. rewrite (W_kind _ _ H i E). destruct (w_kind w i) as [|[a|a|] r] eqn:Ek; cbn; [|apply IH|apply IH|reflexivity].
    - now rewrite (plain_rho w w' i H (conj E Ek)).
    - apply (used_ok w w' a H). apply (W_parts _ _ H i _ _ E Ek).
    - apply (used_ok w w' a H). apply (W_parts _ _ H i _ _ E Ek).
  Qed.
  Lemma right_end_W w w' : W w w' -> forall d i, ok i -> right_end d w' (rho i) = right_end d w i.
  Proof.
    intros H. induction d as [|d IH]; intros i Ho; [reflexivity|]. cbn. rewrite (usable_W w w' i H Ho). destruct (usable w i) eqn:E; [|reflexivity].
    apply usable_used in E. rewrite (W_kind _ _ H i E). destruct (w_kind w i) as [|l [a|a|]] eqn:Ek; cbn; [|apply IH|apply IH|reflexivity].
    - now rewrite (plain_rho w w' i H (conj E Ek)).
    - apply (used_ok w w' a H). apply (W_parts _ _ H i _ _ E Ek).
    - apply (used_ok w w' a H). apply (W_parts _ _ H i _ _ E Ek).
  Qed.

  (** Replacing the networks. *)
  Lemma W_net w w' n n' : W w w' -> R (plain w) n n' -> (forall i, dead n i = dead (w_net w) i) -> (forall i, dead n' i = dead (w_net w') i) -> W (set_net n w) (set_net n' w').
  Proof.
    intros [] HR D D'. constructor; cbn; try assumption.
    - intros i Hi. rewrite D, D'. now apply W_dead0.
    - intros i Hi Ho. rewrite D, D'. now apply W_undead0.
  Qed.
  Lemma dead_eq (n n' : net X St) : n_dead n' = n_dead n -> forall i, dead n' i = dead n i.
  Proof. clear. intros E i. unfold dead. now rewrite E. Qed.

  Lemma connect_dead p c (n n' : net X St) : NetModel.connect p c n = Ok n' -> n_dead n' = n_dead n.
  Proof. clear. unfold NetModel.connect. destruct (_ || _); [discriminate|]. intros E. injection E as <-. reflexivity. Qed.
  Lemma connect_R (P : nat -> Prop) p c (n m : net X St) : R P n m -> P p -> P c -> orel (R P) (NetModel.connect p c n) (NetModel.connect p c m).
  Proof.
    intros H Hp Hc. unfold NetModel.connect. rewrite (R_dead P n m H p Hp), (R_dead P n m H c Hc). destruct (_ || _); [exact I|]. destruct H. constructor; cbn; try assumption; try congruence.
    - intros s Hs. apply in_app_or in Hs. destruct Hs as [Hs|[<-|[]]]; [now apply R_psample|now split].
    - intros s Hs. apply in_app_or in Hs. destruct Hs as [Hs|[<-|[]]]; [now apply R_pflush|now split].
    - intros s Hs. apply in_app_or in Hs. destruct Hs as [Hs|[<-|[]]]; [now apply R_pdisc|now split].
    - intros e He. apply in_app_or in He. destruct He as [He|[<-|[]]]; [now apply R_pmap|exact Hc].
  Qed.
  Lemma connect_W w w' p c : W w w' -> ok p -> ok c -> orel W (do_connect fuel p c w) (do_connect fuel (rho p) (rho c) w').
  Proof.
    intros H Hp Hc. unfold do_connect. rewrite (left_end_W w w' H _ _ Hc), (right_end_W w w' H _ _ Hp).
    destruct (right_end fuel w p) as [pe|] eqn:Ep; [|exact I]. destruct (left_end fuel w c) as [ce|] eqn:Ec; [|exact I].
    apply right_end_plain in Ep. apply left_end_plain in Ec.
    pose proof (connect_R (plain w) pe ce _ _ (R_log2 (plain w) _ _ (EOp (OConnect pe ce)) (EOp (OConnect pe ce)) eq_refl (W_R _ _ H)) Ep Ec) as HC.
    destruct (NetModel.connect pe ce (log (EOp (OConnect pe ce)) (w_net w))) as [n| | |] eqn:E1; destruct (NetModel.connect pe ce (log (EOp (OConnect pe ce)) (w_net w'))) as [n'| | |] eqn:E2; cbn in HC; try contradiction; try exact I.
    cbn [bind orel]. apply connect_dead in E1. apply connect_dead in E2. pose proof (W_net w w' n n' H HC (dead_eq _ _ E1) (dead_eq _ _ E2)) as HN.
    rewrite (W_modes _ _ H ce Ec), (W_cm _ _ H). destruct HN. constructor; try assumption. reflexivity.
  Qed.

  (** Functions that do not destroy anything. *)
  Lemma deliver_dead g (n : net X St) s x n' : (forall n p y n', g n p y = Ok n' -> n_dead n' = n_dead n) -> deliver filt g n s x = Ok n' -> n_dead n' = n_dead n.
  Proof.
    intros Hg. unfold deliver. destruct (dead n (s_cons s)); [discriminate|]. destruct (entries_of n (s_cons s)); [intros E; now injection E as <-|].
    destruct (filt (s_cons s)) as [g0|]; [|intros E; now injection E as <-]. destruct (g0 _ x) as [[st' [y|]]| | |]; cbn; try discriminate; intros E; [now apply Hg in E|now injection E as <-].
  Qed.
  Lemma deliver_all_dead g x l : (forall n p y n', g n p y = Ok n' -> n_dead n' = n_dead n) -> forall (n n' : net X St), deliver_all filt g n l x = Ok n' -> n_dead n' = n_dead n.
  Proof.
    intros Hg. induction l as [|s l IH]; intros n n' E; [now injection E as <-|]. cbn in E. destruct (deliver filt g n s x) as [a| | |] eqn:E1; try discriminate. cbn in E.
    apply IH in E. rewrite E. now apply (deliver_dead g n s x).
  Qed.
  Lemma issue_dead d : forall (n : net X St) p x n', issue filt d n p x = Ok n' -> n_dead n' = n_dead n.
  Proof. induction d as [|d IH]; intros n p x n' E; [discriminate|]. cbn in E. apply (deliver_all_dead _ _ _ IH) in E. exact E. Qed.
  Lemma flush_one_dead g (n : net X St) c n' : (forall n p n', g n p = Ok n' -> n_dead n' = n_dead n) -> flush_one filt g n c = Ok n' -> n_dead n' = n_dead n.
  Proof. intros Hg. unfold flush_one. destruct (filt c); intros E; [now apply Hg in E|now injection E as <-]. Qed.
  Lemma flush_all_dead g l : (forall n p n', g n p = Ok n' -> n_dead n' = n_dead n) -> forall (n n' : net X St), flush_all filt g n l = Ok n' -> n_dead n' = n_dead n.
  Proof.
    intros Hg. induction l as [|s l IH]; intros n n' E; [now injection E as <-|]. cbn in E. destruct (dead n (s_cons s)); [discriminate|]. destruct (flush_one filt g n (s_cons s)) as [a| | |] eqn:E1; try discriminate. cbn in E.
    apply IH in E. rewrite E. now apply (flush_one_dead g n (s_cons s)).
  Qed.
  Lemma flush_sig_dead d : forall (n : net X St) p n', flush_sig filt d n p = Ok n' -> n_dead n' = n_dead n.
  Proof. induction d as [|d IH]; intros n p n' E; [discriminate|]. cbn in E. apply (flush_all_dead _ _ IH) in E. exact E. Qed.
  Lemma drops_dead es : forall n : net X St, n_dead (fold_left (fun a e => drop_entry e a) es n) = n_dead n.
  Proof. clear. induction es as [|e es IH]; intros n; [reflexivity|]. cbn. now rewrite IH. Qed.
  Lemma disconnect_dead d (n : net X St) c n' : disconnect_and_flush filt d c n = Ok n' -> n_dead n' = n_dead n.
  Proof. intros E. apply flush_one_dead in E; [|apply flush_sig_dead]. rewrite E. cbn. apply drops_dead. Qed.
  Lemma disc_all_dead p l : forall (n n' : net X St), disc_all FindFirst b p l n = Ok n' -> n_dead n' = n_dead n.
  Proof.
    induction l as [|s l IH]; intros n n' E; [now injection E as <-|]. cbn in E. destruct (existsb _ _); [|now apply IH in E].
    destruct (disconnect_slot FindFirst b (s_cons s) p n) as [a| | |] eqn:E1; try discriminate. cbn in E. apply IH in E. rewrite E. unfold disconnect_slot in E1. destruct (dead n (s_cons s)); [discriminate|].
    destruct (find_entry _ _ _ _); [now injection E1 as <-|destruct b; discriminate].
  Qed.
  Lemma destroy_dead d o (n n' : net X St) : destroy filt FindFirst b d o n = Ok n' -> n_dead n' = o :: n_dead n.
  Proof.
    unfold destroy. destruct (dead n o); [discriminate|]. destruct (disconnect_and_flush filt d o n) as [a| | |] eqn:E1; try discriminate. cbn. destruct (disc_all FindFirst b o (slots_of (n_disc a) o) a) as [c| | |] eqn:E2; try discriminate. cbn.
    apply disconnect_dead in E1. apply disc_all_dead in E2. unfold assert_then. match goal with |- (if ?t then _ else _) = _ -> _ => destruct t end; [|destruct b; [discriminate|]]; intros E; injection E as <-; cbn; congruence.
  Qed.

  (** A call that only changes the network, on objects in their own right and on Chains. *)
  Lemma call_W w w' (g : net X St -> nat -> outcome (net X St)) i i' : W w w' -> ok i -> i' = rho i ->
    (forall n m c, R (plain w) n m -> orel (R (plain w)) (g n c) (g m c)) ->
    (forall n c, R (plain w) n n -> ~ plain w c -> exists n', g n c = Ok n' /\ R (plain w) n n') ->
    (forall n c n', g n c = Ok n' -> n_dead n' = n_dead n) ->
    orel W (if usable w i then do n <- g (w_net w) i; Ok (set_net n w) else UB) (if usable w' i' then do n <- g (w_net w') i'; Ok (set_net n w') else UB).
  Proof.
    intros H Ho -> G1 G2 G3. rewrite (usable_W w w' i H Ho). destruct (usable w i) eqn:E; [|exact I]. apply usable_used in E.
    destruct (w_kind w i) as [|l r] eqn:Ek.
    - rewrite (plain_rho w w' i H (conj E Ek)). pose proof (G1 _ _ i (W_R _ _ H)) as HG.
      destruct (g (w_net w) i) as [n| | |] eqn:E1; destruct (g (w_net w') i) as [n'| | |] eqn:E2; cbn in HG; try contradiction; try exact I. cbn [bind orel].
      apply W_net; [exact H|exact HG|apply dead_eq; now apply (G3 _ i)|apply dead_eq; now apply (G3 _ i)].
    - assert (Hn : ~ plain w i) by (intros [_ A]; congruence). assert (Hn' : ~ plain w (rho i)) by (apply (plain_not w w'); [exact H|exact Ho|exact E|congruence]).
      destruct (G2 (w_net w) i (R_refl_l _ _ _ (W_R _ _ H)) Hn) as (n & E1 & R1).
      assert (HR : R (plain w) (w_net w') (w_net w')).
      { pose proof (W_R _ _ H) as [] . constructor; try reflexivity; [rewrite R_sample|rewrite R_flush|rewrite R_disc|rewrite R_map]; assumption. }
      destruct (G2 (w_net w') (rho i) HR Hn') as (n' & E2 & R2). rewrite E1, E2. cbn [bind orel].
      apply W_net; [exact H| |apply dead_eq; now apply (G3 _ i)|apply dead_eq; now apply (G3 _ (rho i))].
      pose proof (W_R _ _ H) as R0. clear - R0 R1 R2. destruct R0, R1, R2. constructor; try congruence.
      + intros s. rewrite R_sample0. apply R_psample.
      + intros s. rewrite R_flush0. apply R_pflush.
      + intros s. rewrite R_disc0. apply R_pdisc.
      + intros s. rewrite R_map0. apply R_pmap.
      + intros a Ha. rewrite (R_dead1 a Ha), (R_dead a Ha), (R_dead0 a Ha). reflexivity.
      + intros a Ha. rewrite (R_st1 a Ha), (R_st a Ha), (R_st0 a Ha). reflexivity.
  Qed.

  Lemma used_create (w : world X St) i s d supp a : used (create i s d supp w) a = (a =? i) || used w a.
  Proof. clear. reflexivity. Qed.
  Lemma part_ok_mono (w w2 : world X St) p : (forall a, used w a = true -> used w2 a = true) -> part_ok w p -> part_ok w2 p.
  Proof. clear. destruct p; cbn; auto. Qed.
  Lemma ok_dec i : {ok i} + {~ ok i}.
  Proof. unfold ok. destruct (Nat.eq_dec k j), (Nat.eq_dec i j); tauto. Qed.

  Lemma create_W w w' i s s' d supp : W w w' -> ok i -> used w i = false -> (d = Plain -> s = s') -> (forall l r, d = Chain l r -> part_ok w l /\ part_ok w r /\ supp = synchronous) ->
    W (create i s d supp w) (create i s' (renk d) supp w').
  Proof.
    intros H Ho Hu Hs Hd. assert (Ei : rho i = i) by now apply (unused_rho w w').
    assert (Hk : k <> j -> i <> k) by (intros N ->; destruct (W_k _ _ H N) as (A & _); congruence).
    assert (Hj : k <> j -> i <> j) by (intros N; destruct Ho; [contradiction|assumption]).
    assert (Hm : forall a, used w a = true -> used (create i s d supp w) a = true) by (intros a Ha; rewrite used_create, Ha; apply orb_true_r).
    assert (Hold : forall a, used w a = true -> a <> i) by (intros a Ha ->; congruence).
    assert (Hrho : forall a, used w a = true -> rho a <> i).
    { intros a Ha E. apply (Hold a Ha). rewrite <- Ei in E. apply rho_inj in E; [exact E|now apply (used_ok w w')|exact Ho]. }
    destruct (W_undead _ _ H i Hu Ho) as [D1 D2].
    constructor; cbn [create w_net w_kind w_modes w_conn_modes].
    - intros N. destruct (W_k _ _ H N) as (A & B & C & D & F). rewrite !used_create, A, C, D. unfold upd. specialize (Hk N). specialize (Hj N).
      destruct (Nat.eqb_spec k i); [congruence|]. destruct (Nat.eqb_spec j i); [congruence|]. repeat split; try assumption; try reflexivity.
    - intros a Ha. rewrite !used_create. now rewrite (W_used _ _ H a Ha).
    - intros a Ha. rewrite used_create in Ha. unfold upd. destruct (Nat.eqb_spec a i) as [Ea|Na]; [subst a|].
      + rewrite Ei, Nat.eqb_refl. reflexivity.
      + cbn in Ha. destruct (Nat.eqb_spec (rho a) i) as [E|_]; [destruct (Hrho a Ha E)|]. now apply (W_kind _ _ H).
    - intros a l r Ha. rewrite used_create in Ha. unfold upd. destruct (Nat.eqb_spec a i) as [Ea|Na]; [subst a|].
      + intros ->. destruct (Hd l r eq_refl) as (P1 & P2 & _). split; eapply part_ok_mono; eassumption.
      + cbn in Ha. intros E. destruct (W_parts _ _ H a l r Ha E) as [P1 P2]. split; eapply part_ok_mono; eassumption.
    - intros a Ha. rewrite used_create in Ha. change (dead (w_net w') (rho a) = dead (w_net w) a). destruct (Nat.eqb_spec a i) as [Ea|Na]; [subst a; now rewrite Ei, D1, D2|]. now apply (W_dead _ _ H).
    - intros a Ha Hoa. rewrite used_create in Ha. apply orb_false_elim in Ha. destruct Ha as [_ Ha]. apply (W_undead _ _ H a Ha Hoa).
    - intros a [Ha Hp]. rewrite used_create in Ha. cbn [create w_kind] in Hp. unfold upd in *. destruct (Nat.eqb_spec a i) as [Ea|Na]; [subst a; reflexivity|]. now apply (W_modes _ _ H).
    - intros a Ha. rewrite used_create in Ha. unfold upd. destruct (Nat.eqb_spec a i) as [Ea|Na]; [subst a; now rewrite Ei, Nat.eqb_refl|]. cbn in Ha.
      destruct (Nat.eqb_spec (rho a) i) as [E|_]; [destruct (Hrho a Ha E)|]. now apply (W_supp _ _ H).
    - intros a l r Ha. rewrite used_create in Ha. unfold upd. destruct (Nat.eqb_spec a i) as [Ea|Na]; [intros ->; apply (Hd l r eq_refl)|]. cbn in Ha. now apply (W_chain _ _ H).
    - apply (W_cm _ _ H).
    - assert (Hni : ~ plain w i) by (intros [A _]; congruence).
      apply (R_mono (plain w)).
      + destruct d as [|l r]; [rewrite (Hs eq_refl); now apply R_set_st, (W_R _ _ H)|now apply R_set_idle; [apply (W_R _ _ H)| |]].
      + intros a [Ha Hp]. split; [now apply Hm|]. cbn. unfold upd. destruct (Nat.eqb_spec a i) as [Ea|Na]; [subst a; destruct (Hold i Ha eq_refl)|exact Hp].
      + intros a [Ha Hp]. rewrite used_create in Ha. cbn in Hp. unfold upd in Hp. destruct (Nat.eqb_spec a i) as [Ea|Na]; [subst a|left; now split]. right. split; [change (dead (w_net w') i = dead (w_net w) i); congruence|].
        cbn. now rewrite Nat.eqb_refl, (Hs Hp).
  Qed.

  Lemma is_nil_idle_entries w n i : (forall e, In e (n_map n) -> plain w (e_cons e)) -> ~ plain w i -> is_nil (@entries_of X St n i) = true.
  Proof. intros H Hi. now rewrite (entries_idle (plain w) n i H Hi). Qed.

  Lemma used_move (w : world X St) (n' : net X St) kd md l m a : used {| w_net := n'; w_kind := kd; w_modes := md; w_used := m :: w_used w; w_conn_modes := l |} a = (a =? m) || used w a.
  Proof. clear. reflexivity. Qed.

  Lemma move_W w w' i m g : W w w' -> ok i -> ok m -> orel W (do_move b i m g w) (do_move b (rho i) (rho m) g w').
  Proof.
    intros H Hi Hm. unfold do_move. rewrite (usable_W w w' i H Hi), (used_W w w' m H Hm). destruct (usable w i) eqn:Eu; [|exact I]. destruct (used w m) eqn:Em; [exact I|]. cbn [andb negb].
    apply usable_used in Eu. rewrite (unused_rho w w' m H Em Hm). pose proof (W_R _ _ H) as HR.
    assert (HR' : R (plain w) (w_net w') (w_net w')) by (destruct HR; constructor; try reflexivity; [rewrite R_sample|rewrite R_flush|rewrite R_disc|rewrite R_map]; assumption).
    assert (Eim : i <> m) by (intros ->; congruence).
    assert (Emk : k <> j -> m <> k) by (intros N ->; destruct (W_k _ _ H N) as (A & _); congruence).
    assert (Emj : k <> j -> m <> j) by (intros N; destruct Hm; [contradiction|assumption]).
    assert (Hold : forall a, used w a = true -> a <> m) by (intros a Ha ->; congruence).
    assert (Hrm : rho m = m) by now apply (unused_rho w w').
    assert (Hrho : forall a, used w a = true -> rho a <> m).
    { intros a Ha E. apply (Hold a Ha). rewrite <- Hrm in E. apply rho_inj in E; [exact E|now apply (used_ok w w')|exact Hm]. }
    destruct (W_undead _ _ H m Em Hm) as [D1 D2].
    assert (Hnm : ~ plain w m) by (intros [A _]; congruence).
    destruct (w_kind w i) as [|l r] eqn:Ek.
    - assert (Hp : plain w i) by now split. rewrite (plain_rho w w' i H Hp). assert (Ek' : w_kind w' i = Plain) by (pose proof (W_kind _ _ H i Eu) as A; rewrite Ek, (plain_rho w w' i H Hp) in A; exact A). rewrite Ek'.
      apply orel_assert; [now rewrite (R_entries _ _ _ i HR)|]. apply orel_assert; [now rewrite (R_sample _ _ _ HR), (R_flush _ _ _ HR), (R_disc _ _ _ HR)|]. cbn [orel].
      constructor; cbn [w_net w_kind w_modes w_conn_modes].
      + intros N. destruct (W_k _ _ H N) as (A & B & C & D & F). rewrite !used_move, A, C, D. unfold upd. specialize (Emk N). specialize (Emj N).
        destruct (Nat.eqb_spec k m); [congruence|]. destruct (Nat.eqb_spec j m); [congruence|]. repeat split; try assumption; try reflexivity.
      + intros a Ha. rewrite !used_move. now rewrite (W_used _ _ H a Ha).
      + intros a Ha. rewrite used_move in Ha. unfold upd. destruct (Nat.eqb_spec a m) as [Ea|Na]; [subst a; now rewrite Hrm, Nat.eqb_refl|]. cbn in Ha. destruct (Nat.eqb_spec (rho a) m) as [E|_]; [destruct (Hrho a Ha E)|]. now apply (W_kind _ _ H).
      + intros a l r Ha. rewrite used_move in Ha. unfold upd. destruct (Nat.eqb_spec a m) as [Ea|Na]; [subst a; discriminate|]. cbn in Ha. intros E. destruct (W_parts _ _ H a l r Ha E) as [P1 P2].
        split; (eapply part_ok_mono; [|eassumption]); intros z Hz; rewrite used_move, Hz; apply orb_true_r.
      + intros a Ha. rewrite used_move in Ha. change (dead (w_net w') (rho a) = dead (w_net w) a). destruct (Nat.eqb_spec a m) as [Ea|Na]; [subst a; now rewrite Hrm, D1, D2|]. now apply (W_dead _ _ H).
      + intros a Ha Hoa. rewrite used_move in Ha. apply orb_false_elim in Ha. destruct Ha as [_ Ha]. apply (W_undead _ _ H a Ha Hoa).
      + intros a [Ha Hpa]. rewrite used_move in Ha. cbn [w_kind] in Hpa. unfold upd in *. destruct (Nat.eqb_spec a m) as [Ea|Na]; [subst a; now rewrite (W_modes _ _ H i Hp)|]. now apply (W_modes _ _ H).
      + intros a Ha. rewrite used_move in Ha. unfold upd. destruct (Nat.eqb_spec a m) as [Ea|Na]; [subst a; rewrite Hrm, Nat.eqb_refl; cbn; now rewrite (W_modes _ _ H i Hp)|]. cbn in Ha.
        destruct (Nat.eqb_spec (rho a) m) as [E|_]; [destruct (Hrho a Ha E)|]. now apply (W_supp _ _ H).
      + intros a l r Ha. rewrite used_move in Ha. unfold upd. destruct (Nat.eqb_spec a m) as [Ea|Na]; [discriminate|]. cbn in Ha. now apply (W_chain _ _ H).
      + apply (W_cm _ _ H).
      + apply (R_mono (plain w)).
        * rewrite (R_st _ _ _ HR i Hp). now apply R_set_st, R_set_st.
        * intros a [Ha Hpa]. split; [rewrite used_move, Ha; apply orb_true_r|]. cbn. unfold upd. destruct (a =? m); [reflexivity|exact Hpa].
        * intros a [Ha Hpa]. rewrite used_move in Ha. cbn in Hpa. unfold upd in Hpa. destruct (Nat.eqb_spec a m) as [Ea|Na]; [subst a|left; now split]. right. split; [change (dead (w_net w') m = dead (w_net w) m); congruence|].
          cbn. rewrite Nat.eqb_refl. destruct (Nat.eqb_spec m i); [congruence|]. now rewrite (R_st _ _ _ HR i Hp).
    - assert (Hn : ~ plain w i) by (intros [_ A]; congruence). assert (Hn' : ~ plain w (rho i)) by (apply (plain_not w w'); [exact H|exact Hi|exact Eu|congruence]).
      rewrite (W_kind _ _ H i Eu), Ek. cbn [renk].
      rewrite (is_nil_idle_entries w _ _ (R_pmap _ _ _ HR) Hn), (is_nil_idle_entries w _ _ (R_pmap _ _ _ HR') Hn').
      rewrite !(slots_idle (plain w) _ i) by (exact Hn || apply HR). rewrite !(slots_idle (plain w) _ (rho i)) by (exact Hn' || apply HR'). cbn [is_nil andb assert_then orel].
      assert (Hri : forall a, used w a = true -> (rho a =? rho i) = (a =? i)) by (intros a Ha; apply rho_eqb; [now apply (used_ok w w')|exact Hi]).
      constructor; cbn [w_net w_kind w_modes w_conn_modes].
      + intros N. destruct (W_k _ _ H N) as (A & B & C & D & F). rewrite !used_move, A, C, D. unfold upd. specialize (Emk N). specialize (Emj N).
        destruct (Nat.eqb_spec k m); [congruence|]. destruct (Nat.eqb_spec j m); [congruence|]. repeat split; try assumption; try reflexivity.
        * destruct (k =? i); [discriminate|assumption].
        * destruct (k =? rho i); [discriminate|assumption].
      + intros a Ha. rewrite !used_move. now rewrite (W_used _ _ H a Ha).
      + intros a Ha. rewrite used_move in Ha. unfold upd. destruct (Nat.eqb_spec a m) as [Ea|Na]; [subst a|].
        * rewrite Hrm, Nat.eqb_refl. destruct (Nat.eqb_spec m i); [congruence|]. destruct (Nat.eqb_spec m (rho i)) as [E|_]; [symmetry in E; destruct (Hrho i Eu E)|]. reflexivity.
        * cbn in Ha. rewrite (Hri a Ha). destruct (a =? i); [now destruct l, r|]. destruct (Nat.eqb_spec (rho a) m) as [E|_]; [destruct (Hrho a Ha E)|]. now apply (W_kind _ _ H).
      + assert (Hmono : forall p, part_ok w p -> part_ok {| w_net := set_st i g (set_st m (n_st (w_net w) i) (w_net w)); w_kind := upd (upd (w_kind w) m (Chain l r)) i (Chain (moved_from l) (moved_from r)); w_modes := upd (w_modes w) m {| md_supported := md_supported (w_modes w i); md_mode := md_mode (w_modes w i); md_queue := 0 |}; w_used := m :: w_used w; w_conn_modes := w_conn_modes w |} p).
        { intros p. apply part_ok_mono. intros z Hz. rewrite used_move, Hz. apply orb_true_r. }
        destruct (W_parts _ _ H i l r Eu Ek) as [Q1 Q2].
        intros a l2 r2 Ha. rewrite used_move in Ha. unfold upd at 1 2. destruct (a =? i).
        * intros E. injection E as <- <-. split; [destruct l; cbn; try exact I; apply (Hmono _ Q1)|destruct r; cbn; try exact I; apply (Hmono _ Q2)].
        * destruct (Nat.eqb_spec a m) as [Ea|Na]; [subst a; intros E; injection E as <- <-; split; now apply Hmono|]. cbn in Ha. intros E. destruct (W_parts _ _ H a l2 r2 Ha E) as [P1 P2]. split; now apply Hmono.
      + intros a Ha. rewrite used_move in Ha. change (dead (w_net w') (rho a) = dead (w_net w) a). destruct (Nat.eqb_spec a m) as [Ea|Na]; [subst a; now rewrite Hrm, D1, D2|]. now apply (W_dead _ _ H).
      + intros a Ha Hoa. rewrite used_move in Ha. apply orb_false_elim in Ha. destruct Ha as [_ Ha]. apply (W_undead _ _ H a Ha Hoa).
      + intros a [Ha Hpa]. rewrite used_move in Ha. cbn [w_kind] in Hpa. unfold upd in *. destruct (a =? i); [discriminate|]. destruct (Nat.eqb_spec a m) as [Ea|Na]; [subst a; discriminate|]. now apply (W_modes _ _ H).
      + intros a Ha. rewrite used_move in Ha. unfold upd. destruct (Nat.eqb_spec a m) as [Ea|Na]; [subst a; rewrite Hrm, Nat.eqb_refl; cbn; now rewrite (W_supp _ _ H i Eu)|]. cbn in Ha.
        destruct (Nat.eqb_spec (rho a) m) as [E|_]; [destruct (Hrho a Ha E)|]. now apply (W_supp _ _ H).
      + intros a l2 r2 Ha. rewrite used_move in Ha. unfold upd. destruct (Nat.eqb_spec a m) as [Ea|Na]; [intros _; apply (W_chain _ _ H i l r Eu Ek)|]. cbn in Ha. destruct (Nat.eqb_spec a i) as [Ea|Na2]; [subst a; intros _; apply (W_chain _ _ H i l r Eu Ek)|]. now apply (W_chain _ _ H).
      + apply (W_cm _ _ H).
      + assert (Hiff : forall a, plain w a <-> plain {| w_net := set_st i g (set_st m (n_st (w_net w) i) (w_net w)); w_kind := upd (upd (w_kind w) m (Chain l r)) i (Chain (moved_from l) (moved_from r)); w_modes := upd (w_modes w) m {| md_supported := md_supported (w_modes w i); md_mode := md_mode (w_modes w i); md_queue := 0 |}; w_used := m :: w_used w; w_conn_modes := w_conn_modes w |} a).
        { intros a. unfold plain. rewrite used_move. cbn [w_kind]. unfold upd. split.
          - intros [Ha Hpa]. rewrite Ha. split; [apply orb_true_r|]. destruct (Nat.eqb_spec a i) as [Ea|_]; [subst a; congruence|]. destruct (Nat.eqb_spec a m) as [Ea|_]; [subst a; congruence|exact Hpa].
          - intros [Ha Hpa]. destruct (a =? i); [discriminate|]. destruct (Nat.eqb_spec a m) as [Ea|Na]; [subst a; discriminate|]. now split. }
        apply (R_mono (plain w)); [|intros a; apply Hiff|intros a Ha; left; now apply Hiff]. apply R_set_idle; [|exact Hn|exact Hn']. apply R_set_idle; [exact HR|exact Hnm|exact Hnm].
  Qed.

  Lemma take_W w w' o : W w w' -> Forall ok (operand_names o) ->
    orel (fun a a' => W (fst a) (fst a') /\ ok (snd (snd a)) /\ used (fst a) (snd (snd a)) = true /\ snd (snd a') = rho (snd (snd a)) /\ fst (snd a') = renp (fst (snd a)) /\ part_ok (fst a) (fst (snd a)) /\
                      (forall z, used w z = true -> used (fst a) z = true))
      (take b o w) (take b (ren_operand k j o) w').
  Proof.
    intros H Ho. destruct o as [i|i m g]; cbn in *.
    - inversion Ho as [|? ? Hi _]; subst. rewrite (usable_W w w' i H Hi). destruct (usable w i) eqn:E; [|exact I]. cbn. apply usable_used in E. split; [exact H|]. repeat (split; [first [assumption|reflexivity]|]). auto.
    - inversion Ho as [|? ? Hi Ho2]; subst. inversion Ho2 as [|? ? Hm _]; subst. pose proof (move_W w w' i m g H Hi Hm) as HM.
      destruct (do_move b i m g w) as [a| | |] eqn:E; destruct (do_move b (rho i) (rho m) g w') as [a'| | |] eqn:E'; cbn in HM; try contradiction; try exact I. cbn.
      assert (Hua : forall z, used a z = (z =? m) || used w z).
      { clear - E. unfold do_move in E. destruct (usable w i && negb (used w m)); [|discriminate]. unfold assert_then in E. 
        destruct (is_nil (entries_of (w_net w) i)); [|destruct b; [discriminate|]];
        (match type of E with context [if ?t then _ else _] => destruct t end; [|destruct b; try discriminate]); injection E as <-; reflexivity. }
      assert (Hu : used a m = true) by now rewrite Hua, Nat.eqb_refl.
      split; [exact HM|]. repeat (split; [first [assumption|reflexivity]|]). intros z Hz. rewrite Hua, Hz. apply orb_true_r.
  Qed.

  Lemma W_R' w w' : W w w' -> R (plain w) (w_net w') (w_net w').
  Proof. intros H. pose proof (W_R _ _ H) as []. constructor; try reflexivity; [rewrite R_sample|rewrite R_flush|rewrite R_disc|rewrite R_map]; assumption. Qed.
  Lemma W_net_dead w w' n n' i : W w w' -> ok i -> used w i = true -> R (plain w) n n' -> n_dead n = i :: n_dead (w_net w) -> n_dead n' = rho i :: n_dead (w_net w') -> W (set_net n w) (set_net n' w').
  Proof.
    intros H Ho Hu HR E E'.
    assert (D : forall a, dead n a = (a =? i) || dead (w_net w) a) by (intros a; unfold dead; now rewrite E).
    assert (D' : forall a, dead n' a = (a =? rho i) || dead (w_net w') a) by (intros a; unfold dead; now rewrite E').
    pose proof (used_W w w' i H Ho) as Hu'. rewrite Hu in Hu'. pose proof (used_ok w w') as UO. pose proof rho_eqb as RE. destruct H as []. constructor; cbn; try assumption.
    - intros a Ha. change (dead n' (rho a) = dead n a). rewrite D, D', (W_dead0 a Ha), RE; [reflexivity| |exact Ho]. apply UO; [now constructor|exact Ha].
    - intros a Ha Hoa. change (dead n a = false /\ dead n' a = false). change (used w a = false) in Ha. rewrite D, D'. destruct (W_undead0 a Ha Hoa) as [-> ->]. split.
      + destruct (Nat.eqb_spec a i) as [Ea|]; [subst a; congruence|reflexivity].
      + destruct (Nat.eqb_spec a (rho i)) as [Ea|]; [|reflexivity]. rewrite <- Ea in Hu'. rewrite (W_used0 a Hoa) in Hu'. congruence.
  Qed.
  Lemma destroy_frame d : forall i (w w2 : world X St), do_destroy filt b fuel d i w = Ok w2 -> w_kind w2 = w_kind w /\ w_used w2 = w_used w.
  Proof.
    induction d as [|d IH]; intros i w w2 E; [discriminate|]. cbn in E. destruct (usable w i); [|discriminate]. destruct (w_kind w i) as [|l r].
    - destruct (destroy _ _ _ _ _ _) as [n| | |]; try discriminate. cbn in E. injection E as <-. split; reflexivity.
    - assert (K : forall (p : part) u u2, match p with Own a => do_destroy filt b fuel d a u | _ => Ok u end = Ok u2 -> w_kind u2 = w_kind u /\ w_used u2 = w_used u).
      { intros p u u2 Eu. destruct p; [injection Eu as <-; split; reflexivity|now apply IH in Eu|injection Eu as <-; split; reflexivity]. }
      destruct (match r with Own a => do_destroy filt b fuel d a w | _ => Ok w end) as [w1| | |] eqn:E1; try discriminate. cbn [bind] in E.
      destruct (match l with Own a => do_destroy filt b fuel d a w1 | _ => Ok w1 end) as [w3| | |] eqn:E3; try discriminate. cbn [bind] in E.
      destruct (destroy_base b i (w_net w3)) as [n| | |]; try discriminate. cbn in E. injection E as <-. apply K in E1. apply K in E3. cbn. destruct E1 as [A B], E3 as [C D]. split; congruence.
  Qed.
  Lemma destroy_W d : forall w w' i, W w w' -> ok i -> orel W (do_destroy filt b fuel d i w) (do_destroy filt b fuel d (rho i) w').
  Proof.
    induction d as [|d IH]; intros w w' i H Ho; [exact I|]. cbn [do_destroy]. rewrite (usable_W w w' i H Ho). destruct (usable w i) eqn:Eu; [|exact I]. apply usable_used in Eu.
    rewrite (W_kind _ _ H i Eu). destruct (w_kind w i) as [|l r] eqn:Ek; cbn [renk].
    - assert (Hp : plain w i) by now split. rewrite (plain_rho w w' i H Hp).
      pose proof (destroy_R filt (plain w) b fuel i _ _ (R_log2 (plain w) _ _ (EOp (ODestroy i)) (EOp (ODestroy i)) eq_refl (W_R _ _ H)) (R_dead _ _ _ (W_R _ _ H) i Hp)) as HD.
      destruct (destroy filt FindFirst b fuel i (log (EOp (ODestroy i)) (w_net w))) as [n| | |] eqn:E1; destruct (destroy filt FindFirst b fuel i (log (EOp (ODestroy i)) (w_net w'))) as [n'| | |] eqn:E2; cbn in HD; try contradiction; try exact I.
      cbn [bind orel]. apply destroy_dead in E1. apply destroy_dead in E2. apply (W_net_dead w w' n n' i); try assumption. now rewrite (plain_rho w w' i H Hp).
    - destruct (W_parts _ _ H i l r Eu Ek) as [P1 P2].
      assert (K : forall (p : part) u u', W u u' -> part_ok u p -> orel W (match p with Own a => do_destroy filt b fuel d a u | _ => Ok u end) (match renp p with Own a => do_destroy filt b fuel d a u' | _ => Ok u' end)).
      { intros p u u' Hu Hp. destruct p; cbn; [exact Hu| |exact Hu]. apply IH; [exact Hu|]. now apply (used_ok u u'). }
      pose proof (K r w w' H P2) as HK1.
      destruct (match r with Own a => do_destroy filt b fuel d a w | _ => Ok w end) as [w1| | |] eqn:E1; destruct (match renp r with Own a => do_destroy filt b fuel d a w' | _ => Ok w' end) as [w1'| | |] eqn:E1'; cbn in HK1; try contradiction; try exact I.
      cbn [bind].
      assert (F1 : w_kind w1 = w_kind w /\ w_used w1 = w_used w) by (destruct r; [injection E1 as <-; split; reflexivity|now apply destroy_frame in E1|injection E1 as <-; split; reflexivity]).
      assert (P1' : part_ok w1 l) by (eapply part_ok_mono; [|exact P1]; intros z Hz; unfold used in *; now rewrite (proj2 F1)).
      pose proof (K l w1 w1' HK1 P1') as HK2.
      destruct (match l with Own a => do_destroy filt b fuel d a w1 | _ => Ok w1 end) as [w2| | |] eqn:E2; destruct (match renp l with Own a => do_destroy filt b fuel d a w1' | _ => Ok w1' end) as [w2'| | |] eqn:E2'; cbn in HK2; try contradiction; try exact I.
      cbn [bind].
      assert (F2 : w_kind w2 = w_kind w1 /\ w_used w2 = w_used w1) by (destruct l; [injection E2 as <-; split; reflexivity|now apply destroy_frame in E2|injection E2 as <-; split; reflexivity]).
      assert (Ek2 : w_kind w2 i = Chain l r) by (destruct F1 as [F1 _], F2 as [F2 _]; now rewrite F2, F1).
      assert (Eu2 : used w2 i = true) by (unfold used in *; destruct F1 as [_ F1], F2 as [_ F2]; now rewrite F2, F1).
      assert (Hn : ~ plain w2 i) by (intros [_ A]; congruence). assert (Hn' : ~ plain w2 (rho i)) by (apply (plain_not w2 w2'); [exact HK2|exact Ho|exact Eu2|congruence]).
      destruct (destroy_base_idle (plain w2) b (w_net w2) i (R_refl_l _ _ _ (W_R _ _ HK2)) Hn) as (n & -> & R1 & D1).
      destruct (destroy_base_idle (plain w2) b (w_net w2') (rho i) (W_R' _ _ HK2) Hn') as (n' & -> & R2 & D2). cbn [bind orel].
      apply (W_net_dead w2 w2' n n' i); try assumption.
      pose proof (W_R _ _ HK2) as R0. clear - R0 R1 R2. destruct R0, R1, R2. constructor; try congruence.
      + intros s. rewrite R_sample0. apply R_psample.
      + intros s. rewrite R_flush0. apply R_pflush.
      + intros s. rewrite R_disc0. apply R_pdisc.
      + intros s. rewrite R_map0. apply R_pmap.
      + intros a Ha. rewrite (R_dead1 a Ha), (R_dead a Ha), (R_dead0 a Ha). reflexivity.
      + intros a Ha. rewrite (R_st1 a Ha), (R_st a Ha), (R_st0 a Ha). reflexivity.
  Qed.

  Lemma perform_W w w' c : W w w' -> Forall ok (names c) -> orel W (perform filt b fuel c w) (perform filt b fuel (ren_call k j c) w').
  Proof.
    intros H Hn. destruct c as [i s supp|l r m|i m g|p c|c m q|c|c|p x|p|i]; cbn [names] in Hn.
    - inversion Hn as [|? ? Hi _]; subst. cbn. rewrite (used_W w w' i H Hi). destruct (used w i) eqn:E; [exact I|]. rewrite (unused_rho w w' i H E Hi).
      cbn [orel]. apply (create_W w w' i s s Plain supp H Hi E); [reflexivity|discriminate].
    - apply Forall_app in Hn. destruct Hn as [Hl Hn]. apply Forall_app in Hn. destruct Hn as [Hr Hm]. inversion Hm as [|? ? Hk _]; subst. cbn [perform ren_call].
      eapply orel_bind; [apply (take_W w w' l H Hl)|]. intros [w1 [pl l1]] [w1' [pl' l1']]. cbn. intros (H1 & Ho1 & _ & -> & -> & P1 & _).
      eapply orel_bind; [apply (take_W w1 w1' r H1 Hr)|]. intros [w2 [pr r1]] [w2' [pr' r1']]. cbn. intros (H2 & Ho2 & _ & -> & -> & P2 & M).
      rewrite (used_W w2 w2' m H2 Hk). destruct (used w2 m) eqn:E; [exact I|]. rewrite (unused_rho w2 w2' m H2 E Hk).
      apply connect_W; [|exact Ho1|exact Ho2]. change (Chain (renp pl) (renp pr)) with (renk (Chain pl pr)). apply create_W; [exact H2|exact Hk|exact E|discriminate|].
      intros a c Eq. injection Eq as <- <-. split; [eapply part_ok_mono; eassumption|]. split; [exact P2|reflexivity].
    - inversion Hn as [|? ? Hi Hn2]; subst. inversion Hn2 as [|? ? Hm _]; subst. now apply move_W.
    - inversion Hn as [|? ? Hi Hn2]; subst. inversion Hn2 as [|? ? Hm _]; subst. now apply connect_W.
    - inversion Hn as [|? ? Hc _]; subst. cbn [perform ren_call]. rewrite (usable_W w w' c H Hc). destruct (usable w c) eqn:E; [|exact I]. apply usable_used in E.
      rewrite (W_supp _ _ H c E).
      assert (EL : length (entries_of (w_net w') (rho c)) = length (entries_of (w_net w) c)).
      { destruct (w_kind w c) as [|l r] eqn:Ek.
        - now rewrite (plain_rho w w' c H (conj E Ek)), (R_entries _ _ _ c (W_R _ _ H)).
        - rewrite (entries_idle (plain w) _ c (R_pmap _ _ _ (W_R _ _ H))) by (intros [_ A]; congruence).
          now rewrite (entries_idle (plain w) _ (rho c) (R_pmap _ _ _ (W_R' _ _ H))) by (apply (plain_not w w'); [exact H|exact Hc|exact E|congruence]). }
      rewrite EL. destruct (set_parallel_mode b (md_supported (w_modes w c)) (length (entries_of (w_net w) c)) m) as [m'| | |]; try exact I. cbn [bind orel].
      pose proof (fun a Ha => rho_eqb a c Ha Hc) as RE. pose proof (used_ok w w') as UO. pose proof (plain_rho w w') as PR. pose proof H as H0. destruct H as []. constructor; cbn [w_net w_kind w_modes w_conn_modes]; try assumption.
      + intros a Hp. change (plain w a) in Hp. unfold upd. rewrite <- (PR a H0 Hp) at 1. rewrite RE by (apply UO; [exact H0|apply Hp]). destruct (Nat.eqb_spec a c) as [Ea|]; [now subst a|now apply W_modes0].
      + intros a Ha. change (used w a = true) in Ha. unfold upd. rewrite RE by now apply UO. destruct (Nat.eqb_spec a c) as [Ea|]; [reflexivity|now apply W_supp0].
      + intros a l r Ha Ek. change (used w a = true) in Ha. unfold upd. destruct (Nat.eqb_spec a c) as [Ea|]; [subst a|]; now apply (W_chain0 _ l r).
    - inversion Hn as [|? ? Hc _]; subst. cbn [perform ren_call].
      apply (call_W w w' (fun n c => flush_one filt (flush_sig filt fuel) n c) c); [exact H|exact Hc|reflexivity| | |].
      + intros n m c0 HR. apply flush_one_R; [apply flush_sig_R|exact HR].
      + intros n c0 HR Hk. now apply flush_idle.
      + intros n c0 n' E. apply flush_one_dead in E; [exact E|apply flush_sig_dead].
    - inversion Hn as [|? ? Hc _]; subst. cbn [perform ren_call].
      apply (call_W w w' (fun n c => disconnect_and_flush filt fuel c (log (EOp (ODisconnect c)) n)) c); [exact H|exact Hc|reflexivity| | |].
      + intros n m c0 HR. apply disconnect_R. now apply R_log2.
      + intros n c0 HR Hk. destruct (disconnect_idle filt (plain w) f (log (EOp (ODisconnect c0)) n) c0) as (n' & E & R1); [now apply R_log2|exact Hk|]. exists n'. split; [exact E|].
        eapply R_trans; [|exact R1]. now apply R_log1'.
      + intros n c0 n' E. now apply disconnect_dead in E.
    - inversion Hn as [|? ? Hc _]; subst. cbn [perform ren_call].
      apply (call_W w w' (fun n p => issue filt fuel (log (EOp (OIssue p x)) n) p x) p); [exact H|exact Hc|reflexivity| | |].
      + intros n m c0 HR. apply issue_R. now apply R_log2.
      + intros n c0 HR Hk. destruct (issue_idle filt (plain w) f (log (EOp (OIssue c0 x)) n) c0 x) as (n' & E & R1); [now apply R_log2|exact Hk|]. exists n'. split; [exact E|].
        eapply R_trans; [|exact R1]. now apply R_log1'.
      + intros n c0 n' E. now apply issue_dead in E.
    - inversion Hn as [|? ? Hc _]; subst. cbn [perform ren_call].
      apply (call_W w w' (fun n p => flush_sig filt fuel (log (EOp (OFlush p)) n) p) p); [exact H|exact Hc|reflexivity| | |].
      + intros n m c0 HR. apply flush_sig_R. now apply R_log2.
      + intros n c0 HR Hk. eexists. split; [apply (flush_sig_idle filt (plain w)); [now apply R_log2|exact Hk]|]. now apply R_log1'.
      + intros n c0 n' E. now apply flush_sig_dead in E.
    - inversion Hn as [|? ? Hi _]; subst. now apply destroy_W.
  Qed.
  Lemma run_W h : forall w w', W w w' -> Forall (fun c => Forall ok (names c)) h -> orel W (run filt b fuel h w) (run filt b fuel (map (ren_call k j) h) w').
  Proof.
    induction h as [|c h IH]; intros w w' H Hh; [exact H|]. cbn. inversion Hh as [|? ? H1 H2]; subst. eapply orel_bind; [apply perform_W; eassumption|]. intros a a' Ha. now apply IH.
  Qed.
  Lemma W_observe o o' : orel W o o' -> observe o = observe o'.
  Proof.
    destruct o as [w| | |], o' as [w'| | |]; cbn; intros H; try contradiction; try reflexivity. now rewrite (R_log _ _ _ (W_R _ _ H)), (W_cm _ _ H).
  Qed.
End W.
