(** Networks that differ only in objects without connections behave alike. *)
From Verif Require Import Prelude NetModel NetSpec NetProofs MoveModel MoveSpec.

Definition orel {A B} (R : A -> B -> Prop) (o : outcome A) (o' : outcome B) : Prop :=
  match o, o' with Ok a, Ok a' => R a a' | UB, UB | AssertFail, AssertFail | Throw, Throw => True | _, _ => False end.
Lemma orel_bind {A B A' B'} (R : A -> A' -> Prop) (Q : B -> B' -> Prop) o o' f f' :
  orel R o o' -> (forall a a', R a a' -> orel Q (f a) (f' a')) -> orel Q (bind o f) (bind o' f').
Proof. intros H K. destruct o as [a| | |], o' as [a'| | |]; cbn in *; try contradiction; try exact I. apply K, H. Qed.
Lemma orel_assert {A B} (R : A -> B -> Prop) b c c' o o' : c = c' -> orel R o o' -> orel R (assert_then b c o) (assert_then b c' o').
Proof. intros <- H. unfold assert_then. destruct c; [exact H|]. destruct b; [exact I|exact H]. Qed.

Lemma deliveries_app {X} (l l' : list (event X)) : deliveries (l ++ l') = deliveries l ++ deliveries l'.
Proof. apply flat_map_app. Qed.

Section N.
  Context {X St : Type}.
  Variable filt : nat -> option (St -> X -> outcome (St * option X)).
  Variable P : nat -> Prop.
  Implicit Types n m : net X St.

  Record R n m : Prop := {
    R_next : n_next m = n_next n; R_sample : n_sample m = n_sample n; R_flush : n_flush m = n_flush n; R_disc : n_disc m = n_disc n; R_map : n_map m = n_map n;
    R_psample : forall s, In s (n_sample n) -> P (s_prod s) /\ P (s_cons s);
    R_pflush : forall s, In s (n_flush n) -> P (s_prod s) /\ P (s_cons s);
    R_pdisc : forall s, In s (n_disc n) -> P (s_prod s) /\ P (s_cons s);
    R_pmap : forall e, In e (n_map n) -> P (e_cons e);
    R_dead : forall i, P i -> dead m i = dead n i;
    R_st : forall i, P i -> n_st m i = n_st n i;
    R_log : deliveries (n_log m) = deliveries (n_log n) }.

  Lemma R_log2 n m e e' : deliveries [e] = deliveries [e'] -> R n m -> R (log e n) (log e' m).
  Proof. intros E H. destruct H. constructor; try assumption. cbn [log n_log]. now rewrite !deliveries_app, R_log0, E. Qed.
  Lemma R_log1 n m e : deliveries [e] = [] -> R n m -> R (log e n) m.
  Proof. intros E H. destruct H. constructor; try assumption. cbn [log n_log]. now rewrite deliveries_app, E, app_nil_r. Qed.
  Lemma R_log1' n m e : deliveries [e] = [] -> R n m -> R n (log e m).
  Proof. intros E H. destruct H. constructor; try assumption. cbn [log n_log]. now rewrite deliveries_app, E, app_nil_r. Qed.
  Lemma R_set_st n m i s : R n m -> R (set_st i s n) (set_st i s m).
  Proof. intros H. destruct H. constructor; try assumption. intros a Ha. cbn. destruct (a =? i); [reflexivity|now apply R_st0]. Qed.
  Lemma R_entries n m c : R n m -> entries_of m c = entries_of n c.
  Proof. intros H. unfold entries_of. now rewrite (R_map n m H). Qed.

  Definition irel (f f' : net X St -> nat -> X -> outcome (net X St)) := forall n m p x, R n m -> orel R (f n p x) (f' m p x).
  Lemma deliver_R f f' n m s x : irel f f' -> R n m -> P (s_cons s) -> orel R (deliver filt f n s x) (deliver filt f' m s x).
  Proof.
    intros Hf H Hs. unfold deliver. rewrite (R_dead n m H _ Hs). destruct (dead n (s_cons s)); [exact I|].
    rewrite (R_entries n m (s_cons s) H). destruct (entries_of n (s_cons s)) as [|e0 l0]; [exact H|].
    assert (H1 : R (log (ERecv (s_conn s) (s_cons s) x) n) (log (ERecv (s_conn s) (s_cons s) x) m)) by now apply R_log2.
    destruct (filt (s_cons s)) as [f0|]; [|exact H1]. rewrite (R_st _ _ H1 _ Hs).
    destruct (f0 _ x) as [[st' [y|]]| | |]; cbn; try exact I.
    - apply Hf, R_set_st, H1.
    - apply R_set_st, H1.
  Qed.
  Lemma deliver_all_R f f' x l : irel f f' -> forall n m, R n m -> (forall s, In s l -> P (s_cons s)) -> orel R (deliver_all filt f n l x) (deliver_all filt f' m l x).
  Proof.
    intros Hf. induction l as [|s l IH]; intros n m H Hl; [exact H|]. cbn.
    eapply orel_bind; [apply deliver_R; [exact Hf|exact H|apply Hl; now left]|]. intros a a' Ha. apply IH; [exact Ha|]. intros z Hz. apply Hl. now right.
  Qed.
  Lemma slots_P n m (l : list slot) p : (forall s, In s l -> P (s_prod s) /\ P (s_cons s)) -> forall s, In s (slots_of l p) -> P (s_cons s).
  Proof. clear. intros H s Hs. apply filter_In in Hs. apply H, Hs. Qed.
  Lemma issue_R fuel : irel (issue filt fuel) (issue filt fuel).
  Proof.
    induction fuel as [|fuel IH]; intros n m p x H; [exact I|]. cbn. rewrite (R_sample n m H).
    apply deliver_all_R; [exact IH|now apply R_log2|]. apply (slots_P n m). apply (R_psample n m H).
  Qed.
  Definition frel (f f' : net X St -> nat -> outcome (net X St)) := forall n m c, R n m -> orel R (f n c) (f' m c).
  Lemma flush_one_R f f' n m c : frel f f' -> R n m -> orel R (flush_one filt f n c) (flush_one filt f' m c).
  Proof. intros Hf H. unfold flush_one. destruct (filt c); [apply Hf|]; now apply R_log2. Qed.
  Lemma flush_all_R f f' l : frel f f' -> forall n m, R n m -> (forall s, In s l -> P (s_cons s)) -> orel R (flush_all filt f n l) (flush_all filt f' m l).
  Proof.
    intros Hf. induction l as [|s l IH]; intros n m H Hl; [exact H|]. cbn. rewrite (R_dead n m H) by (apply Hl; now left). destruct (dead n (s_cons s)); [exact I|].
    eapply orel_bind; [apply flush_one_R; eassumption|]. intros a a' Ha. apply IH; [exact Ha|]. intros z Hz. apply Hl. now right.
  Qed.
  Lemma flush_sig_R fuel : frel (flush_sig filt fuel) (flush_sig filt fuel).
  Proof.
    induction fuel as [|fuel IH]; intros n m c H; [exact I|]. cbn. rewrite (R_flush n m H). apply flush_all_R; [exact IH|exact H|]. apply (slots_P n m). apply (R_pflush n m H).
  Qed.

  Lemma R_drop n m e : R n m -> R (drop_entry e n) (drop_entry e m).
  Proof.
    intros H. destruct H. constructor; cbn [drop_entry n_next n_sample n_flush n_disc n_map n_st n_log]; try assumption; try congruence; unfold drop_slot.
    - intros s Hs. apply filter_In in Hs. apply R_psample0, Hs.
    - intros s Hs. apply filter_In in Hs. apply R_pflush0, Hs.
    - intros s Hs. apply filter_In in Hs. apply R_pdisc0, Hs.
  Qed.
  Lemma R_drops es : forall n m, R n m -> R (fold_left (fun a e => drop_entry e a) es n) (fold_left (fun a e => drop_entry e a) es m).
  Proof. induction es as [|e es IH]; intros n m H; [exact H|]. cbn. now apply IH, R_drop. Qed.
  Lemma R_set_map n m l l' : l = l' -> (forall e, In e l -> In e (n_map n)) -> R n m -> R (set_map l n) (set_map l' m).
  Proof. intros <- Hl H. destruct H. constructor; try assumption; cbn; [reflexivity|]. intros e He. apply R_pmap0, Hl, He. Qed.
  Lemma disconnect_R fuel n m c : R n m -> orel R (disconnect_and_flush filt fuel c n) (disconnect_and_flush filt fuel c m).
  Proof.
    intros H. unfold disconnect_and_flush. apply flush_one_R; [apply flush_sig_R|].
    rewrite (R_entries n m c H). pose proof (R_drops (entries_of n c) n m H) as HD. apply R_set_map; [now rewrite (R_map _ _ HD)| |exact HD].
    intros e He. apply filter_In in He. apply He.
  Qed.
  Lemma erase_incl e l : forall z, In z (erase_entry e l) -> In z l.
  Proof. clear. induction l as [|a l IH]; intros z Hz; [exact Hz|]. cbn in Hz. destruct (_ && _); [now right|]. destruct Hz as [->|Hz]; [now left|right; now apply IH]. Qed.
  Lemma disc_slot_R pol b c p n m : R n m -> P c -> orel R (disconnect_slot pol b c p n) (disconnect_slot pol b c p m).
  Proof.
    intros H Hc. unfold disconnect_slot, find_entry. rewrite (R_dead n m H c Hc), (R_entries n m c H). destruct (dead n c); [exact I|].
    assert (K : forall e, orel R (Ok (set_map (erase_entry e (n_map (drop_entry e n))) (drop_entry e n))) (Ok (set_map (erase_entry e (n_map (drop_entry e m))) (drop_entry e m)))).
    { intros e. apply R_set_map; [cbn; now rewrite (R_map n m H)|intros z Hz; apply (erase_incl _ _ _ Hz)|now apply R_drop]. }
    destruct pol; (match goal with |- orel _ (match ?o with _ => _ end) _ => destruct o as [e|] end); [apply K|destruct b; exact I|apply K|destruct b; exact I].
  Qed.
  Lemma disc_all_R pol b p l : forall n m, R n m -> (forall s, In s l -> P (s_cons s)) -> orel R (disc_all pol b p l n) (disc_all pol b p l m).
  Proof.
    induction l as [|s l IH]; intros n m H Hl; [exact H|]. cbn. rewrite (R_disc n m H).
    assert (Hl' : forall z, In z l -> P (s_cons z)) by (intros z Hz; apply Hl; now right).
    destruct (existsb _ (n_disc n)); [|now apply IH]. eapply orel_bind; [apply disc_slot_R; [exact H|apply Hl; now left]|]. intros a a' Ha. now apply IH.
  Qed.
  Definition killed (o : nat) n : net X St :=
    {| n_next := n_next n; n_sample := filter (fun s => negb (s_prod s =? o)) (n_sample n); n_flush := filter (fun s => negb (s_prod s =? o)) (n_flush n); n_disc := filter (fun s => negb (s_prod s =? o)) (n_disc n);
       n_map := n_map n; n_st := n_st n; n_dead := o :: n_dead n; n_log := n_log n |}.
  Lemma killed_R o n m : R n m -> R (killed o n) (killed o m).
  Proof.
    intros H. destruct H. constructor; cbn; try assumption; try congruence.
    - intros s Hs. apply filter_In in Hs. apply R_psample0, Hs.
    - intros s Hs. apply filter_In in Hs. apply R_pflush0, Hs.
    - intros s Hs. apply filter_In in Hs. apply R_pdisc0, Hs.
    - intros i Hi. unfold dead in *. cbn. now rewrite R_dead0.
  Qed.
  Lemma destroy_R b fuel o n m : R n m -> dead m o = dead n o -> orel R (destroy filt FindFirst b fuel o n) (destroy filt FindFirst b fuel o m).
  Proof.
    intros H Hd. unfold destroy. rewrite Hd. destruct (dead n o); [exact I|]. eapply orel_bind; [now apply disconnect_R|]. intros a a' Ha. rewrite (R_disc a a' Ha).
    eapply orel_bind; [apply disc_all_R; [exact Ha|apply (slots_P a a'), (R_pdisc a a' Ha)]|]. intros d d' Hdd. cbv zeta.
    change (orel R (assert_then b (match entries_of (killed o d) o with [] => true | _ => false end) (Ok (killed o d))) (assert_then b (match entries_of (killed o d') o with [] => true | _ => false end) (Ok (killed o d')))).
    apply orel_assert; [|now apply killed_R]. now rewrite (R_entries _ _ o (killed_R o d d' Hdd)).
  Qed.

  (** Objects without connections. *)
  Lemma slots_idle (l : list slot) k : (forall s, In s l -> P (s_prod s) /\ P (s_cons s)) -> ~ P k -> slots_of l k = [].
  Proof.
    clear filt. intros H Hk. unfold slots_of. induction l as [|s l IH]; [reflexivity|]. cbn. destruct (Nat.eqb_spec (s_prod s) k) as [E|]; [|apply IH; intros z Hz; apply H; now right].
    destruct Hk. rewrite <- E. apply H. now left.
  Qed.
  Lemma entries_idle n k : (forall e, In e (n_map n) -> P (e_cons e)) -> ~ P k -> entries_of n k = [].
  Proof.
    clear filt. intros H Hk. unfold entries_of. induction (n_map n) as [|s l IH]; [reflexivity|]. cbn. destruct (Nat.eqb_spec (e_cons s) k) as [E|]; [|apply IH; intros z Hz; apply H; now right].
    destruct Hk. rewrite <- E. apply H. now left.
  Qed.
  Lemma kill_idle (l : list slot) k : (forall s, In s l -> P (s_prod s) /\ P (s_cons s)) -> ~ P k -> filter (fun s => negb (s_prod s =? k)) l = l.
  Proof.
    clear filt. intros H Hk. apply filter_all. intros s Hs. destruct (Nat.eqb_spec (s_prod s) k) as [E|]; [|reflexivity]. destruct Hk. rewrite <- E. now apply H.
  Qed.
  Lemma map_idle n k : (forall e, In e (n_map n) -> P (e_cons e)) -> ~ P k -> filter (fun e => negb (e_cons e =? k)) (n_map n) = n_map n.
  Proof. clear filt. intros H Hk. apply filter_all. intros s Hs. destruct (Nat.eqb_spec (e_cons s) k) as [E|]; [|reflexivity]. destruct Hk. rewrite <- E. now apply H. Qed.
  Lemma R_refl_l n m : R n m -> R n n.
  Proof. intros H. destruct H. constructor; try assumption; reflexivity. Qed.
  Lemma R_trans n m o : R n m -> R m o -> R n o.
  Proof. intros [] []. constructor; try assumption; try congruence; intros i Hi; [rewrite R_dead1|rewrite R_st1]; auto. Qed.

  Lemma issue_idle fuel n k x : R n n -> ~ P k -> exists n', issue filt (S fuel) n k x = Ok n' /\ R n n'.
  Proof. intros H Hk. pose proof (slots_idle _ k (R_psample n n H) Hk) as E. cbn. unfold slots_of in *. rewrite ?E. eexists. split; [reflexivity|]. now apply R_log1'. Qed.
  Lemma flush_sig_idle fuel n k : R n n -> ~ P k -> flush_sig filt (S fuel) n k = Ok n.
  Proof. intros H Hk. pose proof (slots_idle _ k (R_pflush n n H) Hk) as E. cbn. unfold slots_of in *. now rewrite ?E. Qed.
  Lemma flush_idle fuel n k : R n n -> ~ P k -> exists n', flush_one filt (flush_sig filt (S fuel)) n k = Ok n' /\ R n n'.
  Proof.
    intros H Hk. unfold flush_one. assert (H1 : R n (log (EFlush k) n)) by now apply R_log1'. destruct (filt k); [|eexists; split; [reflexivity|exact H1]].
    exists (log (EFlush k) n). split; [|exact H1]. apply flush_sig_idle; [|exact Hk]. now apply R_log2.
  Qed.
  Lemma disconnect_idle fuel n k : R n n -> ~ P k -> exists n', disconnect_and_flush filt (S fuel) k n = Ok n' /\ R n n'.
  Proof.
    intros H Hk. unfold disconnect_and_flush. rewrite (entries_idle n k (R_pmap n n H) Hk). cbn [fold_left]. rewrite (map_idle n k (R_pmap n n H) Hk).
    replace (set_map (n_map n) n) with n by (destruct n; reflexivity). now apply flush_idle.
  Qed.
  Lemma destroy_base_idle b n k : R n n -> ~ P k -> exists n', destroy_base b k n = Ok n' /\ R n n' /\ n_dead n' = k :: n_dead n.
  Proof.
    intros H Hk. unfold destroy_base. rewrite (slots_idle _ k (R_pdisc n n H) Hk). cbn [disc_all bind]. rewrite !(kill_idle _ k) by (assumption || apply H).
    match goal with |- exists n', assert_then _ (is_nil (entries_of ?z _)) _ = _ /\ _ => set (n3 := z) end.
    assert (H3 : R n n3).
    { subst n3. destruct H. constructor; cbn; try assumption; try reflexivity. intros i Hi. unfold dead. cbn. destruct (Nat.eqb_spec i k) as [->|]; [contradiction|reflexivity]. }
    exists n3. rewrite (entries_idle n3 k); [|intros e He; apply (R_pmap n n H); exact He|exact Hk]. split; [reflexivity|]. split; [exact H3|reflexivity].
  Qed.
End N.
