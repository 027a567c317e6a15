From Coq Require Import ZifyBool ZifyNat.
From Verif Require Import Prelude NetModel NetSpec.

(** * Facts about the log functions *)
Section Logs.
  Context {X : Type}.
  Implicit Types (tr D : list (event X)).

  Lemma received_app k tr D : received k (tr ++ D) = received k tr ++ received k D.
  Proof. unfold received. apply flat_map_app. Qed.
  Lemma issued_app k tr D : issued k (tr ++ D) = issued k tr ++ issued k D.
  Proof. unfold issued. apply flat_map_app. Qed.
  Lemma consumed_app k tr D : consumed k (tr ++ D) = consumed k tr ++ consumed k D.
  Proof. unfold consumed. apply flat_map_app. Qed.

  Definition is_op (e : event X) : bool := match e with EOp _ => true | _ => false end.
  Definition noop D : Prop := forall e, In e D -> is_op e = false.

  Lemma noop_nil : noop [].
  Proof. intros e []. Qed.
  Lemma noop_app D1 D2 : noop D1 -> noop D2 -> noop (D1 ++ D2).
  Proof. intros H1 H2 e He. apply in_app_or in He. destruct He; auto. Qed.
  Lemma noop_cons e D : is_op e = false -> noop D -> noop (e :: D).
  Proof. intros H1 H2 e' [<-|He]; auto. Qed.

  (** Is the k-th connection live after [tr]? *)
  Fixpoint alive (p c : nat) tr : bool :=
    match tr with
    | [] => true
    | EOp (ODisconnect c') :: tr' => if c' =? c then false else alive p c tr'
    | EOp (ODestroy o) :: tr' => if (o =? c) || (o =? p) then false else alive p c tr'
    | _ :: tr' => alive p c tr'
    end.
  Fixpoint live (k : nat) tr : option (nat * nat) :=
    match tr with
    | [] => None
    | EOp (OConnect p c) :: tr' =>
      match k with
      | O => if alive p c tr' then Some (p, c) else None
      | S k' => live k' tr'
      end
    | _ :: tr' => live k tr'
    end.
  Fixpoint nconn tr : nat :=
    match tr with
    | [] => 0
    | EOp (OConnect _ _) :: tr' => S (nconn tr')
    | _ :: tr' => nconn tr'
    end.

  Lemma until_noop p c D : noop D -> until_severed p c D = issued p D.
  Proof.
    induction D as [|e D IH]; intros H; [reflexivity|].
    assert (He : is_op e = false) by (apply H; left; reflexivity).
    assert (HD : noop D) by (intros e' He'; apply H; right; exact He').
    destruct e as [o|p' x|k c' x|c']; try discriminate; cbn; rewrite IH by exact HD; try reflexivity.
    destruct (p' =? p); reflexivity.
  Qed.

  Lemma alive_noop p c D : noop D -> alive p c D = true.
  Proof.
    induction D as [|e D IH]; intros H; [reflexivity|].
    assert (He : is_op e = false) by (apply H; left; reflexivity).
    assert (HD : noop D) by (intros e' He'; apply H; right; exact He').
    destruct e as [o|p' x|k c' x|c']; try discriminate; cbn; apply IH; exact HD.
  Qed.

  Lemma until_app p c tr D :
    until_severed p c (tr ++ D) =
    until_severed p c tr ++ (if alive p c tr then until_severed p c D else []).
  Proof.
    induction tr as [|e tr IH]; [reflexivity|].
    destruct e as [[p' c'|p' x|p'|c'|o]|p' x|k c' x|c']; cbn; try apply IH.
    - destruct (c' =? c); [reflexivity|apply IH].
    - destruct ((o =? c) || (o =? p)); [reflexivity|apply IH].
    - rewrite IH. destruct (p' =? p); reflexivity.
  Qed.

  Lemma alive_app p c tr D : alive p c (tr ++ D) = alive p c tr && alive p c D.
  Proof.
    induction tr as [|e tr IH]; [reflexivity|].
    destruct e as [[p' c'|p' x|p'|c'|o]|p' x|k c' x|c']; cbn; try apply IH.
    - destruct (c' =? c); [reflexivity|apply IH].
    - destruct ((o =? c) || (o =? p)); [reflexivity|apply IH].
  Qed.

  Lemma noop_tl e D : noop (e :: D) -> noop D.
  Proof. intros H e' He'. apply H. right. exact He'. Qed.

  Lemma expected_noop k D : noop D -> expected k D = [].
  Proof.
    induction D as [|e D IH]; intros H; [reflexivity|].
    assert (He : is_op e = false) by (apply H; left; reflexivity).
    apply noop_tl in H. destruct e; try discriminate; cbn; apply IH; exact H.
  Qed.
  Lemma live_noop k D : noop D -> live k D = None.
  Proof.
    induction D as [|e D IH]; intros H; [reflexivity|].
    assert (He : is_op e = false) by (apply H; left; reflexivity).
    apply noop_tl in H. destruct e; try discriminate; cbn; apply IH; exact H.
  Qed.
  Lemma nconn_app tr D : nconn (tr ++ D) = nconn tr + nconn D.
  Proof.
    induction tr as [|e tr IH]; [reflexivity|].
    destruct e as [[p' c'|p' x|p'|c'|o]|p' x|k c' x|c']; cbn; rewrite IH; reflexivity.
  Qed.
  Lemma nconn_noop D : noop D -> nconn D = 0.
  Proof.
    induction D as [|e D IH]; intros H; [reflexivity|].
    assert (He : is_op e = false) by (apply H; left; reflexivity).
    apply noop_tl in H. destruct e; try discriminate; cbn; apply IH; exact H.
  Qed.

  Lemma expected_app_noop k tr D : noop D ->
    expected k (tr ++ D) =
    expected k tr ++ match live k tr with Some (p, _) => issued p D | None => [] end.
  Proof.
    intros HD. revert k. induction tr as [|e tr IH]; intros k.
    - cbn. apply expected_noop, HD.
    - destruct e as [[p' c'|p' x|p'|c'|o]|p' x|k' c' x|c']; cbn; try apply IH.
      destruct k as [|k]; [|apply IH].
      rewrite until_app. destruct (alive p' c' tr); [rewrite (until_noop _ _ D) by exact HD|]; reflexivity.
  Qed.
  Lemma live_app_noop k tr D : noop D -> live k (tr ++ D) = live k tr.
  Proof.
    intros HD. revert k. induction tr as [|e tr IH]; intros k.
    - cbn. apply live_noop, HD.
    - destruct e as [[p' c'|p' x|p'|c'|o]|p' x|k' c' x|c']; cbn; try apply IH.
      destruct k as [|k]; [|apply IH].
      rewrite alive_app, (alive_noop _ _ D HD), andb_true_r. reflexivity.
  Qed.

  Lemma expected_snoc_op k tr o : expected k (tr ++ [EOp o]) = expected k tr.
  Proof.
    revert k. induction tr as [|e tr IH]; intros k.
    - cbn. destruct o; try reflexivity. destruct k; reflexivity.
    - destruct e as [[p' c'|p' x|p'|c'|o']|p' x|k' c' x|c']; cbn; try apply IH.
      destruct k as [|k]; [|apply IH].
      rewrite until_app. destruct (alive p' c' tr); [|apply app_nil_r].
      destruct o as [p2 c2|p2 x2|p2|c2|o2]; cbn; try apply app_nil_r.
      + destruct (c2 =? c'); apply app_nil_r.
      + destruct ((o2 =? c') || (o2 =? p')); apply app_nil_r.
  Qed.

  Definition live_step (o : op X) (pc : nat * nat) : bool :=
    match o with
    | ODisconnect c => negb (snd pc =? c)
    | ODestroy o => negb (snd pc =? o) && negb (fst pc =? o)
    | _ => true
    end.

  Lemma alive_single p c o : alive p c [EOp o] = live_step o (p, c).
  Proof.
    destruct o as [p2 c2|p2 x2|p2|c2|o2]; cbn; try reflexivity.
    - rewrite Nat.eqb_sym. destruct (c =? c2); reflexivity.
    - rewrite (Nat.eqb_sym o2 c), (Nat.eqb_sym o2 p).
      destruct (c =? o2), (p =? o2); reflexivity.
  Qed.

  Lemma live_snoc_op k tr o :
    live k (tr ++ [EOp o]) =
    match o with
    | OConnect p c => if k =? nconn tr then Some (p, c) else live k tr
    | _ => match live k tr with
           | Some pc => if live_step o pc then Some pc else None
           | None => None
           end
    end.
  Proof.
    revert k. induction tr as [|e tr IH]; intros k.
    - cbn. destruct o; try reflexivity. destruct k; reflexivity.
    - destruct e as [[p' c'|p' x|p'|c'|o']|p' x|k' c' x|c']; cbn [app live nconn]; try apply IH.
      destruct k as [|k].
      + rewrite alive_app, alive_single.
        destruct o as [p2 c2|p2 x2|p2|c2|o2]; cbn [live_step andb Nat.eqb];
          rewrite ?andb_true_r; destruct (alive p' c' tr); reflexivity.
      + rewrite IH. destruct o; reflexivity.
  Qed.

  Lemma live_lt k tr pc : live k tr = Some pc -> k < nconn tr.
  Proof.
    revert k. induction tr as [|e tr IH]; intros k H; [discriminate|].
    destruct e as [[p' c'|p' x|p'|c'|o']|p' x|k' c' x|c']; cbn in *;
      try (apply IH; exact H).
    destruct k as [|k]; [lia|]. apply IH in H. lia.
  Qed.

  (** endpoints of connections never change *)
  Fixpoint ops_of tr : list (op X) :=
    match tr with
    | [] => []
    | EOp o :: tr' => o :: ops_of tr'
    | _ :: tr' => ops_of tr'
    end.
  Lemma ops_of_app tr D : ops_of (tr ++ D) = ops_of tr ++ ops_of D.
  Proof.
    induction tr as [|e tr IH]; [reflexivity|].
    destruct e; cbn; rewrite IH; reflexivity.
  Qed.
  Lemma ops_of_noop D : noop D -> ops_of D = [].
  Proof.
    induction D as [|e D IH]; intros H; [reflexivity|].
    assert (He : is_op e = false) by (apply H; left; reflexivity).
    apply noop_tl in H. destruct e; try discriminate; cbn; apply IH; exact H.
  Qed.
  Lemma live_endpoints k tr pc : live k tr = Some pc -> endpoints k (ops_of tr) = Some pc.
  Proof.
    revert k. induction tr as [|e tr IH]; intros k H; [discriminate|].
    destruct e as [[p' c'|p' x|p'|c'|o']|p' x|k' c' x|c']; cbn in *; try (apply IH; exact H).
    destruct k as [|k]; [|apply IH; exact H].
    destruct (alive p' c' tr); [exact H|discriminate].
  Qed.
  Lemma endpoints_app k (o1 o2 : list (op X)) pc :
    endpoints k o1 = Some pc -> endpoints k (o1 ++ o2) = Some pc.
  Proof.
    revert k. induction o1 as [|o o1 IH]; intros k H; [discriminate|].
    destruct o; cbn in *; try (apply IH; exact H).
    destruct k; [exact H|apply IH; exact H].
  Qed.
End Logs.

(** * List lemmas *)
Lemma filter_filter {A} (P Q : A -> bool) l :
  filter P (filter Q l) = filter (fun x => P x && Q x) l.
Proof.
  induction l as [|a l IH]; [reflexivity|]. cbn.
  destruct (Q a) eqn:E; cbn; destruct (P a); cbn; rewrite IH; reflexivity.
Qed.
Lemma filter_map {A B} (g : A -> B) (P : B -> bool) l :
  filter P (map g l) = map g (filter (fun a => P (g a)) l).
Proof.
  induction l as [|a l IH]; [reflexivity|]. cbn.
  destruct (P (g a)); cbn; rewrite IH; reflexivity.
Qed.
Lemma filter_all {A} (P : A -> bool) l : (forall a, In a l -> P a = true) -> filter P l = l.
Proof.
  induction l as [|a l IH]; intros H; [reflexivity|]. cbn.
  rewrite (H a) by (left; reflexivity). f_equal. apply IH. intros b Hb. apply H. right; exact Hb.
Qed.
Lemma NoDup_map_filter {A B} (g : A -> B) P (l : list A) :
  NoDup (map g l) -> NoDup (map g (filter P l)).
Proof.
  induction l as [|a l IH]; intros H; [exact H|]. cbn in *.
  inversion H as [|b l' Hn Hd E]; subst. destruct (P a); cbn; [|apply IH; exact Hd].
  constructor; [|apply IH; exact Hd].
  intros Hin. apply Hn. apply in_map_iff in Hin. destruct Hin as (z & <- & Hz).
  apply in_map. apply filter_In in Hz. apply Hz.
Qed.

(** * The connection invariant *)
Definition mk (e : entry) : slot :=
  {| s_conn := e_sample e; s_prod := e_prod e; s_cons := e_cons e |}.

Section NetP.
  Context {X St : Type}.
  Variable filt : nat -> option (St -> X -> outcome (St * option X)).
  Implicit Types (n m : net X St).

  Record Inv n : Prop := {
    inv_sample : n_sample n = map mk (n_map n);
    inv_flush : n_flush n = map mk (n_map n);
    inv_disc : n_disc n = map mk (n_map n);
    inv_ids : forall e, In e (n_map n) -> e_flush e = e_sample e /\ e_disc e = e_sample e;
    inv_lt : forall e, In e (n_map n) -> e_sample e < n_next n;
    inv_live : forall e, In e (n_map n) -> dead n (e_prod e) = false /\ dead n (e_cons e) = false;
    inv_nodup : NoDup (map e_sample (n_map n))
  }.

  (** Two states with the same wiring. *)
  Record same n m : Prop := {
    same_next : n_next m = n_next n;
    same_sample : n_sample m = n_sample n;
    same_flush : n_flush m = n_flush n;
    same_disc : n_disc m = n_disc n;
    same_map : n_map m = n_map n;
    same_dead : n_dead m = n_dead n
  }.
  Lemma same_refl n : same n n.
  Proof. constructor; reflexivity. Qed.
  Lemma same_trans n1 n2 n3 : same n1 n2 -> same n2 n3 -> same n1 n3.
  Proof.
    intros [A1 A2 A3 A4 A5 A6] [B1 B2 B3 B4 B5 B6]; constructor; congruence.
  Qed.
  Lemma same_log e n : same n (log e n).
  Proof. constructor; reflexivity. Qed.
  Lemma same_set_st i s n : same n (set_st i s n).
  Proof. constructor; reflexivity. Qed.
  Lemma Inv_same n m : same n m -> Inv n -> Inv m.
  Proof.
    intros [S1 S2 S3 S4 S5 S6] [I1 I2 I3 I4 I5 I6 I7].
    constructor; unfold dead in *; rewrite ?S1, ?S2, ?S3, ?S4, ?S5, ?S6; assumption.
  Qed.

  Lemma Inv_init s0 : Inv (init s0).
  Proof. constructor; cbn; try reflexivity; try contradiction; constructor. Qed.

  (** Restriction to a subset of connections. *)
  Definition restrict (P : entry -> bool) n : net X St :=
    {| n_next := n_next n;
       n_sample := map mk (filter P (n_map n));
       n_flush := map mk (filter P (n_map n));
       n_disc := map mk (filter P (n_map n));
       n_map := filter P (n_map n);
       n_st := n_st n; n_dead := n_dead n; n_log := n_log n |}.

  Lemma Inv_restrict P n : Inv n -> Inv (restrict P n).
  Proof.
    intros [I1 I2 I3 I4 I5 I6 I7].
    constructor; cbn; try reflexivity.
    - intros e He. apply filter_In in He. apply I4, He.
    - intros e He. apply filter_In in He. apply I5, He.
    - intros e He. apply filter_In in He. apply I6, He.
    - apply NoDup_map_filter, I7.
  Qed.

  Lemma restrict_restrict P Q n : restrict P (restrict Q n) = restrict (fun e => P e && Q e) n.
  Proof. unfold restrict; cbn. rewrite !filter_filter. reflexivity. Qed.

  Lemma Inv_eta n : Inv n -> restrict (fun _ => true) n = n.
  Proof.
    intros [I1 I2 I3 I4 I5 I6 I7]. unfold restrict.
    rewrite !filter_all by reflexivity. rewrite <- I1 at 1.
    destruct n; cbn in *. f_equal; congruence.
  Qed.

  Lemma restrict_ext P Q n : (forall e, In e (n_map n) -> P e = Q e) -> restrict P n = restrict Q n.
  Proof.
    intros H. unfold restrict. rewrite (filter_ext_in P Q) by exact H. reflexivity.
  Qed.

  (** Dropping a list of slots by connection id. *)
  Lemma drop_fold (es : list entry) : forall n,
    fold_left (fun m e => drop_entry e m) es n =
    {| n_next := n_next n;
       n_sample := filter (fun s => negb (existsb (fun e => s_conn s =? e_sample e) es)) (n_sample n);
       n_flush := filter (fun s => negb (existsb (fun e => s_conn s =? e_flush e) es)) (n_flush n);
       n_disc := filter (fun s => negb (existsb (fun e => s_conn s =? e_disc e) es)) (n_disc n);
       n_map := n_map n; n_st := n_st n; n_dead := n_dead n; n_log := n_log n |}.
  Proof.
    induction es as [|e es IH]; intros n; cbn.
    - rewrite !filter_all by reflexivity. destruct n; reflexivity.
    - rewrite IH. cbn. unfold drop_slot. rewrite !filter_filter.
      f_equal; apply filter_ext; intros s; rewrite negb_orb, andb_comm; reflexivity.
  Qed.

  Lemma in_ids n c s (g : entry -> nat) :
    Inv n -> In s (map mk (n_map n)) ->
    (forall e, In e (n_map n) -> g e = e_sample e) ->
    existsb (fun e => s_conn s =? g e) (entries_of n c) = (s_cons s =? c).
  Proof.
    intros I Hs Hg. apply in_map_iff in Hs. destruct Hs as (e & <- & He).
    destruct (Nat.eqb_spec (s_cons (mk e)) c) as [E|E].
    - apply existsb_exists. exists e. split.
      + unfold entries_of. apply filter_In. split; [exact He|]. apply Nat.eqb_eq, E.
      + rewrite Hg by exact He. apply Nat.eqb_refl.
    - destruct (existsb _ _) eqn:Ex; [|reflexivity].
      apply existsb_exists in Ex. destruct Ex as (e' & He' & E').
      unfold entries_of in He'. apply filter_In in He'. destruct He' as [He' Ec].
      rewrite Hg in E' by exact He'. apply Nat.eqb_eq in E', Ec. cbn in E, E'.
      exfalso. apply E. rewrite <- Ec. f_equal.
      assert (Hinj : forall l, NoDup (map e_sample l) -> In e l -> In e' l -> e_sample e = e_sample e' -> e = e').
      { clear. induction l as [|a l IH]; intros Hd H1 H2 Heq; [contradiction|].
        cbn in Hd. inversion Hd as [|b l' Hn Hd' Eq]; subst.
        destruct H1 as [<-|H1]; destruct H2 as [<-|H2]; try reflexivity.
        - exfalso. apply Hn. rewrite Heq. apply in_map, H2.
        - exfalso. apply Hn. rewrite <- Heq. apply in_map, H1.
        - apply IH; assumption. }
      apply (Hinj (n_map n)); try assumption. apply (inv_nodup n I).
  Qed.

  Lemma filter_slots n c (g : entry -> nat) :
    Inv n -> (forall e, In e (n_map n) -> g e = e_sample e) ->
    filter (fun s => negb (existsb (fun e => s_conn s =? g e) (entries_of n c))) (map mk (n_map n))
    = map mk (filter (fun e => negb (e_cons e =? c)) (n_map n)).
  Proof.
    intros I Hg.
    rewrite (filter_ext_in _ (fun s => negb (s_cons s =? c))).
    - rewrite filter_map. reflexivity.
    - intros s Hs. rewrite in_ids by assumption. reflexivity.
  Qed.

  (** Closed form of the first half of disconnect_and_flush. *)
  Lemma disconnect_core n c : Inv n ->
    set_map (filter (fun e => negb (e_cons e =? c))
                    (n_map (fold_left (fun m e => drop_entry e m) (entries_of n c) n)))
            (fold_left (fun m e => drop_entry e m) (entries_of n c) n)
    = restrict (fun e => negb (e_cons e =? c)) n.
  Proof.
    intros I. rewrite drop_fold. unfold set_map, restrict. cbn.
    rewrite (inv_sample n I), (inv_flush n I), (inv_disc n I).
    rewrite !filter_slots; try exact I; try (intros e He; apply (inv_ids n I e He)); reflexivity.
  Qed.

  (** Closed form of the disconnect signal (with libstdc++'s multimap::find). *)
  Lemma hd_filter_hd {A} (P Q : A -> bool) (l : list A) a l' :
    filter P l = a :: l' -> Q a = true -> hd_error (filter P (filter Q l)) = Some a.
  Proof.
    induction l as [|b l IH]; intros H Hq; [discriminate|]. cbn in *.
    destruct (P b) eqn:Pb.
    - injection H as -> _. rewrite Hq. cbn. rewrite Pb. reflexivity.
    - destruct (Q b); cbn; [rewrite Pb|]; apply IH; assumption.
  Qed.

  Lemma erase_is_filter n e : Inv n -> In e (n_map n) ->
    erase_entry e (n_map n) = filter (fun e' => negb (e_sample e' =? e_sample e)) (n_map n).
  Proof.
    intros I. pose proof (inv_nodup n I) as Hd. clear I.
    induction (n_map n) as [|a l IH]; intros Hin; [contradiction|].
    cbn in Hd. inversion Hd as [|b l' Hn Hd' Eq]; subst. cbn.
    destruct Hin as [<-|Hin].
    - rewrite !Nat.eqb_refl. cbn. symmetry. apply filter_all.
      intros e' He'. destruct (Nat.eqb_spec (e_sample e') (e_sample a)) as [E|E]; [|reflexivity].
      exfalso. apply Hn. rewrite <- E. apply in_map, He'.
    - destruct (Nat.eqb_spec (e_sample a) (e_sample e)) as [E|E].
      + exfalso. apply Hn. rewrite E. apply in_map, Hin.
      + rewrite andb_false_r. cbn. f_equal. apply IH; assumption.
  Qed.

  Lemma drop_one n e : Inv n -> In e (n_map n) ->
    set_map (erase_entry e (n_map (drop_entry e n))) (drop_entry e n)
    = restrict (fun e' => negb (e_sample e' =? e_sample e)) n.
  Proof.
    intros I He. unfold set_map, restrict, drop_entry, drop_slot. cbn.
    destruct (inv_ids n I e He) as [-> ->].
    rewrite (inv_sample n I), (inv_flush n I), (inv_disc n I), !filter_map.
    rewrite erase_is_filter by assumption. reflexivity.
  Qed.

  Lemma disc_all_closed b o : forall n,
    Inv n ->
    disc_all FindFirst b o (slots_of (n_disc n) o) n
    = Ok (restrict (fun e => negb (e_prod e =? o)) n).
  Proof.
    intros n. remember (length (filter (fun e => e_prod e =? o) (n_map n))) as len eqn:Hlen.
    revert n Hlen. induction len as [|len IH]; intros n Hlen I.
    - assert (E : filter (fun e => e_prod e =? o) (n_map n) = []).
      { destruct (filter _ _); [reflexivity|discriminate]. }
      unfold slots_of. rewrite (inv_disc n I), filter_map. cbn [mk s_prod].
      change (fun a : entry => e_prod a =? o) with (fun e => e_prod e =? o).
      rewrite E. cbn [map disc_all].
      f_equal. rewrite <- (Inv_eta n I) at 1. apply restrict_ext.
      intros e He. destruct (e_prod e =? o) eqn:Eo; [|reflexivity].
      assert (In e (filter (fun e => e_prod e =? o) (n_map n))) as Hin
          by (apply filter_In; split; assumption).
      rewrite E in Hin. contradiction.
    - destruct (filter (fun e => e_prod e =? o) (n_map n)) as [|e l] eqn:E; [discriminate|].
      assert (He : In e (n_map n) /\ e_prod e = o).
      { assert (In e (filter (fun e => e_prod e =? o) (n_map n))) as Hin by (rewrite E; left; reflexivity).
        apply filter_In in Hin. destruct Hin as [H1 H2]. apply Nat.eqb_eq in H2. split; assumption. }
      destruct He as [He Eo].
      unfold slots_of. rewrite (inv_disc n I), filter_map. cbn [mk s_prod].
      change (fun a : entry => e_prod a =? o) with (fun e => e_prod e =? o).
      rewrite E. cbn [map disc_all].
      assert (Hc : existsb (fun s' => s_conn s' =? s_conn (mk e)) (n_disc n) = true).
      { apply existsb_exists. exists (mk e). split; [|apply Nat.eqb_refl].
        rewrite (inv_disc n I). apply in_map, He. }
      rewrite Hc. unfold disconnect_slot.
      destruct (inv_live n I e He) as [_ Hdc]. cbn [mk s_cons]. rewrite Hdc.
      assert (Hf : find_entry FindFirst n (e_cons e) o = Some e).
      { unfold find_entry, entries_of. eapply hd_filter_hd; [exact E|apply Nat.eqb_refl]. }
      rewrite Hf. cbn [bind]. cbv zeta.
      rewrite drop_one by assumption.
      set (n' := restrict (fun e' => negb (e_sample e' =? e_sample e)) n).
      assert (I' : Inv n') by (apply Inv_restrict, I).
      assert (Efil : filter (fun e0 => e_prod e0 =? o) (n_map n') = l).
      { unfold n', restrict. cbn [n_map]. rewrite filter_filter.
        rewrite (filter_ext _ (fun x => negb (e_sample x =? e_sample e) && (e_prod x =? o)))
          by (intros; apply andb_comm).
        rewrite <- filter_filter, E. cbn [filter]. rewrite Nat.eqb_refl. cbn [negb].
        apply filter_all. intros e' He'.
        destruct (Nat.eqb_spec (e_sample e') (e_sample e)) as [Ee|Ee]; [|reflexivity].
        exfalso. pose proof (NoDup_map_filter e_sample (fun e => e_prod e =? o) _ (inv_nodup n I)) as Hd.
        rewrite E in Hd. cbn in Hd. inversion Hd as [|x y Hn Hd' Eq]; subst. apply Hn.
        rewrite <- Ee. apply in_map, He'. }
      assert (Hsl : map mk l = slots_of (n_disc n') o).
      { unfold slots_of. rewrite (inv_disc n' I'), filter_map. cbn [mk s_prod].
        rewrite <- Efil. reflexivity. }
      rewrite Hsl. rewrite IH.
      + unfold n'. rewrite restrict_restrict. f_equal. apply restrict_ext.
        intros e' He'. destruct (Nat.eqb_spec (e_sample e') (e_sample e)) as [Ee|Ee].
        * assert (e' = e) as ->.
          { clear -I Ee He He'. pose proof (inv_nodup n I) as Hd. revert Hd He He' Ee.
            clear I. induction (n_map n) as [|a l IH]; intros Hd H1 H2 Heq; [contradiction|].
            cbn in Hd. inversion Hd as [|b l' Hn Hd' Eq]; subst.
            destruct H1 as [<-|H1]; destruct H2 as [<-|H2]; try reflexivity.
            - exfalso. apply Hn. rewrite <- Heq. apply in_map, H2.
            - exfalso. apply Hn. rewrite Heq. apply in_map, H1.
            - apply IH; assumption. }
          rewrite Eo, Nat.eqb_refl. reflexivity.
        * cbn. rewrite andb_true_r. reflexivity.
      + rewrite Efil. cbn in Hlen. lia.
      + exact I'.
  Qed.
End NetP.
