From Coq Require Import Permutation ZifyBool ZifyNat.
From Verif Require Import Prelude NetModel NetSpec NetProofs NetEmit NetHist NetTotal NetIso NetPipe NetTop
     ChainModel ChainSpec.

Definition conn_op {X} (pc : nat * nat) : op X := OConnect (fst pc) (snd pc).

Lemma adjacent_app a x y b : adjacent ((a ++ [x]) ++ y :: b) = adjacent (a ++ [x]) ++ (x, y) :: adjacent (y :: b).
Proof.
  induction a as [|z a IH]; [reflexivity|].
  destruct a as [|z' a]; [cbn; f_equal; destruct b; reflexivity|].
  cbn in IH |- *. f_equal. exact IH.
Qed.

Lemma leaves_ends {X} e : exists a b,
  leaves e = a ++ [producer_end (fst (@evaluate X e))] /\
  leaves e = consumer_end (fst (@evaluate X e)) :: b.
Proof.
  induction e as [i t|l IHl r IHr|e IH].
  - exists [], []. split; reflexivity.
  - destruct IHl as (a1 & b1 & A1 & B1), IHr as (a2 & b2 & A2 & B2). cbn [leaves evaluate].
    destruct (@evaluate X l) as [vl ol], (@evaluate X r) as [vr or]. cbn [fst producer_end consumer_end] in *.
    exists (leaves l ++ a2), (b1 ++ leaves r). split.
    + rewrite A2 at 1. rewrite app_assoc. reflexivity.
    + rewrite B1 at 1. reflexivity.
  - cbn [leaves evaluate]. destruct (@evaluate X e). exact IH.
Qed.

Lemma build_conns {X} e : exists cs, snd (@evaluate X e) = map conn_op cs /\ Permutation cs (adjacent (leaves e)).
Proof.
  induction e as [i t|l IHl r IHr|e IH].
  - exists []. split; reflexivity.
  - destruct IHl as (cl & El & Pl), IHr as (cr & Er & Pr).
    destruct (@leaves_ends X l) as (a1 & b1 & A1 & B1), (@leaves_ends X r) as (a2 & b2 & A2 & B2).
    cbn [leaves evaluate]. destruct (@evaluate X l) as [vl ol], (@evaluate X r) as [vr or]. cbn [fst snd] in *.
    exists (cl ++ cr ++ [(producer_end vl, consumer_end vr)]). split.
    + rewrite !map_app, El, Er. reflexivity.
    + rewrite A1, B2, adjacent_app, <- A1, <- B2, Pl, Pr. apply Permutation_app_head.
      rewrite <- Permutation_cons_append. reflexivity.
  - cbn [leaves evaluate]. destruct (@evaluate X e). exact IH.
Qed.

Lemma same_leaves {X} e1 e2 : leaves e1 = leaves e2 ->
  Permutation (snd (@evaluate X e1)) (snd (@evaluate X e2)).
Proof.
  intros H. destruct (@build_conns X e1) as (c1 & E1 & P1), (@build_conns X e2) as (c2 & E2 & P2).
  rewrite E1, E2. apply Permutation_map. rewrite P1, P2, H. reflexivity.
Qed.

Lemma connections_conns {X} cs : forall cur, connections (map (@conn_op X) cs) cur = cur ++ cs.
Proof.
  induction cs as [|[p c] cs IH]; intros cur; cbn; [rewrite app_nil_r; reflexivity|].
  rewrite IH, <- app_assoc. reflexivity.
Qed.

Lemma built {X} e : Permutation (connections (snd (@evaluate X e)) []) (adjacent (leaves e)).
Proof.
  destruct (@build_conns X e) as (cs & E & P). rewrite E, connections_conns. exact P.
Qed.

Lemma destruct_ops {X} e : exists ds, @destruct_value X (fst (@evaluate X e)) = map ODestroy ds /\
                                      Permutation ds (temporaries e).
Proof.
  induction e as [i t|l IHl r IHr|e IH].
  - destruct t; [exists [i]|exists []]; split; reflexivity.
  - destruct IHl as (dl & El & Pl), IHr as (dr & Er & Pr). cbn [evaluate temporaries].
    destruct (@evaluate X l) as [vl ol], (@evaluate X r) as [vr or]. cbn [fst destruct_value] in *.
    exists (dr ++ dl). split; [rewrite map_app, El, Er; reflexivity|].
    rewrite Pl, Pr. apply Permutation_app_comm.
  - cbn [evaluate temporaries]. destruct (@evaluate X e). exists []. split; reflexivity.
Qed.

Lemma connections_destroys {X} ds : forall cur,
  connections (map (@ODestroy X) ds) cur =
  filter (fun pc => negb (existsb (Nat.eqb (fst pc)) ds) && negb (existsb (Nat.eqb (snd pc)) ds)) cur.
Proof.
  induction ds as [|d ds IH]; intros cur.
  - cbn [map connections]. symmetry. apply filter_true.
  - cbn [map connections]. rewrite IH, filter_filter. apply filter_ext. intros [p c]. cbn.
    destruct (c =? d), (p =? d), (existsb (Nat.eqb p) ds), (existsb (Nat.eqb c) ds); reflexivity.
Qed.

Lemma Permutation_filter {A} (f : A -> bool) l l' : Permutation l l' -> Permutation (filter f l) (filter f l').
Proof.
  induction 1 as [|x l l' P IH|x y l|l1 l2 l3 P1 IH1 P2 IH2]; cbn; [constructor| | |].
  - destruct (f x); [constructor|]; exact IH.
  - destruct (f x), (f y); try reflexivity. constructor.
  - etransitivity; eassumption.
Qed.

Lemma existsb_perm (l l' : list nat) x : Permutation l l' ->
  existsb (Nat.eqb x) l = existsb (Nat.eqb x) l'.
Proof.
  intros P. apply eq_iff_eq_true. rewrite !existsb_exists. split; intros (y & Hy & E); exists y;
    (split; [|exact E]); [rewrite <- P|rewrite P]; exact Hy.
Qed.

Lemma destroyed_chain {X} e :
  Permutation (connections (snd (@evaluate X e) ++ destruct_value (fst (@evaluate X e))) [])
              (filter (fun pc => negb (existsb (Nat.eqb (fst pc)) (temporaries e)) &&
                                 negb (existsb (Nat.eqb (snd pc)) (temporaries e))) (adjacent (leaves e))).
Proof.
  destruct (@destruct_ops X e) as (ds & Ed & Pd). rewrite connections_app, Ed, connections_destroys.
  rewrite (filter_ext (fun pc => negb (existsb (Nat.eqb (fst pc)) ds) && negb (existsb (Nat.eqb (snd pc)) ds))
     (fun pc => negb (existsb (Nat.eqb (fst pc)) (temporaries e)) && negb (existsb (Nat.eqb (snd pc)) (temporaries e)))).
  - apply Permutation_filter, built.
  - intros [p c]. cbn. rewrite !(existsb_perm _ _ _ Pd). reflexivity.
Qed.

(** The temporaries are among the leaves. *)
Lemma temporaries_leaves e i : In i (temporaries e) -> In i (leaves e).
Proof.
  induction e as [j t|l IHl r IHr|e IH]; cbn; [destruct t; tauto| |contradiction].
  rewrite !in_app_iff. tauto.
Qed.

Lemma nodup_app_inv {A} (a b : list A) : NoDup (a ++ b) -> NoDup a /\ NoDup b.
Proof.
  induction a as [|x a IH]; intros H; [split; [constructor|exact H]|].
  inversion H as [|? ? Hx H']; subst. destruct (IH H') as [Ha Hb]. split; [|exact Hb].
  constructor; [|exact Ha]. intros Hi. apply Hx. apply in_or_app. left; exact Hi.
Qed.

Lemma nodup_temporaries e : NoDup (leaves e) -> NoDup (temporaries e).
Proof.
  induction e as [j t|l IHl r IHr|e IH]; cbn; intros H.
  - destruct t; [exact H|constructor].
  - destruct (nodup_app_inv _ _ H) as [Hl Hr].
    apply IHl in Hl. apply IHr in Hr. revert H Hl Hr.
    assert (Sl := temporaries_leaves l). assert (Sr := temporaries_leaves r).
    revert Sl. generalize (temporaries l) as tl. intros tl. induction tl as [|x tl IHt]; intros Sl H Hl Hr; [exact Hr|].
    cbn. inversion Hl as [|? ? Hx Hl']; subst. constructor.
    + rewrite in_app_iff. intros [Hi|Hi]; [contradiction|].
      specialize (Sl x (or_introl eq_refl)). specialize (Sr x Hi).
      apply in_split in Sl. destruct Sl as (u & v & E). rewrite E in H.
      rewrite <- app_assoc in H. cbn in H. apply NoDup_remove_2 in H. apply H.
      rewrite !in_app_iff. auto.
    + apply IHt; [intros i Hi; apply Sl; right; exact Hi|exact H|exact Hl'|exact Hr].
  - constructor.
Qed.

(** ** Running the network that an expression builds. *)
Lemma inputs_conns {X} c cs : inputs c (map (@conn_op X) cs) = map fst (filter (fun pc => snd pc =? c) cs).
Proof.
  induction cs as [|[p d] cs IH]; [reflexivity|]. cbn. fold (inputs c (map (@conn_op X) cs)). rewrite IH.
  destruct (d =? c); reflexivity.
Qed.

Lemma adjacent_not_in x l : ~ In x l -> forall z, filter (fun pc => snd pc =? x) (adjacent (z :: l)) = [].
Proof.
  induction l as [|y l IH]; intros H z; [reflexivity|]. cbn [adjacent filter snd].
  destruct (Nat.eqb_spec y x) as [->|]; [exfalso; apply H; left; reflexivity|].
  apply IH. intros Hi. apply H. right; exact Hi.
Qed.

Lemma adjacent_pred a p c b : NoDup (a ++ p :: c :: b) ->
  filter (fun pc => snd pc =? c) (adjacent (a ++ p :: c :: b)) = [(p, c)].
Proof.
  induction a as [|z a IH]; intros H.
  - cbn [app]. cbn [adjacent filter snd]. rewrite Nat.eqb_refl. cbn [app] in H.
    f_equal. inversion H as [|? ? H1 H2]; subst. inversion H2 as [|? ? H3 H4]; subst.
    change (filter (fun pc => snd pc =? c) (adjacent (c :: b)) = []). apply adjacent_not_in; exact H3.
  - cbn [app] in H. inversion H as [|? ? Hz H']; subst. specialize (IH H').
    destruct a as [|y a].
    + cbn [app] in *. change (adjacent (z :: p :: c :: b)) with ((z, p) :: adjacent (p :: c :: b)).
      cbn [filter snd]. destruct (Nat.eqb_spec p c) as [->|]; [|exact IH].
      inversion H' as [|? ? Hp _]; subst. exfalso. apply Hp. left; reflexivity.
    + cbn [app] in *. change (adjacent (z :: y :: a ++ p :: c :: b)) with ((z, y) :: adjacent (y :: a ++ p :: c :: b)).
      cbn [filter snd]. destruct (Nat.eqb_spec y c) as [->|]; [|exact IH].
      inversion H' as [|? ? Hp _]; subst. exfalso. apply Hp. rewrite in_app_iff. right. right. left; reflexivity.
Qed.

Lemma inputs_build {X} e a p c b : leaves e = a ++ p :: c :: b -> NoDup (leaves e) ->
  inputs c (snd (@evaluate X e)) = [p].
Proof.
  intros He Hn. destruct (@build_conns X e) as (cs & E & P). rewrite E, inputs_conns.
  apply (Permutation_filter (fun pc => snd pc =? c)) in P. rewrite He in P, Hn.
  rewrite (adjacent_pred a p c b Hn) in P. symmetry in P. apply Permutation_length_1_inv in P.
  rewrite P. reflexivity.
Qed.

Lemma is_pipeline_build {X} e (r : list (op X)) : NoDup (leaves e) -> Forall running r ->
  forall path p c a, leaves e = a ++ p :: path ++ [c] ->
  (forall f, In f path -> sourced f r = []) ->
  is_pipeline (snd (@evaluate X e) ++ r) p path c.
Proof.
  intros Hn Hr. 
  assert (Hs : forall f, sourced f (snd (@evaluate X e)) = []).
  { intros f. destruct (@build_conns X e) as (cs & -> & _). induction cs as [|[q d] cs IH]; [reflexivity|exact IH]. }
  induction path as [|f path IH]; intros p c a He Hf; cbn [is_pipeline].
  - rewrite inputs_app, (inputs_running _ _ Hr), app_nil_r. eapply inputs_build; eassumption.
  - split; [|split].
    + rewrite inputs_app, (inputs_running _ _ Hr), app_nil_r. eapply inputs_build; [exact He|exact Hn].
    + rewrite sourced_app, Hs. apply Hf. left; reflexivity.
    + apply (IH f c (a ++ [p])); [rewrite <- app_assoc; exact He|].
      intros g Hg. apply Hf. right; exact Hg.
Qed.

Lemma chain_flow {X St} (filt : nat -> option (St -> X -> outcome (St * option X))) (s0 : nat -> St) b fuel
      e p path c (r : list (op X)) n :
  leaves e = p :: path ++ [c] -> NoDup (leaves e) ->
  filt p = None -> (forall f, In f path -> filt f <> None) ->
  Forall running r -> (forall f, In f path -> sourced f r = []) ->
  exec filt FindFirst b fuel (snd (evaluate e) ++ r) (init s0) = Ok n ->
  through filt s0 path (sourced p r) = Ok (consumed c (n_log n)).
Proof.
  intros He Hn Hp Hf Hr Hs H.
  destruct (@build_conns X e) as (cs & E & P).
  assert (Hw : Forall wiring (snd (@evaluate X e))).
  { rewrite E. apply Forall_forall. intros o Ho. apply in_map_iff in Ho. destruct Ho as ([q d] & <- & _).
    exists q, d. reflexivity. }
  assert (Hpos : exists rk : nat -> nat, forall q d, In (q, d) (adjacent (leaves e)) -> rk q < rk d).
  { clear -Hn. induction (leaves e) as [|x l IH]; [exists (fun _ => 0); intros q d []|].
    inversion Hn as [|? ? Hx Hl]; subst. destruct (IH Hl) as (rk & Hrk).
    exists (fun i => if i =? x then 0 else S (rk i)). intros q d Hq.
    destruct l as [|y l]; [destruct Hq|]. destruct Hq as [Hq|Hq].
    - injection Hq as <- <-. rewrite Nat.eqb_refl. destruct (Nat.eqb_spec y x) as [->|]; [|lia].
      exfalso. apply Hx. left; reflexivity.
    - assert (Hin : forall q d l, In (q, d) (adjacent l) -> In q l /\ In d l).
      { clear. intros q d l. induction l as [|u l IH]; [intros []|]. destruct l as [|v l]; [intros []|].
        intros [Hq|Hq]; [injection Hq as <- <-; split; [left|right; left]; reflexivity|].
        apply IH in Hq. destruct Hq. split; right; assumption. }
      destruct (Hin _ _ _ Hq) as [I1 I2].
      destruct (Nat.eqb_spec q x) as [->|]; [contradiction|].
      destruct (Nat.eqb_spec d x) as [->|]; [contradiction|]. specialize (Hrk q d Hq). lia. }
  destruct Hpos as (rk & Hrk).
  assert (Hk : ranked rk (snd (@evaluate X e))).
  { intros q d Hin. rewrite E in Hin. apply in_map_iff in Hin. destruct Hin as ([q' d'] & Eq & Hin).
    injection Eq as -> ->. apply Hrk. rewrite <- P. exact Hin. }
  assert (Hso : sourced p (snd (@evaluate X e) ++ r) = sourced p r).
  { rewrite sourced_app, E. replace (sourced p (map conn_op cs)) with (@nil X); [reflexivity|].
    clear. induction cs as [|[q d] cs IH]; [reflexivity|exact IH]. }
  rewrite <- Hso.
  eapply (pipeline filt rk s0); try eassumption.
  apply (is_pipeline_build e r Hn Hr path p c []); [exact He|exact Hs].
Qed.

(** Building a chain of distinct objects and destroying it again is safe. *)
Lemma chain_lifetime_safe {X St} (filt : nat -> option (St -> X -> outcome (St * option X))) (s0 : nat -> St) b e :
  NoDup (leaves e) ->
  (forall c f, filt c = Some f -> forall s x, exists r, f s x = Ok r) ->
  exists fuel n, exec filt FindFirst b fuel (snd (evaluate e) ++ destruct_value (fst (@evaluate X e))) (init s0) = Ok n.
Proof.
  intros Hn Hf. destruct (@build_conns X e) as (cs & E & P). destruct (@destruct_ops X e) as (ds & Ed & Pd).
  assert (Hpos : exists R (rk : nat -> nat), (forall i, rk i < R) /\
            forall q d, In (q, d) (adjacent (leaves e)) -> rk q < rk d).
  { clear -Hn. induction (leaves e) as [|x l IH]; [exists 1, (fun _ => 0); split; [lia|intros q d []]|].
    inversion Hn as [|? ? Hx Hl]; subst. destruct (IH Hl) as (R & rk & HR & Hrk).
    exists (S R), (fun i => if i =? x then 0 else S (rk i)). split.
    { intros i. specialize (HR i). destruct (i =? x); lia. }
    intros q d Hq.
    destruct l as [|y l]; [destruct Hq|]. destruct Hq as [Hq|Hq].
    - injection Hq as <- <-. rewrite Nat.eqb_refl. destruct (Nat.eqb_spec y x) as [->|]; [|lia].
      exfalso. apply Hx. left; reflexivity.
    - assert (Hin : forall q d l, In (q, d) (adjacent l) -> In q l /\ In d l).
      { clear. intros q d l. induction l as [|u l IH]; [intros []|]. destruct l as [|v l]; [intros []|].
        intros [Hq|Hq]; [injection Hq as <- <-; split; [left|right; left]; reflexivity|].
        apply IH in Hq. destruct Hq. split; right; assumption. }
      destruct (Hin _ _ _ Hq) as [I1 I2].
      destruct (Nat.eqb_spec q x) as [->|]; [contradiction|].
      destruct (Nat.eqb_spec d x) as [->|]; [contradiction|]. specialize (Hrk q d Hq). lia. }
  destruct Hpos as (R & rk & HR & Hrk). exists R.
  destruct (top_total filt rk s0 b R (snd (evaluate e) ++ destruct_value (fst (@evaluate X e)))) as (n & H & _).
  - rewrite E, Ed.
    assert (Hd : NoDup ds) by (eapply Permutation_NoDup; [symmetry; exact Pd|apply nodup_temporaries, Hn]).
    clear -Hd. induction cs as [|[q d] cs IH]; cbn.
    + enough (G : forall dd, (forall i, In i dd -> ~ In i ds) -> well_formed dd (map (@ODestroy X) ds))
        by (apply G; intros i []).
      induction Hd as [|i ds Hi Hd IH]; intros dd Hdd; cbn; [exact I|]. split.
      * intros Hin. apply (Hdd i Hin). left; reflexivity.
      * apply IH. intros j [<-|Hj]; [exact Hi|]. intros Hin. apply (Hdd j Hj). right; exact Hin.
    + split; [intros []|]. split; [intros []|]. exact IH.
  - intros q d Hin. rewrite E, Ed in Hin. apply in_app_or in Hin. destruct Hin as [Hin|Hin].
    + apply in_map_iff in Hin. destruct Hin as ([q' d'] & Eq & Hin).
      injection Eq as -> ->. apply Hrk. rewrite <- P. exact Hin.
    + apply in_map_iff in Hin. destruct Hin as (j & Eq & _). discriminate.
  - exact HR.
  - exact Hf.
  - exists n. exact H.
Qed.
