(** The samples consumed are, as a collection, the samples delivered. *)
From Coq Require Import Permutation.
From Verif Require Import Prelude ConsumerModel ConcModel ConcSpec ConcOnce ConcTop LockModel LockSpec LockTop LockUses.
Local Open Scope nat_scope.

(** delivery number and sample of every delivery, and of every call of consume() *)
Definition delivery_of {X} (e : event X) : list (nat * X) := match e with EDeliver _ d _ x => [(d, x)] | _ => [] end.
Definition start_of {X} (e : event X) : list (nat * X) := match e with EStart _ d x => [(d, x)] | _ => [] end.
Definition deliveries {X} (tr : list (event X)) : list X := map snd (flat_map delivery_of tr).
Definition consumed {X} (tr : list (event X)) : list X := map snd (flat_map start_of tr).

Section P.
Context {X : Type}.
Implicit Types tr : list (event X).
Lemma in_delivery : forall tr d x, In (d, x) (flat_map delivery_of tr) <-> exists t m, In (EDeliver t d m x) tr.
Proof.
  intros. rewrite in_flat_map. split.
  - intros (e & He & Hi). destruct e; cbn in Hi; try tauto. destruct Hi as [Hi|[]]. injection Hi as -> ->. eauto.
  - intros (t & m & H). eexists. split; [exact H|]. now left.
Qed.
Lemma in_start : forall tr d x, In (d, x) (flat_map start_of tr) <-> exists t, In (EStart t d x) tr.
Proof.
  intros. rewrite in_flat_map. split.
  - intros (e & He & Hi). destruct e; cbn in Hi; try tauto. destruct Hi as [Hi|[]]. injection Hi as -> ->. eauto.
  - intros (t & H). eexists. split; [exact H|]. now left.
Qed.
Lemma nodup_times : forall (f : event X -> list (nat * X)) (P : nat -> event X -> bool), (forall e d x, In (d, x) (f e) -> P d e = true) -> (forall e, length (f e) <= 1) ->
  forall tr, (forall d, times (P d) tr <= 1) -> NoDup (flat_map f tr).
Proof.
  intros f P HP HL. induction tr as [|e tr IH]; intros HT; cbn [flat_map]; [constructor|].
  assert (HT' : forall d, times (P d) tr <= 1). { intros d. specialize (HT d). unfold times in *. cbn in HT. destruct (P d e); cbn in HT; lia. }
  specialize (IH HT'). specialize (HL e). destruct (f e) as [|[d x] [|? ?]] eqn:E; cbn in *; [exact IH| |lia]. constructor; [|exact IH].
  intros Hi. apply in_flat_map in Hi. destruct Hi as (e' & He' & Hi).
  assert (H1 : P d e = true) by (eapply (HP e d x); rewrite E; now left). assert (H2 : P d e' = true) by (eapply HP; eauto).
  specialize (HT d). unfold times in HT. cbn in HT. rewrite H1 in HT. cbn in HT. pose proof (in_times (P d) tr e' He' H2) as H3. unfold times in H3. lia.
Qed.
Theorem consumed_delivered : forall b pw body conns q programs sched tr s,
  run b pw body sched (initial conns q programs) = (tr, s) -> (forall u, u < length (c_threads s) -> finished s u) -> forallb snd sched = true -> none any_drop tr ->
  Permutation (consumed tr) (deliveries tr).
Proof.
  intros b pw body conns q programs sched tr s H HF HI HD. unfold consumed, deliveries. apply Permutation_map. apply NoDup_Permutation.
  - apply (nodup_times start_of started).
    + intros e d x Hi. destruct e; cbn in Hi; try tauto. destruct Hi as [Hi|[]]. injection Hi as -> ->. cbn. apply Nat.eqb_refl.
    + intros []; cbn; lia.
    + intros d. destruct (top_once _ _ _ _ _ _ _ _ _ d H) as (H1 & H2 & _). lia.
  - apply (nodup_times delivery_of delivered).
    + intros e d x Hi. destruct e; cbn in Hi; try tauto. destruct Hi as [Hi|[]]. injection Hi as -> ->. cbn. apply Nat.eqb_refl.
    + intros []; cbn; lia.
    + intros d. now destruct (top_once _ _ _ _ _ _ _ _ _ d H) as (H1 & _).
  - intros [d x]. rewrite in_delivery, in_start. split.
    + intros (u & Hs). destruct (top_same _ _ _ _ _ _ _ _ _ _ _ _ H Hs) as (t & m & Hd & _). eauto.
    + intros (t & m & Hd). destruct (top_finished _ _ _ _ _ _ _ _ _ t d m x H HF Hd (fun _ => HI)) as [(H1 & _)|(_ & _ & H3)].
      * destruct (times_in (started d) tr) as (e & He & Hp); [lia|]. destruct e as [| | | | |u d' y| | | | | |]; cbn in Hp; try discriminate. apply Nat.eqb_eq in Hp. subst d'.
        exists u. destruct (top_same _ _ _ _ _ _ _ _ _ _ _ _ H He) as (_ & _ & _ & _ & Hx). rewrite (Hx _ _ _ Hd). exact He.
      * exfalso. destruct (times_in (dropped d) tr) as (e & He & Hp); [lia|]. specialize (HD e He). destruct e; cbn in *; discriminate.
Qed.
(** The whole way: samples handed to a consumer, background tasks, consume() under the lock of the object. *)
Theorem end_to_end : forall {S L R} b pw body conns q programs sched tr s (calls : list (list (method S L * L))) (consume : S -> X -> outcome S) (get : S -> R) (arg : L -> X)
    (is_consume : method S L * L -> bool) s0 l0 sched' (tr' : list (levent L)) st r,
  run b pw body sched (initial conns q programs) = (tr, s) -> (forall u, u < length (c_threads s) -> finished s u) -> forallb snd sched = true -> none any_drop tr ->
  look_fixed (methods calls) -> (forall c, In c (concat calls) -> if is_consume c then carries_out consume arg c else reads_only c) ->
  Permutation (consumed tr) (map (fun c => arg (snd c)) (filter is_consume (concat calls))) ->
  (forall zs, Permutation (deliveries tr) zs -> exists s', run_consumer consume s0 zs = Ok s' /\ get s' = r) ->
  lrun true sched' (linit s0 l0 calls) = (tr', st) -> all_done st -> get (l_obj st) = r.
Proof.
  intros S L R b pw body conns q programs sched tr s calls consume get arg is_consume s0 l0 sched' tr' st r H HF HI HD HL HC HP HG H' HA.
  eapply (async_result calls consume get arg is_consume s0 l0 sched' tr' st (deliveries tr)); eauto.
  transitivity (consumed tr); [|exact HP]. apply Permutation_sym. eapply consumed_delivered; eauto.
Qed.
End P.
