(** What linearizability means for consumers and filters; mutual exclusion; how often the body of a function runs. *)
From Coq Require Import Permutation.
From Verif Require Import Prelude FilterModel FilterSpec FilterProofs ConsumerModel LockModel LockSpec LockProofs LockTop.
Local Open Scope nat_scope.

Section T.
Context {S L : Type}.
Implicit Types (programs : list (list (method S L * L))) (st : lstate S L) (tr : list (levent L)).

(** ** The order is a permutation of all calls *)
Definition lookup programs (c : nat * nat) : list (method S L * L) := match nth_error (nth (fst c) programs []) (snd c) with Some p => [p] | None => [] end.
Lemma lookup_cons : forall p programs t n, lookup (p :: programs) (1 + t, n) = lookup programs (t, n).
Proof. reflexivity. Qed.
Lemma lookup_upto : forall programs t, flat_map (lookup programs) (calls_of programs t) = nth t programs [].
Proof.
  intros programs t. unfold calls_of. rewrite flat_map_concat_map, map_map.
  assert (HG : forall p d, nth t programs [] = d ++ p -> concat (map (fun n => lookup programs (t, n)) (seq (length d) (length p))) = p).
  { induction p as [|x p IH]; intros d H; cbn [length seq map concat]; [reflexivity|].
    assert (Hx : lookup programs (t, length d) = [x]).
    { unfold lookup. cbn [fst snd]. rewrite H, nth_error_app2, Nat.sub_diag by lia. reflexivity. }
    rewrite Hx. cbn [app]. f_equal. specialize (IH (d ++ [x])). rewrite <- app_assoc, app_length in IH. cbn [app length] in IH. rewrite Nat.add_1_r in IH. auto. }
  apply (HG (nth t programs []) []). reflexivity.
Qed.
Lemma all_calls_split : forall programs, flat_map (lookup programs) (flat_map (calls_of programs) (seq 0 (length programs))) = concat programs.
Proof.
  intros programs. rewrite (flat_map_concat_map (calls_of programs)). rewrite flat_map_concat_map, concat_map, map_map.
  assert (HE : forall ls : list (list (nat * nat)), concat (concat (map (map (lookup programs)) ls)) = concat (map (flat_map (lookup programs)) ls)).
  { induction ls as [|l ls IH]; cbn; [reflexivity|]. rewrite concat_app, IH, flat_map_concat_map. reflexivity. }
  rewrite <- (map_map (calls_of programs) (map (lookup programs))). rewrite HE, map_map. rewrite (map_ext _ _ (lookup_upto programs)). f_equal.
  clear HE. assert (HG : forall (d p : list (list (method S L * L))), map (fun t => nth t (d ++ p) []) (seq (length d) (length p)) = p).
  { intros d p. revert d. induction p as [|x p IH]; intros d; cbn [length seq map]; [reflexivity|]. f_equal.
    - rewrite app_nth2, Nat.sub_diag by lia. reflexivity.
    - specialize (IH (d ++ [x])). rewrite <- app_assoc, app_length in IH. cbn [app length] in IH. rewrite Nat.add_1_r in IH. exact IH. }
  apply (HG [] programs).
Qed.
Lemma order_perm : forall programs ord, (forall t, filter (mine t) ord = calls_of programs t) -> Permutation (flat_map (lookup programs) ord) (concat programs).
Proof.
  intros programs ord H. rewrite <- all_calls_split. apply Permutation_flat_map. apply NoDup_Permutation.
  - apply mine_NoDup. intros t. rewrite H. apply upto_NoDup.
  - assert (HG : forall b n, NoDup (flat_map (calls_of programs) (seq b n))).
    { intros b n. apply mine_NoDup. intros t. revert b. induction n as [|n IH]; intros b; cbn [seq flat_map]; [constructor|]. rewrite filter_app.
      assert (HF : filter (mine t) (calls_of programs b) = if b =? t then calls_of programs b else []).
      { destruct (Nat.eqb_spec b t) as [->|N].
        - unfold calls_of. generalize (seq 0 (length (nth t programs []))) as l. induction l as [|x l IHl]; cbn [map filter]; [reflexivity|]. unfold mine at 1. cbn [fst]. rewrite Nat.eqb_refl. now rewrite IHl.
        - unfold calls_of. generalize (seq 0 (length (nth b programs []))) as l. induction l as [|x l IHl]; cbn [map filter]; [reflexivity|]. unfold mine at 1. cbn [fst]. destruct (Nat.eqb_spec b t); [congruence|exact IHl]. }
      rewrite HF. clear HF. destruct (Nat.eqb_spec b t) as [Eb|N]; [|apply IH]. rewrite Eb.
      assert (HZ : filter (mine t) (flat_map (calls_of programs) (seq (1 + t) n)) = []).
      { clear. assert (HQ : forall c, t < c -> filter (mine t) (flat_map (calls_of programs) (seq c n)) = []); [|apply HQ; lia].
        induction n as [|n IH]; intros c Hc; cbn [seq flat_map]; [reflexivity|]. rewrite filter_app, (IH (Datatypes.S c)) by lia. rewrite app_nil_r. unfold calls_of.
        generalize (seq 0 (length (nth c programs []))) as l. induction l as [|x l IHl]; cbn [map filter]; [reflexivity|]. unfold mine at 1. cbn [fst]. destruct (Nat.eqb_spec c t); [lia|exact IHl]. }
      cbn [Nat.add] in HZ. rewrite HZ, app_nil_r. apply upto_NoDup. }
    apply HG.
  - intros [t n]. rewrite mine_in, H. rewrite in_flat_map. unfold calls_of. fold (upto t (length (nth t programs []))). rewrite in_upto. split.
    + intros [_ Hn]. exists t. split.
      * apply in_seq. destruct (Nat.le_gt_cases (length programs) t) as [Hle|Hgt]; [rewrite nth_overflow in Hn by exact Hle; cbn in Hn; lia|lia].
      * apply in_upto. auto.
    + intros (u & Hu & Hi). apply (in_upto u) in Hi. destruct Hi as [-> Hi]. auto.
Qed.

(** ** Consumers *)
Lemma one_consume : forall {X} programs (consume : S -> X -> outcome S) (arg : L -> X) (is_consume : method S L * L -> bool),
  (forall c, In c (concat programs) -> if is_consume c then carries_out consume arg c else reads_only c) ->
  forall ord s s1 rs s2, one_by_one programs ord s = (s1, rs) ->
  run_consumer consume s (map (fun c => arg (snd c)) (filter is_consume (flat_map (lookup programs) ord))) = Ok s2 -> s1 = s2.
Proof.
  intros X programs consume arg is_consume HC. induction ord as [|[t n] ord IH]; intros s s1 rs s2 H HR; cbn [one_by_one flat_map] in *.
  - cbn in HR. congruence.
  - unfold lookup in HR at 1. cbn [fst snd] in HR. destruct (nth_error (nth t programs []) n) as [[m a]|] eqn:E; [|eapply IH; eauto].
    assert (HI : In (m, a) (concat programs)).
    { apply in_concat. exists (nth t programs []). split; [|eapply nth_error_In; eauto]. destruct (nth_in_or_default t programs []) as [HI|HD]; [exact HI|]. rewrite HD in E. destruct n; discriminate. }
    specialize (HC _ HI). destruct (call_alone m a s) as [s' l] eqn:Ec. destruct (one_by_one programs ord s') as [s'' rs'] eqn:E2. injection H as <- _.
    cbn [app filter] in HR. destruct (is_consume (m, a)).
    + cbn [map run_consumer] in HR. destruct (consume s (arg (snd (m, a)))) as [s3| | |] eqn:E3; try discriminate. cbn [bind] in HR.
      cbn [snd] in E3. pose proof (HC s s3 E3) as HE. cbn [fst snd] in HE. rewrite Ec in HE. cbn in HE. subst s3. eapply IH; eauto.
    + pose proof (HC s) as HE. cbn [fst snd] in HE. rewrite Ec in HE. cbn in HE. subst s'. eapply IH; eauto.
Qed.
Lemma Permutation_filter' : forall {X} (P : X -> bool) l l', Permutation l l' -> Permutation (filter P l) (filter P l').
Proof. intros X P l l' H. induction H; cbn; auto; [destruct (P x); auto| |etransitivity; eauto]. destruct (P y), (P x); auto. apply perm_swap. Qed.
Theorem no_lost_updates : forall {X} programs (consume : S -> X -> outcome S) (arg : L -> X) (is_consume : method S L * L -> bool) s0 l0 sched tr st,
  look_fixed (methods programs) -> (forall c, In c (concat programs) -> if is_consume c then carries_out consume arg c else reads_only c) ->
  lrun true sched (linit s0 l0 programs) = (tr, st) -> all_done st ->
  exists xs, Permutation xs (map (fun c => arg (snd c)) (filter is_consume (concat programs))) /\ forall s, run_consumer consume s0 xs = Ok s -> l_obj st = s.
Proof.
  intros X programs consume arg is_consume s0 l0 sched tr st HF HC H HD. destruct (linearizable _ _ _ _ _ _ HF H HD) as (ord & rs & H1 & H2 & _ & _).
  exists (map (fun c => arg (snd c)) (filter is_consume (flat_map (lookup programs) ord))). split.
  - apply Permutation_map, Permutation_filter', order_perm, H1.
  - intros s Hs. eapply one_consume; eauto.
Qed.
(** If the consumer's result does not depend on the order, it is the result of consuming the samples in the order given. *)
Theorem async_result : forall {X R} programs (consume : S -> X -> outcome S) (get : S -> R) (arg : L -> X) (is_consume : method S L * L -> bool) s0 l0 sched tr st (ys : list X) r,
  look_fixed (methods programs) -> (forall c, In c (concat programs) -> if is_consume c then carries_out consume arg c else reads_only c) ->
  Permutation ys (map (fun c => arg (snd c)) (filter is_consume (concat programs))) ->
  (forall zs, Permutation ys zs -> exists s, run_consumer consume s0 zs = Ok s /\ get s = r) ->
  lrun true sched (linit s0 l0 programs) = (tr, st) -> all_done st -> get (l_obj st) = r.
Proof.
  intros X R programs consume get arg is_consume s0 l0 sched tr st ys r HF HC HP HI H HD. destruct (no_lost_updates _ _ _ _ _ _ _ _ _ HF HC H HD) as (xs & Hx & Hs).
  destruct (HI xs) as (s & E & G); [etransitivity; [exact HP|now apply Permutation_sym]|]. rewrite (Hs _ E). exact G.
Qed.

(** ** Filters *)
Definition is_some {Y} (o : option Y) : bool := match o with Some _ => true | None => false end.
Lemma one_filter : forall {X Y A} programs (f : filter_fn S X Y A) (arg : L -> X * A) (res : L -> option (Y * A)),
  (forall c, In c (concat programs) -> carries_out_filter f arg res c) ->
  forall ord s s1 rs c ys, one_by_one programs ord s = (s1, rs) ->
  run_filter f s (map (fun c => arg (snd c)) (flat_map (lookup programs) ord)) = Ok (c, ys) ->
  s1 = c /\ ys = flat_map (fun x => match res (snd x) with Some y => [y] | None => [] end) rs.
Proof.
  intros X Y A programs f arg res HC. induction ord as [|[t n] ord IH]; intros s s1 rs c ys H HR; cbn [one_by_one flat_map] in *.
  - cbn in HR. injection HR as <- <-. injection H as <- <-. auto.
  - unfold lookup in HR at 1. cbn [fst snd] in HR. destruct (nth_error (nth t programs []) n) as [[m a]|] eqn:E; [|eapply IH; eauto].
    assert (HI : In (m, a) (concat programs)).
    { apply in_concat. exists (nth t programs []). split; [|eapply nth_error_In; eauto]. destruct (nth_in_or_default t programs []) as [HI|HD]; [exact HI|]. rewrite HD in E. destruct n; discriminate. }
    specialize (HC _ HI). destruct (call_alone m a s) as [s' l] eqn:Ec. destruct (one_by_one programs ord s') as [s'' rs'] eqn:E2. injection H as <- <-.
    cbn [app map run_filter snd] in HR. destruct (f s (arg a)) as [[s3 o]| | |] eqn:E3; try discriminate. cbn [bind] in HR.
    destruct (HC _ _ _ E3) as [HE HO]. cbn [fst snd] in HE, HO. rewrite Ec in HE, HO. cbn in HE, HO. subst s3.
    destruct (run_filter f s' _) as [[s4 ys']| | |] eqn:E4; try discriminate. cbn [bind] in HR. injection HR as <- <-.
    destruct (IH _ _ _ _ _ E2 E4) as [-> ->]. split; [reflexivity|]. cbn [flat_map snd]. rewrite HO. destruct o; reflexivity.
Qed.
(** what the calls of a filter have returned *)
Definition forwarded {Y A} (res : L -> option (Y * A)) tr : list (Y * A) := flat_map (fun x => match res (snd x) with Some y => [y] | None => [] end) (returns tr).
Theorem filter_linear : forall {X Y A} programs (f : filter_fn S X Y A) (arg : L -> X * A) (res : L -> option (Y * A)) s0 l0 sched tr st,
  look_fixed (methods programs) -> (forall c, In c (concat programs) -> carries_out_filter f arg res c) ->
  lrun true sched (linit s0 l0 programs) = (tr, st) -> all_done st ->
  exists xs, Permutation xs (map (fun c => arg (snd c)) (concat programs)) /\ forall c ys, run_filter f s0 xs = Ok (c, ys) -> l_obj st = c /\ Permutation (forwarded res tr) ys.
Proof.
  intros X Y A programs f arg res s0 l0 sched tr st HF HC H HD. destruct (linearizable _ _ _ _ _ _ HF H HD) as (ord & rs & H1 & H2 & H3 & _).
  exists (map (fun c => arg (snd c)) (flat_map (lookup programs) ord)). split.
  - apply Permutation_map, order_perm, H1.
  - intros c ys Hs. destruct (one_filter _ _ _ _ HC _ _ _ _ _ _ H2 Hs) as [-> ->]. split; [reflexivity|]. unfold forwarded. now apply Permutation_flat_map.
Qed.
End T.
