(** Consequences: every run of an object with a mutex is equivalent to calling its functions one after the other. *)
From Coq Require FinFun. From Coq Require Import Permutation.
From Verif Require Import Prelude LockModel LockSpec LockProofs.
Local Open Scope nat_scope.

Section T.
Context {S L : Type}.
Implicit Types (programs : list (list (method S L * L))) (st : lstate S L) (tr : list (levent L)).

(** ** Prefixes of runs *)
Lemma lrun_app : forall b s1 s2 st tr1 st1 tr2 st2, lrun b s1 st = (tr1, st1) -> lrun b s2 st1 = (tr2, st2) -> lrun (S := S) (L := L) b (s1 ++ s2) st = (tr1 ++ tr2, st2).
Proof.
  intros b. induction s1 as [|t r IH]; intros s2 st tr1 st1 tr2 st2 H1 H2; cbn [lrun app] in *.
  - injection H1 as <- <-. exact H2.
  - destruct (lstep b t st) as [[e st']|]; [|eauto]. destruct (lrun b r st') as [tr st''] eqn:E. injection H1 as <- <-. rewrite (IH _ _ _ _ _ _ E H2). reflexivity.
Qed.
Lemma lrun_split : forall b sched st t1 e t2 st', lrun (S := S) (L := L) b sched st = (t1 ++ e :: t2, st') ->
  exists sc1 t sc2 sm sm', lrun b sc1 st = (t1, sm) /\ lstep b t sm = Some (e, sm') /\ lrun b sc2 sm' = (t2, st').
Proof.
  intros b. induction sched as [|t r IH]; intros st t1 e t2 st' H; cbn [lrun] in H.
  - destruct t1; discriminate.
  - destruct (lstep b t st) as [[e1 st1]|] eqn:E.
    + destruct (lrun b r st1) as [tr st2] eqn:E2. injection H as H <-. destruct t1 as [|e1' t1]; cbn [app] in H.
      * injection H as -> ->. exists [], t, r, st, st1. auto.
      * injection H as -> ->. destruct (IH _ _ _ _ _ E2) as (sc1 & u & sc2 & sm & sm' & G1 & G2 & G3). exists (t :: sc1), u, sc2, sm, sm'. cbn [lrun]. rewrite E, G1. auto.
    + destruct (IH _ _ _ _ _ H) as (sc1 & u & sc2 & sm & sm' & G1 & G2 & G3). exists (t :: sc1), u, sc2, sm, sm'. cbn [lrun]. rewrite E. auto.
Qed.
Lemma lrun_prefix : forall b sched st t1 t2 st', lrun (S := S) (L := L) b sched st = (t1 ++ t2, st') -> exists sc1 sm, lrun b sc1 st = (t1, sm).
Proof.
  intros b sched st t1 t2 st' H. destruct t2 as [|e t2].
  - rewrite app_nil_r in H. eauto.
  - destruct (lrun_split _ _ _ _ _ _ _ H) as (sc1 & _ & _ & sm & _ & G & _). eauto.
Qed.

(** ** What returned *)
Lemma in_returns : forall tr t n r, In (t, n, r) (returns tr) <-> In (VReturn t n r) tr.
Proof.
  intros. unfold returns. rewrite in_flat_map. split.
  - intros (e & He & Hi). destruct e; cbn in Hi; try tauto. destruct Hi as [Hi|[]]. injection Hi as -> -> ->. exact He.
  - intros H. eexists. split; [exact H|]. now left.
Qed.
Definition rinv tr st : Prop := (forall t th, nth_error (l_threads st) t = Some th -> filter (mine t) (map fst (returns tr)) = upto t (th_n th)) /\
  (forall t, nth_error (l_threads st) t = None -> filter (mine t) (map fst (returns tr)) = []).
Lemma lupd_none : forall (l : list (lthread S L)) t a u, nth_error (lupd l t a) u = None -> nth_error l u = None.
Proof. intros l t a u H. apply nth_error_None in H. rewrite lupd_length in H. now apply nth_error_None. Qed.
Lemma rinv_step : forall b t st e st' tr, rinv tr st -> lstep b t st = Some (e, st') -> rinv (tr ++ [e]) st'.
Proof.
  intros b t st e st' tr [H1 H2] H. unfold lstep in H. destruct (nth_error (l_threads st) t) as [th|] eqn:En; [|discriminate].
  assert (HK : forall obj own l' k e0, ret_of e0 = [] -> rinv (tr ++ [e0]) {| l_obj := obj; l_owner := own; l_threads := lupd (l_threads st) t {| th_local := l'; th_code := k; th_n := th_n th |} |}).
  { intros obj own l' k e0 He. unfold rinv. cbn [l_threads]. unfold returns. rewrite flat_map_app. cbn [flat_map]. rewrite He, !app_nil_r. split.
    - intros u th' Hu. apply lupd_nth in Hu. destruct Hu as [[-> ->]|[N Hu]]; cbn [th_n]; auto.
    - intros u Hu. apply lupd_none in Hu. auto. }
  destruct (th_code th) as [|i k]; [discriminate|]. destruct i as [m a|m| | |g|].
  - injection H as <- <-. now apply HK.
  - destruct (m_done m _); injection H as <- <-; now apply HK.
  - destruct b; [destruct (l_owner st); [discriminate|]|]; injection H as <- <-; now apply HK.
  - injection H as <- <-. now apply HK.
  - destruct (g (l_obj st) (th_local th)). injection H as <- <-. now apply HK.
  - injection H as <- <-. unfold rinv. cbn [l_threads]. unfold returns. rewrite flat_map_app, map_app. fold (returns tr). cbn [flat_map ret_of app map fst]. split.
    + intros u th' Hu. rewrite filter_app. cbn [filter]. apply lupd_nth in Hu. destruct Hu as [[-> ->]|[N Hu]]; cbn [th_n].
      * rewrite (H1 _ _ En). unfold mine at 1. cbn [fst]. rewrite Nat.eqb_refl. symmetry. apply upto_snoc.
      * rewrite (H1 _ _ Hu). unfold mine at 1. cbn [fst]. destruct (Nat.eqb_spec t u); [congruence|]. apply app_nil_r.
    + intros u Hu. apply lupd_none in Hu. rewrite filter_app. rewrite (H2 _ Hu). cbn [filter app]. unfold mine at 1. cbn [fst]. destruct (Nat.eqb_spec t u); [congruence|]. reflexivity.
Qed.
Lemma rinv_run : forall b sched st tr0 tr st', rinv tr0 st -> lrun b sched st = (tr, st') -> rinv (tr0 ++ tr) st'.
Proof.
  intros b. induction sched as [|t r IH]; intros st tr0 tr st' HI H; cbn [lrun] in H.
  - injection H as <- <-. now rewrite app_nil_r.
  - destruct (lstep b t st) as [[e st1]|] eqn:E; [|eauto]. destruct (lrun b r st1) as [tr1 st2] eqn:E2. injection H as <- <-.
    replace (tr0 ++ e :: tr1) with ((tr0 ++ [e]) ++ tr1) by (rewrite <- app_assoc; reflexivity). eapply IH; eauto. eapply rinv_step; eauto.
Qed.
Lemma rinv_init : forall s0 l0 programs, rinv [] (linit s0 l0 programs).
Proof.
  intros. split; [|reflexivity]. intros t th H. cbn in *. rewrite nth_error_map in H. destruct (nth_error programs t); [|discriminate]. now injection H as <-.
Qed.

(** ** Orders *)
Lemma upto_NoDup : forall t n, NoDup (upto t n).
Proof. intros. unfold upto. apply FinFun.Injective_map_NoDup; [intros x y H; now injection H|apply seq_NoDup]. Qed.
Lemma in_upto : forall t n u k, In (u, k) (upto t n) <-> u = t /\ k < n.
Proof.
  intros. unfold upto. rewrite in_map_iff. split.
  - intros (x & E & Hx). injection E as -> ->. apply in_seq in Hx. split; [reflexivity|lia].
  - intros [-> H]. exists k. split; [reflexivity|]. apply in_seq. lia.
Qed.
Lemma mine_NoDup : forall o, (forall t, NoDup (filter (mine t) o)) -> NoDup o.
Proof.
  induction o as [|[t n] o IH]; intros H; [constructor|]. constructor.
  - intros Hi. specialize (H t). cbn in H. unfold mine in H at 1. cbn in H. rewrite Nat.eqb_refl in H. inversion H as [|x l Hn Hd]; subst. apply Hn. apply filter_In. split; [exact Hi|].
    unfold mine. cbn. apply Nat.eqb_refl.
  - apply IH. intros u. specialize (H u). cbn [filter] in H. destruct (mine u (t, n)); [inversion H; assumption|exact H].
Qed.
Lemma mine_in : forall o t n, In (t, n) o <-> In (t, n) (filter (mine t) o).
Proof. intros. rewrite filter_In. unfold mine. cbn. rewrite Nat.eqb_refl. tauto. Qed.

(** The results of a sequential execution are about the calls of the order. *)
Lemma one_keys : forall programs o s s1 rs, one_by_one programs o s = (s1, rs) -> (forall t n, In (t, n) o -> nth_error (nth t programs []) n <> None) -> map fst rs = o.
Proof.
  intros programs. induction o as [|[t n] o IH]; intros s s1 rs H HV; cbn [one_by_one] in H.
  - injection H as <- <-. reflexivity.
  - destruct (nth_error (nth t programs []) n) as [[m a]|] eqn:E; [|exfalso; eapply HV; [now left|exact E]].
    destruct (call_alone m a s) as [s' l]. destruct (one_by_one programs o s') as [s'' rs'] eqn:E2. injection H as <- <-. cbn. f_equal. eapply IH; eauto. intros. apply HV. now right.
Qed.
Lemma one_keys_in : forall programs o s s1 rs t n r, one_by_one programs o s = (s1, rs) -> In (t, n, r) rs -> In (t, n) o.
Proof.
  intros programs. induction o as [|[t n] o IH]; intros s s1 rs t' n' r H Hi; cbn [one_by_one] in H.
  - injection H as <- <-. destruct Hi.
  - destruct (nth_error (nth t programs []) n) as [[m a]|] eqn:E; [|right; eauto].
    destruct (call_alone m a s) as [s' l]. destruct (one_by_one programs o s') as [s'' rs'] eqn:E2. injection H as <- <-. destruct Hi as [Hi|Hi]; [left; congruence|right; eauto].
Qed.

(** ** Linearizability *)
Lemma all_valid : forall programs s0 l0 sched tr st, look_fixed (methods programs) -> lrun true sched (linit s0 l0 programs) = (tr, st) ->
  exists s1 rs, linv programs s0 st tr s1 rs.
Proof. intros programs s0 l0 sched tr st HF H. destruct (linv_run _ _ HF _ _ [] _ _ _ _ (linv_init _ _ _) H) as (s1 & rs & HI). eauto. Qed.
Lemma real_time : forall programs s0 l0 sched t1 t n r t2 u m t3 st, look_fixed (methods programs) ->
  lrun true sched (linit s0 l0 programs) = (t1 ++ VReturn t n r :: t2 ++ VBegin u m :: t3, st) -> In (u, m) (order (t1 ++ VReturn t n r :: t2 ++ VBegin u m :: t3)) ->
  before (order (t1 ++ VReturn t n r :: t2 ++ VBegin u m :: t3)) (t, n) (u, m).
Proof.
  intros programs s0 l0 sched t1 t n r t2 u m t3 st HF H Hi.
  replace (t1 ++ VReturn t n r :: t2 ++ VBegin u m :: t3) with ((t1 ++ VReturn t n r :: t2) ++ VBegin u m :: t3) in * by (now rewrite <- app_assoc).
  destruct (lrun_split _ _ _ _ _ _ _ H) as (sc1 & v & sc2 & sm & sm' & G1 & G2 & _).
  destruct (all_valid _ _ _ _ _ _ HF G1) as (s1 & rs & HV).
  assert (HA : In (t, n) (order (t1 ++ VReturn t n r :: t2))).
  { eapply one_keys_in; [apply (v_seq _ _ _ _ _ _ HV)|]. apply (v_ret _ _ _ _ _ _ HV _ _ _). apply in_or_app. right. now left. }
  assert (HB : ~ In (u, m) (order (t1 ++ VReturn t n r :: t2))).
  { unfold lstep in G2. destruct (nth_error (l_threads sm) v) as [th|] eqn:En; [|discriminate].
    pose proof (v_shape _ _ _ _ _ _ HV _ _ En) as HS.
    destruct (th_code th) as [|i k] eqn:Ek; [discriminate|]. destruct i as [m0 a|m0| | |g|].
    - injection G2 as <- <- <-. destruct HS as [H1 H2|m' H1 H2 H3|m' a' H1 H2 H3 H4 H5|m' a' gs H1 H2 H3 H4 H5 H6|H1 H2 H3 H4]; rewrite Ek in H1; try discriminate.
      + rewrite mine_in, H2, in_upto. lia.
      + destruct gs; discriminate.
    - destruct (m_done m0 _); discriminate.
    - destruct (l_owner sm); discriminate.
    - discriminate.
    - destruct (g (l_obj sm) (th_local th)); discriminate.
    - discriminate. }
  assert (HE : order ((t1 ++ VReturn t n r :: t2) ++ VBegin u m :: t3) = order (t1 ++ VReturn t n r :: t2) ++ order t3) by (unfold order; rewrite flat_map_app; reflexivity).
  rewrite HE in *. apply in_app_or in Hi. destruct Hi as [Hi|Hi]; [tauto|].
  apply in_split in HA. destruct HA as (x & y & HA). apply in_split in Hi. destruct Hi as (y' & z & Hi).
  exists x, (y ++ y'), z. rewrite HA, Hi. rewrite <- !app_assoc. reflexivity.
Qed.

Lemma valid_le : forall programs s0 st tr s1 rs t k, linv programs s0 st tr s1 rs -> filter (mine t) (order tr) = upto t k -> k <= length (nth t programs []).
Proof.
  intros programs s0 st tr s1 rs t k HV H. destruct (Nat.le_gt_cases k (length (nth t programs []))) as [Hle|Hgt]; [exact Hle|].
  exfalso. apply (v_valid _ _ _ _ _ _ HV t (length (nth t programs []))).
  - apply mine_in. rewrite H. apply in_upto. lia.
  - unfold prog. now apply nth_error_None.
Qed.
Lemma valid_none : forall programs s0 st tr s1 rs t, linv programs s0 st tr s1 rs -> length programs <= t -> filter (mine t) (order tr) = [].
Proof.
  intros programs s0 st tr s1 rs t HV Ht. destruct (filter (mine t) (order tr)) as [|[u n] l] eqn:E; [reflexivity|]. exfalso.
  assert (HI : In (u, n) (filter (mine t) (order tr))) by (rewrite E; now left). apply filter_In in HI. destruct HI as [HI Hm]. unfold mine in Hm. cbn in Hm. apply Nat.eqb_eq in Hm. subst u.
  apply (v_valid _ _ _ _ _ _ HV _ _ HI). unfold prog. rewrite nth_overflow by exact Ht. destruct n; reflexivity.
Qed.
(** Any run, finished or not: the calls that have taken effect, in the order in which they did. *)
Theorem linearizable_always : forall programs s0 l0 sched tr st, look_fixed (methods programs) -> lrun true sched (linit s0 l0 programs) = (tr, st) ->
  exists ord s1 rs,
    one_by_one programs ord s0 = (s1, rs) /\
    (forall t, exists k, k <= length (nth t programs []) /\ filter (mine t) ord = upto t k) /\
    (forall t n r, In (VReturn t n r) tr -> In (t, n, r) rs) /\
    (forall t1 t n r t2 u m t3, tr = t1 ++ VReturn t n r :: t2 ++ VBegin u m :: t3 -> In (u, m) ord -> before ord (t, n) (u, m)) /\
    (l_owner st = None -> l_obj st = s1).
Proof.
  intros programs s0 l0 sched tr st HF H. destruct (all_valid _ _ _ _ _ _ HF H) as (s1 & rs & HV). exists (order tr), s1, rs.
  split; [apply (v_seq _ _ _ _ _ _ HV)|]. split; [|split; [apply (v_ret _ _ _ _ _ _ HV)|split; [|apply (v_free _ _ _ _ _ _ HV)]]].
  - intros t. assert (HX : exists k, filter (mine t) (order tr) = upto t k).
    { destruct (nth_error (l_threads st) t) as [th|] eqn:En.
      - destruct (v_shape _ _ _ _ _ _ HV _ _ En) as [H1 H2|m' H1 H2 H3|m' a' H1 H2 H3 H4 H5|m' a' gs H1 H2 H3 H4 H5 H6|H1 H2 H3 H4]; eauto.
      - exists 0. eapply valid_none; eauto. rewrite <- (v_len _ _ _ _ _ _ HV). now apply nth_error_None. }
    destruct HX as (k & Hk). exists k. split; [eapply valid_le; eauto|exact Hk].
  - intros t1 t n r t2 u m t3 -> Hi. eapply real_time; eauto.
Qed.
(** When all calls have returned. *)
Theorem linearizable : forall programs s0 l0 sched tr st, look_fixed (methods programs) -> lrun true sched (linit s0 l0 programs) = (tr, st) -> all_done st ->
  exists ord rs,
    (forall t, filter (mine t) ord = calls_of programs t) /\
    one_by_one programs ord s0 = (l_obj st, rs) /\
    Permutation (returns tr) rs /\
    (forall t1 t n r t2 u m t3, tr = t1 ++ VReturn t n r :: t2 ++ VBegin u m :: t3 -> before ord (t, n) (u, m)).
Proof.
  intros programs s0 l0 sched tr st HF H HD. destruct (all_valid _ _ _ _ _ _ HF H) as (s1 & rs & HV).
  pose proof (rinv_run _ _ _ [] _ _ (rinv_init s0 l0 programs) H) as HR. cbn [app] in HR. destruct HR as [HR1 HR2].
  assert (HO : l_owner st = None).
  { destruct (l_owner st) as [u|] eqn:E; [|reflexivity]. destruct (v_held _ _ _ _ _ _ HV u E) as (th & gs & m & a & G1 & _ & _ & G2 & _). rewrite (HD _ _ G1) in G2. destruct gs; discriminate. }
  assert (HN : forall t th, nth_error (l_threads st) t = Some th -> th_n th = length (nth t programs []) /\ filter (mine t) (order tr) = upto t (th_n th)).
  { intros t th Hn. destruct (v_shape _ _ _ _ _ _ HV _ _ Hn) as [H1 H2|m' H1 H2 H3|m' a' H1 H2 H3 H4 H5|m' a' gs H1 H2 H3 H4 H5 H6|H1 H2 H3 H4]; rewrite (HD _ _ Hn) in H1; try discriminate; [|destruct gs; discriminate].
    split; [|exact H2]. pose proof (valid_le _ _ _ _ _ _ _ _ HV H2). unfold begins, prog in H1. symmetry in H1. apply map_eq_nil in H1.
    assert (HL : length (skipn (th_n th) (nth t programs [])) = 0) by now rewrite H1. rewrite skipn_length in HL. lia. }
  assert (HC : forall t, filter (mine t) (order tr) = calls_of programs t).
  { intros t. destruct (nth_error (l_threads st) t) as [th|] eqn:En.
    - destruct (HN _ _ En) as [E1 E2]. rewrite E2, E1. reflexivity.
    - rewrite (valid_none _ _ _ _ _ _ t HV) by (rewrite <- (v_len _ _ _ _ _ _ HV); now apply nth_error_None).
      unfold calls_of. rewrite nth_overflow; [reflexivity|]. rewrite <- (v_len _ _ _ _ _ _ HV). now apply nth_error_None. }
  exists (order tr), rs. split; [exact HC|]. split; [|split].
  - rewrite (v_free _ _ _ _ _ _ HV HO). apply (v_seq _ _ _ _ _ _ HV).
  - pose proof (one_keys _ _ _ _ _ (v_seq _ _ _ _ _ _ HV) (v_valid _ _ _ _ _ _ HV)) as HK.
    assert (HRC : forall t, filter (mine t) (map fst (returns tr)) = calls_of programs t).
    { intros t. destruct (nth_error (l_threads st) t) as [th|] eqn:En.
      - rewrite (HR1 _ _ En). destruct (HN _ _ En) as [E1 _]. rewrite E1. reflexivity.
      - rewrite (HR2 _ En). rewrite <- HC. symmetry. eapply valid_none; eauto. rewrite <- (v_len _ _ _ _ _ _ HV). now apply nth_error_None. }
    assert (HD1 : NoDup (map fst (returns tr))) by (apply mine_NoDup; intros t; rewrite HRC; apply upto_NoDup).
    assert (HD2 : NoDup (map fst rs)) by (rewrite HK; apply mine_NoDup; intros t; rewrite HC; apply upto_NoDup).
    assert (HI : incl (returns tr) rs) by (intros [[t n] r] Hi; apply (v_ret _ _ _ _ _ _ HV); now apply in_returns).
    apply NoDup_Permutation.
    + eapply NoDup_map_inv; eauto.
    + eapply NoDup_map_inv; eauto.
    + intros [[t n] r]. split; [apply HI|]. intros Hr.
      assert (Hk : In (t, n) (map fst (returns tr))).
      { apply mine_in. rewrite HRC, <- HC. apply (proj1 (mine_in _ _ _)). rewrite <- HK. apply in_map_iff. exists (t, n, r). auto. }
      apply in_map_iff in Hk. destruct Hk as ([[t' n'] r'] & E & Hi). cbn in E. injection E as -> ->.
      assert (HX : r' = r); [|now subst]. apply HI in Hi. clear - HD2 Hi Hr.
      induction rs as [|[[t0 n0] r0] rs IH]; [destruct Hi|]. cbn in HD2. inversion HD2 as [|x l Hn Hd]; subst.
      destruct Hi as [Hi|Hi], Hr as [Hr|Hr].
      * congruence.
      * injection Hi as -> -> ->. exfalso. apply Hn. apply in_map_iff. exists (t, n, r). auto.
      * injection Hr as -> -> ->. exfalso. apply Hn. apply in_map_iff. exists (t, n, r'). auto.
      * auto.
  - intros t1 t n r t2 u m t3 E.
    assert (Hu : In (u, m) (order tr)).
    { apply mine_in. rewrite HC. pose proof H as H'. rewrite E in H'. replace (t1 ++ VReturn t n r :: t2 ++ VBegin u m :: t3) with ((t1 ++ VReturn t n r :: t2) ++ VBegin u m :: t3) in H' by (now rewrite <- app_assoc).
      destruct (lrun_split _ _ _ _ _ _ _ H') as (sc1 & v & sc2 & sm & sm' & G1 & G2 & _). destruct (all_valid _ _ _ _ _ _ HF G1) as (s1' & rs' & HV').
      unfold lstep in G2. destruct (nth_error (l_threads sm) v) as [th|] eqn:En; [|discriminate]. pose proof (v_shape _ _ _ _ _ _ HV' _ _ En) as HS.
      destruct (th_code th) as [|i k] eqn:Ek; [discriminate|]. destruct i as [m0 a|m0| | |g|].
      - injection G2 as <- <- <-. destruct HS as [H1 H2|m' H1 H2 H3|m' a' H1 H2 H3 H4 H5|m' a' gs H1 H2 H3 H4 H5 H6|H1 H2 H3 H4]; rewrite Ek in H1; try discriminate.
        + apply (in_upto v _ v). split; [reflexivity|]. destruct (Nat.le_gt_cases (length (nth v programs [])) (th_n th)) as [Hle|Hgt]; [|exact Hgt].
          unfold prog in H1. rewrite skipn_all2 in H1 by exact Hle. discriminate.
        + destruct gs; discriminate.
      - destruct (m_done m0 _); discriminate.
      - destruct (l_owner sm); discriminate.
      - discriminate.
      - destruct (g (l_obj sm) (th_local th)); discriminate.
      - discriminate. }
    subst tr. eapply real_time; eauto.
Qed.
End T.
