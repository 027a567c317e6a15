(** Proofs about Range and MetropolisHastings: counts, chains, flushing. *)
From Coq Require Import String.
From Verif Require Import Prelude ProducerModel ProducerSpec.
Local Open Scope string_scope.
Local Open Scope list_scope.
Local Notation length := List.length.

Section P.
Context {X D : Type}.
Implicit Types (E : env X D) (O : dops D) (t d b : trace X D).

Lemma collect_app : forall A (f : trace X D -> event X D -> option A) d1 d2 b,
  collect f b (d1 ++ d2) = collect f b d1 ++ collect f (b ++ d1) d2.
Proof.
  intros A f d1. induction d1 as [|e d1 IH]; intros d2 b; cbn.
  - now rewrite app_nil_r.
  - rewrite IH, <- !app_assoc. reflexivity.
Qed.
Lemma collect_nob : forall A (g : event X D -> option A) t b b',
  collect (fun _ => g) b t = collect (fun _ => g) b' t.
Proof.
  intros A g t. induction t as [|e t IH]; intros b b'; cbn; [reflexivity|]. now rewrite (IH (b ++ [e]) (b' ++ [e])).
Qed.

Definition issued_app : forall t1 t2, @issued X D (t1 ++ t2) = issued t1 ++ issued t2.
Proof. intros. unfold issued. rewrite collect_app. f_equal. apply collect_nob. Qed.
Definition flushes_app : forall t1 t2, @flushes X D (t1 ++ t2) = flushes t1 + flushes t2.
Proof. intros. unfold flushes. rewrite collect_app, app_length. f_equal. f_equal. apply collect_nob. Qed.

(** relative versions: what happens in [d] after [t] *)
Definition evals_from E t d : list (X * D) :=
  collect (fun b e => match e with EEval x => option_map (pair x) (e_ll E b x) | _ => None end) t d.
Definition props_from E t d : list (X * list X * (X * D)) :=
  collect (fun b e => match e with EPropose x rj => option_map (pair (x, rj)) (e_prop E b x rj) | _ => None end) t d.
Definition draws_from E t d : list D :=
  collect (fun b e => match e with EUnif => Some (e_unif E b) | _ => None end) t d.
Definition cross_from E t d : list (X * X * X * X) :=
  collect (fun b e => match e with ECross x p q => option_map (pair (x, p, q)) (e_cross E b x p q) | _ => None end) t d.

(** ** ScopeExit *)
Lemma scope_exit_inv : forall E A (body : M A) t t' (r : res A),
  with_scope_exit E body t = (t', r) ->
  exists t1 r1, body t = (t1, r1) /\
  (((exists a, r1 = RVal a) \/ r1 = RExc) -> t' = t1 ++ [EFlush] /\ r = (if e_flush E t1 then RTerm else r1)) /\
  ((r1 = RUB \/ r1 = RAssert \/ r1 = RTerm \/ r1 = RLoop) -> t' = t1 /\ r = r1).
Proof.
  intros E A body t t' r. unfold with_scope_exit. destruct (body t) as [t1 r1] eqn:Hb.
  unfold flush_consumers, call. intros H. exists t1, r1. split; [reflexivity|].
  destruct r1; destruct (e_flush E t1); inversion H; subst; (split; [intros [[a' Ha]|Ha]; try discriminate; auto | intros [Ha|[Ha|[Ha|Ha]]]; try discriminate; auto]).
Qed.

(** ** Range *)

Lemma range_loop_spec : forall E range t t' r,
  range_loop E range t = (t', r) ->
  exists xs, t' = t ++ map (fun x => EIssue x []) xs /\
  ((r = RVal tt /\ range = map Some xs) \/
   (r = RExc /\ exists rest, range = map Some xs ++ rest)).
Proof.
  intros E range. induction range as [|o range IH]; intros t t' r H; cbn in H.
  - inversion H; subst. exists []. split; [now rewrite app_nil_r|]. left; auto.
  - destruct o as [x|].
    + unfold mbind, issue_sample, call in H. destruct (e_issue E t x []) eqn:Hi.
      * inversion H; subst. exists [x]. split; [reflexivity|]. right. split; [reflexivity|]. exists range. reflexivity.
      * apply IH in H. destruct H as (xs & -> & H). exists (x :: xs). rewrite <- app_assoc. split; [reflexivity|].
        destruct H as [[-> ->]|[-> [rest ->]]]; [left; auto|right; split; [reflexivity|now exists rest]].
    + inversion H; subst. exists []. split; [now rewrite app_nil_r|]. right. split; [reflexivity|]. now exists (None :: range).
Qed.

Lemma map_some_inj : forall xs ys : list X, map Some xs = map Some ys -> xs = ys.
Proof.
  induction xs as [|x xs IH]; intros [|y ys] H; cbn in H; inversion H; [reflexivity|]. f_equal. auto.
Qed.

Lemma range_loop_val : forall E xs t t' r, (forall b x a, e_issue E b x a = false) ->
  range_loop E (map Some xs) t = (t', r) -> r = RVal tt.
Proof.
  intros E xs. induction xs as [|x xs IH]; intros t t' r Hi H; cbn in H; [now inversion H|].
  unfold mbind, issue_sample, call in H. rewrite Hi in H. eauto.
Qed.

Theorem range_ok : forall E (xs : list X) t r,
  range_sample E (map Some xs) [] = (t, r) ->
  (r = RVal tt -> t = map (fun x => EIssue x []) xs ++ [EFlush]) /\
  ((forall b x a, e_issue E b x a = false) -> (forall b, e_flush E b = false) -> r = RVal tt).
Proof.
  intros E xs t r H. apply scope_exit_inv in H. destruct H as (t1 & r1 & Hb & Hr & _).
  assert (Hb' := Hb). apply range_loop_spec in Hb. destruct Hb as (ys & -> & Hb).
  split.
  - intros ->. destruct Hb as [[-> He]|[-> (rest & He)]].
    + destruct (Hr (or_introl (ex_intro _ tt eq_refl))) as [-> _]. cbn. apply map_some_inj in He. now subst.
    + destruct (Hr (or_intror eq_refl)) as [_ Hx]. destruct (e_flush E _); discriminate.
  - intros Hi Hf. apply range_loop_val in Hb'; [|exact Hi]. subst r1.
    destruct (Hr (or_introl (ex_intro _ tt eq_refl))) as [_ Hx]. now rewrite Hf in Hx.
Qed.

(** every exit of Range::sample flushes exactly once, at the end *)
Theorem range_flush : forall E (range : list (option X)) t r,
  range_sample E range [] = (t, r) ->
  exists xs, t = map (fun x => EIssue x []) xs ++ [EFlush] /\
   (exists rest, range = map Some xs ++ rest) /\
   (r = RVal tt \/ r = RExc \/ (r = RTerm /\ e_flush E (map (fun x => EIssue x []) xs) = true)).
Proof.
  intros E range t r H. apply scope_exit_inv in H. destruct H as (t1 & r1 & Hb & Hr & _).
  apply range_loop_spec in Hb. destruct Hb as (ys & -> & Hb). cbn in Hr |- *. exists ys.
  assert (Hv : (exists a, r1 = RVal a) \/ r1 = RExc) by (destruct Hb as [[-> _]|[-> _]]; eauto).
  destruct (Hr Hv) as [-> ->]. split; [reflexivity|]. split.
  - destruct Hb as [[_ ->]|[_ He]]; [exists []; now rewrite app_nil_r|exact He].
  - destruct (e_flush E _); [right; right; auto|]. destruct Hb as [[-> _]|[-> _]]; auto.
Qed.

(** ** MetropolisHastings *)

Definition okres {A} (r : res A) : Prop := (exists a, r = RVal a) \/ r = RExc.

Lemma mh_accept_spec : forall O E tl cl q t t' r,
  mh_accept O E tl cl q t = (t', r) ->
  exists d (acc : bool), t' = t ++ d /\ r = RVal acc /\ (d = [] \/ d = [EUnif] \/ d = [EUnif; EUnif]).
Proof.
  intros O E tl cl q t t' r. unfold mh_accept, mbind, uniform, call, ret. cbn.
  destruct (has_zero_probability O tl), (has_zero_probability O cl); cbn;
  repeat match goal with |- context [if ?c then _ else _] => destruct c eqn:? end; cbn; intros H; inversion H; subst;
  try (eexists [], _; repeat split; [now rewrite app_nil_r|now left]);
  try (eexists [EUnif], _; repeat split; [now right; left]);
  (eexists [EUnif; EUnif], _; repeat split; [now rewrite <- app_assoc | now right; right]).
Qed.

Definition flush_free d := Forall (fun e => e <> EFlush) d.

Lemma flush_free_flushes : forall d, flush_free d -> flushes d = 0.
Proof.
  intros d H. unfold flushes. generalize (@nil (event X D)). induction H as [|e d He Hd IH]; intros b; cbn; [reflexivity|].
  destruct e; cbn; auto. now contradiction He.
Qed.

Lemma is_chain_ext : forall out pr ev (cur : X * D) pr2 ev2,
  is_chain cur pr ev out -> is_chain cur (pr ++ pr2) (ev ++ ev2) out.
Proof.
  induction out as [|[z a] out IH]; intros pr ev cur pr2 ev2 H; [exact I|].
  destruct pr as [|[f y] pr]; [contradiction|]. destruct ev as [|[y' ly] ev]; [contradiction|]. cbn in *.
  destruct H as (? & ? & rep & ? & ? & H). repeat split; auto. exists rep. auto.
Qed.

Definition fy (p : X * list X * (X * D)) : X * X := (fst (fst p), fst (snd p)).

Lemma mh_loop_spec : forall O E n x l t t' r,
  mh_loop O E n x l t = (t', r) ->
  exists d, t' = t ++ d /\ flush_free d /\ okres r /\
    length (issued d) <= n /\
    is_chain (x, l) (map fy (props_from E t d)) (evals_from E t d) (issued d) /\
    Forall (fun p => snd (fst p) = []) (props_from E t d) /\
    (r = RVal tt -> length (issued d) = n /\ length (props_from E t d) = n /\ length (evals_from E t d) = n).
Proof.
  intros O E n. induction n as [|n IH]; intros x l t t' r H; cbn in H.
  - inversion H; subst. exists []. rewrite app_nil_r. repeat split; cbn; auto; try lia; [constructor|left; now exists tt].
  - unfold mbind at 1 in H. unfold propose_sample, call in H.
    destruct (e_prop E t x []) as [[y q]|] eqn:Hp.
    2:{ inversion H; subst. exists [EPropose x []]. repeat split; cbn; auto; try lia;
        [repeat constructor; discriminate|right; reflexivity|rewrite Hp; constructor|discriminate|discriminate|discriminate]. }
    unfold mbind at 1 in H. unfold log_likelihood, call in H.
    destruct (e_ll E (t ++ [EPropose x []]) y) as [ly|] eqn:Hl.
    2:{ inversion H; subst. exists [EPropose x []; EEval y]. rewrite <- app_assoc.
        repeat split; cbn; auto; try lia;
        [repeat constructor; discriminate|right; reflexivity|rewrite Hp; repeat constructor|discriminate|discriminate|discriminate]. }
    unfold mbind at 1 in H.
    destruct (mh_accept O E ly l q ((t ++ [EPropose x []]) ++ [EEval y])) as [t1 ra] eqn:Ha.
    apply mh_accept_spec in Ha. destruct Ha as (da & acc & -> & -> & Hda).
    unfold issue_sample, call in H.
    set (z := if acc then y else x) in *. set (lz := if acc then ly else l) in *.
    set (a := [(ll_key, PDouble lz); (rep_key, PBool (negb acc))]) in *.
    set (h := [EPropose x []; EEval y] ++ da ++ [EIssue z a]).
    assert (Hh : (((t ++ [EPropose x []]) ++ [EEval y]) ++ da) ++ [EIssue z a] = t ++ h).
    { unfold h. rewrite <- !app_assoc. reflexivity. }
    assert (Hpr : forall d2, props_from E t (h ++ d2) = (x, [], (y, q)) :: props_from E (t ++ h) d2).
    { intros d2. unfold props_from at 1. rewrite collect_app. change (collect _ t h) with (props_from E t h).
      replace (props_from E t h) with [(x, @nil X, (y, q))]; [reflexivity|].
      unfold h, props_from. destruct Hda as [->|[->| ->]]; cbn; rewrite Hp; reflexivity. }
    assert (Hev : forall d2, evals_from E t (h ++ d2) = (y, ly) :: evals_from E (t ++ h) d2).
    { intros d2. unfold evals_from at 1. rewrite collect_app. change (collect _ t h) with (evals_from E t h).
      replace (evals_from E t h) with [(y, ly)]; [reflexivity|].
      unfold h, evals_from. destruct Hda as [->|[->| ->]]; cbn; rewrite Hl; reflexivity. }
    assert (His : issued h = [(z, a)]).
    { unfold h. destruct Hda as [->|[->| ->]]; reflexivity. }
    assert (Hff : flush_free h).
    { unfold h. destruct Hda as [->|[->| ->]]; repeat constructor; discriminate. }
    assert (Hch : forall pr ev out, is_chain (z, lz) pr ev out -> is_chain (x, l) ((x, y) :: pr) ((y, ly) :: ev) ((z, a) :: out)).
    { intros pr ev out Hc. cbn. repeat split; auto. exists (negb acc). unfold a, z, lz in *. destruct acc; cbn in *; auto. }
    destruct (e_issue E _ z a) eqn:Hiss.
    + inversion H; subst. exists h. rewrite Hh. split; [reflexivity|]. split; [exact Hff|]. split; [right; reflexivity|].
      specialize (Hpr []). specialize (Hev []). rewrite app_nil_r in Hpr, Hev. rewrite Hpr, Hev, His. cbn [app length map].
      split; [lia|]. split; [apply Hch; exact I|]. split; [repeat constructor|discriminate].
    + rewrite Hh in H. apply IH in H. destruct H as (d & -> & Hf & Hok & Hle & Hc & Hrj & Hn).
      exists (h ++ d). rewrite app_assoc. split; [reflexivity|]. split; [now apply Forall_app|]. split; [exact Hok|].
      rewrite Hpr, Hev, issued_app, His. cbn [app length map].
      split; [lia|]. split; [apply Hch; exact Hc|]. split; [constructor; auto|].
      intros Hr; destruct (Hn Hr) as (? & ? & ?); lia.
Qed.

(** The whole call. *)
Lemma mh_sample_run : forall O E x0 n t r,
  mh_sample O E x0 n [] = (t, r) ->
  exists d, flush_free d /\
   ((r = RVal tt /\ t = d ++ [EFlush; EFlush] /\ e_flush E d = false) \/
    (r = RExc /\ t = d ++ [EFlush]) \/
    (r = RExc /\ t = d ++ [EFlush; EFlush] /\ e_flush E d = true) \/
    (r = RTerm /\ t = d ++ [EFlush] /\ e_flush E d = true) \/
    (r = RTerm /\ t = d ++ [EFlush; EFlush] /\ e_flush E (d ++ [EFlush]) = true)) /\
   ((e_ll E [] x0 = None /\ d = [EEval x0] /\ r <> RVal tt) \/
    exists l d', e_ll E [] x0 = Some l /\ d = EEval x0 :: d' /\
    length (issued d') <= n /\
    is_chain (x0, l) (map fy (props_from E [EEval x0] d')) (evals_from E [EEval x0] d') (issued d') /\
    Forall (fun p => snd (fst p) = []) (props_from E [EEval x0] d') /\
    (r = RVal tt -> length (issued d') = n /\ length (props_from E [EEval x0] d') = n /\ length (evals_from E [EEval x0] d') = n)).
Proof.
  intros O E x0 n t r H. apply scope_exit_inv in H. destruct H as (t1 & r1 & Hb & Hr & Hr').
  unfold mbind at 1 in Hb. unfold log_likelihood, call in Hb. cbn in Hb.
  destruct (e_ll E [] x0) as [l|] eqn:Hl.
  - unfold mbind in Hb. destruct (mh_loop O E n x0 l [EEval x0]) as [t2 r2] eqn:Hloop.
    apply mh_loop_spec in Hloop. destruct Hloop as (d & -> & Hff & Hok & Hle & Hc & Hrj & Hn).
    exists (EEval x0 :: d). split; [constructor; [discriminate|exact Hff]|].
    destruct Hok as [[[] ->]| ->].
    + unfold flush_consumers, call in Hb. cbn in Hb.
      destruct (e_flush E (EEval x0 :: d)) eqn:Hf1; inversion Hb; subst t1 r1; clear Hb.
      * destruct (Hr (or_intror eq_refl)) as [-> ->]. split.
        -- cbn [app]. rewrite <- app_assoc. cbn.
           destruct (e_flush E (EEval x0 :: d ++ [EFlush])) eqn:Hf2; [do 4 right|do 2 right; left]; auto.
        -- right. exists l, d. repeat split; auto; now apply Hn.
      * destruct (Hr (or_introl (ex_intro _ tt eq_refl))) as [-> ->]. split.
        -- cbn [app]. rewrite <- app_assoc. cbn.
           destruct (e_flush E (EEval x0 :: d ++ [EFlush])) eqn:Hf2; [do 4 right|left]; auto.
        -- right. exists l, d. repeat split; auto; now apply Hn.
    + inversion Hb; subst t1 r1; clear Hb. destruct (Hr (or_intror eq_refl)) as [-> ->]. cbn [app].
      split.
      * destruct (e_flush E (EEval x0 :: d)) eqn:Hf2; [do 3 right; left|right; left]; auto.
      * right. exists l, d. repeat split; auto; destruct (e_flush E _); discriminate.
  - inversion Hb; subst t1 r1; clear Hb. destruct (Hr (or_intror eq_refl)) as [-> ->]. exists [EEval x0].
    split; [repeat constructor; discriminate|]. split.
    + destruct (e_flush E [EEval x0]) eqn:Hf2; [do 3 right; left|right; left]; auto.
    + left. repeat split; auto. destruct (e_flush E _); discriminate.
Qed.

Lemma issued_tail_flush : forall d k, issued (X:=X) (D:=D) (d ++ repeat EFlush k) = issued d.
Proof.
  intros. rewrite issued_app. assert (issued (repeat (@EFlush X D) k) = []) as ->; [|apply app_nil_r].
  unfold issued. generalize (@nil (event X D)) at 1. induction k; intros; cbn; auto.
Qed.
Lemma collect_tail_flush : forall A (f : trace X D -> event X D -> option A), (forall b, f b EFlush = None) ->
  forall d k b, collect f b (d ++ repeat EFlush k) = collect f b d.
Proof.
  intros A f Hf d k b. rewrite collect_app.
  assert (forall b, collect f b (repeat EFlush k) = []) as ->; [|apply app_nil_r].
  induction k; intros b'; cbn; auto. now rewrite Hf, IHk.
Qed.

(** C06 for MetropolisHastings *)
Theorem mh_flush : forall O E x0 n t r,
  mh_sample O E x0 n [] = (t, r) ->
  (r = RVal tt \/ r = RExc \/ r = RTerm) /\
  (exists t', t = t' ++ [EFlush]) /\
  (r = RVal tt -> exists d, t = d ++ [EFlush; EFlush] /\ flushes d = 0) /\
  (r = RExc -> exists d, (t = d ++ [EFlush] \/ (t = d ++ [EFlush; EFlush] /\ e_flush E d = true)) /\ flushes d = 0) /\
  (r = RTerm -> exists t', t = t' ++ [EFlush] /\ e_flush E t' = true).
Proof.
  intros O E x0 n t r H. apply mh_sample_run in H. destruct H as (d & Hff & H & _).
  pose proof (flush_free_flushes d Hff) as H0.
  destruct H as [(-> & -> & ?)|[(-> & ->)|[(-> & -> & ?)|[(-> & -> & ?)|(-> & -> & ?)]]]];
  (split; [auto|]); (split; [first [exists d; reflexivity| exists (d ++ [EFlush]); now rewrite <- app_assoc]|]);
  repeat split; try discriminate; intros _; try (exists d; auto; fail).
  exists (d ++ [EFlush]). rewrite <- app_assoc. auto.
Qed.

(** C25 *)
Theorem mh_chain_thm : forall O E x0 n t r,
  mh_sample O E x0 n [] = (t, r) ->
  (length (issued t) <= n) /\
  (r = RVal tt -> length (issued t) = n /\ length (proposals E t) = n /\ length (evaluations E t) = n + 1) /\
  (forall p, In p (proposals E t) -> snd (fst p) = []) /\
  (issued t = [] \/
   exists l0 ev, e_ll E [] x0 = Some l0 /\ evaluations E t = (x0, l0) :: ev /\
   is_chain (x0, l0) (map (fun p => (fst (fst p), fst (snd p))) (proposals E t)) ev (issued t)).
Proof.
  intros O E x0 n t r H. apply mh_sample_run in H. destruct H as (d & Hff & Ht & H).
  assert (exists k, t = d ++ repeat EFlush k) as (k & ->).
  { destruct Ht as [(_ & -> & _)|[(_ & ->)|[(_ & -> & _)|[(_ & -> & _)|(_ & -> & _)]]]]; [exists 2|exists 1|exists 2|exists 1|exists 2]; reflexivity. }
  clear Ht. unfold proposals, evaluations. rewrite issued_tail_flush, !collect_tail_flush by reflexivity.
  destruct H as [(Hl & -> & Hr)|(l & d' & Hl & -> & Hle & Hc & Hrj & Hn)].
  - cbn. rewrite Hl. cbn. repeat split; try lia; try contradiction. left. reflexivity.
  - change (EEval x0 :: d') with ([EEval x0] ++ d'). rewrite issued_app, !collect_app.
    change (issued [EEval x0] : list (X * paux D)) with (@nil (X * paux D)). cbn [app].
    cbn [collect]. rewrite Hl. cbn [option_map app].
    fold (props_from E [EEval x0] d') (evals_from E [EEval x0] d').
    split; [exact Hle|]. split; [intros Hr; destruct (Hn Hr) as (? & ? & ?); cbn [length]; repeat split; auto; lia|].
    split; [rewrite Forall_forall in Hrj; exact Hrj|].
    right. exists l, (evals_from E [EEval x0] d'). repeat split; auto.
Qed.
End P.
