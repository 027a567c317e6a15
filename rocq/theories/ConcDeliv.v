(** What happens to each delivery: invariants relating the state to the trace. *)
From Verif Require Import Prelude ConcModel ConcSpec ConcInv ConcLocks.
Local Open Scope nat_scope.

Section P.
Context {X : Type}.
Implicit Types (s : state X) (k : list (instr X)) (i : instr X) (tr : list (event X)).

Definition hit (a d : nat) : Z := if a =? d then 1%Z else 0%Z.
Definition isB (d : nat) i : Z := match i with ISyncBody e _ | IAsyncBody e _ => hit e d | _ => 0%Z end.
Definition isS (d : nat) i : Z := match i with IStart _ e _ => hit e d | _ => 0%Z end.
Definition isE (d : nat) i : Z := match i with IEnd _ e => hit e d | _ => 0%Z end.
Definition isP (d : nat) i : Z := match i with IPush e => hit e d | _ => 0%Z end.
Fixpoint nq (d : nat) (q : list nat) : Z := match q with [] => 0 | a :: q' => hit a d + nq d q' end%Z.
Definition zt (P : event X -> bool) tr : Z := Z.of_nat (times P tr).

Definition deliv_ok s tr (d : nat) : Prop :=
  let nB := tot (isB d) (c_threads s) in let nS := tot (isS d) (c_threads s) in let nE := tot (isE d) (c_threads s) in
  let nP := tot (isP d) (c_threads s) in let q := nq d (c_queue s) in
  let st := zt (started d) tr in let en := zt (ended d) tr in let dr := zt (dropped d) tr in let ac := zt (accepted d) tr in let de := zt (delivered d) tr in
  match c_stat s d with
  | SFresh => nS = 0 /\ nE = 0 /\ nP = 0 /\ q = 0 /\ st = 0 /\ en = 0 /\ dr = 0 /\ ac = 0 /\ nB = (if (d <? c_next s)%nat then 1 else 0) /\ de = nB
  | SDeferred _ => nB = 0 /\ nS = 0 /\ nE = 0 /\ nP + q = 1 /\ st = 0 /\ en = 0 /\ dr = 0 /\ ac = 1 /\ de = 1 /\ (d < c_next s)%nat
  | SActive KAsync => nB = 0 /\ nE = 1 /\ nS + st = 1 /\ nP + q = 1 /\ en = 0 /\ dr = 0 /\ ac = 1 /\ de = 1 /\ (d < c_next s)%nat
  | SActive KSync => nB = 0 /\ nE = 1 /\ nS + st = 1 /\ nP = 0 /\ q = 0 /\ en = 0 /\ dr = 0 /\ ac = 1 /\ de = 1 /\ (d < c_next s)%nat
  | SDone => nB = 0 /\ nS = 0 /\ nE = 0 /\ nP + q <= 1 /\ st = 1 /\ en = 1 /\ dr = 0 /\ ac = 1 /\ de = 1 /\ (d < c_next s)%nat
  | SDropped => nB = 0 /\ nS = 0 /\ nE = 0 /\ nP = 0 /\ q = 0 /\ st = 0 /\ en = 0 /\ dr = 1 /\ ac = 0 /\ de = 1 /\ (d < c_next s)%nat
  end%Z.

Lemma hit_nonneg : forall a d, (0 <= hit a d)%Z. Proof. intros. unfold hit. destruct (a =? d); lia. Qed.
Lemma isB_nn : forall d i, (0 <= isB d i)%Z. Proof. intros d []; cbn; try lia; apply hit_nonneg. Qed.
Lemma isS_nn : forall d i, (0 <= isS d i)%Z. Proof. intros d []; cbn; try lia; apply hit_nonneg. Qed.
Lemma isE_nn : forall d i, (0 <= isE d i)%Z. Proof. intros d []; cbn; try lia; apply hit_nonneg. Qed.
Lemma isP_nn : forall d i, (0 <= isP d i)%Z. Proof. intros d []; cbn; try lia; apply hit_nonneg. Qed.
Lemma nq_nonneg : forall d q, (0 <= nq d q)%Z. Proof. induction q as [|a q IH]; cbn; [lia|]. pose proof (hit_nonneg a d). lia. Qed.
Lemma nq_app : forall d q q', nq d (q ++ q') = (nq d q + nq d q')%Z.
Proof. intros d q q'. induction q as [|a q IH]; cbn [app nq]; [reflexivity|]. rewrite IH. lia. Qed.
Lemma nq_in : forall d q, In d q -> (1 <= nq d q)%Z.
Proof.
  induction q as [|a q IH]; cbn [In nq]; [tauto|]. intros [->|H]; [unfold hit; rewrite Nat.eqb_refl; pose proof (nq_nonneg d q); lia|].
  specialize (IH H). pose proof (hit_nonneg a d). lia.
Qed.
Lemma nq_pos : forall d q, (0 < nq d q)%Z -> In d q.
Proof.
  induction q as [|a q IH]; cbn [In nq]; [lia|]. intros H. destruct (Nat.eq_dec a d) as [->|N]; [now left|]. right. apply IH.
  unfold hit in H. destruct (Nat.eqb_spec a d); [congruence|lia].
Qed.
Lemma zt_snoc : forall P tr e, zt P (tr ++ [e]) = (zt P tr + if P e then 1 else 0)%Z.
Proof. intros P tr e. unfold zt, times. rewrite filter_app, app_length. cbn. destruct (P e); cbn [length]; lia. Qed.
Lemma zt_nonneg : forall P tr, (0 <= zt P tr)%Z. Proof. intros. unfold zt. lia. Qed.

Lemma body_wt0 : forall body d m (x : X) f, (forall o, f (ICall o) = 0%Z) -> wt f (consume_code body m d x) = (f (IStart m d x) + f (IEnd m d))%Z.
Proof. intros body d m x f H. rewrite <- (app_nil_r (consume_code body m d x)), body_wt by exact H. cbn [wt]. lia. Qed.
Ltac wd := cbn [app wt isB isS isE isP]; rewrite ?body_wt by reflexivity; rewrite ?wt_app; rewrite ?body_wt0 by reflexivity; rewrite ?wt_map0 by reflexivity; cbn [app wt isB isS isE isP].

Lemma code_tot : forall (o : op X) k f, f (IReturn o) = 0%Z -> (forall p x, f (IEmitSample p x) = 0%Z) -> (forall p, f (IEmitFlush p) = 0%Z) ->
  (forall p, f (IEmitDisconnect p) = 0%Z) -> (forall p, f (IDestroySignals p) = 0%Z) -> (forall p m, f (IConnect p m) = 0%Z) -> f IDestroy = 0%Z ->
  f IAcqA = 0%Z -> f IFlush = 0%Z -> f IAcqX = 0%Z -> f IDisconnect = 0%Z ->
  wt f (code o ++ IReturn o :: k) = wt f k.
Proof. intros. apply code_wt; auto; lia. Qed.

(** Within a thread, consume() starts before it ends. *)
Definition se (d : nat) i : Z := (isE d i - isS d i)%Z.
Definition order_ok s : Prop := forall t k d, nth_error (c_threads s) t = Some k -> suf (se d) k.
Lemma wt_se : forall d k, wt (se d) k = (wt (isE d) k - wt (isS d) k)%Z.
Proof. intros d k. induction k as [|i k IH]; cbn; [reflexivity|]. rewrite IH. unfold se. lia. Qed.
Lemma order_tot : forall d (l : list (list (instr X))), (forall t k, nth_error l t = Some k -> suf (se d) k) -> (tot (isS d) l <= tot (isE d) l)%Z.
Proof.
  intros d l. induction l as [|k l IH]; intros H; cbn [tot]; [lia|].
  pose proof (suf_nonneg _ _ (H 0 k eq_refl)) as H0. rewrite wt_se in H0. specialize (IH (fun t => H (S t))). lia.
Qed.
Lemma order_end : forall s t m d k, order_ok s -> nth_error (c_threads s) t = Some (IEnd m d :: k) ->
  (tot (isS d) (c_threads s) + 1 <= tot (isE d) (c_threads s))%Z.
Proof.
  intros s t m d k H Hn. pose proof (order_tot d (upd (c_threads s) t k)) as HO.
  rewrite (tot_upd (isS d) _ _ _ k Hn), (tot_upd (isE d) _ _ _ k Hn) in HO. cbn [wt isS isE] in HO. unfold hit in HO. rewrite Nat.eqb_refl in HO.
  assert (H1 : forall u k', nth_error (upd (c_threads s) t k) u = Some k' -> suf (se d) k').
  { intros u k' E. destruct (Nat.eq_dec u t) as [->|N].
    - rewrite upd_same in E by (apply nth_error_Some; congruence). injection E as <-. apply (H t (IEnd m d :: k) d Hn).
    - rewrite upd_other in E by exact N. eapply H; eauto. }
  specialize (HO H1). lia.
Qed.
(** A flush that is under way has already seen, or still has on its list, every task in the queue. *)
Definition waits_ok s : Prop := forall t k l, nth_error (c_threads s) t = Some k -> In (IWaits l) k -> forall d, In d (c_queue s) -> c_stat s d = SDone \/ In d l.

Lemma deliv_step : forall b pw body im t s s' ev tr, (forall d, deliv_ok s tr d) -> waits_ok s -> order_ok s -> step b pw body im t s = Some (ev, s') -> forall d, deliv_ok s' (tr ++ [ev]) d.
Proof.
  intros b pw body im t s s' ev tr HI HW HO H d. specialize (HI d).
  step_cases H; injection H as <- <-; try subst; fold_body;
  match goal with
  | Hn : nth_error (c_threads s) t = Some (?i :: ?k) |- _ =>
    pose proof (tot_le (isB d) _ _ _ (isB_nn d) Hn) as LB; pose proof (tot_le (isS d) _ _ _ (isS_nn d) Hn) as LS;
    pose proof (tot_le (isE d) _ _ _ (isE_nn d) Hn) as LE; pose proof (tot_le (isP d) _ _ _ (isP_nn d) Hn) as LP;
    pose proof (wt_nonneg (isB d) k (isB_nn d)) as NB; pose proof (wt_nonneg (isS d) k (isS_nn d)) as NS;
    pose proof (wt_nonneg (isE d) k (isE_nn d)) as NE; pose proof (wt_nonneg (isP d) k (isP_nn d)) as NP
  end;
  unfold deliv_ok in *;
  cbn [go spawn set_threads set_conns set_hooks set_alock set_xlock set_shared set_queue set_stat new_delivery new_conn set_dead set_crash unhook
       c_threads c_queue c_stat c_next] in *;
  rewrite ?tot_app; try (erewrite !tot_upd by eassumption); rewrite ?nq_app; cbn [tot nq];
  rewrite !zt_snoc; cbn [started ended dropped accepted delivered].
  all: repeat match goal with H : context [wt _ (_ :: _)] |- _ => progress cbn [wt isB isS isE isP] in H end.
  all: rewrite ?code_tot by reflexivity.
  all: try match goal with |- context [slot_code ?m _ _] => destruct m; cbn [slot_code app] end.
  all: try match goal with Hn : nth_error (c_threads ?ss) ?tt = Some (IWaits [] :: ?l), HW : waits_ok ?ss, HI : context [nq ?d (c_queue ?ss)] |- _ =>
    assert (WD : nq d (c_queue ss) = 0%Z \/ c_stat ss d = SDone)
      by (pose proof (nq_nonneg d (c_queue ss)); destruct (Z.ltb_spec 0 (nq d (c_queue ss))) as [WQ|WQ]; [|left; lia];
          destruct (HW tt _ [] Hn (or_introl eq_refl) d (nq_pos _ _ WQ)) as [WW|[]]; right; exact WW); pose proof (nq_nonneg d (c_queue ss)); destruct WD end.
  all: try match goal with HQ : c_queue ?ss = _ :: _, HI : context [nq ?d (c_queue ?ss)] |- _ =>
    rewrite HQ in HI; cbn [nq] in HI; pose proof (nq_nonneg d (c_queue ss)); rewrite HQ in *; cbn [nq] in * end.
  all: try match goal with Hn : nth_error (c_threads ?ss) ?tt = Some (IEnd _ _ :: _), HO : order_ok ?ss |- _ => pose proof (order_end _ _ _ _ _ HO Hn) end.
  all: wd.
  all: unfold hit in *.
  all: repeat match goal with
    | |- context [?a <? ?c] => destruct (Nat.ltb_spec a c)
    | H : context [?a <? ?c] |- _ => destruct (Nat.ltb_spec a c)
    | |- context [?a =? ?c] => destruct (Nat.eqb_spec a c); try subst; try congruence
    | H : context [?a =? ?c] |- _ => destruct (Nat.eqb_spec a c); try subst; try congruence
    end.
  all: try (repeat match goal with
    | |- context [match c_stat ?ss ?e with _ => _ end] => destruct (c_stat ss e) as [| |[]| |] eqn:?
    | H : context [match c_stat ?ss ?e with _ => _ end] |- _ => destruct (c_stat ss e) as [| |[]| |] eqn:?
    end; try discriminate; try lia; fail).
Qed.

Lemma nth_upd : forall (l : list (list (instr X))) t k u k', nth_error (upd l t k) u = Some k' -> (u = t /\ k' = k) \/ (u <> t /\ nth_error l u = Some k').
Proof.
  intros l t k u k' H. destruct (Nat.eq_dec u t) as [->|N].
  - left. split; [reflexivity|]. assert (HL : t < length (upd l t k)) by (apply nth_error_Some; congruence). rewrite upd_length in HL.
    rewrite upd_same in H by exact HL. congruence.
  - right. rewrite upd_other in H by exact N. auto.
Qed.
Lemma nth_snoc : forall A (l : list A) a u b, nth_error (l ++ [a]) u = Some b -> nth_error l u = Some b \/ (u = length l /\ b = a).
Proof.
  intros A l a u b H. destruct (Nat.ltb_spec u (length l)) as [C|C].
  - rewrite nth_error_app1 in H by exact C. auto.
  - rewrite nth_error_app2 in H by exact C. destruct (u - length l) as [|m] eqn:E; [|destruct m; discriminate]. right. split; [lia|]. cbn in H. congruence.
Qed.

(** A property of the rest of a thread that every step preserves holds of all threads. *)
Lemma threads_step : forall b pw body im t s s' ev (P : list (instr X) -> Prop), step b pw body im t s = Some (ev, s') ->
  (forall u k, nth_error (c_threads s) u = Some k -> P k) -> 
  (forall i k k', P (i :: k) -> nth_error (c_threads s) t = Some (i :: k) -> nth_error (c_threads s') t = Some k' -> P k') ->
  (forall d x, P (consume_code body KAsync d x)) ->
  forall u k, nth_error (c_threads s') u = Some k -> P k.
Proof.
  intros b pw body im t s s' ev P H HP Ht HC u k Hu.
  assert (HS : u = t \/ nth_error (c_threads s) u = Some k \/ exists d x, k = consume_code body KAsync d x).
  { step_cases H; injection H as <- <-; cbn [go spawn set_threads set_conns set_hooks set_alock set_xlock set_shared set_queue set_stat new_delivery new_conn set_dead set_crash unhook
       c_threads] in Hu; auto;
    (try (apply nth_snoc in Hu; destruct Hu as [Hu|[-> ->]]; [|right; right; eexists; eexists; reflexivity]));
    apply nth_upd in Hu; destruct Hu as [[-> _]|[_ Hu]]; auto. }
  destruct HS as [->|[Hu'|(d & x & ->)]]; [|eauto|apply HC].
  assert (exists i k0, nth_error (c_threads s) t = Some (i :: k0)) as (i & k0 & Hi).
  { unfold step in H. destruct (negb _); [discriminate|]. destruct (nth_error (c_threads s) t) as [[|i k0]|]; try discriminate. eauto. }
  exact (Ht _ _ _ (HP _ _ Hi) Hi Hu).
Qed.

End P.
