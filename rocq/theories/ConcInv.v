(** Invariants of the concurrent model: lock ownership. *)
From Verif Require Import Prelude ConcModel.
Local Open Scope nat_scope.

Section P.
Context {X : Type}.
Implicit Types (s : state X) (k e : list (instr X)) (i : instr X).

(** ** Weights: functions of instructions summed over the rest of a thread *)
Fixpoint wt (f : instr X -> Z) k : Z := match k with [] => 0 | i :: k' => f i + wt f k' end%Z.
(** all suffixes have a non-negative sum *)
Fixpoint suf (f : instr X -> Z) k : Prop := match k with [] => True | i :: k' => (0 <= wt f (i :: k'))%Z /\ suf f k' end.
Lemma wt_app : forall f e k, wt f (e ++ k) = (wt f e + wt f k)%Z.
Proof. intros f e k. induction e as [|i e IH]; cbn [app wt]; [reflexivity|]. rewrite IH. lia. Qed.
Lemma suf_nonneg : forall f k, suf f k -> (0 <= wt f k)%Z.
Proof. intros f [|i k]; cbn; [lia|tauto]. Qed.
Lemma suf_app : forall f e k, suf f e -> suf f k -> suf f (e ++ k).
Proof.
  intros f e k He Hk. induction e as [|i e IH]; [exact Hk|]. cbn [app suf] in *. destruct He as [H1 H2]. split; [|auto].
  change (i :: e ++ k) with ((i :: e) ++ k). rewrite wt_app. pose proof (suf_nonneg _ _ Hk). lia.
Qed.
Lemma wt_map0 : forall A f (g : A -> instr X) l, (forall a, f (g a) = 0%Z) -> wt f (map g l) = 0%Z.
Proof. intros A f g l H. induction l as [|a l IH]; cbn; [reflexivity|]. rewrite H, IH. reflexivity. Qed.
Lemma suf_map0 : forall A f (g : A -> instr X) l, (forall a, f (g a) = 0%Z) -> suf f (map g l).
Proof. intros A f g l H. induction l as [|a l IH]; cbn [map suf]; [exact I|]. split; [|exact IH]. cbn [wt]. rewrite H, (wt_map0 A f g l H). lia. Qed.

(** Held locks: what is left to release minus what is left to acquire. The [v] versions leave out the instructions that only occur once the lock is held. *)
Definition wA i : Z := match i with IAcqA => -1 | IRelA | IAsyncBody _ _ | IPush _ | ITrim | IFlush | IWaits _ | IDisconnect | IDiscs _ | IFindErase _ => 1 | _ => 0 end%Z.
Definition vA i : Z := match i with IAcqA => -1 | IAsyncBody _ _ | ITrim | IFlush | IDisconnect | IFindErase _ => 1 | _ => 0 end%Z.
Definition dA i : Z := match i with IRelA | IPush _ | IWaits _ | IDiscs _ => 1 | _ => 0 end%Z.
Definition wX i : Z := match i with IAcqX => -1 | IRelX | IDisconnect | IDiscs _ | IFindErase _ => 1 | _ => 0 end%Z.
Definition vX i : Z := match i with IAcqX => -1 | IDisconnect | IFindErase _ => 1 | _ => 0 end%Z.
Definition dX i : Z := match i with IRelX | IDiscs _ => 1 | _ => 0 end%Z.
Definition wS i : Z := match i with IAcqS => -1 | IRelS | ISyncBody _ _ | IEnd KSync _ => 1 | _ => 0 end%Z.
Definition vS i : Z := match i with IAcqS => -1 | ISyncBody _ _ => 1 | _ => 0 end%Z.
Definition dS i : Z := match i with IRelS | IEnd KSync _ => 1 | _ => 0 end%Z.

Lemma wt_sum : forall f g h k, (forall i, f i = g i + h i)%Z -> wt f k = (wt g k + wt h k)%Z.
Proof. intros f g h k H. induction k as [|i k IH]; cbn; [reflexivity|]. rewrite H, IH. lia. Qed.
Lemma wA_split : forall k, wt wA k = (wt vA k + wt dA k)%Z. Proof. intros k. apply wt_sum. intros []; reflexivity. Qed.
Lemma wX_split : forall k, wt wX k = (wt vX k + wt dX k)%Z. Proof. intros k. apply wt_sum. intros []; reflexivity. Qed.
Lemma wS_split : forall k, wt wS k = (wt vS k + wt dS k)%Z. Proof. intros k. apply wt_sum. intros []; reflexivity. Qed.
Lemma wt_nonneg : forall f k, (forall i, 0 <= f i)%Z -> (0 <= wt f k)%Z.
Proof. intros f k H. induction k as [|i k IH]; cbn; [lia|]. specialize (H i). lia. Qed.
Lemma wt_in : forall f k i, (forall j, 0 <= f j)%Z -> In i k -> (f i <= wt f k)%Z.
Proof.
  intros f k i H. induction k as [|j k IH]; cbn; [tauto|]. intros [->|HI]; [pose proof (wt_nonneg f k H); lia|]. specialize (IH HI). specialize (H j). lia.
Qed.

Definition one (o : option nat) (t : nat) : Z := match o with Some u => if (u =? t)%nat then 1 else 0 | None => 0 end%Z.
Definition lock_ok s t k : Prop :=
  wt wA k = one (c_alock s) t /\ wt wX k = one (c_xlock s) t /\ wt wS k = Z.of_nat (c_shared s t) /\ suf vA k /\ suf vX k /\ suf vS k.
Definition locks s : Prop :=
  (forall t k, nth_error (c_threads s) t = Some k -> lock_ok s t k) /\
  (forall t, c_alock s = Some t -> t < length (c_threads s)) /\
  (forall t, c_xlock s = Some t -> t < length (c_threads s)) /\
  (forall t, length (c_threads s) <= t -> c_shared s t = 0) /\
  (c_xlock s <> None -> forall t, c_shared s t = 0).

(** ** the list of threads *)
Lemma upd_length : forall l t k, length (upd l t k) = length l.
Proof. induction l as [|a l IH]; intros [|t] k; cbn; auto. Qed.
Lemma upd_same : forall (l : list (list (instr X))) t k, t < length l -> nth_error (upd l t k) t = Some k.
Proof. induction l as [|a l IH]; intros [|t] k H; cbn in *; try lia; auto. apply IH. lia. Qed.
Lemma upd_other : forall (l : list (list (instr X))) t u k, u <> t -> nth_error (upd l t k) u = nth_error l u.
Proof. induction l as [|a l IH]; intros [|t] [|u] k H; cbn; auto; try congruence. Qed.
Fixpoint tot (f : instr X -> Z) (l : list (list (instr X))) : Z := match l with [] => 0 | k :: l' => wt f k + tot f l' end%Z.
Lemma tot_app : forall f l m, tot f (l ++ m) = (tot f l + tot f m)%Z.
Proof. intros f l m. induction l as [|k l IH]; cbn; [reflexivity|]. rewrite IH. lia. Qed.
Lemma tot_upd : forall f l t k0 k, nth_error l t = Some k0 -> tot f (upd l t k) = (tot f l - wt f k0 + wt f k)%Z.
Proof.
  intros f l. induction l as [|a l IH]; intros [|t] k0 k H; cbn [nth_error upd tot] in *; try discriminate.
  - injection H as ->. lia.
  - rewrite (IH _ _ k H). lia.
Qed.
Lemma tot_nonneg : forall f l, (forall i, 0 <= f i)%Z -> (0 <= tot f l)%Z.
Proof. intros f l H. induction l as [|k l IH]; cbn; [lia|]. pose proof (wt_nonneg f k H). lia. Qed.
Lemma tot_le : forall f l t k, (forall i, 0 <= f i)%Z -> nth_error l t = Some k -> (wt f k <= tot f l)%Z.
Proof.
  intros f l. induction l as [|a l IH]; intros [|t] k H E; cbn in *; try discriminate.
  - injection E as ->. pose proof (tot_nonneg f l H). lia.
  - specialize (IH _ _ H E). pose proof (wt_nonneg f a H). lia.
Qed.
Lemma tot_pos : forall f l, (forall i, 0 <= f i)%Z -> (0 < tot f l)%Z -> exists t k, nth_error l t = Some k /\ (0 < wt f k)%Z.
Proof.
  intros f l H. induction l as [|a l IH]; cbn; [lia|]. intros HP. destruct (Z.ltb_spec 0 (wt f a)) as [C|C].
  - exists 0, a. auto.
  - destruct IH as (t & k & H1 & H2); [lia|]. exists (S t), k. auto.
Qed.
Lemma no_readers_spec : forall s, (forall t, length (c_threads s) <= t -> c_shared s t = 0) -> no_readers s = true -> forall t, c_shared s t = 0.
Proof.
  intros s HB H t. destruct (Nat.ltb_spec t (length (c_threads s))) as [C|C]; [|auto].
  unfold no_readers in H. rewrite forallb_forall in H. apply Nat.eqb_eq, H. apply in_seq. lia.
Qed.
End P.

(** Case distinction over the steps. *)
Ltac step_cases H :=
  unfold step, crashed in H;
  repeat (let y :=
    match type of H with
    | context [match ?x with _ => _ end] =>
      lazymatch x with
      | context [match _ with _ => _ end] => fail
      | _ => x
      end
    end in
    let E := fresh "E" in destruct y eqn:E; try discriminate H; cbn [negb andb] in H).
Ltac fold_body :=
  repeat match goal with
  | |- context [IStart ?m ?d ?x :: (map ICall (?body ?x) ++ [IEnd ?m ?d]) ++ ?k] =>
    change (IStart m d x :: (map ICall (body x) ++ [IEnd m d]) ++ k) with (consume_code body m d x ++ k)
  end.
