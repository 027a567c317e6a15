(** The acceptance ratio of DelayedRejectionMetropolisHastings at an arbitrary stage: the recursion of alpha_fn is total, does
    not depend on the bound used to define it, and satisfies the recursive formula below. *)
From Verif Require Import Prelude ProducerModel NoThrow.
Import ListNotations.

Section S.
Context {X D : Type}.
Variable O : dops D.

Definition alpha (x : X * D) (ys : list (X * D)) : D :=
  match alpha_fn O false (length ys) x ys with Some a => a | None => d_one O end.

Lemma fold_opt : forall (l : list nat) (F : option D -> nat -> option D) (g : D -> nat -> D) a,
  (forall j a, In j l -> F (Some a) j = Some (g a j)) -> fold_left F l (Some a) = Some (fold_left g l a).
Proof.
  induction l as [|j l IH]; intros F g a H; cbn; [reflexivity|].
  rewrite H by now left. apply IH. intros; apply H. now right.
Qed.

Lemma alpha_any_fuel : forall fuel x ys, 1 <= length ys <= fuel -> alpha_fn O false fuel x ys = Some (alpha x ys).
Proof.
  assert (HA : forall fuel1 fuel2 (x : X * D) ys, 1 <= length ys <= fuel1 -> length ys <= fuel2 -> alpha_fn O false fuel1 x ys = alpha_fn O false fuel2 x ys).
  { induction fuel1 as [|fuel1 IH]; intros fuel2 x ys H1 H2; [lia|]. destruct fuel2 as [|fuel2]; [lia|]. cbn [alpha_fn].
    destruct (length ys) as [|nr] eqn:Hl; [lia|]. replace (S nr - 1) with nr by lia.
    destruct (nth_error ys nr) as [yi|]; [|reflexivity]. destruct (Nat.eqb_spec nr 0); [reflexivity|].
    assert (HF : forall l (a : option D) (F G : option D -> nat -> option D), (forall j a, In j l -> F a j = G a j) -> fold_left F l a = fold_left G l a).
    { induction l as [|j l IHl]; intros a F G H; cbn; [reflexivity|]. rewrite H by now left. apply IHl. intros; apply H. now right. }
    apply HF. intros j a Hj. apply in_seq in Hj. destruct a as [a|]; [|reflexivity].
    destruct (num_yvec false _); [|reflexivity].
    rewrite (IH fuel2 yi), (IH fuel2 x); [reflexivity|..]; rewrite ?firstn_length, ?skipn_length; lia. }
  intros fuel x ys H. rewrite (HA fuel (length ys)) by lia. unfold alpha.
  pose proof (alpha_total O (length ys) x ys ltac:(lia)) as Ht. destruct (alpha_fn _ _ _ _ _); [reflexivity|tauto].
Qed.

Lemma alpha_rec : forall x ys y,
  alpha x (ys ++ [y]) =
  fold_left (fun a j => d_mul O a (d_div O (d_sub O (d_one O) (alpha y (skipn (length ys - j) ys))) (d_sub O (d_one O) (alpha x (firstn j ys)))))
            (seq 1 (length ys)) (d_exp O (d_sub O (snd y) (snd x))).
Proof.
  intros x ys y. unfold alpha at 1. rewrite app_length. cbn [length]. rewrite Nat.add_1_r. cbn [alpha_fn].
  rewrite app_length. cbn [length]. rewrite Nat.add_1_r. replace (S (length ys) - 1) with (length ys) by lia.
  rewrite nth_error_app2, Nat.sub_diag by lia. cbn [nth_error].
  destruct (Nat.eqb_spec (length ys) 0) as [H0|H0]; [rewrite H0; reflexivity|].
  erewrite fold_opt; [reflexivity|]. intros j a Hj. apply in_seq in Hj. cbv beta.
  destruct (num_yvec false _) eqn:Hv; [|exfalso; now apply num_yvec_lax in Hv].
  assert (H1 : firstn j (skipn (length ys - j) (ys ++ [y])) = skipn (length ys - j) ys).
  { rewrite skipn_app, firstn_app, skipn_length. replace (j - (length ys - (length ys - j))) with 0 by lia.
    cbn [firstn]. rewrite app_nil_r. apply firstn_all2. rewrite skipn_length. lia. }
  assert (H2 : firstn j (ys ++ [y]) = firstn j ys).
  { rewrite firstn_app. replace (j - length ys) with 0 by lia. cbn [firstn]. apply app_nil_r. }
  rewrite H1, H2.
  rewrite !alpha_any_fuel; [reflexivity|..]; rewrite ?firstn_length, ?skipn_length; lia.
Qed.

Theorem alpha_spec : exists A : X * D -> list (X * D) -> D,
  (forall fuel x ys, 1 <= length ys <= fuel -> alpha_fn O false fuel x ys = Some (A x ys)) /\
  (forall x ys y, A x (ys ++ [y]) =
    fold_left (fun a j => d_mul O a (d_div O (d_sub O (d_one O) (A y (skipn (length ys - j) ys))) (d_sub O (d_one O) (A x (firstn j ys)))))
              (seq 1 (length ys)) (d_exp O (d_sub O (snd y) (snd x)))).
Proof. exists alpha. split; [exact alpha_any_fuel|exact alpha_rec]. Qed.
End S.
