(** C77: examples. *)
From Coq Require Import Reals Lra Lia.
From Coquelicot Require Import Coquelicot.
From Verif Require Import Prelude ProducerModel ProducerSpec XReal MHSpec MHProofs MHRunSpec MarkovFinite MHRun DomSpec DomProofs.
Import ListNotations.
Local Open Scope R_scope.
Local Open Scope list_scope.

(** Three states in a row; proposals go to a neighbour, or stay at the ends; the one in the middle has probability zero. *)
Definition row : list nat := [0; 1; 2]%nat.
Definition gap_ll (x : nat) : xr := match x with 1%nat => XNInf | _ => XFin 0 end.
Definition to_neighbour (x y : nat) : R :=
  match x, y with 0%nat, 0%nat | 0%nat, 1%nat | 1%nat, 0%nat | 1%nat, 2%nat | 2%nat, 1%nat | 2%nat, 2%nat => (1 / 2)%R | _, _ => 0%R end.
Lemma max_pos : 0 < dbl_max. Proof. unfold dbl_max. lra. Qed.
Lemma gap_density : forall x, density gap_ll x = match x with 1%nat => 0 | _ => 1 end.
Proof. intros x. unfold density, gap_ll. pose proof max_pos. destruct x as [|[|x]]; try reflexivity; (destruct (Req_EM_T 0 (- dbl_max)); [lra|apply exp_0]). Qed.
Lemma row_nodup : NoDup row.
Proof. repeat constructor; cbn; intuition discriminate. Qed.
Lemma gap_ok : forall x, gap_ll x <> XNaN /\ gap_ll x <> XPInf.
Proof. intros [|[|x]]; cbn; split; discriminate. Qed.
Lemma neighbour_distribution : proposal_distribution row to_neighbour.
Proof.
  constructor.
  - intros [|[|[|x]]] [|[|[|y]]]; cbn; lra.
  - intros x Hx. cbn in Hx. destruct Hx as [<-|[<-|[<-|[]]]]; cbn; lra.
  - intros [|[|[|x]]] [|[|[|y]]]; cbn; lra.
Qed.
Lemma row_reachable : forall x y, In x row -> In y row -> exists k, reaches row to_neighbour k x y.
Proof.
  assert (S : forall x y, In x row -> In y row -> 0 < to_neighbour x y -> reaches row to_neighbour 1 x y).
  { intros x y Hx Hy Hp. exists y. cbn; auto. }
  intros x y Hx Hy. cbn in Hx, Hy. destruct Hx as [<-|[<-|[<-|[]]]], Hy as [<-|[<-|[<-|[]]]]; try (exists 0%nat; reflexivity).
  - exists 1%nat. apply S; cbn; auto; lra.
  - exists 2%nat. exists 1%nat. repeat split; cbn; auto; try lra. exists 2%nat. repeat split; cbn; auto; lra.
  - exists 1%nat. apply S; cbn; auto; lra.
  - exists 1%nat. apply S; cbn; auto; lra.
  - exists 2%nat. exists 1%nat. repeat split; cbn; auto; try lra. exists 0%nat. repeat split; cbn; auto; lra.
  - exists 1%nat. apply S; cbn; auto; lra.
Qed.
Lemma stuck : forall n, markov row (density_kernel gap_ll Nat.eq_dec row to_neighbour) n 0%nat (ends_at Nat.eq_dec 0%nat 2%nat) = 0.
Proof.
  intros n. change (ends_at Nat.eq_dec 0%nat 2%nat) with (fun l => delta Nat.eq_dec 2%nat (last l 0%nat)).
  rewrite (markov_last row _ n 0%nat (delta Nat.eq_dec 2%nat)). 
  assert (K1 : density_kernel gap_ll Nat.eq_dec row to_neighbour 0%nat 1%nat = 0).
  { unfold density_kernel, kernel. rewrite !gap_density. destruct (Nat.eq_dec 0 1); [discriminate|]. unfold Rdiv. rewrite !Rmult_0_l, Rmin_right by lra. ring. }
  assert (K2 : density_kernel gap_ll Nat.eq_dec row to_neighbour 0%nat 2%nat = 0).
  { unfold density_kernel, kernel. destruct (Nat.eq_dec 0 2); [discriminate|]. cbn [to_neighbour]. ring. }
  induction n as [|n IH]; [reflexivity|]. cbn [it].
  set (K := density_kernel gap_ll Nat.eq_dec row to_neighbour) in *. set (h := it row K n (delta Nat.eq_dec 2%nat)) in *.
  assert (E : P row K h 0%nat = K 0%nat 0%nat * h 0%nat + (K 0%nat 1%nat * h 1%nat + (K 0%nat 2%nat * h 2%nat + 0))) by reflexivity.
  rewrite E, K1, K2, IH. ring.
Qed.
Theorem never_across : forall n, dexpectation gap_ll to_neighbour row 0%nat n (ends_at Nat.eq_dec 0%nat 2%nat) 0.
Proof.
  intros n. rewrite <- (stuck n). apply drun_law.
  - exact row_nodup.
  - exact gap_ok.
  - exact neighbour_distribution.
  - cbn; auto.
  - unfold supported. rewrite gap_density. lra.
Qed.
Lemma gap_target : density_target gap_ll row 2%nat = 1 / 2.
Proof. unfold density_target, row. cbn [sumR]. rewrite !gap_density. lra. Qed.
