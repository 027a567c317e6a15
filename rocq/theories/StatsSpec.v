(** Specification vocabulary for the statistical consumers: sums, sample mean, sample (auto)covariance, straight from their
    definitions. *)
From Coq Require Import Field.
From Verif Require Import Prelude StatsModel.

Section Spec.
Context {K : Type}.
Variable F : kops K.

(** Exact arithmetic: a field of characteristic zero with a conjugation (the identity for real numbers). *)
Record exact_arithmetic : Prop := {
  ea_field : exists inv, field_theory (k0 F) (k1 F) (kadd F) (kmul F) (ksub F) (kopp F) (kdiv F) inv eq;
  ea_N0 : kofN F 0 = k0 F;
  ea_NS : forall n, kofN F (n + 1) = kadd F (kofN F n) (k1 F);
  ea_char0 : forall n, (0 < n)%N -> kofN F n <> k0 F;
  ea_conj_add : forall a b, kconj F (kadd F a b) = kadd F (kconj F a) (kconj F b);
  ea_conj_mul : forall a b, kconj F (kmul F a b) = kmul F (kconj F a) (kconj F b);
  ea_conj_1 : kconj F (k1 F) = k1 F }.

(** The sum of f over a list, and of f(0), ..., f(n-1). *)
Fixpoint suml {A} (f : A -> K) (l : list A) : K :=
  match l with [] => k0 F | x :: l' => kadd F (f x) (suml f l') end.
Definition sumn (f : nat -> K) (n : nat) : K := suml f (seq 0 n).

(** [all samples are vectors of size d] *)
Definition all_size (d : nat) (xs : list (vec K)) : Prop := Forall (fun x => length x = d) xs.
Local Notation len xs := (N.of_nat (length xs)).

(** Component i of the mean of the samples. *)
Definition the_mean (xs : list (vec K)) (i : nat) : K := kdiv F (suml (fun x => comp F x i) xs) (kofN F (len xs)).

(** 1/(n-1) sum_x (x_i - mean_i) conj(x_j - mean_j) *)
Definition the_covariance (xs : list (vec K)) (i j : nat) : K :=
  kdiv F (suml (fun x => kmul F (ksub F (comp F x i) (the_mean xs i)) (kconj F (ksub F (comp F x j) (the_mean xs j)))) xs)
         (kofN F (len xs - 1)).

(** component i of the t-th sample (the first one has t = 0) *)
Definition X (xs : list (vec K)) (t i : nat) : K := comp F (nth t xs []) i.
(** 1/(n-l-1) sum_{t=1}^{n-l} (x_{t+l,i} - mean_i) (x_{t,j} - mean_j) *)
Definition the_autocovariance (xs : list (vec K)) (l i j : nat) : K :=
  kdiv F (sumn (fun t => kmul F (ksub F (X xs (t + l) i) (the_mean xs i)) (ksub F (X xs t j) (the_mean xs j))) (length xs - l))
         (kofN F (len xs - N.of_nat l - 1)).
(** its trace *)
Definition the_autocovariance_trace (d : nat) (xs : list (vec K)) (l : nat) : K :=
  sumn (fun i => the_autocovariance xs l i i) d.
End Spec.
