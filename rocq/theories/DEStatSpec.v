(** What the statements about the distribution of the chains of DifferentialEvaluationMetropolisHastings are written in. *)
From Coq Require Import Reals.
From Coquelicot Require Import Coquelicot.
From Verif Require Import Prelude ProducerModel ProducerSpec XReal MHSpec.
Local Open Scope R_scope.
Local Notation length := List.length.

(** All [n]-tuples of elements of [states], and products over a tuple. *)
Fixpoint tuples {X} (states : list X) (n : nat) : list (list X) :=
  match n with
  | O => [[]]
  | S n' => flat_map (fun x => map (cons x) (tuples states n')) states
  end.
Fixpoint prod1 {X} (f : X -> R) (xs : list X) : R := match xs with [] => 1 | x :: r => f x * prod1 f r end.
Fixpoint prod2 {X} (f : X -> X -> R) (xs ys : list X) : R :=
  match xs, ys with x :: r, y :: s => f x y * prod2 f r s | _, _ => 1 end.

(** The probability that chain state [x] is replaced by trial [y], if the uniform random number is uniformly distributed: the measure of the set of
    random numbers for which the code's test accepts. *)
Definition accepts_with {X} (ll : X -> R) (q : X -> X -> R) (A : X -> X -> R) :=
  forall x y, 0 < q x y ->
  is_RInt (fun u => if fst (fst (de_decide xops y (XFin (q x y / q y x)) (XFin u) (XFin (ll y)) x (XFin (ll x)))) then 1 else 0) 0 1 (A x y).

(** Generations with crossover: all values of the two draws for the partners, equally likely (lines 215-227: 0 to n - 2, 0 to n - 3). *)
Definition partner_draws (n : N) : list (N * N) :=
  list_prod (map N.of_nat (seq 0 (N.to_nat (n - 1)))) (map N.of_nat (seq 0 (N.to_nat (n - 2)))).
(** The probability that the crossover for the given chain, when it is in state [x] and the states of all chains are otherwise [current], gives [y]. *)
Definition crossed {X} (eqX : forall x y : X, {x = y} + {x <> y}) (cross : X -> X -> X -> X) (current : list X) (chain : N) (x y : X) : R :=
  let n := N.of_nat (length current) in
  sumR (fun d => let a := partner_a chain (fst d) in
                 let b := partner_b chain a (snd d) in
                 match nth_error current (N.to_nat a), nth_error current (N.to_nat b) with
                 | Some xa, Some xb => if eqX (cross x xa xb) y then / INR (length (partner_draws n)) else 0
                 | _, _ => 0
                 end) (partner_draws n).

(** An example with three chains whose states are single bits. The distribution to be sampled gives 1 the probability p and 0 the probability 1 - p; propose_sample returns its argument
    with ratio 1; crossover adds the difference of the two other samples (modulo 2). The chains' draws for the first partner are [a], the uniformly
    distributed random numbers are [u], in the order in which they are drawn. *)
Definition target (p : R) (x : bool) : R := if x then p else 1 - p.
Definition is_unif {X D} (e : event X D) : bool := match e with EUnif => true | _ => false end.
Definition is_uint {X D} (hi : N) (e : event X D) : bool := match e with EUInt h => (h =? hi)%N | _ => false end.
Definition bits {D} (ll : bool -> D) (one : D) (a : list N) (u : list D) (d : D) : env bool D := {|
  e_ll := fun _ x => Some (ll x);
  e_prop := fun _ x _ => Some (x, one);
  e_cross := fun _ x y z => Some (xorb x (xorb y z));
  e_unif := fun t => nth (length (List.filter is_unif t)) u d;
  e_uint := fun t hi => if (hi =? 1)%N then nth (length (List.filter (is_uint 1) t)) a 0%N else 0%N;
  e_issue := fun _ _ _ => false;
  e_flush := fun _ => false |}.
Definition bits_env (p : R) (a : list N) (u : list R) : env bool xr := bits (fun x => XFin (ln (target p x))) (XFin 1) a (map XFin u) (XFin 0).

(** The samples of the first generation with crossover (numbers 3, 4 and 5), when the first three come out as [v] (they leave the chains where they are). *)
Definition generation1 (b : build) (p : R) (x : list bool) (a : list N) (v u : list R) : list bool :=
  skipn 3 (map fst (issued (fst (de_sample xops (bits_env p a (v ++ u)) b 10 x 1 6 [])))).
(** The probability of an event in terms of these samples, if the starting points are drawn from the distribution to be sampled, independently of each other, and the random numbers are drawn as
    they should be. *)
Definition probability (b : build) (p : R) (v : list R) (event : list bool -> bool) : R :=
  sumR (fun x => prod1 (target p) x *
    sumR (fun a => / 8 *
      RInt (fun u0 => RInt (fun u1 => RInt (fun u2 => if event (generation1 b p x a v [u0; u1; u2]) then 1 else 0) 0 1) 0 1) 0 1)
    (tuples [0%N; 1%N] 3))
  (tuples [false; true] 3).
Definition bit (i : nat) (s : list bool) : bool := nth i s false.
