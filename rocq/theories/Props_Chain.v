(** Property theorems about operator>> (C04). [leaves e] are the objects of the
    expression from left to right without the parentheses; see ChainSpec. *)
From Coq Require Import Permutation.
From Verif Require Import Prelude NetModel NetSpec ChainModel ChainSpec ChainProofs.

(** C04: evaluating an expression makes exactly one connection per pair of neighbours,
    however it is parenthesised and whether operands are variables, temporaries or chains. *)
Theorem C04_connects_exactly_the_neighbours :
  forall (X : Type) (e : expr),
  Permutation (connections (snd (@evaluate X e)) []) (adjacent (leaves e)).
Proof. exact @built. Qed.
Print Assumptions C04_connects_exactly_the_neighbours.

(** C04: two expressions with the same objects in the same order make the same connect calls
    (possibly in another order). *)
Theorem C04_parentheses_are_irrelevant :
  forall (X : Type) (e1 e2 : expr), leaves e1 = leaves e2 ->
  Permutation (snd (@evaluate X e1)) (snd (@evaluate X e2)).
Proof. exact @same_leaves. Qed.
Print Assumptions C04_parentheses_are_irrelevant.

(** C04: whatever the parentheses, the last object of the chain consumes the composition
    of all filters applied to the samples of the first. *)
Theorem C04_same_samples_flow :
  forall (X St : Type) (filt : nat -> option (St -> X -> outcome (St * option X))) (s0 : nat -> St)
         (b : build) (fuel : nat) (e : expr) (p : nat) (path : list nat) (c : nat)
         (r : list (op X)) (n : net X St),
  leaves e = p :: path ++ [c] -> NoDup (leaves e) ->
  filt p = None -> (forall f, In f path -> filt f <> None) ->
  Forall running r -> (forall f, In f path -> sourced f r = []) ->
  exec filt FindFirst b fuel (snd (evaluate e) ++ r) (init s0) = Ok n ->
  through filt s0 path (sourced p r) = Ok (consumed c (n_log n)).
Proof. exact @chain_flow. Qed.
Print Assumptions C04_same_samples_flow.

(** C04: when the Chain object dies, exactly the connections between two objects that
    are not temporaries of the expression survive. *)
Theorem C04_only_variables_stay_connected :
  forall (X : Type) (e : expr),
  Permutation (connections (snd (@evaluate X e) ++ destruct_value (fst (@evaluate X e))) [])
              (List.filter (fun pc => negb (existsb (Nat.eqb (fst pc)) (temporaries e)) &&
                                      negb (existsb (Nat.eqb (snd pc)) (temporaries e))) (adjacent (leaves e))).
Proof. exact @destroyed_chain. Qed.
Print Assumptions C04_only_variables_stay_connected.

(** C04: building a chain of distinct objects and destroying it runs without undefined
    behaviour or failing assertion. *)
Theorem C04_chain_lifetime_is_safe :
  forall (X St : Type) (filt : nat -> option (St -> X -> outcome (St * option X))) (s0 : nat -> St)
         (b : build) (e : expr),
  NoDup (leaves e) ->
  (forall c f, filt c = Some f -> forall s x, exists r, f s x = Ok r) ->
  exists fuel n, exec filt FindFirst b fuel
     (snd (evaluate e) ++ destruct_value (fst (@evaluate X e))) (init s0) = Ok n.
Proof. exact @chain_lifetime_safe. Qed.
Print Assumptions C04_chain_lifetime_is_safe.

(** p >> f >> g >> c, p >> (f >> (g >> c)) and p >> (f >> g) >> c with g a temporary. *)
Definition ex1 := EChain (EChain (EChain (ELeaf 0 false) (ELeaf 1 false)) (ELeaf 2 true)) (ELeaf 3 false).
Definition ex2 := EChain (ELeaf 0 false) (EChain (ELeaf 1 false) (EChain (ELeaf 2 true) (ELeaf 3 false))).
Definition ex3 := EChain (EChain (ELeaf 0 false) (EVar (EChain (ELeaf 1 false) (ELeaf 2 true)))) (ELeaf 3 false).
Example C04_example :
  leaves ex1 = 0 :: [1; 2] ++ [3] /\ leaves ex2 = leaves ex1 /\ leaves ex3 = leaves ex1 /\ NoDup (leaves ex1) /\
  snd (@evaluate nat ex1) = [OConnect 0 1; OConnect 1 2; OConnect 2 3] /\
  snd (@evaluate nat ex2) = [OConnect 2 3; OConnect 1 2; OConnect 0 1] /\
  snd (@evaluate nat ex3) = [OConnect 1 2; OConnect 0 1; OConnect 2 3] /\
  connections (snd (@evaluate nat ex1) ++ destruct_value (fst (@evaluate nat ex1))) [] = [(0, 1)].
Proof.
  repeat (split; [reflexivity|]). split; [|repeat split].
  repeat (constructor; [cbn; intros H; repeat (destruct H as [H|H]; [discriminate|]); exact H|]). constructor.
Qed.
