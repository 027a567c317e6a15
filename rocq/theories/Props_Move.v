(** Property C71: moving objects, and calling member functions of Chains. *)
From Verif Require Import Prelude NetModel NetSpec ConsumerModel MoveModel MoveSpec MoveTop.

(** C71: for every program, in both builds: a call to flush(), disconnect_and_flush() or set_parallel_mode() on a Chain changes nothing that can be observed - no delivery to any object, no mode of any connection, and not whether the
    program goes wrong, then or later. (A Chain is not a handle by which its parts can be flushed, disconnected or put into another mode.) *)
Theorem C71_calls_on_a_chain :
  forall (X St : Type) (filt : nat -> option (St -> X -> outcome (St * option X))) (b : build) (f : nat) (s0 : nat -> St) (h1 h2 : list (call X St)) (w : world X St) (k : nat) (c : call X St),
  run filt b (S f) h1 (start s0) = Ok w -> is_chain w k -> idle_call c k ->
  observe (run filt b (S f) (h1 ++ c :: h2) (start s0)) = observe (run filt b (S f) (h1 ++ h2) (start s0)).
Proof. exact @calls_on_a_chain. Qed.
Print Assumptions C71_calls_on_a_chain.

(** C71: a Chain can be moved at any time, in both builds, connected or not: from then on the new Chain does everything the old one would have done, whether the old one is then destroyed or not. What is required is that no other Chain
    refers to it. *)
Theorem C71_moving_a_chain :
  forall (X St : Type) (filt : nat -> option (St -> X -> outcome (St * option X))) (b : build) (f : nat) (s0 : nat -> St) (h1 h2 : list (call X St)) (w : world X St) (k j : nat) (g : St) (gone : list (call X St)),
  run filt b (S f) h1 (start s0) = Ok w -> is_chain w k -> unreferenced w k -> used w j = false -> (forall c, In c h2 -> ~ In j (names c)) ->
  gone = [] \/ gone = [KDestroy k] ->
  observe (run filt b (S f) (h1 ++ KMove k j g :: gone ++ map (ren_call k j) h2) (start s0)) = observe (run filt b (S f) (h1 ++ h2) (start s0)).
Proof. exact @moving_a_chain. Qed.
Print Assumptions C71_moving_a_chain.

(** C71: an object that is not a Chain. With assertions, moving it fails exactly if a producer or consumer is connected to it. Otherwise (and without assertions, even if something is connected) the new object has the state and the parallel
    mode of the old one and the queue size zero, nothing is connected to it, and all connections stay with the old object; no sample is sent. *)
Theorem C71_moving_an_object :
  forall (X St : Type) (filt : nat -> option (St -> X -> outcome (St * option X))) (s0 : nat -> St) (b : build) (f : nat) (h : list (call X St)) (w : world X St) (i j : nat) (g : St),
  run filt b (S f) h (start s0) = Ok w -> usable w i = true -> w_kind w i = Plain -> used w j = false ->
  (b = Debug -> (exists p, linked w p i \/ linked w i p) -> perform filt b (S f) (KMove i j g) w = AssertFail) /\
  (b = Release \/ (forall p, ~ linked w p i /\ ~ linked w i p) -> exists w', perform filt b (S f) (KMove i j g) w = Ok w' /\
     n_st (w_net w') j = n_st (w_net w) i /\ md_mode (w_modes w' j) = md_mode (w_modes w i) /\ md_supported (w_modes w' j) = md_supported (w_modes w i) /\ md_queue (w_modes w' j) = 0%N /\
     (forall p c, linked w' p c <-> linked w p c) /\ (forall p, ~ linked w' p j /\ ~ linked w' j p) /\ n_log (w_net w') = n_log (w_net w)).
Proof. exact @moving_an_object. Qed.
Print Assumptions C71_moving_an_object.

(** Objects 1, 4, 5 and 6 pass every sample on; the others are producers and consumers. *)
Definition pass (i : nat) : option (nat -> nat -> outcome (nat * option nat)) :=
  if existsb (Nat.eqb i) [1; 4; 5; 6; 15] then Some (fun s x => Ok (s + 1, Some x)) else None.
(** A producer 0, a filter 1, a consumer 2, and the Chain 3 made of 1 and 2; then the producer is connected to the Chain. *)
Definition pipeline : list (call nat nat) := [KNew 0 0 1%N; KNew 1 0 3%N; KNew 2 0 3%N; KChain (ByRef 1) (ByRef 2) 3; KConnect 0 3].

(** C71, the claim of the documentation (consumer.impl.h:203-216) that disconnect_and_flush() shuts down the connections to producers and ensures "that no further samples will be sent to the current object": false of a Chain, whose consumer still gets the next
    sample. *)
Theorem C71_disconnecting_a_chain_refuted : forall b,
  exists w, run pass b 5 (pipeline ++ [KDisconnect 3; KIssue 0 7]) (start (fun _ => 0)) = Ok w /\ is_chain w 3 /\ deliveries (n_log (w_net w)) = [(1, 1, 7); (0, 2, 7)].
Proof. intros []; eexists; (split; [vm_compute; reflexivity|]); (split; [split; [reflexivity|eexists; eexists; reflexivity]|reflexivity]). Qed.
Print Assumptions C71_disconnecting_a_chain_refuted.

(** C71, without the requirement that no other Chain refers to the Chain that is moved: false. The Chain 3 owns the filter 15 (moved from the temporary 5), the Chain 7 refers to 3; connecting the producer to 7 works, but after 3 was moved
    to 8 it is undefined. *)
Definition nested : list (call nat nat) := [KNew 0 0 1%N; KNew 5 0 3%N; KNew 4 0 3%N; KNew 2 0 3%N; KChain (ByMove 5 15 0) (ByRef 4) 3; KChain (ByRef 3) (ByRef 2) 7].
Theorem C71_moving_a_referenced_chain_refuted : forall b,
  exists w, run pass b 9 nested (start (fun _ => 0)) = Ok w /\ is_chain w 3 /\ used w 8 = false /\
    (exists w', run pass b 9 (nested ++ [KConnect 0 7; KIssue 0 7]) (start (fun _ => 0)) = Ok w' /\ map (fun d => (snd (fst d), snd d)) (deliveries (n_log (w_net w'))) = [(15, 7); (4, 7); (2, 7)]) /\
    run pass b 9 (nested ++ KMove 3 8 0 :: [KConnect 0 7; KIssue 0 7]) (start (fun _ => 0)) = UB.
Proof.
  intros []; eexists; (split; [vm_compute; reflexivity|]); (split; [split; [reflexivity|eexists; eexists; reflexivity]|]); (split; [reflexivity|]); (split; [|vm_compute; reflexivity]); eexists;
    (split; [vm_compute; reflexivity|reflexivity]).
Qed.
Print Assumptions C71_moving_a_referenced_chain_refuted.

(** C71, the claim of the documentation (consumer.impl.h:92-99) that moving a connected consumer creates dangling connections by which samples are sent to an object that no longer exists: false. Without assertions the moved-from consumer
    goes on receiving the samples until it is destroyed, and then nothing does. *)
Theorem C71_dangling_refuted :
  exists w, run pass Release 5 [KNew 0 0 1%N; KNew 2 0 3%N; KConnect 0 2; KMove 2 9 0; KIssue 0 7; KDestroy 2; KIssue 0 8] (start (fun _ => 0)) = Ok w /\
    map (fun d => (snd (fst d), snd d)) (deliveries (n_log (w_net w))) = [(2, 7)].
Proof. eexists. split; vm_compute; reflexivity. Qed.
Print Assumptions C71_dangling_refuted.

(** The hypotheses are met: a Chain that is connected, called, moved, destroyed, and the rest of a program. *)
Example C71_calls_meets : forall b, exists w, run pass b 5 pipeline (start (fun _ => 0)) = Ok w /\ is_chain w 3 /\ idle_call (KFlush 3 : call nat nat) 3 /\ idle_call (KSetMode 3 1%N 4%N : call nat nat) 3 /\
  observe (run pass b 5 (pipeline ++ KDisconnect 3 :: [KIssue 0 7]) (start (fun _ => 0))) = Ok ([(1, 1, 7); (0, 2, 7)], [1%N; 1%N]).
Proof.
  intros []; eexists; (split; [vm_compute; reflexivity|]); (split; [split; [reflexivity|eexists; eexists; reflexivity]|]); (split; [now left|]); (split; [right; right; exists 1%N, 4%N; split; [reflexivity|discriminate]|vm_compute; reflexivity]).
Qed.
Example C71_move_meets : forall b, exists w, run pass b 5 pipeline (start (fun _ => 0)) = Ok w /\ is_chain w 3 /\ unreferenced w 3 /\ used w 9 = false /\
  observe (run pass b 5 (pipeline ++ KMove 3 9 0 :: [KDestroy 3] ++ map (ren_call 3 9) [KIssue 0 7; KDestroy 3; KIssue 0 8]) (start (fun _ => 0))) = Ok ([(1, 1, 7); (0, 2, 7); (1, 1, 8); (0, 2, 8)], [1%N; 1%N]).
Proof.
  intros []; eexists; (split; [vm_compute; reflexivity|]); (split; [split; [reflexivity|eexists; eexists; reflexivity]|]);
    (split; [|split; [reflexivity|vm_compute; reflexivity]]); intros i l r Hi Hk; vm_compute in Hi; do 4 (destruct i as [|i]; [vm_compute in Hk; try discriminate|]); try discriminate; injection Hk as <- <-;
    repeat split; discriminate.
Qed.
Example C71_object_meets : (exists w, run pass Debug 5 pipeline (start (fun _ => 0)) = Ok w /\ usable w 2 = true /\ w_kind w 2 = Plain /\ used w 9 = false /\ linked w 1 2) /\
  (exists w, run pass Debug 5 [KNew 4 3 3%N; KSetMode 4 2%N 6%N] (start (fun _ => 0)) = Ok w /\ usable w 4 = true /\ w_kind w 4 = Plain /\ used w 9 = false /\ (forall p, ~ linked w p 4 /\ ~ linked w 4 p)).
Proof.
  split.
  - eexists. split; [vm_compute; reflexivity|]. do 3 (split; [reflexivity|]). exists 0. left. reflexivity.
  - eexists. split; [vm_compute; reflexivity|]. do 3 (split; [reflexivity|]). intros p. split; intros (k & Hk); destruct Hk.
Qed.
