(** Property theorems about networks of producers, filters and consumers
    (C01, C02, C03, C05, C06).  NetSpec holds the definitions used in the
    statements.  [filt i] is the filter function of object [i] (None: not a filter),
    [s0 i] its initial member values; [fuel] bounds the call depth. *)
From Verif Require Import Prelude NetModel NetSpec NetTop NetIso NetPipe NetOrderSpec NetOrder.

(** C01: over the k-th connection travel exactly the samples issued by its producer
    between the connect call and the end of the connection, each once, in order; they go
    to the consumer of that connect call; and a pure producer issues exactly what the user
    makes it issue. For every history of calls over an acyclic network. *)
Theorem C01_connection_carries_exactly_its_samples :
  forall (X St : Type) (filt : nat -> option (St -> X -> outcome (St * option X)))
         (rank : nat -> nat) (s0 : nat -> St) (b : build) (fuel : nat) (ops : list (op X)) (n : net X St),
  ranked rank ops ->
  exec filt FindFirst b fuel ops (init s0) = Ok n ->
  (forall k, received k (n_log n) = expected k (n_log n)) /\
  (forall k c x, In (ERecv k c x) (n_log n) -> exists p, endpoints k ops = Some (p, c)) /\
  (forall p, filt p = None -> issued p (n_log n) = sourced p ops).
Proof. exact @top_delivery. Qed.
Print Assumptions C01_connection_carries_exactly_its_samples.

(** C02: inside any network history, a filter issues exactly the stream its filter
    function makes of the stream it consumed. *)
Theorem C02_filter_stream_in_network :
  forall (X St : Type) (filt : nat -> option (St -> X -> outcome (St * option X)))
         (rank : nat -> nat) (s0 : nat -> St) (b : build) (fuel : nat) (ops : list (op X)) (n : net X St)
         (c : nat) (f : St -> X -> outcome (St * option X)),
  ranked rank ops ->
  exec filt FindFirst b fuel ops (init s0) = Ok n ->
  filt c = Some f -> sourced c ops = [] ->
  exists s, filter_stream f (s0 c) (consumed c (n_log n)) = Ok (s, issued c (n_log n)).
Proof. exact @top_filter. Qed.
Print Assumptions C02_filter_stream_in_network.

(** C02: at the end of a pipeline of any length arrives the composition of the filters'
    stream functions applied to what the source issues, whatever else is attached
    anywhere. *)
Theorem C02_pipeline_is_composition :
  forall (X St : Type) (filt : nat -> option (St -> X -> outcome (St * option X)))
         (rank : nat -> nat) (s0 : nat -> St) (b : build) (fuel : nat) (w r : list (op X)) (n : net X St)
         (path : list nat) (p c : nat),
  Forall wiring w -> Forall running r -> ranked rank w ->
  exec filt FindFirst b fuel (w ++ r) (init s0) = Ok n ->
  filt p = None ->
  (forall f, In f path -> filt f <> None) ->
  is_pipeline (w ++ r) p path c ->
  through filt s0 path (sourced p (w ++ r)) = Ok (consumed c (n_log n)).
Proof. exact @pipeline. Qed.
Print Assumptions C02_pipeline_is_composition.

(** C03: leave out any set of objects D (closed under "is fed by", i.e. whatever D feeds is
    in D) with all calls that mention them: every other object consumes the very same
    samples in the same order. *)
Theorem C03_consumers_do_not_influence_each_other :
  forall (X St : Type) (filt : nat -> option (St -> X -> outcome (St * option X)))
         (D : nat -> bool) (b : build) (fuel : nat) (ops : list (op X)) (s0 : nat -> St) (n : net X St),
  (forall p c, In (OConnect p c) ops -> D p = true -> D c = true) ->
  exec filt FindFirst b fuel ops (init s0) = Ok n ->
  exists m, exec filt FindFirst b fuel (List.filter (fun o => negb (mentions D o)) ops) (init s0) = Ok m /\
            forall c, D c = false -> consumed c (n_log n) = consumed c (n_log m).
Proof. exact @isolation. Qed.
Print Assumptions C03_consumers_do_not_influence_each_other.

(** C05: any history in which the caller never uses a destroyed object (destructions in any
    order, at any time) runs without undefined behaviour (such as calling a slot of a
    destroyed consumer) and without a failing assertion; afterwards exactly the connections of the
    specification exist, and no signal or multimap anywhere refers to a destroyed object. *)
Theorem C05_destruction_in_any_order_is_safe :
  forall (X St : Type) (filt : nat -> option (St -> X -> outcome (St * option X)))
         (rank : nat -> nat) (s0 : nat -> St) (b : build) (fuel : nat) (ops : list (op X)),
  well_formed [] ops -> ranked rank ops -> (forall i, rank i < fuel) ->
  (forall c f, filt c = Some f -> forall s x, exists r, f s x = Ok r) ->
  exists n, exec filt FindFirst b fuel ops (init s0) = Ok n /\
    map (fun e => (e_prod e, e_cons e)) (n_map n) = connections ops [] /\
    forall i, In i (destroyed ops) ->
      (forall e, In e (n_map n) -> e_prod e <> i /\ e_cons e <> i) /\
      (forall s, In s (n_sample n ++ n_flush n ++ n_disc n) -> s_prod s <> i /\ s_cons s <> i).
Proof. exact @top_total. Qed.
Print Assumptions C05_destruction_in_any_order_is_safe.

(** C06: triggering flush_consumers() calls flush() on exactly the consumers reachable
    through the connections that exist at that point, and has no other effect. *)
Theorem C06_flush_reaches_exactly_downstream :
  forall (X St : Type) (filt : nat -> option (St -> X -> outcome (St * option X)))
         (rank : nat -> nat) (s0 : nat -> St) (b : build) (fuel : nat) (ops : list (op X)) (p : nat) (n : net X St),
  ranked rank ops ->
  exec filt FindFirst b fuel (ops ++ [OFlush p]) (init s0) = Ok n ->
  exists n0 D, exec filt FindFirst b fuel ops (init s0) = Ok n0 /\
    n_log n = n_log n0 ++ EOp (OFlush p) :: D /\
    (forall e, In e D -> exists c, e = EFlush c) /\
    (forall c, In (EFlush c) D <-> reaches filt (fun p c => In (p, c) (connections ops [])) p c).
Proof. exact @top_flush. Qed.
Print Assumptions C06_flush_reaches_exactly_downstream.

(** A network meeting all hypotheses: producer 0, filter 1 (keeps even numbers, adds 1),
    consumers 2 and 3, connected twice in one case; disconnects and destructions. *)
Definition ex_filt (i : nat) : option (nat -> nat -> outcome (nat * option nat)) :=
  if i =? 1 then Some (fun s x => Ok (S s, if Nat.even x then Some (S x) else None)) else None.
Definition ex_ops : list (op nat) :=
  [OConnect 0 1; OConnect 1 2; OIssue 0 4; OConnect 0 3; OConnect 0 3; OIssue 0 5; OIssue 0 6;
   OFlush 0; ODisconnect 3; OIssue 0 8; ODestroy 1; OIssue 0 10; ODestroy 0; ODestroy 2].
Example C01_C05_example :
  ranked (fun i => i) ex_ops /\ well_formed [] ex_ops /\
  match exec ex_filt FindFirst Debug 9 ex_ops (init (fun _ => 0)) with
  | Ok n => received 0 (n_log n) = [4;5;6;8] /\ received 1 (n_log n) = [5;7;9] /\
            received 2 (n_log n) = [5;6] /\ received 3 (n_log n) = [5;6] /\
            consumed 3 (n_log n) = [5;5;6;6] /\
            map (fun e => (e_prod e, e_cons e)) (n_map n) = []
  | _ => False
  end.
Proof.
  split; [|split].
  - intros p c H. cbn in H. repeat (destruct H as [H|H]; [inversion H; subst; repeat constructor|]). destruct H.
  - cbn. repeat split; intros H; repeat (destruct H as [H|H]; [discriminate|]); exact H.
  - vm_compute. repeat split.
Qed.

Definition ex_w : list (op nat) := [OConnect 0 1; OConnect 0 3; OConnect 1 2; OConnect 1 3].
Definition ex_r : list (op nat) := [OIssue 0 4; OIssue 0 5; OFlush 0; OIssue 0 6].
Example C02_example :
  Forall wiring ex_w /\ Forall running ex_r /\ ranked (fun i => i) ex_w /\
  is_pipeline (ex_w ++ ex_r) 0 [1] 2 /\
  through ex_filt (fun _ => 0) [1] [4;5;6] = Ok [5;7] /\
  match exec ex_filt FindFirst Debug 9 (ex_w ++ ex_r) (init (fun _ => 0)) with
  | Ok n => consumed 2 (n_log n) = [5;7]
  | _ => False
  end.
Proof.
  split; [|split; [|split; [|split; [|split]]]].
  - repeat (apply Forall_cons; [do 2 eexists; reflexivity|]). apply Forall_nil.
  - apply Forall_cons; [left; do 2 eexists; reflexivity|].
    apply Forall_cons; [left; do 2 eexists; reflexivity|].
    apply Forall_cons; [right; eexists; reflexivity|].
    apply Forall_cons; [left; do 2 eexists; reflexivity|]. apply Forall_nil.
  - intros p c H. cbn in H. repeat (destruct H as [H|H]; [inversion H; subst; repeat constructor|]). destruct H.
  - repeat split.
  - reflexivity.
  - vm_compute. reflexivity.
Qed.

(** Leaving out consumer 3 does not change what 2 consumes, and conversely for {1,2}. *)
Example C03_example :
  let D := fun i => i =? 3 in
  (forall p c, In (OConnect p c) ex_ops -> D p = true -> D c = true) /\
  List.filter (fun o => negb (mentions D o)) ex_ops =
    [OConnect 0 1; OConnect 1 2; OIssue 0 4; OIssue 0 5; OIssue 0 6;
     OFlush 0; OIssue 0 8; ODestroy 1; OIssue 0 10; ODestroy 0; ODestroy 2].
Proof.
  split; [|reflexivity]. intros p c H. cbn in H.
  repeat (destruct H as [H|H]; [inversion H; subst; cbn; congruence|]). destruct H.
Qed.

(** C05: the code relies on [multimap::find] returning the oldest of several entries with
    the same key, which C++ leaves unspecified: with the other choice, connecting twice and then
    destroying the producer leaves the consumer remembering a connection to the dead
    producer. *)
Theorem C05_needs_first_equal_key_refuted :
  exists (ops : list (op nat)),
    well_formed [] ops /\ ranked (fun i => i) ops /\
    match exec (fun _ => @None (unit -> nat -> outcome (unit * option nat))) FindLast Debug 9 ops (init (fun _ => tt)) with
    | Ok n => exists e, In e (n_map n) /\ In (e_prod e) (destroyed ops)
    | _ => False
    end.
Proof.
  exists [OConnect 0 1; OConnect 0 1; ODestroy 0]. split; [|split].
  - cbn. repeat split; intros H; exact H.
  - intros p c H. cbn in H. repeat (destruct H as [H|H]; [inversion H; subst; repeat constructor|]). destruct H.
  - vm_compute. eexists. split; [left; reflexivity|left; reflexivity].
Qed.
Print Assumptions C05_needs_first_equal_key_refuted.

(** C52: everything that happens, in which order. For every history of calls the log of events is exactly that of the reference semantics in NetOrderSpec, which knows only the list of wires: a sample goes
    along the wires of its producer in the order in which they were made, depth first through filters; so does a flush; disconnecting or destroying a consumer flushes it and what is behind it, once. *)
Theorem C52_exact_log :
  forall (X St : Type) (filt : nat -> option (St -> X -> outcome (St * option X)))
         (b : build) (fuel : nat) (s0 : nat -> St) (ops : list (op X)) (n : net X St),
  exec filt FindFirst b fuel ops (init s0) = Ok n ->
  n_log n = spec_log filt fuel ops (0, [], s0).
Proof. exact @exact_log. Qed.
Print Assumptions C52_exact_log.
Example C52_example :
  spec_log ex_filt 9 [OConnect 0 3; OConnect 0 1; OConnect 1 2; OConnect 0 4; OConnect 1 5; OIssue 0 4; OFlush 0; ODisconnect 1; ODestroy 1; OIssue 0 6] (0, [], fun _ => 0) =
  [EOp (OConnect 0 3); EOp (OConnect 0 1); EOp (OConnect 1 2); EOp (OConnect 0 4); EOp (OConnect 1 5);
   EOp (OIssue 0 4); EIssue 0 4; ERecv 0 3 4; ERecv 1 1 4; EIssue 1 5; ERecv 2 2 5; ERecv 4 5 5; ERecv 3 4 4;
   EOp (OFlush 0); EFlush 3; EFlush 1; EFlush 2; EFlush 5; EFlush 4;
   EOp (ODisconnect 1); EFlush 1; EFlush 2; EFlush 5; EOp (ODestroy 1); EFlush 1; EFlush 2; EFlush 5;
   EOp (OIssue 0 6); EIssue 0 6; ERecv 0 3 6; ERecv 3 4 6] /\
  match exec ex_filt FindFirst Debug 9 [OConnect 0 3; OConnect 0 1; OConnect 1 2; OConnect 0 4; OConnect 1 5; OIssue 0 4; OFlush 0; ODisconnect 1; ODestroy 1; OIssue 0 6] (init (fun _ => 0)) with Ok _ => True | _ => False end.
Proof. split; vm_compute; [reflexivity|exact I]. Qed.
