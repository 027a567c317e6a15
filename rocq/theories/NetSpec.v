(** Independent specification of what a network of producers, filters and
    consumers delivers, in terms of the observable event log only. *)
From Verif Require Import Prelude NetModel.

Section Spec.
  Context {X : Type}.

  (** Samples consumed over the [k]-th connection ever made. *)
  Definition received (k : nat) (tr : list (event X)) : list X :=
    flat_map (fun e => match e with
                       | ERecv k' _ x => if k' =? k then [x] else []
                       | _ => []
                       end) tr.

  (** Samples consumed by consumer [c], over whatever connection. *)
  Definition consumed (c : nat) (tr : list (event X)) : list X :=
    flat_map (fun e => match e with
                       | ERecv _ c' x => if c' =? c then [x] else []
                       | _ => []
                       end) tr.

  (** Samples issued by producer [p]. *)
  Definition issued (p : nat) (tr : list (event X)) : list X :=
    flat_map (fun e => match e with
                       | EIssue p' x => if p' =? p then [x] else []
                       | _ => []
                       end) tr.

  (** The samples [p] issues until the connection [p -> c] is ended by a
      [c.disconnect_and_flush()] or by the destruction of [c] or [p]. *)
  Fixpoint until_severed (p c : nat) (tr : list (event X)) : list X :=
    match tr with
    | [] => []
    | EOp (ODisconnect c') :: tr' => if c' =? c then [] else until_severed p c tr'
    | EOp (ODestroy o) :: tr' => if (o =? c) || (o =? p) then [] else until_severed p c tr'
    | EIssue p' x :: tr' => if p' =? p then x :: until_severed p c tr' else until_severed p c tr'
    | _ :: tr' => until_severed p c tr'
    end.

  (** The samples that should travel over the connection made by the [k]-th call
      (counting from 0) of connect_to_producer. *)
  Fixpoint expected (k : nat) (tr : list (event X)) : list X :=
    match tr with
    | [] => []
    | EOp (OConnect p c) :: tr' =>
      match k with
      | O => until_severed p c tr'
      | S k' => expected k' tr'
      end
    | _ :: tr' => expected k tr'
    end.

  (** Producer and consumer of the [k]-th connect call. *)
  Fixpoint endpoints (k : nat) (ops : list (op X)) : option (nat * nat) :=
    match ops with
    | [] => None
    | OConnect p c :: ops' => match k with O => Some (p, c) | S k' => endpoints k' ops' end
    | _ :: ops' => endpoints k ops'
    end.

  (** A history that never uses an object after its destruction (which would be
      an error of the caller). [d] are the objects destroyed so far. *)
  Fixpoint well_formed (d : list nat) (ops : list (op X)) : Prop :=
    match ops with
    | [] => True
    | OConnect p c :: ops' => ~ In p d /\ ~ In c d /\ well_formed d ops'
    | OIssue p _ :: ops' => ~ In p d /\ well_formed d ops'
    | OFlush p :: ops' => ~ In p d /\ well_formed d ops'
    | ODisconnect c :: ops' => ~ In c d /\ well_formed d ops'
    | ODestroy o :: ops' => ~ In o d /\ well_formed (o :: d) ops'
    end.

  (** Acyclic wiring: connections always go from lower to higher rank. *)
  Definition ranked (rank : nat -> nat) (ops : list (op X)) : Prop :=
    forall p c, In (OConnect p c) ops -> rank p < rank c.
End Spec.

(** What a filter function does to a whole stream: new member values, and the
    samples passed on. *)
Fixpoint filter_stream {X St} (f : St -> X -> outcome (St * option X)) (s : St) (xs : list X)
  : outcome (St * list X) :=
  match xs with
  | [] => Ok (s, [])
  | x :: xs' =>
    do (s1, o) <- f s x;
    do (s2, ys) <- filter_stream f s1 xs';
    Ok (s2, match o with Some y => y :: ys | None => ys end)
  end.

(** [reaches n p c]: there is a path of live connections from producer [p] to
    consumer [c], all intermediate objects being filters. *)
Inductive reaches {X St} (filt : nat -> option (St -> X -> outcome (St * option X)))
          (conns : nat -> nat -> Prop) : nat -> nat -> Prop :=
| reach_one p c : conns p c -> reaches filt conns p c
| reach_step p f c : conns p f -> filt f <> None -> reaches filt conns f c -> reaches filt conns p c.

(** Which connections exist after a history: the k-th connect call made one, and
    no later disconnect/destroy call ended it. *)
Fixpoint connections {X} (ops : list (op X)) (cur : list (nat * nat)) : list (nat * nat) :=
  match ops with
  | [] => cur
  | OConnect p c :: ops' => connections ops' (cur ++ [(p, c)])
  | ODisconnect c :: ops' =>
    connections ops' (filter (fun pc => negb (snd pc =? c)) cur)
  | ODestroy o :: ops' =>
    connections ops' (filter (fun pc => negb (snd pc =? o) && negb (fst pc =? o)) cur)
  | _ :: ops' => connections ops' cur
  end.

(** The samples the user makes producer [p] issue. *)
Definition sourced {X} (p : nat) (ops : list (op X)) : list X :=
  flat_map (fun o => match o with
                     | OIssue p' x => if p' =? p then [x] else []
                     | _ => []
                     end) ops.

(** The objects destroyed by a history. *)
Definition destroyed {X} (ops : list (op X)) : list nat :=
  flat_map (fun o => match o with ODestroy i => [i] | _ => [] end) ops.

(** Does a call mention an object of the set [D]? *)
Definition mentions {X} (D : nat -> bool) (o : op X) : bool :=
  match o with
  | OConnect p c => D p || D c
  | OIssue p _ => D p
  | OFlush p => D p
  | ODisconnect c => D c
  | ODestroy i => D i
  end.

(** The producers an object was ever connected to, one entry per call. *)
Definition inputs {X} (c : nat) (ops : list (op X)) : list nat :=
  flat_map (fun o => match o with
                     | OConnect p c' => if c' =? c then [p] else []
                     | _ => []
                     end) ops.

(** Calls that wire up a network, and calls that merely run it. *)
Definition wiring {X} (o : op X) : Prop := exists p c, o = OConnect p c.
Definition running {X} (o : op X) : Prop := (exists p x, o = OIssue p x) \/ (exists p, o = OFlush p).

(** [is_pipeline ops p path c]: p feeds the first object of [path], each object of
    [path] the next one, the last one [c]; none of them has another input, and the
    user does not make the objects on the path issue samples by hand. *)
Fixpoint is_pipeline {X} (ops : list (op X)) (p : nat) (path : list nat) (c : nat) : Prop :=
  match path with
  | [] => inputs c ops = [p]
  | f :: path' => inputs f ops = [p] /\ sourced f ops = [] /\ is_pipeline ops f path' c
  end.

(** Composition of the stream transformations of the filters along a path. *)
Fixpoint through {X St} (filt : nat -> option (St -> X -> outcome (St * option X))) (s0 : nat -> St)
         (path : list nat) (xs : list X) : outcome (list X) :=
  match path with
  | [] => Ok xs
  | i :: path' =>
    match filt i with
    | None => UB
    | Some f => do (_, ys) <- filter_stream f (s0 i) xs; through filt s0 path' ys
    end
  end.
