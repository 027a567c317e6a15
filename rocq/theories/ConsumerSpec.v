(** Specifications of the simple consumers. *)
From Coq Require Import String Ascii QArith.
From Verif Require Import Prelude ConsumerModel.

(** Number of positions where an element differs from the one before it. *)
Fixpoint changes {X} (same : X -> X -> bool) (xs : list X) : nat :=
  match xs with
  | x :: (y :: _) as xs' => (if same y x then 0 else 1) + changes same xs'
  | _ => 0
  end.

(** The log likelihood attached to a sample, if any. *)
Definition log_lik {X} (x : X * aux) : option dbl :=
  match aux_find ll_key (snd x) with Some (AnyDouble d) => Some d | _ => None end.

(** Every attached likelihood is a double, not NaN, not lowest(). *)
Definition ordinary {X} (x : X * aux) : Prop :=
  aux_find ll_key (snd x) = None \/
  exists d, aux_find ll_key (snd x) = Some (AnyDouble d) /\ d <> DNaN /\ deq d lowest = false.

(** [x] is the first sample of maximal likelihood in the stream. *)
Definition first_maximiser {X} (xs : list (X * aux)) (x : X * aux) : Prop :=
  exists pre post d, xs = pre ++ x :: post /\ log_lik x = Some d /\
    (forall y e, In y pre -> log_lik y = Some e -> dlt e d = true) /\
    (forall y e, In y post -> log_lik y = Some e -> dlt d e = false).

(** Text of one sample: a scalar is its text; of a container, the text of each component,
    followed by a blank. *)
Fixpoint text (s : sample) : string :=
  match s with
  | Scalar t => t
  | Vec l => String.concat "" (map (fun e => (text e ++ " ")%string) l)
  end.

(** The lines of a text every line of which ends in a newline. *)
Fixpoint lines_acc (cur : string) (t : string) : list string :=
  match t with
  | EmptyString => if String.eqb cur "" then [] else [cur]
  | String c t' => if Ascii.eqb c (ascii_of_nat 10) then cur :: lines_acc "" t'
                   else lines_acc (cur ++ String c EmptyString)%string t'
  end.
Definition lines (t : string) : list string := lines_acc "" t.

Fixpoint no_newline (t : string) : Prop :=
  match t with
  | EmptyString => True
  | String c t' => c <> ascii_of_nat 10 /\ no_newline t'
  end.
Fixpoint texts_ok (s : sample) : Prop :=
  match s with
  | Scalar t => no_newline t
  | Vec l => fold_right (fun e P => texts_ok e /\ P) True l
  end.

(** The i-th component of a sample of a given kind. *)
Definition components {T} (s : tysample T) : list T :=
  match s with
  | KScalar x => [x]
  | KContainer l => l
  | KArray l => l
  | KSized x _ => [x]
  | KSubscript l => l
  end.

(** The classes whose result is defined by the order in which samples arrive. *)
Definition order_sensitive (c : cls) : bool :=
  match c with
  | CAcceptanceRatio | CAutoCovarianceMatrix | CAutoCovarianceTrace | CAverageCosine | CLastSample
  | CStreamOutput | CFilter => true
  | _ => false
  end.
