(** Independent specification of the filters: what stream comes out for a
    stream that goes in. *)
From Verif Require Import Prelude FilterModel.

(** The chain of filters as a composition of stream transformers: the first
    filter sees the whole stream, the second the whole output of the first,
    and so on. *)
Fixpoint pipe_compose {X A} (p : pipe X A) (xs : list (X * A))
  : outcome (list (X * A)) :=
  match p with
  | PNil => Ok xs
  | PCons St s f rest =>
    do (_, ys) <- run_filter f s xs;
    pipe_compose rest ys
  end.

(** Smallest integer not below [N/n]. *)
Definition ceil_div (a b : nat) : nat := (a + b - 1) / b.
