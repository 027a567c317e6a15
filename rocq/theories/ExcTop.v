(** C76: the samples issued. *)
From Verif Require Import Prelude ProducerModel ProducerSpec ProducerProofs ExcSpec ExcProofs ExcDE ExcCount.
Local Open Scope list_scope.
Local Notation length := List.length.
Section Top.
Context {X D : Type}.
Variables (E' E : env X D).
Hypothesis FE : fewer_exceptions E' E.
Variable O : dops D.
Lemma issued_prefix (d t' : trace X D) : starts_with t' d -> exists rest, issued t' = issued (d ++ [EFlush]) ++ rest.
Proof. intros [rest ->]. exists (issued rest). rewrite !issued_app. cbn. now rewrite app_nil_r. Qed.
Lemma cut_prefix (m m' : @M X D unit) : cut E m m' -> exists rest, issued (fst (m' [])) = issued (fst (m [])) ++ rest.
Proof.
  intros C. destruct (m []) as [t r] eqn:H1. destruct (m' []) as [t' r'] eqn:H2. simpl. destruct (C t r t' r' H1 H2) as [(-> & _)|(d & e & -> & _ & S & _)].
  - exists []. now rewrite app_nil_r.
  - change (d ++ [e; EFlush]) with (d ++ [e] ++ [EFlush]). rewrite app_assoc. now apply issued_prefix.
Qed.
Theorem samples_are_a_prefix :
  (forall xs, exists rest, issued (fst (range_sample E' xs [])) = issued (fst (range_sample E xs [])) ++ rest) /\
  (forall x n, exists rest, issued (fst (mh_sample O E' x n [])) = issued (fst (mh_sample O E x n [])) ++ rest) /\
  (forall strict x md n, exists rest, issued (fst (dr_sample O E' strict x md n [])) = issued (fst (dr_sample O E strict x md n [])) ++ rest) /\
  (forall b fuel xs gap n, exists rest, issued (fst (de_sample O E' b fuel xs gap n [])) = issued (fst (de_sample O E b fuel xs gap n [])) ++ rest).
Proof.
  split; [|split; [|split]]; intros.
  - apply cut_prefix. now apply range_cut.
  - apply cut_prefix. now apply mh_cut.
  - apply cut_prefix. now apply dr_cut.
  - destruct (de_sample O E b fuel xs gap n []) as [t r] eqn:H1. destruct (de_sample O E' b fuel xs gap n []) as [t' r'] eqn:H2. simpl.
    destruct (de_cut E' E FE O b fuel xs gap n t r t' r' H1 H2) as [(-> & _)|(d & -> & _ & S & _)].
    + exists []. now rewrite app_nil_r.
    + now apply issued_prefix.
Qed.
End Top.
