(** Member functions of particular classes, divided into single reads and writes of the members. *)
From Coq Require Import String Ascii.
From Verif Require Import Prelude FilterModel ConsumerModel HistModel StatsModel LockModel LockSpec.
Local Open Scope nat_scope.

(** CountSamples: [++n_samples] under the lock (count_samples.impl.h:124-126) reads the member into a register and writes it back; get() (136-138) reads it.
    The local variable is the register, which is also the value get() returns. *)
Definition count_read (s : N) (_ : N) : N * N := (s, s).
Definition count_write (_ : N) (l : N) : N * N := (wrap64 (l + 1), l).
Definition count_method : method N N := {| m_look := fun _ l => l; m_done := fun _ => false; m_crit := [count_read; count_write] |}.
Definition count_get_method : method N N := {| m_look := fun _ l => l; m_done := fun _ => false; m_crit := [count_read] |}.

(** Locals of the counting filters: a register, the sample, the returned optional. *)
Record flocal (X A : Type) := { f_reg : N; f_sample : X * A; f_result : option (X * A) }.
Arguments f_reg {X A}. Arguments f_sample {X A}. Arguments f_result {X A}.
Definition f_load {X A} (s : N) (l : flocal X A) : N * flocal X A := (s, {| f_reg := s; f_sample := f_sample l; f_result := f_result l |}).
(** TakeEveryNth::filter, take_every_nth.impl.h:131-142: [if (counter % every_nth == 0) { counter = 1; return sample } else { ++counter; return {}; }]
    (for every_nth > 0). The three accesses: read counter and compute; write 1, or read for the increment; write back the increment. *)
Definition ten_second {X A} (n : N) (s : N) (l : flocal X A) : N * flocal X A :=
  if (f_reg l mod n =? 0)%N then (1%N, {| f_reg := f_reg l; f_sample := f_sample l; f_result := Some (f_sample l) |})
  else (s, {| f_reg := s; f_sample := f_sample l; f_result := None |}).
Definition ten_third {X A} (s : N) (l : flocal X A) : N * flocal X A :=
  match f_result l with Some _ => (s, l) | None => (wrap64 (f_reg l + 1), l) end.
Definition ten_method {X A} (n : N) : method N (flocal X A) := {| m_look := fun _ l => l; m_done := fun _ => false; m_crit := [f_load; ten_second n; ten_third] |}.
(** DiscardFirstN::filter, discard_first_n.impl.h:124-132: [++counter; if (counter > initial_n_samples) return sample; else return {};]: read, write, read and compare. *)
Definition dfn_second {X A} (_ : N) (l : flocal X A) : N * flocal X A := (wrap64 (f_reg l + 1), l).
Definition dfn_third {X A} (n : N) (s : N) (l : flocal X A) : N * flocal X A :=
  (s, {| f_reg := s; f_sample := f_sample l; f_result := if (n <? s)%N then Some (f_sample l) else None |}).
Definition dfn_method {X A} (n : N) : method N (flocal X A) := {| m_look := fun _ l => l; m_done := fun _ => false; m_crit := [f_load; dfn_second; dfn_third n] |}.

(** Histogram::consume, histogram.impl.h:328-342 (release build): without the lock, the sample is compared with interval_points and its bin computed (331-336) and compared with
    bins.size(); then under the lock bins[bin] is read and written back. *)
Record hlocal := { hl_v : dbl; hl_bin : nat; hl_skip : bool; hl_reg : N }.
Definition hist_look (s : hist) (l : hlocal) : hlocal :=
  {| hl_v := hl_v l; hl_bin := bin_of (h_pts s) (hl_v l); hl_skip := outside (h_pts s) (hl_v l) || negb (bin_of (h_pts s) (hl_v l) <? List.length (h_bins s)); hl_reg := hl_reg l |}.
Definition hist_read (s : hist) (l : hlocal) : hist * hlocal := (s, {| hl_v := hl_v l; hl_bin := hl_bin l; hl_skip := hl_skip l; hl_reg := nth (hl_bin l) (h_bins s) 0%N |}).
Fixpoint set_bin (bins : list N) (bin : nat) (v : N) : list N :=
  match bins, bin with
  | c :: r, 0 => v :: r
  | c :: r, S k => c :: set_bin r k v
  | [], _ => []
  end.
Definition hist_write (s : hist) (l : hlocal) : hist * hlocal := ({| h_pts := h_pts s; h_bins := set_bin (h_bins s) (hl_bin l) (wrap64 (hl_reg l + 1)) |}, l).
Definition hist_method : method hist hlocal := {| m_look := hist_look; m_done := hl_skip; m_crit := [hist_read; hist_write] |}.

(** MeanValue::consume, mean_value.impl.h:179-199: read n_samples; then either write it and current_mean (182-186), or write n_samples, read current_mean, write current_mean
    (190-198). *)
Section Mean.
Context {K : Type} (F : kops K).
Local Notation mst := (@mean_state K).
Record mlocal := { ml_x : vec K; ml_n : N; ml_mean : option (vec K) }.
Definition mean_load (s : mst) (l : mlocal) : mst * mlocal := (s, {| ml_x := ml_x l; ml_n := mv_n s; ml_mean := ml_mean l |}).
Definition mean_second (s : mst) (l : mlocal) : mst * mlocal :=
  if (ml_n l =? 0)%N then ({| mv_mean := mv_mean s; mv_n := 1 |}, l) else ({| mv_mean := mv_mean s; mv_n := wrap64 (ml_n l + 1) |}, l).
Definition mean_third (s : mst) (l : mlocal) : mst * mlocal :=
  if (ml_n l =? 0)%N then ({| mv_mean := Some (ml_x l); mv_n := mv_n s |}, l) else (s, {| ml_x := ml_x l; ml_n := ml_n l; ml_mean := mv_mean s |}).
Definition mean_fourth (s : mst) (l : mlocal) : mst * mlocal :=
  if (ml_n l =? 0)%N then (s, l)
  else match ml_mean l with
       | None => (s, l)
       | Some mean => ({| mv_mean := Some (mean_update F mean (ml_x l) (wrap64 (ml_n l + 1))); mv_n := mv_n s |}, l)
       end.
Definition mean_method : method mst mlocal := {| m_look := fun _ l => l; m_done := fun _ => false; m_crit := [mean_load; mean_second; mean_third; mean_fourth] |}.
End Mean.

(** StreamOutput::consume, stream_output.impl.h:180-189: the characters of the record one after the other. *)
Definition out_char (c : ascii) (s : string) (l : sample) : string * sample := ((s ++ String c EmptyString)%string, l).
Definition out_method (x : sample) : method string sample :=
  {| m_look := fun _ l => l; m_done := fun _ => false; m_crit := List.map out_char (list_ascii_of_string (write x "" ++ nl)) |}.

(** Action::consume, action.impl.h:174-186: the user's function, called with the sample and its auxiliary data, is any sequence of accesses to what it works on ([S]). The lock is taken unless concurrent actions are allowed
    (parameter [locked] of [lrun]). *)
Definition action_method {S X A} (user : list (S -> X * A -> S * (X * A))) : method S (X * A) := {| m_look := fun _ l => l; m_done := fun _ => false; m_crit := user |}.

(** Any other class: consume() as one access. *)
Definition whole {S L X} (consume : S -> X -> outcome S) (arg : L -> X) : method S L :=
  {| m_look := fun _ l => l; m_done := fun _ => false; m_crit := [fun s l => (match consume s (arg l) with Ok s' => s' | _ => s end, l)] |}.
