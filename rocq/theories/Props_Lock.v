(** Property theorems about calls made at the same time to objects with a mutex (C24, C38, C39, C41). *)
From Coq Require Import String Ascii QArith Permutation Qcanon.
From Verif Require Import Prelude FilterModel FilterSpec ConsumerModel ConsumerSpec HistModel HistSpec StatsModel StatsSpec StatsInst ConcModel ConcSpec ConcTop ConcPerm
  LockModel LockSpec LockProofs LockTop LockUses LockOnce LockObjects LockClasses.
Local Open Scope nat_scope.
Local Open Scope list_scope.
Local Notation length := List.length.

(** Two threads, both with two calls, alternating as far as the lock lets them. *)
Definition q (n : Z) (d : positive) : Qc := Q2Qc (n # d).
Definition turns : list nat := concat (repeat [0; 1] 40).

(** C38: every execution of calls made at the same time to an object whose functions lock its mutex is equivalent to making them one after the other in some
    order: an order of all calls that agrees with that of each thread, and with the real one when one call has returned before the other
    begins, in which they leave the object in the state in which they have actually left it, and return what they have actually returned. *)
Theorem C38_linearizable :
  forall (S L : Type) (programs : list (list (method S L * L))) (s0 : S) (l0 : L) (sched : list nat) (tr : list (levent L)) (st : lstate S L),
  look_fixed (methods programs) -> lrun true sched (linit s0 l0 programs) = (tr, st) -> all_done st ->
  exists (order : list (nat * nat)) (results : list (nat * nat * L)),
    (forall t, filter (mine t) order = calls_of programs t) /\
    one_by_one programs order s0 = (l_obj st, results) /\
    Permutation (returns tr) results /\
    (forall t1 t n r t2 u m t3, tr = t1 ++ VReturn t n r :: t2 ++ VBegin u m :: t3 -> before order (t, n) (u, m)).
Proof. exact @linearizable. Qed.
Print Assumptions C38_linearizable.
(** C38: the same while the calls are still going on: an order of the calls that have taken effect, with the results of all that have returned. *)
Theorem C38_linearizable_always :
  forall (S L : Type) (programs : list (list (method S L * L))) (s0 : S) (l0 : L) (sched : list nat) (tr : list (levent L)) (st : lstate S L),
  look_fixed (methods programs) -> lrun true sched (linit s0 l0 programs) = (tr, st) ->
  exists (order : list (nat * nat)) (s1 : S) (results : list (nat * nat * L)),
    one_by_one programs order s0 = (s1, results) /\
    (forall t, exists k, k <= length (nth t programs []) /\ filter (mine t) order = map (fun n => (t, n)) (seq 0 k)) /\
    (forall t n r, In (VReturn t n r) tr -> In (t, n, r) results) /\
    (forall t1 t n r t2 u m t3, tr = t1 ++ VReturn t n r :: t2 ++ VBegin u m :: t3 -> In (u, m) order -> before order (t, n) (u, m)) /\
    (l_owner st = None -> l_obj st = s1).
Proof. exact @linearizable_always. Qed.
Print Assumptions C38_linearizable_always.
(** C38: no lost updates: calls of consume() and of functions that only read, in any number of threads, divided into accesses in any way. The final state is that of consuming the same samples
    one after the other. *)
Theorem C38_no_lost_updates :
  forall (S L X : Type) (programs : list (list (method S L * L))) (consume : S -> X -> outcome S) (arg : L -> X) (is_consume : method S L * L -> bool)
    (s0 : S) (l0 : L) (sched : list nat) (tr : list (levent L)) (st : lstate S L),
  look_fixed (methods programs) -> (forall c, In c (concat programs) -> if is_consume c then carries_out consume arg c else reads_only c) ->
  lrun true sched (linit s0 l0 programs) = (tr, st) -> all_done st ->
  exists xs, Permutation xs (map (fun c => arg (snd c)) (filter is_consume (concat programs))) /\ forall s, run_consumer consume s0 xs = Ok s -> l_obj st = s.
Proof. intros S L X. exact (@no_lost_updates S L X). Qed.
Print Assumptions C38_no_lost_updates.
(** C38: at most one thread is in the protected part, and members are only accessed there. *)
Theorem C38_mutual_exclusion :
  forall (S L : Type) (programs : list (list (method S L * L))) (s0 : S) (l0 : L) (sched : list nat) (tr : list (levent L)) (st : lstate S L) (t u : nat),
  look_fixed (methods programs) -> lrun true sched (linit s0 l0 programs) = (tr, st) -> inside tr t -> inside tr u -> t = u.
Proof. exact @mutual_exclusion. Qed.
Print Assumptions C38_mutual_exclusion.
Theorem C38_accesses_inside :
  forall (S L : Type) (programs : list (list (method S L * L))) (s0 : S) (l0 : L) (sched : list nat) (t1 : list (levent L)) (t n : nat) (t2 : list (levent L)) (st : lstate S L),
  look_fixed (methods programs) -> lrun true sched (linit s0 l0 programs) = (t1 ++ VAccess t n :: t2, st) -> inside t1 t.
Proof. exact @accesses_inside. Qed.
Print Assumptions C38_accesses_inside.
(** C38: the lines that StreamOutput writes are never mixed, although each is written in several pieces. *)
Theorem C38_lines_not_mixed :
  forall (L : Type) (programs : list (list (method string L * L))) (arg : L -> sample) (l0 : L) (sched : list nat) (tr : list (levent L)) (st : lstate string L),
  Forall texts_ok (map (fun c => arg (snd c)) (concat programs)) ->
  look_fixed (methods programs) -> (forall c, In c (concat programs) -> carries_out out_consume arg c) ->
  lrun true sched (linit ""%string l0 programs) = (tr, st) -> all_done st ->
  Permutation (lines (l_obj st)) (map (fun c => text (arg (snd c))) (concat programs)).
Proof. exact @out_concurrent. Qed.
Print Assumptions C38_lines_not_mixed.
(** The hypotheses are met by the member functions of the library, divided into single reads and writes: *)
Theorem C38_member_functions :
  (forall X (arg : N -> X) a, carries_out count_consume arg (count_method, a)) /\ (forall a, reads_only (count_get_method, a)) /\
  (forall a, carries_out (hist_consume Release) hl_v (hist_method, a)) /\
  (forall K (F : kops K) a, carries_out (mean_consume F) ml_x (mean_method F, a)) /\
  (forall x, carries_out out_consume (fun l => l) (out_method x, x)) /\
  (forall S L X (consume : S -> X -> outcome S) (arg : L -> X) a, carries_out consume arg (whole consume arg, a)) /\
  (forall ms, (forall m, In m ms -> m = hist_method) -> look_fixed ms) /\
  (forall ms, (forall m, In m ms -> m = count_method \/ m = count_get_method) -> look_fixed ms) /\
  (forall K (F : kops K) ms, (forall m, In m ms -> m = mean_method F) -> look_fixed ms) /\
  (forall ms, (forall m, In m ms -> exists x, m = out_method x) -> look_fixed ms) /\
  (forall S L (ms : list (method S L)), (forall m, In m ms -> forall s l, m_look m s l = l) -> look_fixed ms).
Proof.
  exact (conj (@count_ok) (conj count_get_ok (conj hist_ok (conj (@mean_ok) (conj out_ok (conj (@whole_ok) (conj hist_fixed (conj count_fixed (conj (@mean_fixed) (conj out_fixed (@fixed_id))))))))))).
Qed.
Print Assumptions C38_member_functions.
Definition two_counters : list (list (method N N * N)) := [[(count_method, 0%N); (count_get_method, 0%N)]; [(count_method, 0%N); (count_method, 0%N)]].
(* With the lock the two threads count to 3, and get() returns a value in between. Without it (not a program of the library) updates are lost. *)
Example C38_example :
  (let r := lrun true turns (linit count_init 0%N two_counters) in all_done (snd r) /\ l_obj (snd r) = 3%N /\ In (VReturn 0 1 2%N) (fst r) /\
     exists t1 t2, fst r = t1 ++ VAccess 0 0 :: t2 /\ In (VBegin 1 0) t1 /\ ~ In (VReturn 1 0 0%N) t1) /\
  (let r := lrun false turns (linit count_init 0%N two_counters) in all_done (snd r) /\ l_obj (snd r) = 2%N).
Proof.
  split.
  - split; [apply all_done_intro; vm_compute; reflexivity|]. split; [vm_compute; reflexivity|]. split; [vm_compute; auto 30|].
    exists (firstn 5 (fst (lrun true turns (linit count_init 0%N two_counters)))), (skipn 6 (fst (lrun true turns (linit count_init 0%N two_counters)))).
    split; [vm_compute; reflexivity|]. split; [vm_compute; auto 10|]. vm_compute. intros H. repeat (destruct H as [H|H]; [discriminate|]). exact H.
  - split; [apply all_done_intro; vm_compute; reflexivity|vm_compute; reflexivity].
Qed.
Definition two_writers : list (list (method string sample * sample)) :=
  [[(out_method (Scalar "12"), Scalar "12")]; [(out_method (Vec [Scalar "3"; Scalar "45"]), Vec [Scalar "3"; Scalar "45"])]].
Example C38_lines_example :
  (let r := lrun true turns (linit ""%string (Scalar "") two_writers) in all_done (snd r) /\ l_obj (snd r) = ("12" ++ nl ++ "3 45 " ++ nl)%string) /\
  (let r := lrun false turns (linit ""%string (Scalar "") two_writers) in all_done (snd r) /\ l_obj (snd r) = ("132 " ++ nl ++ "45 " ++ nl)%string).
Proof.
  split; (split; [apply all_done_intro; vm_compute; reflexivity|vm_compute; reflexivity]).
Qed.

(** C41: any number of threads call TakeEveryNth at the same time: ceil(N/n) of the N calls return the sample. *)
Theorem C41_take_every_nth :
  forall (L X A : Type) (n : nat) (arg : L -> X * A) (res : L -> option (X * A)) (programs : list (list (method N L * L))) (l0 : L) (sched : list nat)
    (tr : list (levent L)) (st : lstate N L),
  0 < n -> (N.of_nat n < two64)%N -> look_fixed (methods programs) ->
  (forall c, In c (concat programs) -> carries_out_filter (ten_filter (N.of_nat n)) arg res c) ->
  lrun true sched (linit ten_init l0 programs) = (tr, st) -> all_done st -> length (forwarded res tr) = ceil_div (length (concat programs)) n.
Proof. exact @ten_concurrent. Qed.
Print Assumptions C41_take_every_nth.
(** C41: ... DiscardFirstN: max(N - n, 0). *)
Theorem C41_discard_first_n :
  forall (L X A : Type) (n : nat) (arg : L -> X * A) (res : L -> option (X * A)) (programs : list (list (method N L * L))) (l0 : L) (sched : list nat)
    (tr : list (levent L)) (st : lstate N L),
  (N.of_nat (length (concat programs)) < two64)%N -> look_fixed (methods programs) ->
  (forall c, In c (concat programs) -> carries_out_filter (dfn_filter (N.of_nat n)) arg res c) ->
  lrun true sched (linit dfn_init l0 programs) = (tr, st) -> all_done st -> length (forwarded res tr) = length (concat programs) - n.
Proof. exact @dfn_concurrent. Qed.
Print Assumptions C41_discard_first_n.
(** C41: which samples are forwarded: those that the filter would forward from some ordering of all samples. *)
Theorem C41_any_filter :
  forall (S L X Y A : Type) (programs : list (list (method S L * L))) (f : filter_fn S X Y A) (arg : L -> X * A) (res : L -> option (Y * A))
    (s0 : S) (l0 : L) (sched : list nat) (tr : list (levent L)) (st : lstate S L),
  look_fixed (methods programs) -> (forall c, In c (concat programs) -> carries_out_filter f arg res c) ->
  lrun true sched (linit s0 l0 programs) = (tr, st) -> all_done st ->
  exists xs, Permutation xs (map (fun c => arg (snd c)) (concat programs)) /\
    forall c ys, run_filter f s0 xs = Ok (c, ys) -> l_obj st = c /\ Permutation (forwarded res tr) ys.
Proof. intros S L X Y A. exact (@filter_linear S L X Y A). Qed.
Print Assumptions C41_any_filter.
Theorem C41_member_functions :
  (forall X A n (a : flocal X A), (0 < n)%N -> carries_out_filter (ten_filter n) f_sample f_result (ten_method n, a)) /\
  (forall X A n (a : flocal X A), carries_out_filter (dfn_filter n) f_sample f_result (dfn_method n, a)) /\
  (forall X A n (ms : list (method N (flocal X A))), (forall m, In m ms -> m = ten_method n) -> look_fixed ms) /\
  (forall X A n (ms : list (method N (flocal X A))), (forall m, In m ms -> m = dfn_method n) -> look_fixed ms).
Proof. exact (conj (@ten_ok) (conj (@dfn_ok) (conj (@ten_fixed) (@dfn_fixed)))). Qed.
Print Assumptions C41_member_functions.
Definition send (x : nat) : flocal nat unit := {| f_reg := 0; f_sample := (x, tt); f_result := None |}.
Definition two_senders (m : method N (flocal nat unit)) : list (list (method N (flocal nat unit) * flocal nat unit)) := [[(m, send 1); (m, send 2)]; [(m, send 3); (m, send 4); (m, send 5)]].
Example C41_example :
  (let r := lrun true turns (linit ten_init (send 0) (two_senders (ten_method 2))) in all_done (snd r) /\ forwarded f_result (fst r) = [(1, tt); (2, tt); (5, tt)]) /\
  (let r := lrun true turns (linit dfn_init (send 0) (two_senders (dfn_method 2))) in all_done (snd r) /\ forwarded f_result (fst r) = [(2, tt); (4, tt); (5, tt)]) /\
  (let r := lrun false turns (linit ten_init (send 0) (two_senders (ten_method 5))) in all_done (snd r) /\ length (forwarded f_result (fst r)) <> ceil_div 5 5).
Proof.
  split; [|split]; (split; [apply all_done_intro; vm_compute; reflexivity|]).
  - vm_compute. reflexivity.
  - vm_compute. reflexivity.
  - vm_compute. discriminate.
Qed.

(** C24: each call of Action::consume calls the user's function exactly once, with the sample and auxiliary data it was given, and returns after it; whether or not
    concurrent actions are allowed. (These are all events of the call, in the order in which they happen.) *)
Theorem C24_called_once :
  forall (S X A : Type) (user : list (S -> X * A -> S * (X * A))) (samples : list (list (X * A))) (allow_concurrent_action : bool) (s0 : S) (l0 : X * A)
    (sched : list nat) (tr : list (levent (X * A))) (st : lstate S (X * A)),
  lrun (negb allow_concurrent_action) sched (linit s0 l0 (map (map (fun xa => (action_method user, xa))) samples)) = (tr, st) -> all_done st ->
  forall t n xa, nth_error (nth t samples []) n = Some xa ->
  exists r, filter (about t n) tr = VBegin t n :: VEnter t n xa :: repeat (VAccess t n) (length user) ++ [VLeave t n; VReturn t n r].
Proof. exact @action_once. Qed.
Print Assumptions C24_called_once.
(** C24: unless concurrent actions are allowed, it never runs twice at the same time. *)
Theorem C24_one_at_a_time :
  forall (S X A : Type) (user : list (S -> X * A -> S * (X * A))) (samples : list (list (X * A))) (s0 : S) (l0 : X * A)
    (sched : list nat) (tr : list (levent (X * A))) (st : lstate S (X * A)) (t u : nat),
  lrun true sched (linit s0 l0 (map (map (fun xa => (action_method user, xa))) samples)) = (tr, st) -> inside tr t -> inside tr u -> t = u.
Proof. exact @action_alone. Qed.
Print Assumptions C24_one_at_a_time.
(** C24: if they are, it can. *)
Theorem C24_concurrent_actions :
  exists (user : list (nat -> nat * unit -> nat * (nat * unit))) (samples : list (list (nat * unit))) (sched : list nat),
  let tr := fst (lrun false sched (linit 0 (0, tt) (map (map (fun xa => (action_method user, xa))) samples))) in inside tr 0 /\ inside tr 1.
Proof. exact action_concurrent. Qed.
Print Assumptions C24_concurrent_actions.
Example C24_example :
  let user := [fun (s : list nat) (x : nat * unit) => (s ++ [fst x], x); fun s x => (s ++ [fst x], x)] in
  let r := lrun true turns (linit [] (0, tt) (map (map (fun xa => (action_method user, xa))) [[(1, tt); (2, tt)]; [(3, tt)]])) in
  all_done (snd r) /\ l_obj (snd r) = [1; 1; 3; 3; 2; 2].
Proof. cbn zeta. split; [apply all_done_intro; vm_compute; reflexivity|vm_compute; reflexivity]. Qed.

(** C39: the consumers whose result does not depend on the order, used from any number of threads (or background tasks) in any interleaving: the result is that of consuming the samples one after
    the other in any given order [ys]. *)
Theorem C39_count_async :
  forall (L X : Type) (programs : list (list (method N L * L))) (arg : L -> X) (is_consume : method N L * L -> bool) (l0 : L) (sched : list nat)
    (tr : list (levent L)) (st : lstate N L) (ys : list X),
  look_fixed (methods programs) -> (forall c, In c (concat programs) -> if is_consume c then carries_out count_consume arg c else reads_only c) ->
  Permutation ys (map (fun c => arg (snd c)) (filter is_consume (concat programs))) ->
  lrun true sched (linit count_init l0 programs) = (tr, st) -> all_done st ->
  exists s, run_consumer count_consume count_init ys = Ok s /\ count_get (l_obj st) = count_get s.
Proof. exact @count_async. Qed.
Print Assumptions C39_count_async.
Theorem C39_mean_async :
  forall (K : Type) (F : kops K), exact_arithmetic F ->
  forall (L : Type) (programs : list (list (method mean_state L * L))) (arg : L -> vec K) (is_consume : method mean_state L * L -> bool) (dflt : option (vec K)) (l0 : L)
    (sched : list nat) (tr : list (levent L)) (st : lstate mean_state L) (ys : list (vec K)) (d : nat),
  ys <> [] -> all_size d ys -> (N.of_nat (length ys) < 2 ^ 64)%N ->
  look_fixed (methods programs) -> (forall c, In c (concat programs) -> if is_consume c then carries_out (mean_consume F) arg c else reads_only c) ->
  Permutation ys (map (fun c => arg (snd c)) (filter is_consume (concat programs))) ->
  lrun true sched (linit (mean_init dflt) l0 programs) = (tr, st) -> all_done st ->
  exists s m, run_consumer (mean_consume F) (mean_init dflt) ys = Ok s /\ mean_get s = Ok m /\ mean_get (l_obj st) = Ok m.
Proof. exact @mean_async. Qed.
Print Assumptions C39_mean_async.
Theorem C39_covariance_async :
  forall (K : Type) (F : kops K), exact_arithmetic F ->
  forall (L : Type) (programs : list (list (method cov_state L * L))) (arg : L -> vec K) (is_consume : method cov_state L * L -> bool) (garbage : matrix K) (l0 : L)
    (sched : list nat) (tr : list (levent L)) (st : lstate cov_state L) (ys : list (vec K)) (d i j : nat),
  2 <= length ys -> all_size d ys -> (N.of_nat (length ys) < 2 ^ 64)%N -> i < d -> j < d ->
  look_fixed (methods programs) -> (forall c, In c (concat programs) -> if is_consume c then carries_out (cov_consume F) arg c else reads_only c) ->
  Permutation ys (map (fun c => arg (snd c)) (filter is_consume (concat programs))) ->
  lrun true sched (linit (cov_init garbage) l0 programs) = (tr, st) -> all_done st ->
  exists s, run_consumer (cov_consume F) (cov_init garbage) ys = Ok s /\ fst (cov_get (l_obj st)) = fst (cov_get s) /\ snd (cov_get (l_obj st)) i j = snd (cov_get s) i j.
Proof. exact @cov_async. Qed.
Print Assumptions C39_covariance_async.
Theorem C39_histogram_async :
  forall (L : Type) (b : build) (programs : list (list (method hist L * L))) (arg : L -> dbl) (is_consume : method hist L * L -> bool) (pts : list dbl) (n : nat) (l0 : L)
    (sched : list nat) (tr : list (levent L)) (st : lstate hist L) (ys : list dbl),
  subdivision pts -> length pts = n + 1 -> (forall v, In v ys -> v <> DNaN) -> (N.of_nat (length ys) < 2 ^ 64)%N ->
  look_fixed (methods programs) -> (forall c, In c (concat programs) -> if is_consume c then carries_out (hist_consume b) arg c else reads_only c) ->
  Permutation ys (map (fun c => arg (snd c)) (filter is_consume (concat programs))) ->
  lrun true sched (linit {| h_pts := pts; h_bins := repeat 0%N n |} l0 programs) = (tr, st) -> all_done st ->
  exists s rows, run_consumer (hist_consume b) {| h_pts := pts; h_bins := repeat 0%N n |} ys = Ok s /\ hist_get s = Ok rows /\ hist_get (l_obj st) = Ok rows.
Proof. exact @hist_async. Qed.
Print Assumptions C39_histogram_async.
Theorem C39_pair_histogram_async :
  forall (L : Type) (b : build) (programs : list (list (method phist L * L))) (arg : L -> list dbl) (is_consume : method phist L * L -> bool)
    (xp yp : list dbl) (nx ny : nat) (garbage : nat -> nat -> N) (l0 : L) (sched : list nat) (tr : list (levent L)) (st : lstate phist L) (ys : list (list dbl)),
  subdivision xp -> subdivision yp -> length xp = nx + 1 -> length yp = ny + 1 ->
  (forall v, In v ys -> length v = 2 /\ Forall (fun c => c <> DNaN) v) -> (N.of_nat nx * N.of_nat ny <= 2 ^ 32)%N -> (forall i j, (garbage i j < 2 ^ 64)%N) ->
  look_fixed (methods programs) -> (forall c, In c (concat programs) -> if is_consume c then carries_out (phist_consume b) arg c else reads_only c) ->
  Permutation ys (map (fun c => arg (snd c)) (filter is_consume (concat programs))) ->
  let s0 := {| ph_x := xp; ph_y := yp; ph_rows := nx; ph_cols := ny; ph_bins := garbage |} in
  lrun true sched (linit s0 l0 programs) = (tr, st) -> all_done st ->
  exists s rows, run_consumer (phist_consume b) s0 ys = Ok s /\ phist_get s = Ok rows /\ phist_get (l_obj st) = Ok rows.
Proof. exact @phist_async. Qed.
Print Assumptions C39_pair_histogram_async.
(** C39, the whole way: when all threads are done and nothing was dropped, consume() has been called with exactly the samples that were delivered, ... *)
Theorem C39_consumed_are_delivered :
  forall (X : Type) (b : build) (pw : bool) (body : X -> list (op X)) (conns : list (nat * nat * kind)) (q : nat) (programs : list (list (op X)))
    (sched : list (nat * bool)) (tr : list (event X)) (s : state X),
  run b pw body sched (initial conns q programs) = (tr, s) -> (forall u, u < length (c_threads s) -> finished s u) -> forallb snd sched = true -> none any_drop tr ->
  Permutation (consumed tr) (deliveries tr).
Proof. exact @consumed_delivered. Qed.
Print Assumptions C39_consumed_are_delivered.
(** ... and whatever the interleaving of these calls inside the consumer, get() is what it would be after consuming the samples one after the other in the order of delivery. *)
Theorem C39_asynchronous_equals_synchronous :
  forall (X S L R : Type) (b : build) (pw : bool) (body : X -> list (op X)) (conns : list (nat * nat * kind)) (q : nat) (programs : list (list (op X)))
    (sched : list (nat * bool)) (tr : list (event X)) (s : state X)
    (calls : list (list (method S L * L))) (consume : S -> X -> outcome S) (get : S -> R) (arg : L -> X) (is_consume : method S L * L -> bool)
    (s0 : S) (l0 : L) (sched' : list nat) (tr' : list (levent L)) (st : lstate S L) (r : R),
  run b pw body sched (initial conns q programs) = (tr, s) -> (forall u, u < length (c_threads s) -> finished s u) -> forallb snd sched = true -> none any_drop tr ->
  look_fixed (methods calls) -> (forall c, In c (concat calls) -> if is_consume c then carries_out consume arg c else reads_only c) ->
  Permutation (consumed tr) (map (fun c => arg (snd c)) (filter is_consume (concat calls))) ->
  (forall zs, Permutation (deliveries tr) zs -> exists s', run_consumer consume s0 zs = Ok s' /\ get s' = r) ->
  lrun true sched' (linit s0 l0 calls) = (tr', st) -> all_done st -> get (l_obj st) = r.
Proof. exact @end_to_end. Qed.
Print Assumptions C39_asynchronous_equals_synchronous.
(** C39 does not extend to the order-dependent consumers: which sample LastSample keeps, and which of several equally likely samples MaximumProbabilitySample keeps,
    depends on the interleaving. *)
Theorem C39_last_sample_async_refuted :
  exists (programs : list (list (method (option nat) nat * nat))) (sched sched' : list nat),
    (forall c, In c (concat programs) -> carries_out last_consume (fun x => x) c) /\
    let st := snd (lrun true sched (linit None 0 programs)) in let st' := snd (lrun true sched' (linit None 0 programs)) in
    all_done st /\ all_done st' /\ last_get (l_obj st) <> last_get (l_obj st').
Proof. exact last_depends. Qed.
Print Assumptions C39_last_sample_async_refuted.
Theorem C39_maximum_probability_async_refuted :
  exists (programs : list (list (method (max_state nat) (nat * aux) * (nat * aux)))) (sched sched' : list nat),
    (forall c, In c (concat programs) -> carries_out max_consume (fun x => x) c) /\
    let st := snd (lrun true sched (linit max_init (0, []) programs)) in let st' := snd (lrun true sched' (linit max_init (0, []) programs)) in
    all_done st /\ all_done st' /\ fst (max_get (l_obj st)) <> fst (max_get (l_obj st')).
Proof. exact max_depends. Qed.
Print Assumptions C39_maximum_probability_async_refuted.
Example C39_async_example :
  let programs := [[(mean_method Qc_ops, {| ml_x := [q 1 1]; ml_n := 0; ml_mean := None |})]; [(mean_method Qc_ops, {| ml_x := [q 2 1]; ml_n := 0; ml_mean := None |}); (mean_method Qc_ops, {| ml_x := [q 6 1]; ml_n := 0; ml_mean := None |})]] in
  let r := lrun true turns (linit (mean_init None) {| ml_x := []; ml_n := 0; ml_mean := None |} programs) in
  all_done (snd r) /\ exists m, mean_get (l_obj (snd r)) = Ok m /\ map this m = [3%Q].
Proof. cbn zeta. split; [apply all_done_intro; vm_compute; reflexivity|eexists; split; vm_compute; reflexivity]. Qed.
