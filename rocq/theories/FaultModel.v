(** Model of what consumers leave behind when an operation inside consume() throws: the same functions as in ConsumerModel and StatsModel, statement by statement, with a mark at every operation that may
    throw (allocations, copies, assignments and arithmetic of the sample type). A throwing operation has no effect itself (strong guarantee of the sample type); the destructor of the lock releases the mutex.
    That they are the same functions if nothing throws is theorem C69_without_exceptions. *)
From Coq Require Import QArith.
From Verif Require Import Prelude ConsumerModel StatsModel.
Local Open Scope nat_scope.

(** Executing statements: they go on with a value, the members of the object and the number of operations until one throws (None: none will); or an operation has thrown; or the behaviour is undefined. *)
Inductive exec (St A : Type) : Type := Go (a : A) (s : St) (fault : option nat) | Stop (s : St) | Undef.
Arguments Go {St A}. Arguments Stop {St A}. Arguments Undef {St A}.
Definition stmt (St A : Type) := St -> option nat -> exec St A.
Definition ret {St A} (a : A) : stmt St A := fun s f => Go a s f.
Definition seq_ {St A B} (m : stmt St A) (k : A -> stmt St B) : stmt St B :=
  fun s f => match m s f with Go a s' f' => k a s' f' | Stop s' => Stop s' | Undef => Undef end.
Definition members {St} : stmt St St := fun s f => Go s s f.
Definition set {St} (upd : St -> St) : stmt St unit := fun s f => Go tt (upd s) f.
Definition may_throw {St} : stmt St unit := fun s f => match f with Some O => Stop s | Some (S k) => Go tt s (Some k) | None => Go tt s None end.
Definition undefined {St A} : stmt St A := fun _ _ => Undef.
Notation "'do_' x <- m ; k" := (seq_ m (fun x => k)) (at level 200, x name, m at level 100, k at level 200).
Notation "m ;; k" := (seq_ m (fun _ => k)) (at level 199, right associativity).

(** How a call ends. *)
Inductive ending (St : Type) : Type := Finished (s : St) | Threw (s : St) | Bad.
Arguments Finished {St}. Arguments Threw {St}. Arguments Bad {St}.
Definition call {St X} (consume : X -> stmt St unit) (s : St) (x : X) (fault : option nat) : ending St :=
  match consume x s fault with Go _ s' _ => Finished s' | Stop s' => Threw s' | Undef => Bad end.

(** [LastSample::consume], last_sample.impl.h:99-107. *)
Definition last_stmts {X} (x : X) : stmt (option X) unit := may_throw ;; set (fun _ => Some x).
(** [CountSamples::consume], count_samples.impl.h:119-127. *)
Definition count_stmts {X} (_ : X) : stmt N unit := set (fun n => wrap64 (n + 1)).
(** [MaximumProbabilitySample::consume], maximum_probability_sample.impl.h:151-182: looking up the key (158-160) may allocate a string, std::any_cast may throw, and so may the assignment of the sample; moving the map of auxiliary data
    does not. *)
Definition max_stmts {X} (x : X * aux) : stmt (max_state X) unit :=
  may_throw ;;
  match aux_find ll_key (snd x) with
  | None => ret tt
  | Some (AnyDouble ll) =>
    do_ s <- members;
    if (deq (m_ll s) lowest || dgt ll (m_ll s))%bool
    then may_throw ;; set (fun s => {| m_sample := Some (fst x); m_aux := m_aux s; m_ll := m_ll s |}) ;;
         set (fun s => {| m_sample := m_sample s; m_aux := snd x; m_ll := m_ll s |}) ;;
         set (fun s => {| m_sample := m_sample s; m_aux := m_aux s; m_ll := ll |})
    else ret tt
  | Some _ => fun s _ => Stop s
  end.
(** [AcceptanceRatio::consume], acceptance_ratio.impl.h:190-224. *)
Definition acc_stmts {X} (eqb : X -> X -> bool) (x : X) : stmt (acc_state X) unit :=
  do_ s <- members;
  if (a_n s =? 0)%N then
    set (fun s => {| a_n := 1; a_acc := a_acc s; a_prev := a_prev s |}) ;;                               (* 200 *)
    set (fun s => {| a_n := a_n s; a_acc := 1; a_prev := a_prev s |}) ;;                                 (* 201 *)
    may_throw ;; set (fun s => {| a_n := a_n s; a_acc := a_acc s; a_prev := Some x |})                   (* 202 *)
  else match a_prev s with
  | None => undefined
  | Some p =>
    may_throw ;;                                                                                         (* is_equal, 208 *)
    if eqb x p then set (fun s => {| a_n := wrap64 (a_n s + 1); a_acc := a_acc s; a_prev := a_prev s |}) (* 213 *)
    else
      set (fun s => {| a_n := a_n s; a_acc := wrap64 (a_acc s + 1); a_prev := a_prev s |}) ;;            (* 219 *)
      may_throw ;; set (fun s => {| a_n := a_n s; a_acc := a_acc s; a_prev := Some x |}) ;;              (* 220 *)
      set (fun s => {| a_n := wrap64 (a_n s + 1); a_acc := a_acc s; a_prev := a_prev s |})               (* 221 *)
  end.

Section Stats.
Context {K : Type}.
Variable F : kops K.
(** [MeanValue::consume], mean_value.impl.h:173-200. *)
Definition mean_stmts (x : list K) : stmt (@mean_state K) unit :=
  do_ s <- members;
  if (mv_n s =? 0)%N then
    set (fun s => {| mv_mean := mv_mean s; mv_n := 1 |}) ;;                                              (* 185 *)
    may_throw ;; set (fun s => {| mv_mean := Some x; mv_n := mv_n s |})                                  (* 186 *)
  else
    set (fun s => {| mv_mean := mv_mean s; mv_n := wrap64 (mv_n s + 1) |}) ;;                            (* 192 *)
    may_throw ;;                                                                                         (* 194: update = sample *)
    match mv_mean s with
    | None => undefined
    | Some mean =>
      if same_size x mean then
        may_throw ;; may_throw ;; may_throw ;;                                                           (* 195-198: -=, /=, += *)
        set (fun s => {| mv_mean := Some (mean_update F mean x (mv_n s)); mv_n := mv_n s |})             (* 198 *)
      else undefined
    end.
(** [CovarianceMatrix::consume], covariance_matrix.impl.h:155-196. *)
Definition cov_stmts (x : list K) : stmt (@cov_state K) unit :=
  do_ s <- members;
  if (cv_n s =? 0)%N then
    set (fun s => {| cv_mean := cv_mean s; cv_cov := cv_cov s; cv_dim := cv_dim s; cv_n := 1 |}) ;;                        (* 171 *)
    may_throw ;; set (fun s => {| cv_mean := cv_mean s; cv_cov := cv_cov s; cv_dim := length x; cv_n := cv_n s |}) ;;      (* 172: resize *)
    may_throw ;; set (fun s => {| cv_mean := Some x; cv_cov := cv_cov s; cv_dim := cv_dim s; cv_n := cv_n s |})            (* 173 *)
  else
    set (fun s => {| cv_mean := cv_mean s; cv_cov := cv_cov s; cv_dim := cv_dim s; cv_n := wrap64 (cv_n s + 1) |}) ;;      (* 179 *)
    may_throw ;;                                                                                                           (* 181: delta = sample *)
    match cv_mean s with
    | None => undefined
    | Some mean =>
      if same_size x mean then
        may_throw ;;                                                                                                       (* 182: delta -= mean *)
        set (fun s => {| cv_mean := cv_mean s; cv_cov := cov_entry F (vop (ksub F) x mean) (cv_n s) (cv_cov s); cv_dim := cv_dim s; cv_n := cv_n s |}) ;;   (* 183-191 *)
        may_throw ;; may_throw ;; may_throw ;; may_throw ;;                                                                (* 192-195: =, -=, /=, += *)
        set (fun s => {| cv_mean := Some (mean_update F mean x (cv_n s)); cv_cov := cv_cov s; cv_dim := cv_dim s; cv_n := cv_n s |})  (* 195 *)
      else undefined
    end.

(** Assigning alpha[l] and beta[l]. *)
Definition set_lag {A} (l : nat) (a : A) : stmt (@lagged K A) unit :=
  set (fun s => {| lg_mean := lg_mean s; lg_lags := firstn l (lg_lags s) ++ a :: skipn (S l) (lg_lags s); lg_prev := lg_prev s; lg_n := lg_n s |}).
(** The body of the loop over the lags, auto_covariance_trace.impl.h:453-497. *)
Definition act_lag_stmts (x : list K) (l : nat) (alpha : K) (beta : list K) : stmt (@lagged K (K * list K)) unit :=
  do_ s <- members;
  let n := lg_n s in let prev := lg_prev s in
  if (n =? N.of_nat l + 1)%N then
    match nth_error prev 0, nth_error prev l, nth_error prev 1, nth_error prev (l + 1) with
    | Some p0, Some pl, Some p1, Some pl1 =>
      let alpha := dot_add F (dot_add F (k0 F) p0 pl) p1 pl1 in
      set_lag l (alpha, beta) ;;                                                                                           (* 457-463 *)
      may_throw ;; set_lag l (alpha, p0) ;;                                                                                (* 465 *)
      may_throw ;; set_lag l (alpha, vop (kadd F) p0 p1) ;;                                                                (* 466 *)
      may_throw ;; set_lag l (alpha, vop (kadd F) (vop (kadd F) p0 p1) pl) ;;                                              (* 467 *)
      may_throw ;; set_lag l (alpha, vop (kadd F) (vop (kadd F) (vop (kadd F) p0 p1) pl) pl1)                              (* 468 *)
    | _, _, _, _ => undefined
    end
  else if (N.of_nat l + 2 <=? n)%N then
    match nth_error prev l with
    | Some pl =>
      let factor := kdiv F (k1 F) (kofN F (n - N.of_nat l)) in
      let alpha := kadd F alpha (kmul F (dot_add F (kopp F alpha) x pl) factor) in
      set_lag l (alpha, beta) ;;                                                                                           (* 473-480 *)
      let betaupd := map (fun b => kmul F b factor) (vop (ksub F) (vop (kadd F) x pl) beta) in
      may_throw ;;                                                                                                         (* 484: betaupd = sample *)
      may_throw ;; set_lag l (alpha, vop (kadd F) beta betaupd)                                                            (* 496 *)
    | None => undefined
    end
  else ret tt.
Fixpoint act_loop_stmts (x : list K) (l : nat) (count : nat) : stmt (@lagged K (K * list K)) unit :=
  match count with
  | O => ret tt
  | S count' =>
    do_ s <- members;
    match nth_error (lg_lags s) l with
    | None => undefined
    | Some (alpha, beta) => act_lag_stmts x l alpha beta ;; act_loop_stmts x (S l) count'
    end
  end.
(** beta[l] = sample (may throw), then 0 in every component: auto_covariance_trace.impl.h:427-436 *)
Fixpoint act_first_stmts (x : list K) (l : nat) (count : nat) : stmt (@lagged K (K * list K)) unit :=
  match count with
  | O => ret tt
  | S count' => may_throw ;; set_lag l (k0 F, map (fun _ => k0 F) x) ;; act_first_stmts x (S l) count'
  end.
(** [AutoCovarianceTrace::consume], auto_covariance_trace.impl.h:409-510. Sizes are compared first, as in StatsModel. *)
Definition act_stmts (max_lag : nat) (x : list K) : stmt (@lagged K (K * list K)) unit :=
  do_ s <- members;
  if (lg_n s =? 0)%N then
    may_throw ;; may_throw ;;                                                                                              (* 424-425: alpha = ..., beta.resize; they count as assigned together and beta as empty: what is left behind before n_samples is 1 is overwritten anyway *)
    set (fun s => {| lg_mean := lg_mean s; lg_lags := repeat (k0 F, []) (max_lag + 1); lg_prev := lg_prev s; lg_n := lg_n s |}) ;;
    act_first_stmts x 0 (max_lag + 1) ;;
    may_throw ;; set (fun s => {| lg_mean := Some x; lg_lags := lg_lags s; lg_prev := lg_prev s; lg_n := lg_n s |}) ;;     (* 437 *)
    may_throw ;; set (fun s => {| lg_mean := lg_mean s; lg_lags := lg_lags s; lg_prev := x :: lg_prev s; lg_n := lg_n s |}) ;;   (* 440 *)
    set (fun s => {| lg_mean := lg_mean s; lg_lags := lg_lags s; lg_prev := lg_prev s; lg_n := 1 |})                       (* 441 *)
  else
    match lg_mean s with
    | None => undefined
    | Some mean =>
      if same_size x mean then
        may_throw ;; set (fun s => {| lg_mean := lg_mean s; lg_lags := lg_lags s; lg_prev := x :: lg_prev s; lg_n := lg_n s |}) ;;   (* 449 *)
        act_loop_stmts x 0 (length (lg_lags s)) ;;                                                                         (* 451-498 *)
        set (fun s => {| lg_mean := lg_mean s; lg_lags := lg_lags s; lg_prev := trim max_lag (lg_prev s); lg_n := lg_n s |}) ;;      (* 500-501 *)
        set (fun s => {| lg_mean := lg_mean s; lg_lags := lg_lags s; lg_prev := lg_prev s; lg_n := wrap64 (lg_n s + 1) |}) ;;        (* 502 *)
        may_throw ;; may_throw ;; may_throw ;; may_throw ;;                                                                (* 505-508 *)
        set (fun s => {| lg_mean := Some (mean_update F mean x (lg_n s)); lg_lags := lg_lags s; lg_prev := lg_prev s; lg_n := lg_n s |})  (* 508 *)
      else undefined
    end.
End Stats.
