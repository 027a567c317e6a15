# Formal model of SampleFlow in Coq: design

The model lives in `rocq/theories/`. Layering:

* `*Model.v`   – executable Gallina transcription of the C++ code, each definition citing file and lines in /repo and, where it
  simplifies, saying so.
* `*Spec.v`    – small independent specifications (sums, counts, intervals, traces, reference semantics) that do not use the model's helpers.
* other files  – lemmas (`*Proofs.v`, `*Inv.v`, `*Top.v`, ...).
* `Props_*.v`  – property theorems only: statement, `exact lemma.`, `Print Assumptions`, plus an `Example` showing that
  a concrete non-trivial case meets the hypotheses. A theorem `Cxx_..._refuted` proves, with a witness, that a documented or
  expected claim is false of the code.

`properties.jsonl` is written by `tools/mkprops.py`, `MANIFEST.json` by `tools/mkmanifest.py`, the list of axioms at the end of this file by
`tools/mkaxioms.py`. `tools/mutate.py` runs wrong programs against the theorems; its results are in `seeded/LOG.jsonl`.

## Conventions

* **Outcomes.** C++ undefined behaviour, failed assertions (debug builds) and exceptions are distinct results
  (`Ok`, `UB`, `AssertFail`, `Throw`), never totalised away. Where debug and release builds differ, the build is a parameter.
* **Numbers.** The numeric consumers are modelled once, generically over a record of arithmetic operations (`kops`). The
  exactness theorems are proved over every field of characteristic zero with a conjugation (instances: reals, canonical
  rationals, complex numbers as pairs of reals); the theorems about rounding (C56, C57) instantiate the *same* functions with IEEE binary64
  (Flocq's `binary_float 53 1024`, round to nearest even, with overflow, subnormals, infinities and NaN). Where the property is about
  special floating point values (MaximumProbabilitySample, Histogram, Metropolis-Hastings decisions) an extended-real /
  IEEE model of `double` is used; where it is about integer conversion or counter wrap-around the wrap is explicit.
* **Uninitialised memory** is a universally quantified input to the model (`garbage`).
* **User callbacks** (log likelihoods, proposals, predicates, conversions, filter functions) are arbitrary functions
  (universally quantified; in the producers they may depend on the whole history and throw); random draws are an arbitrary stream.
* **Concurrency** is a small-step transition system over an arbitrary number of threads; theorems quantify over all
  schedules. The memory model is sequentially consistent; that this is justified (no data races) is itself a property (C51, C32), stated
  by happens-before/lockset arguments on the model's accesses.

## Plan per property

| Id | model | proof |
|----|-------|-------|
| C01, C03, C05 | `NetModel`: heap of producers (slot lists) and consumers (multimap of connections), filters are both; operations connect, disconnect_and_flush, destroy, issue | invariant (map entries <-> live slots bijection), trace induction |
| C02 | same + `FilterModel`: filter as a stateful step, pipeline = fold | induction over pipeline and stream |
| C04 | `ChainModel`: expression trees of operator>> with named/temporary leaves | induction over trees: connections = adjacent pairs of the leaf list |
| C06 | flush traversal of the network (`NetModel`), ScopeExit in the producers (`ProducerModel`) | case analysis over throw points, induction over network |
| C07–C09, C41 | `FilterModel` with 64-bit counters; C41 the counter under any interleaving (`LockModel`) | induction over streams, wrap explicit in N |
| C10, C11, C18, C19, C23, C24, C40, C42, C43 | `ConsumerModel`, `ProducerModel.Range` | induction over streams; finite case analysis |
| C12, C14–C16 | `StatsModel` over a generic field, uninitialised contents as parameter | closed forms by induction with `field` |
| C13 | int32/size_t conversion model in Z | witness family + arithmetic |
| C17 | `StatsCosModel` over R | induction, Cauchy-Schwarz |
| C20–C22, C48 | `HistModel`: doubles with NaN/inf; break points also in IEEE arithmetic (`HistFloat`) | lower_bound correctness, counting induction, rounding analysis |
| C25–C27, C45 | `ProducerModel`: MH loop over an oracle with history; decision rule over extended reals | induction; detailed balance by sums and integrals |
| C28, C29, C46 | DRMH incl. the iterator arithmetic of alpha_fn | UB witness for all inputs with a rejection; real analysis of the acceptance probabilities |
| C30–C32, C47, C55 | DEMH generation loop; `DEConcModel`: main thread and tasks | simulation of every schedule by the sequential program; sums over finite state spaces |
| C33–C38, C44, C49–C51 | `ConcModel`: threads, std::mutex, std::shared_mutex, task queue, futures, connecting and destruction | inductive invariants over all schedules; refutations by concrete schedules |
| C38, C39, C40 | `LockModel`: objects with their own mutex, any division of the critical sections | linearisation; permutation invariance of the closed forms |
| C52 | `NetModel` against `NetOrderSpec`, a reference semantics without slots and maps | simulation |
| C53, C54 | `ANetModel`: whole networks, every consumer synchronous or asynchronous, any number of threads | flow invariants, rank function on acyclic graphs, termination measure |
| C58 | the code of MH run on scripts of (proposal, draw) pairs; expectation as nested sum and Riemann integral | the run equals the Markov chain by induction; Doeblin minorization, Poisson-type bound for averages |
| C56, C57 | `StatsModel` instantiated with Flocq's binary64 | range and error invariants, forward error analysis |
| C59 | the code of DelayedRejection… (delayed_rejection_mh.impl.h:156-275, with the out-of-bounds read of line 183 taken as harmless) run on scripts of (proposal, draw) pairs; finite state spaces | a run is a state machine fed with the script, its expectation the published kernel; detailed balance for one delay; refuted for random walks and for two delays by exhibiting an eigenfunctional/limit that differs from the target |
| C60 | the models of the consumers and filters in exact real arithmetic, fed with the samples of the runs of C58/C59 | each statistic is compared to its textbook form (equal to what the code reports below the counter's overflow), and that to its limit: averages, lagged averages (martingale and Poisson-type bounds), products and sums of consistent statistics; hitting times for the maximum; thinned chains are Markov chains with kernel K^k |
| C61 | mh_sample of ProducerModel.v over any type of numbers and operations (`dops D`), with scripts of proposals and random numbers from a finite list; the instance of binary64 (Flocq) with exp/log any functions of a given accuracy | the law of the run by induction on the number of samples (states of probability zero are never entered); perturbation of finite Markov chains: telescoping for the distribution, an approximate solution of the Poisson equation of the exact chain and a martingale of the perturbed one for the averages; error analysis of the acceptance test; explicit two-state chain for the refutation. Not modelled: correlations between the values of mt19937 (they are taken to be independent) |
| C62 | `ANetModel`: the same networks; consume(), filter() and std::async may throw in any step, exceptions unwind the stack of their thread | invariants that tie what is on a stack to the exceptions of its thread (`ANetExc`) |
| C63, C64 | `StatsModel` (the consumers of C12-C16) run on transformed, selected and interleaved streams | algebra with sums over the closed forms of C12-C16; selections by simulation in any arithmetic; Cauchy-Schwarz |
| C65 | `ProducerModel` (mh_sample, as in C47 to C50) with an environment whose proposals read the samples issued so far; `AdaptSpec.documented` runs the models of CountSamples and CovarianceMatrix on them. Exact arithmetic, finite state spaces, synchronous consumers | run law by induction on the script; uniform Doeblin condition; kernels Lipschitz in the history; perturbation for distributions, history dependent Poisson equation + martingale for averages; counterexample without diminishing adaptation |
| C66 | `StatsModel`, `HistModel`; `MemSpec` counts the scalars in the member variables (containers' overhead and the background queue, see C37, are not counted) | invariant over the stream with the 64 bit counter; any arithmetic |
| C67 | `ProducerModel` (mh_sample, dr_sample, de_sample) run several times on one trace (`ContSpec.sessions`): the rng is a member, so its answers go on; everything outside may depend on the past except evaluations and flushes | congruence of the monadic programs modulo evaluations and flushes; loop splitting; counterexamples |
| C68 | the samplers and consumers of C58-C60 (`PipeSpec`), steady state autocovariances (`VarSpec`) | variance of a sum over the chain by a recursion on the number of samples, exponential decay from a minorization, reversibility for the truncated sums (`MarkovVar`, `VarProofs`) |
| C69 | the seven functions consume(), statement by statement, with a mark at every operation that may throw (`FaultModel`); a throwing operation is assumed to have no effect itself, the lock is released by its destructor | agreement with the models of the other properties if nothing throws; what a throwing call can change, then induction over histories (`FaultProofs`, `FaultProofs2`) |
| C70 | the samplers and consumers of C60 and C68; the event that a prefix of the run with at least n samples has a result eps or more from the truth (`SettleSpec`) | mean square errors C/n at the squares k^2 are summed, and between consecutive squares the textbook statistic changes by at most C/k (`SettleProofs`); refuted for proposals that do not connect the states |
| C71 | MoveModel.v: worlds of objects and Chains on top of NetModel (parts by reference, owned, or moved from), the move constructors with their assertions, and which members a Chain overrides | proved by a simulation (MoveProofs.v) between two worlds that agree up to renaming the moved Chain and up to the network of the Chains' own, never connected, base classes. Observed: deliveries in order, modes of the connections, and how a run fails. |
| C72 | AverageCosine over any type of numbers (`FCosModel`), equal to the model of C17 over the reals and instantiated with Flocq's binary64 and its square root | error analysis of the sums (induction), of the quotient, and the averages by C56's lemmas; NaN by propagation |
| C73 | `gacc_get`: the counters of C18, converted to double and divided | rounding error analysis |
| C74 | act_consume, act_get of StatsModel.v over binary64 (Flocq) | the run over doubles and the run over real numbers (C15) side by side: an invariant on the distance of each alpha[l], beta[l] (a contraction plus the rounding errors of a step, FApprox.v), then the error analysis of get(); witnesses by computation for the refuted claims |
| C75 | acm_consume, acm_get of StatsModel.v over binary64 (Flocq), with arbitrary contents of the uninitialised matrices | as C74, entry by entry |
| C76 | the samplers of ProducerModel.v in an environment where calls throw, compared with one where fewer do | a simulation between the two runs that stops at the throwing call, closed under sequencing; for DifferentialEvaluation a simulation in which two generations differ from the chain on whose exception waits in its future; counting evaluations for the number of samples |
| C77 | mh_sample over exact reals with log likelihoods that are -infinity or the lowest double in places, run on scripts of proposals and random numbers | an invariant (the current sample has positive probability) by induction on the run; the law by integrating over each random number, the acceptance probability of a zero-density proposal being zero; convergence and averages by restricting the chain to the support, where the theory of C54–C57 applies; a refutation by a three-state witness |
| C78 | dr_sample over exact reals with log likelihoods to the extended reals (also infinite or NaN), run on scripts of proposals and random numbers | the law by the induction of C59 with the ratio evaluated in extended reals; the ratio of a trial of density zero is zero or NaN (invariant of alpha_fn's loop); balance of the published probabilities with densities that may be zero; restriction of the chain to the support; refutations by a random number zero and by NaN being absorbing in alpha_fn |
| C79 | HistModel on the values of IEEE doubles (Flocq), break points computed with the operations of b64 as in the constructor | fl_point of HistFloat = the computed double when nothing overflows; relative error of each of the four operations; counting theorem of C20 on the computed points, then comparison of computed with ideal bins; overflow: infinite delta, 0*inf = NaN, step lemma for a NaN front |
| C80 | the same for PairHistogram, both axes, arbitrary contents of the uninitialised matrix | C22's counting theorem on the computed points, bounds per axis from C79; the sum of all counts axis by axis from C20's total (also for C22, `PhistTotal`) |
| C81 | de_sample over extended reals, log likelihoods finite or -infinity, any environment | the run invariant of C30/C47 with every stored log likelihood the one of its state; the test of the code evaluated by cases on the two densities; balance with densities that may be zero, then the product and crossover arguments of C55 |
| C82–… | see `properties.jsonl` and the head of the corresponding `Props_*.v` | |

None of the listed properties is inexpressible in the model.

## Trusted base

* Coq 8.16.1: kernel and (for examples and refutations by computation) its virtual machine; `coqc` and the standard library.
* Libraries used: Coq standard library; Flocq (definitions of rounding and of binary64; its theorems are proved, without axioms beyond those of Coq.Reals);
  Coquelicot (integrals in the detailed balance theorems). No axiom of these libraries other than Coq's own is used.
* Axioms: only those of the standard library listed at the end of this file: the construction of the real numbers
  (`ClassicalDedekindReals.sig_not_dec`, `ClassicalDedekindReals.sig_forall_dec`), functional extensionality and (through Flocq/Coquelicot's use of
  the Reals) `Classical_Prop.classic`. No axioms of our own; no Admitted; no kernel check is switched off; no functors or module types.
* The transcription from C++ to Gallina (read by eye; each definition cites its source), and the reading of the C++ standard it encodes (lifetime of
  temporaries, order of evaluation, std::async and std::future, std::multimap, boost::signals2 semantics: slots are called in the order of connection; disconnected
  slots are not called; emission holds a snapshot of the slot list).

### What is modelled

* `producer.impl.h`: issue_sample, flush_consumers, connect_to_signals, destructor. `consumer.impl.h`: constructor, connect_to_producer with its four slots (synchronous and asynchronous),
  set_parallel_mode, disconnect_and_flush, flush, trim_background_queue, destructor. `filter.impl.h`: consume, flush. `connections.impl.h`: operator>> and Chain.
  `scope_exit.impl.h`. `parallel_mode.impl.h`. `element_access.impl.h`. `auxiliary_data.impl.h` (as the data that travels with a sample).
* All filters: TakeEveryNth, DiscardFirstN, Condition, Conversion, PassThrough, ComponentSplitter.
* All consumers: Action, AcceptanceRatio, AutoCovarianceMatrix, AutoCovarianceTrace, AverageCosineBetweenSuccessiveSamples, CountSamples, CovarianceMatrix, Histogram,
  LastSample, MaximumProbabilitySample, MeanValue, PairHistogram, StreamOutput.
* All producers: Range, MetropolisHastings, DelayedRejectionMetropolisHastings, DifferentialEvaluationMetropolisHastings.

### What is not modelled

* The C++ type system: concepts (`concepts.impl.h`), template instantiation, implicit conversions other than those named (int/size_t in C13, sample_index to double).
* The C++ memory model beyond "sequentially consistent if there is no data race"; compiler and hardware.
* Floating point rounding except in C14/C16 (NaN), C19, C20 (break points), C56, C57, C61, C72, C73, C74, C75; extended precision and fused multiply-add, which a compiler may use.
* Internals of std::random, std::async's thread pool, iostreams (a stream is a sequence of inserted strings), Eigen (matrices are functions of two indices), boost::signals2 (lists of slots);
  exhaustion of memory (of threads only where std::async throws in C62), failing mutexes; what a consumer or filter whose consume()/filter() throws has done to its member variables before; spurious failures of system calls. `std::mt19937` is an arbitrary stream of numbers, not a particular one.
* The documentation, build files and the test suite.

### Faults of the code found on the way

The theorems named `..._refuted` are the list: among them second-stage acceptance in DelayedRejection reads outside its vector (C28), partner selection in
DifferentialEvaluation can pick the chain itself or never some chains (C31, C55), MeanValue with integer samples and negative updates (C13), uninitialised
matrices in CovarianceMatrix, AutoCovarianceMatrix and PairHistogram (C14, C16, C22, C57), the queue size of set_parallel_mode is ignored (C37), samples sent while
connecting are lost (C44), unlocked accesses while connecting and in assertions (C51), destruction against late samples (C50), histogram end points and tiny
ranges (C20), the bottom face of PairHistogram's gnuplot boxes (C48), cancellation in AutoCovarianceTrace and AutoCovarianceMatrix (C74, C75).

## What Print Assumptions lists for each theorem

<!-- generated by tools/mkaxioms.py -->

**No axioms ("Closed under the global context")** (227 theorems): C01_connection_carries_exactly_its_samples, C02_filter_stream_in_network, C02_pipeline_is_composition, C02_pipeline_is_composition, C02_two_filters_compose, C03_consumers_do_not_influence_each_other, C04_chain_lifetime_is_safe, C04_connects_exactly_the_neighbours, C04_only_variables_stay_connected, C04_parentheses_are_irrelevant, C04_same_samples_flow, C05_destruction_in_any_order_is_safe, C05_needs_first_equal_key_refuted, C06_de_flushes, C06_dr_flushes, C06_flush_reaches_exactly_downstream, C06_mh_flushes, C06_range_flushes, C07_take_every_0th_is_undefined, C07_take_every_nth, C07_take_every_nth_count, C07_take_every_nth_no_overflow, C08_discard_first_n, C08_discard_first_n_exact, C08_discard_first_n_unbounded_refuted, C08_discard_first_n_wraps, C09_component_splitter, C09_component_splitter_only, C09_component_splitter_out_of_range, C09_condition, C09_condition_without_aux, C09_conversion, C09_pass_through, C10_count_samples, C11_last_sample, C11_no_sample_yet_refuted, C12_mean_value, C12_no_sample_yet_refuted, C13_int_mean_dice_refuted, C13_int_mean_nondecreasing, C14_covariance, C14_covariance_ieee_refuted, C14_no_sample_yet, C14_one_sample_refuted, C15_autocovariance_trace, C15_lag_zero_is_variance, C15_no_sample_yet_refuted, C16_autocovariance_matrix, C16_diagonal_sum_is_trace, C16_nan_stays, C16_right_iff_memory_zero, C18_acceptance_ratio, C18_counter_wraps, C18_no_samples, C18_valarray_comparison, C19_first_maximiser, C19_first_maximiser_is_unique, C19_lowest_is_forgotten_refuted, C19_nan_first_is_kept_refuted, C20_constructor, C20_constructor_with_function, C20_exactly_one_bin, C20_histogram_counts, C20_nan, C20_right_end_point_refuted, C20_tiny_ranges_refuted, C21_copy, C21_get, C21_write_gnuplot, C22_constructor, C22_constructor_with_functions, C22_copy, C22_counts_add_up, C22_nan, C22_pair_histogram_counts, C22_uninitialised_counts_refuted, C23_stream_output, C24_called_once, C24_concurrent_actions, C24_one_at_a_time, C25_mh_chain, C25_mh_returns, C28_dr_chain, C28_dr_returns, C28_no_repetition_without_undefined_behaviour, C28_second_stage_undefined_refuted, C30_de_chains, C30_de_returns, C30_no_chains_release, C30_too_few_chains_debug, C31_first_partner, C31_run_refuted, C31_second_partner_last_chain, C31_second_partner_refuted, C32_no_data_race, C32_no_task_left, C32_progress, C32_schedule_independent, C32_terminates, C33_silent_after_disconnect, C34_flush_consumers_waits, C34_flush_waits, C34_flush_waits_lock, C35_at_most_once, C35_connected_drops_nothing, C35_every_connection, C35_exactly_once_at_the_end, C35_exactly_once_when_flushed, C35_own_sample, C35_synchronous, C36_bounded, C36_callback_deadlock_asynchronous, C36_callback_deadlock_synchronous, C36_can_be_completed, C36_disconnect_waits_for_consume, C36_no_deadlock, C37_bounded_queue_refuted, C37_queue_size_irrelevant, C38_accesses_inside, C38_linearizable, C38_linearizable_always, C38_lines_not_mixed, C38_member_functions, C38_mutual_exclusion, C38_no_lost_updates, C39_asynchronous_equals_synchronous, C39_consumed_are_delivered, C39_count_async, C39_count_order_independent, C39_covariance_async, C39_covariance_order_independent, C39_histogram_async, C39_histogram_order_independent, C39_last_sample_async_refuted, C39_maximum_probability_async_refuted, C39_mean_async, C39_mean_order_independent, C39_pair_histogram_async, C39_pair_histogram_order_independent, C40_combined_mask_refuted, C40_mode_check, C40_not_while_connected, C40_order_sensitive_classes_refuse_async, C40_other_classes_accept_async, C40_release_build_checks_nothing_refuted, C40_slots_exist_for_single_modes_only, C41_any_filter, C41_discard_first_n, C41_member_functions, C41_take_every_nth, C42_range, C43_conj, C43_element_access_in_range, C43_element_access_out_of_range, C43_element_access_out_of_range_release, C43_size, C43_sized_without_subscript_refuted, C44_dropped_while_connecting_refuted, C44_usable_after_connect, C46_every_stage, C48_bottom_face_refuted, C48_five_faces, C48_six_patches_per_cell, C49_destroying_producers_safe, C49_no_crash, C49_producer_destructor_against_disconnect_refuted, C50_destructor_waits_for_tasks, C50_late_sample_refuted, C50_two_destructors_refuted, C51_assertion_races_refuted, C51_connecting_races_refuted, C51_no_data_race, C51_only_unprotected_accesses, C52_exact_log, C53_at_most_once, C53_completely_consumed, C53_delivered_over_every_connection, C53_every_trail_once, C53_filters_respond, C53_mode_irrelevant, C53_own_samples, C54_bounded, C54_can_be_completed, C54_no_deadlock, C62_consume_throws, C62_exceptions_hinder_later_connections_only, C62_issue_sample_throws, C63_autocovariance_of_transformed_samples, C63_autocovariance_trace_of_transformed_samples, C63_covariance_is_hermitian, C63_covariance_of_selected_components, C63_covariance_of_transformed_samples, C63_mean_of_selected_components, C63_mean_of_transformed_samples, C64_covariance_of_combined_streams, C64_mean_of_combined_streams, C66_auto_covariance_matrix, C66_auto_covariance_trace, C66_covariance, C66_histogram, C66_mean_value, C66_window, C67_de_short_calls_never_cross, C67_dr, C67_mh, C69_acceptance_ratio, C69_acceptance_ratio_refuted, C69_auto_covariance_first_call, C69_auto_covariance_refuted, C69_covariance_refuted, C69_mean_value, C69_mean_value_first_call_refuted, C69_mean_value_refuted, C69_strong_guarantee, C69_without_exceptions, C71_calls_on_a_chain, C71_dangling_refuted, C71_disconnecting_a_chain_refuted, C71_moving_a_chain, C71_moving_a_referenced_chain_refuted, C71_moving_an_object, C76_delayed_rejection, C76_differential_evaluation, C76_differential_evaluation_issues_what_was_evaluated, C76_metropolis_hastings, C76_range, C76_samples_are_a_prefix.

**`ClassicalDedekindReals.sig_forall_dec`, `FunctionalExtensionality.functional_extensionality_dep`** (6 theorems): C46_two_stage_balance, C59_proposals_from_the_rejected_sample, C61_law_of_a_run, C63_correlations, C63_covariance_is_positive, C65_documented_proposals.

**`ClassicalDedekindReals.sig_forall_dec`, `ClassicalDedekindReals.sig_not_dec`, `FunctionalExtensionality.functional_extensionality_dep`** (6 theorems): C17_average_cosine, C17_long_streams_refuted, C17_zero_history_refuted, C61_averages, C61_distribution, C72_same_model.

**`ClassicalDedekindReals.sig_forall_dec`, `ClassicalDedekindReals.sig_not_dec`, `Classical_Prop.classic`, `FunctionalExtensionality.functional_extensionality_dep`** (134 theorems): C20_break_points_in_double_arithmetic, C26_leave_zero_probability, C26_leave_zero_probability_max, C26_mh_acceptance_probability, C26_mh_detailed_balance, C26_mh_is_textbook, C26_mh_stationary, C26_mh_transition_probabilities, C26_zero_probability_proposal, C27_mixed_zeros_refuted, C27_zero_to_zero_inf, C27_zero_to_zero_refuted, C29_asymmetric_proposals_refuted, C29_no_delays_is_mh, C29_zero_probability_refuted, C45_nan_proposal_rejected, C45_nan_start_never_moves, C46_second_stage, C46_third_stage_refuted, C46_whole_run, C47_de_acceptance_probability, C47_de_accepts, C47_de_run, C47_zero_to_zero, C55_independence_refuted, C55_last_chain_with_crossover, C55_middle_chain_refuted, C55_one_chain_balance, C55_without_crossover, C56_constant_stream_exact, C56_error_bound, C56_order, C56_order_matters_refuted, C56_overflow_refuted, C56_within_range, C57_covariance_double, C57_symmetric, C57_uninitialised_refuted, C58_averages, C58_averages_in_probability, C58_averages_rate, C58_converges_if_connected_refuted, C58_converges_if_reachable, C58_converges_to_the_target, C58_law_of_a_run, C59_averages, C59_averages_in_probability, C59_converges_if_reachable, C59_converges_to_the_target, C59_law_of_a_run, C59_law_one_delay, C59_symmetric_random_walk_refuted, C59_target_preserved, C59_two_delays_refuted, C60_acceptance_ratio, C60_autocovariance_matrix, C60_autocovariance_trace, C60_average_cosine, C60_burn_in, C60_covariance, C60_histogram, C60_in_probability, C60_maximum_probability_sample, C60_mean_value, C60_thinning, C60_thinning_refuted, C61_acceptance_in_double, C61_averages_in_double, C61_library_and_generator, C61_unlikely_states_refuted, C65_adapting_forever_refuted, C65_averages, C65_distribution, C65_documented_averages, C65_documented_limit, C65_limit, C65_runs_are_adaptive_chains, C67_new_objects_refuted, C67_noisy_likelihood_refuted, C68_error_of_the_mean, C68_estimated_from_the_autocovariances, C68_periodic_chain_refuted, C68_truncated_after_an_odd_lag, C70_acceptance_ratio, C70_auto_covariance, C70_average_cosine, C70_covariance, C70_disconnected_refuted, C70_histogram, C70_mean_value, C72_above_one_refuted, C72_accuracy, C72_long_samples_refuted, C72_short_samples_refuted, C72_zero_sample, C73_acceptance_ratio_double, C73_one_refuted, C74_accuracy, C74_constant_stream_refuted, C74_lag_zero_and_covariance, C74_lag_zero_refuted, C74_overflow_refuted, C75_accuracy, C75_lag_zero_and_covariance, C75_negative_variance_refuted, C75_not_symmetric_refuted, C77_averages, C77_averages_in_probability, C77_converges_to_the_target, C77_law_of_a_run, C77_never_outside, C77_reachable_through_the_outside_refuted, C78_averages, C78_averages_in_probability, C78_converges_to_the_target, C78_first_trial, C78_law_of_a_run, C78_never_outside, C78_never_outside_refuted, C78_second_trial, C78_stays_inside, C78_third_trial_refuted, C79_counts, C79_exact_bins_refuted, C79_overflow_refuted, C80_counts, C80_counts_add_up, C80_overflow_refuted, C81_last_chain_with_crossover, C81_never_outside, C81_never_outside_refuted, C81_one_chain_balance, C81_run, C81_without_crossover.
