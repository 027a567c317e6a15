#!/usr/bin/env python3
# Generates properties.jsonl (kept as a script so that edits stay reviewable).
import json
P=[]
def p(id,title,statement,quant,why,anchors):
    P.append(dict(id=id,title=title,statement=statement,quantifier=quant,why_tests_cant=why,anchors=anchors))
I="include/sampleflow/"
p("C01","Every connection carries exactly the samples issued while it is alive",
 "If a consumer is connected to a producer, then over that connection it receives exactly the samples (with their auxiliary data) which the producer issues between connect_to_producer() and the moment the connection ends (disconnect_and_flush(), or destruction of either side): each exactly once, in the order issued, none before and none after. Connecting twice means receiving everything twice.",
 "all finite histories of connect / disconnect / destroy / issue operations over any number of producers, filters and consumers in any acyclic wiring",
 "the number of wirings and histories is unbounded; a test sees one wiring and one history",
 [I+"producer.impl.h: Producer::connect_to_signals, issue_sample, ~Producer",I+"consumer.impl.h: Consumer::connect_to_producer, disconnect_and_flush"])
p("C02","Filters transform streams compositionally",
 "A filter issues to its own consumers exactly filter(s) for each sample s it receives for which filter() returns a value, in the order received, and a chain of filters behaves as the composition of the filters' stream transformations, whatever else is attached to the intermediate objects.",
 "all filters (arbitrary state and function), all pipelines of any length, all sample streams",
 "pipelines of any length and arbitrary user-defined filters",
 [I+"filter.impl.h: Filter::consume",I+"producer.impl.h",I+"consumer.impl.h"])
p("C03","Consumers attached to the same producer do not influence each other",
 "What a consumer receives does not depend on which other consumers are attached to the same producer or elsewhere in the network, or on when they are attached and detached.",
 "all networks and all histories that differ only in operations on other consumers",
 "relational (two-run) property over unbounded histories",
 [I+"producer.impl.h: issue_sample",I+"consumer.impl.h: connect_to_producer"])
p("C04","operator>> chaining is associative",
 "p >> f >> c, p >> (f >> c) and any other parenthesisation create the same connections between the same objects in the same pipeline order, so the same samples flow.",
 "all chains of length >= 2 and all parenthesisations, with any mixture of named and temporary objects",
 "number of parenthesisations is unbounded (Catalan)",
 [I+"connections.impl.h: Chain, operator>>"])
p("C05","Producers and consumers may be destroyed in any order",
 "Whatever the order in which connected producers, filters and consumers are destroyed, no slot of a destroyed consumer is ever invoked, no connection to a destroyed producer is remembered by a consumer, and the bookkeeping assertions never fail.",
 "all finite histories of connect/disconnect/destroy/issue",
 "all destruction orders over all wirings",
 [I+"producer.impl.h: ~Producer",I+"consumer.impl.h: ~Consumer, disconnect_from_producer lambda, disconnect_and_flush"])
p("C06","flush_consumers reaches everything downstream and happens on every exit of sample()",
 "When a producer's sample() ends, whether normally or by an exception from the user's callbacks or from a downstream consumer, flush() is invoked on every consumer reachable from it; Range and DifferentialEvaluationMH flush once, MetropolisHastings and DelayedRejectionMetropolisHastings flush twice on normal exit.",
 "all inputs, all points at which an exception can be thrown, all acyclic networks",
 "every throw point of every run",
 [I+"scope_exit.impl.h: ScopeExit",I+"producers/range.impl.h: sample",I+"producers/metropolis_hastings.impl.h: sample",I+"filter.impl.h: flush"])
p("C07","TakeEveryNth forwards exactly samples 1, n+1, 2n+1, ...",
 "For n >= 1 the filter forwards the first sample and then every n-th one, i.e. precisely the samples with zero-based index divisible by n, unchanged and with their auxiliary data; after N samples it has forwarded ceil(N/n). With n = 0 the first sample is a division by zero.",
 "all n >= 1, all streams of any length (the counter never overflows), including the n = 0 case",
 "unbounded stream length and n; counter wrap-around needs 2^64 samples",
 [I+"filters/take_every_nth.impl.h: TakeEveryNth::filter"])
p("C08","DiscardFirstN drops exactly the first n samples",
 "For streams shorter than 2^64 samples, the filter drops exactly the first n and forwards the rest unchanged in order; after 2^64 samples the counter wraps and it drops samples again.",
 "all n < 2^64, all stream lengths, including beyond 2^64",
 "wrap-around at 2^64 is unreachable by tests",
 [I+"filters/discard_first_n.impl.h: DiscardFirstN::filter"])
p("C09","Condition, Conversion, PassThrough and ComponentSplitter are pointwise",
 "Condition forwards exactly the samples satisfying the predicate, unchanged; Conversion forwards f(s) for every s; PassThrough forwards everything; ComponentSplitter(k) forwards component k of every sample and has undefined behaviour/assertion failure exactly when k >= size(sample). Auxiliary data always passes unchanged and nothing is reordered.",
 "all predicates, conversions, component numbers and streams",
 "arbitrary user functions and unbounded streams",
 [I+"filters/condition.impl.h",I+"filters/conversion.impl.h",I+"filters/pass_through.impl.h",I+"filters/component_splitter.impl.h"])
p("C10","CountSamples counts","get() returns the number of samples consumed since construction (modulo 2^64).",
 "all streams of any length, all interleavings of deliveries","wrap-around and schedules",
 [I+"consumers/count_samples.impl.h"])
p("C11","LastSample holds the most recent sample",
 "After at least one sample, get() returns the most recently consumed sample; before any sample the returned value is the default-initialised member, which for arithmetic sample types is indeterminate rather than a default-constructed value.",
 "all streams","indeterminate value is invisible to tests",
 [I+"consumers/last_sample.impl.h"])
p("C12","MeanValue equals the arithmetic mean",
 "In exact arithmetic, after k >= 1 samples get() returns (x_1+...+x_k)/k componentwise, for real and complex samples of any dimension. Before any sample the value for arithmetic types is indeterminate.",
 "all sample sequences of any length and dimension over any field of characteristic zero (reals, rationals, complex numbers)",
 "must hold for all k; streaming formula is inductive",
 [I+"consumers/mean_value.impl.h: consume, get"])
p("C13","MeanValue with integer samples",
 "For int samples the documentation promises integer arithmetic: the update (x_k - mean)/k is rounded towards zero, and is zero for a dice once k >= 6. This holds for streams that never decrease (the mean then stays within the range of the samples). It does not hold in general: the code divides an int by a std::size_t, so a negative difference is converted to a huge unsigned number first, and the mean of dice throws can leave the range 1..6 at the sixth throw.",
 "all non-decreasing int streams without overflow; existence of a stream for the refutation",
 "depends on conversion rules at particular signs and counts",
 [I+"consumers/mean_value.impl.h: consume"])
p("C14","CovarianceMatrix equals the unbiased sample covariance",
 "In exact arithmetic, after k >= 2 samples get()(i,j) = 1/(k-1) sum_l (x_l,i - mean_i) conj(x_l,j - mean_j), regardless of what the freshly resized (uninitialised) matrix contained; after exactly one sample get() returns the uninitialised contents instead of the zero matrix the comments promise; before any sample it returns a 0x0 matrix. In IEEE arithmetic an uninitialised entry that is NaN stays NaN forever.",
 "all sequences, lengths, dimensions, uninitialised contents",
 "uninitialised memory contents and all sequences",
 [I+"consumers/covariance_matrix.impl.h: consume, get"])
p("C15","AutoCovarianceTrace equals its documented estimator",
 "In exact arithmetic, for every lag l < autocov_length, after n samples get()[l] is the documented estimator of the trace of the lag-l autocovariance (with the full-sample mean) for n > l+1 and 0 for fewer samples; no out-of-range element is accessed while consuming. get() before any sample reads out of bounds.",
 "all sequences, lags, lengths and dimensions","inductive streaming formula over all sequences",
 [I+"consumers/auto_covariance_trace.impl.h: consume, get"])
p("C16","AutoCovarianceMatrix equals its documented estimator up to uninitialised memory",
 "In exact arithmetic, get()[l](i,j) after n > l+1 samples equals the documented estimator plus g/(n-l-1), where g is the uninitialised content of the corresponding freshly resized matrix entry; hence it is correct for all streams iff these entries happen to be zero. The diagonal sum agrees with AutoCovarianceTrace.",
 "all sequences, lags, dimensions, uninitialised contents","depends on uninitialised memory",
 [I+"consumers/auto_covariance_matrix.impl.h: consume, get"])
p("C17","AverageCosineBetweenSuccessiveSamples averages the cosines at each lag",
 "get()[i] is the average of cos(angle(x_t, x_{t-i-1})) over all n-i-1 available pairs for streams shorter than 2^32 samples, and 0 when there is no pair; history_length = 0 is undefined behaviour.",
 "all sequences, history lengths","unbounded streams; truncation at 2^32",
 [I+"consumers/average_cosinus.impl.h: consume, get"])
p("C18","AcceptanceRatio is (1 + number of changes)/n",
 "After n >= 1 samples get() is (1 + number of positions where a sample differs from its predecessor)/n; it lies in (0,1]; before any sample it is 0. A proposal that is accepted but equal to the current sample counts as not accepted.",
 "all streams","all streams of any length",[I+"consumers/acceptance_ratio.impl.h"])
p("C19","MaximumProbabilitySample keeps the first maximiser",
 "If all log likelihoods are comparable (no NaN) and none equals numeric_limits::lowest(), get() returns the first sample with maximal relative log likelihood together with its auxiliary data; samples without the key are ignored. A sample with likelihood lowest() is replaced by any later sample even a less likely one, and a NaN in first position is never replaced.",
 "all streams of samples with any IEEE double log likelihood",
 "special float values in particular positions of unbounded streams",
 [I+"consumers/maximum_probability_sample.impl.h: consume"])
p("C20","Histogram counts partition the samples",
 "With an increasing subdivision, bin b counts exactly the samples in the half-open interval (p_b, p_{b+1}] (plus p_0 in the first bin, minus p_n in the last), samples < p_0 or >= p_n are dropped, and the counts add up to the number of samples in [p_0,p_n). NaN samples trip an assertion, or are counted in bin 0 in release mode.",
 "all subdivisions, all sample streams, all double values",
 "boundary values for every subdivision",
 [I+"consumers/histogram.impl.h: consume, bin_number, get, write_gnuplot, constructors"])
p("C21","Histogram output describes each bin once",
 "get() returns one triple (left, right, count) per bin, intervals adjacent and covering [min,max]; write_gnuplot writes two lines per bin.",
 "all histograms","all bin counts",[I+"consumers/histogram.impl.h: get, write_gnuplot"])
p("C22","PairHistogram counts are true counts plus uninitialised memory",
 "Each cell counts exactly the pairs falling into its half-open rectangle, added to whatever the never-initialised count matrix contained; thus the result is the histogram iff the memory happened to be zero. Index arithmetic in get() enumerates each cell exactly once and stays in range.",
 "all subdivisions, streams and initial memory contents","uninitialised memory",
 [I+"consumers/pair_histogram.impl.h: consume, get, constructors"])
p("C23","StreamOutput writes one self-contained record per sample",
 "Scalars are written as text followed by newline; for samples that can be iterated over every component is followed by a blank and the record by a newline (components must be streamable; a std::string counts as a container of characters); the output is the concatenation of the records of the samples consumed.",
 "all streams, nested types","unbounded nesting and streams",[I+"consumers/stream_output.impl.h"])
p("C24","Action calls the user function exactly once per sample",
 "Action calls the stored function exactly once per sample, with that sample and its auxiliary data, and, unless concurrent actions are allowed, never two at the same time.",
 "all streams and all schedules","all schedules",[I+"consumers/action.impl.h"])
p("C25","MetropolisHastings issues exactly n samples forming a chain",
 "sample(x0, pi, proposal, n) issues exactly n samples; each is either the proposal generated from the previous one or a repetition of the previous one; the auxiliary data 'relative log likelihood' is pi at the issued sample, 'sample is repeated' is true iff the proposal was rejected; pi is evaluated exactly once for the start and once per proposal.",
 "all pi, proposals, random draws, n","all random draws",
 [I+"producers/metropolis_hastings.impl.h: sample"])
p("C26","MetropolisHastings acceptance rule",
 "For finite log likelihoods (no zero-probability value) the proposal y from x with ratio r>0 is accepted exactly when u <= pi(y)/(pi(x) r), so with probability min(1, pi(y)/(pi(x) r)), which satisfies detailed balance with respect to pi; a zero-probability proposal is never accepted from a nonzero-probability state; a nonzero one is always accepted from a zero-probability state.",
 "all likelihoods, ratios and draws","probabilistic statement over all inputs",
 [I+"producers/metropolis_hastings.impl.h: sample"])
p("C27","MetropolisHastings among zero-probability states",
 "When both current and proposed state have zero probability the documentation promises acceptance with the probability of the proposal ratio only. With -max as log likelihood the code gives a second chance with a second random number, and moving from -inf to -max is always accepted.",
 "all zero encodings (-max, -inf) and draws","special values",
 [I+"producers/metropolis_hastings.impl.h: sample"])
p("C28","DelayedRejection: first stage and count",
 "DelayedRejectionMetropolisHastings issues exactly n samples, each the previous one or one of the at most max_delays+1 proposals of its iteration, with matching auxiliary data; as soon as one proposal is rejected and a delayed stage is evaluated the code forms an out-of-range iterator (undefined behaviour).",
 "all pi, proposals, draws, max_delays, n","UB invisible to tests",
 [I+"producers/delayed_rejection_mh.impl.h: sample, alpha_fn"])
p("C29","DelayedRejection with max_delays = 0 vs MetropolisHastings",
 "With max_delays = 0 the algorithm is documented to be plain Metropolis-Hastings; this holds for symmetric proposals and finite log likelihoods, and fails for zero-probability states and for asymmetric proposals (the ratio is ignored).",
 "all pi, proposals, draws","relational property",
 [I+"producers/delayed_rejection_mh.impl.h: sample"])
p("C30","DifferentialEvaluationMH issues exactly n samples in round-robin order",
 "sample() issues exactly n_samples samples, the k-th belonging to chain k mod n_chains (reported in the auxiliary data), also when n_samples is not a multiple of the number of chains; every chain's sample is its previous sample or its proposal.",
 "all n_samples, n_chains >= 3, pi, proposals, draws","all sizes",
 [I+"producers/differential_evaluation_mh.impl.h: sample"])
p("C31","DifferentialEvaluationMH crossover partners",
 "crossover() is documented to get the samples of two other chains. The first partner is another chain, each equally likely. The second partner is a chain different from both, each equally likely, only if the larger of the two indices already taken is the last chain; otherwise one of the equally likely draws returns that larger index again (the first partner, or the chain itself) and the chain after it is never chosen. Partners are always in range; crossover happens in generations > 0 divisible by the crossover gap (or every generation for gap 0).",
 "all n_chains >= 3, chains, draws","uniformity over all draws",
 [I+"producers/differential_evaluation_mh.impl.h: sample"])
p("C32","DifferentialEvaluationMH is schedule independent",
 "The issued sample sequence does not depend on the order in which the asynchronous log-likelihood evaluations of one generation run or finish: for every schedule the result is that of evaluating them one after the other.",
 "all schedules of the asynchronous evaluations","all schedules",
 [I+"producers/differential_evaluation_mh.impl.h: sample"])
p("C33","After disconnect_and_flush() returns the consumer is silent",
 "Once disconnect_and_flush() has returned, no call of consume() is running and none will ever start (unless the consumer is connected again), in synchronous and asynchronous mode, whatever other threads are doing.",
 "all interleavings of any number of threads sending samples, flushing, disconnecting, and of background tasks",
 "all schedules",[I+"consumer.impl.h: connect_to_producer, disconnect_and_flush, flush, trim_background_queue"])
p("C34","flush() waits for everything accepted before it",
 "When flush() returns, every sample accepted by the consumer in asynchronous mode before flush() acquired its lock has been completely consumed.",
 "all interleavings","all schedules",[I+"consumer.impl.h: flush, trim_background_queue"])
p("C35","Every accepted sample is consumed exactly once",
 "In synchronous and asynchronous mode, every sample delivered to a consumer that stays connected is consumed exactly once and with its own auxiliary data; a sample whose delivery races with disconnection is either consumed exactly once or dropped, never twice; trimming the task queue loses nothing.",
 "all interleavings, immediate or deferred tasks","all schedules",[I+"consumer.impl.h"])
p("C36","Consumer locking is deadlock free when consume() does not call back",
 "As long as calls of consume() terminate and do not call flush()/disconnect_and_flush() on the same consumer, some thread can always make progress; if consume() does call them on its own consumer, there is a reachable deadlock.",
 "all interleavings","all schedules",[I+"consumer.impl.h"])
p("C37","The queue_size of set_parallel_mode is not a bound",
 "The documentation states that queue_size limits the number of outstanding background tasks; the code stores it but never uses it: for every queue_size and every bound there is an execution with more outstanding tasks.",
 "all queue sizes and bounds","needs an adversarial schedule",[I+"consumer.impl.h: set_parallel_mode, connect_to_producer"])
p("C38","Mutex-protected consumers have no lost updates",
 "When consume() is called concurrently on a consumer that locks its own mutex, the final state is the one obtained by consuming the same samples one after the other in some order.",
 "all interleavings, all consumers protected by their mutex","all schedules",
 [I+"consumers/*.impl.h: consume"])
p("C39","CountSamples, MeanValue, CovarianceMatrix and the histograms do not depend on sample order",
 "In exact arithmetic the results of these consumers are invariant under permutation of the samples; together with C38 the result in asynchronous mode equals the synchronous result.",
 "all permutations of all streams","all permutations",
 [I+"consumers/mean_value.impl.h",I+"consumers/covariance_matrix.impl.h",I+"consumers/count_samples.impl.h",I+"consumers/histogram.impl.h"])
p("C40","Order-sensitive consumers refuse asynchronous processing",
 "Consumers whose result depends on order (AcceptanceRatio, LastSample as far as declared) can only be put in the modes they declare; set_parallel_mode accepts exactly the masks that intersect the declared ones, so the combined mask passes the check although it cannot be used afterwards.",
 "all mode masks","mode combinations and consequences",
 [I+"consumer.impl.h: set_parallel_mode",I+"parallel_mode.impl.h"])
p("C41","Parallel deliveries through counting filters",
 "If samples reach TakeEveryNth or DiscardFirstN concurrently in any interleaving, the number forwarded is the same as in the sequential case (ceil(N/n), resp. max(N-n,0)).",
 "all interleavings","all schedules",
 [I+"filters/take_every_nth.impl.h",I+"filters/discard_first_n.impl.h"])
p("C42","Range issues exactly its elements",
 "Range::sample issues every element of the range exactly once, in order, with empty auxiliary data, then flushes.",
 "all ranges","all ranges",[I+"producers/range.impl.h"])
p("C43","Element access agrees with size",
 "get_nth_element(s,i) returns the i-th component for every i < size(s) for scalars, std::vector/array/valarray-like and Eigen-like types and fails otherwise; conj is the identity on reals and an involution on complex numbers.",
 "all samples and indices","all indices",[I+"element_access.impl.h",I+"types.impl.h"])
p("C44","A connection is only usable after connect_to_producer() has returned",
 "A sample issued from another thread while connect_to_producer() is between hooking up the signal and recording the connection is silently dropped by a consumer with no other connection.",
 "all interleavings of connecting with issuing","narrow race window",
 [I+"consumer.impl.h: connect_to_producer"])
p("C45","NaN log likelihoods in MetropolisHastings",
 "A proposal whose log likelihood is NaN is never accepted, whatever the state, ratio and random numbers; a chain whose starting point has a NaN log likelihood never moves: all samples equal the starting point.",
 "all states, ratios, draws, run lengths","special values and unbounded runs",
 [I+"producers/metropolis_hastings.impl.h: sample"])
p("C46","DelayedRejection acceptance probabilities",
 "For symmetric proposals the second stage accepts exactly when u <= the published delayed rejection probability, and two-stage moves then satisfy detailed balance, so with max_delays <= 1 the samples of a whole run are exactly those of the published algorithm fed with the same proposals and random numbers; the third stage does not follow the published rule, because the reversed path is put together in the wrong order.",
 "all density values and draws","probabilistic statement over all inputs",
 [I+"producers/delayed_rejection_mh.impl.h: alpha_fn, sample"])
p("C47","DifferentialEvaluationMH acceptance rule",
 "For finite log likelihoods each chain accepts its proposal exactly when u <= pi(y)/(pi(x) r), so with probability min(1, pi(y)/(pi(x) r)); in a whole run the k-th sample is decided by the k-th proposal and the k-th random number; zero probabilities get no special treatment, so a chain never moves from a -inf state to another -inf state.",
 "all log likelihoods, ratios and draws","probabilistic statement over all inputs",
 [I+"producers/differential_evaluation_mh.impl.h: sample"])
p("C48","PairHistogram gnuplot output draws a closed box per cell",
 "write_gnuplot writes for each cell of get(), in order, the six faces (front, back, left, right, bottom, top) of the box over the cell with height the count, each face having exactly its four corners. (False for the bottom face: it has one corner twice and lacks another.)",
 "all cells and counts","unbounded number of cells",
 [I+"consumers/pair_histogram.impl.h: write_gnuplot"])
p("C49","Producers may be destroyed while other threads use their consumers",
 "Destroying a producer while other threads send samples to, or flush, the same consumer is safe as long as the consumer is not disconnected, destroyed or connected at the same time: no assertion fails and no missing connection is dereferenced. If the consumer's disconnect_and_flush() runs concurrently with the producer's destructor, the destructor can fail an assertion (debug build) or run into undefined behaviour (release build).",
 "all interleavings of any number of threads, all sets of connections","narrow race windows",
 [I+"producer.impl.h: ~Producer",I+"consumer.impl.h: connect_to_producer (disconnect slot), disconnect_and_flush"])
p("C50","A consumer can be destroyed while its background tasks are running",
 "If the threads of the user are done with a consumer, its destructor can be called while background tasks are running or deferred: it waits for them and none of them uses the object afterwards. If another thread is still sending, or destroying a producer, the object can be used after its destruction although disconnect_and_flush() has returned.",
 "all interleavings, immediate and deferred tasks","all schedules",
 [I+"consumer.impl.h: disconnect_and_flush, flush, ~Consumer"])
p("C51","No data races on the state shared by a consumer's threads",
 "The list of connections and the queue of background tasks are never accessed by two threads at the same time with one of them writing, as long as no connection is made (and in debug builds no producer destroyed) concurrently with other use; making a connection while samples are sent is a data race.",
 "all interleavings","data races need not show in tests",
 [I+"consumer.impl.h: connect_to_producer, disconnect_and_flush, flush, trim_background_queue"])
p("C52","Order of delivery and flushing across a network",
 "A sample travels along the connections of its producer in the order in which they were made, depth first: a filter passes its output to everything behind it before the next consumer of the original producer gets the sample. Flushes travel in the same order, once per path; disconnecting or destroying a consumer flushes it and everything behind it, once.",
 "all histories of connect / issue / flush / disconnect / destroy calls over networks of any shape","unbounded networks and histories",
 [I+"filter.impl.h: consume, flush",I+"consumer.impl.h: connect_to_producer, disconnect_and_flush",I+"producer.impl.h: issue_sample, flush_consumers"])
p("C53","When flush_consumers() returns, its samples have been consumed by the whole downstream network",
 "In a network of filters and consumers in any mixture of synchronous and asynchronous modes, used by any number of threads: when flush_consumers() of a producer (the last thing every sample() function does) or flush() of a filter or consumer returns, everything that became of the samples sent before the call - however many filters it had to pass, each in its own background tasks - has been consumed completely, exactly once per connection, and nothing happens on its behalf afterwards. What arrives where does not depend on the modes or the schedule. Whatever consume(), filter() and std::async throw, the flush calls still wait for everything that exists (with exceptions, what exists is the subject of C62).",
 "all networks, mixtures of modes, programs of any number of threads, schedules and launch decisions of std::async","unbounded networks, threads and interleavings",
 [I+"producer.impl.h: issue_sample, flush_consumers",I+"filter.impl.h: consume, flush",I+"consumer.impl.h: connect_to_producer, flush, trim_background_queue"])
p("C54","Networks without cycles never deadlock, and all calls return",
 "If no sample can come back to a filter it has passed, then whatever threads send and flush, in whatever order, and however background tasks are launched, and whatever exceptions consume(), filter() and std::async throw, some thread can always go on until all calls have returned (or thrown), after a number of steps bounded independently of the schedule.",
 "all acyclic networks, mixtures of modes, programs, schedules and launch decisions","unbounded networks, threads and interleavings",
 [I+"filter.impl.h: consume, flush",I+"consumer.impl.h: connect_to_producer, flush, trim_background_queue"])
p("C55","What the chains of DifferentialEvaluationMH are distributed like",
 "Conditionally on the other chains each chain is moved by a Metropolis-Hastings step whose acceptance satisfies detailed balance with respect to the likelihood; generations without crossover keep the chains independent and distributed according to it, and a reversible crossover keeps the distribution of the last chain given the others. With crossover the claim fails for the other chains (their second partner is picked wrongly, C31), and the chains do not stay independent, because all of them are moved at the same time.",
 "all likelihoods, proposal distributions, numbers of chains and finite state spaces; all values of the random numbers (integrated over)","a statement about probabilities, that is about all random number sequences at once",
 [I+"producers/differential_evaluation_mh.impl.h: sample"])
p("C56","MeanValue in double arithmetic: range, accuracy, order",
 "MeanValue fed with finite doubles (or vectors of doubles) whose differences cannot overflow returns, after any number of samples, finite components that lie within the range of the samples; a constant stream gives exactly the constant; the distance to the true mean after n samples of magnitude at most M is at most (n/2+6)(2^-53 M + 2^-1075); and another order of the same samples changes the result by no more than twice that. If differences can overflow, the mean of finite samples can become infinite and then NaN, and the order does change the last digits or, after cancellation, the whole result.",
 "all streams of finite doubles of any length (range: below 2^64 samples, accuracy: up to 2^53), all orders, all magnitudes including subnormal numbers","accumulated rounding is a property of all input values and stream lengths; no test fixes the worst case",
 [I+"consumers/mean_value.impl.h: consume, get"])
p("C57","CovarianceMatrix in double arithmetic: no overflow, no negative variance, accuracy, symmetry",
 "CovarianceMatrix fed with doubles of magnitude at most 2^e (-500 <= e <= 500) never overflows, whatever the number of samples; no diagonal entry is negative once there are two samples; every entry is within 46 n 2^-53 4^e of the true covariance of n samples; and the matrix is symmetric bit by bit - provided that the memory the matrix is allocated in, which is not initialised, contained moderate values and was symmetric. Otherwise the result can be arbitrarily wrong.",
 "all streams of finite doubles in the stated range, of any length below 2^64 (accuracy: 2^53), all dimensions, all contents of the uninitialised memory","the worst-case accumulation of rounding errors, and the effect of uninitialised memory, depend on all inputs",
 [I+"consumers/covariance_matrix.impl.h: consume, get"])
p("C58","A run of MetropolisHastings as a random process: its law, convergence to the target, averages",
 "With proposals drawn from q(x,.) and independent uniform random numbers, the sequence of samples issued by sample() has the law of the Metropolis-Hastings Markov chain for exp(log_likelihood). From any starting point the distribution of the n-th sample converges to the target at a geometric rate (at most (1-b)^n off if everything is proposed with probability at least b from everywhere; and whenever every state can be reached from every state by the same number m of proposals). The average computed by MeanValue from any function of the samples has a mean square error of order 1/n if every state can be reached from every state. Reachability alone does not make the distribution converge: chains can alternate.",
 "all likelihoods (other than the encodings of probability zero), proposal distributions on finite state spaces, starting points, numbers of samples below 2^64 and functions of the samples; all random number sequences (integrated over)","a statement about probabilities and about limits",
 [I+"producers/metropolis_hastings.impl.h: sample",I+"consumers/mean_value.impl.h: consume, get"])
p("C59","A run of DelayedRejectionMetropolisHastings as a random process: its law, convergence, averages, and where it misses the target",
 "With proposals drawn from q(x, rejected, .) and independent uniform random numbers, the samples issued by sample() have the law of the delayed rejection Markov chain with the acceptance probabilities the code computes (for at most one delay those published for symmetric proposals). For max_delays <= 1 and proposals for which going from x over the rejected y1 to y2 is as probable as going from y2 over y1 to x, the target exp(log_likelihood) is preserved, the distribution of the n-th sample converges to it geometrically, and averages converge in mean square at rate 1/n. For proposals that are only pairwise symmetric around the current sample (the random walks the documentation mentions) and max_delays >= 1, and for any proposals with max_delays >= 2, it can fail: the distribution does not converge to the target.",
 "all likelihoods, proposal distributions on finite state spaces, numbers of delays, starting points, numbers of samples and functions of the samples; all random number sequences (integrated over)","a statement about probabilities and about limits",
 [I+"producers/delayed_rejection_mh.impl.h: sample, alpha_fn"])
p("C60","What consumers and filters behind a Markov chain sampler report converges to the truth",
 "Let MetropolisHastings, or DelayedRejectionMetropolisHastings with at most one delay, run on a finite state space with random proposals such that every state can be reached from every state, from any starting point. As the number n of samples grows, with a mean square error of at most C/n: MeanValue reports the mean of the target, CovarianceMatrix its covariance matrix, AutoCovarianceTrace and AutoCovarianceMatrix the autocovariance of the chain in its steady state at each lag, AverageCosineBetweenSuccessiveSamples the mean cosine between a sample and a later one, AcceptanceRatio the probability that the chain moves, Histogram (counts divided by n) the probabilities of its bins; and the probability that MaximumProbabilitySample has not yet found a sample of maximal likelihood decays exponentially. A DiscardFirstN filter in between does not change what anything converges to. Behind TakeEveryNth the mean still converges if all states can be reached by the same number of proposals; it need not converge to the mean of the target otherwise.",
 "all finite state spaces, likelihoods, proposal distributions as described, starting points, numbers of samples, functions of the samples, lags, bins and filter parameters; all random number sequences (integrated over)","a statement about probabilities and limits of whole pipelines",
 [I+"consumers/mean_value.impl.h: consume",I+"consumers/covariance_matrix.impl.h: consume",I+"consumers/auto_covariance_trace.impl.h: consume",I+"consumers/auto_covariance_matrix.impl.h: consume",I+"consumers/average_cosinus.impl.h: consume",I+"consumers/acceptance_ratio.impl.h: consume",I+"consumers/histogram.impl.h: consume",I+"consumers/maximum_probability_sample.impl.h: consume",I+"filters/discard_first_n.impl.h: filter",I+"filters/take_every_nth.impl.h: filter",I+"producers/metropolis_hastings.impl.h: sample",I+"producers/delayed_rejection_mh.impl.h: sample"])
p("C61","MetropolisHastings samples the target up to the precision of the arithmetic and of the random numbers",
 "Whatever arithmetic the acceptance test is computed in, and whatever finitely many equally likely values the random number generator returns, a run of MetropolisHastings from a state of nonzero probability ends normally and its samples are a Markov chain on the states of nonzero probability, with the acceptance probabilities one iteration of the code has. If these are the textbook's up to eps, the distribution after n samples is the target's up to (1-d)^(n/m) + C eps and averages over n samples have a mean square error of at most C (1/n + eps^2), with d, C that depend on the target and the proposals only. For doubles eps is at most about 1/N (N values of the generator) + twice the error of the log likelihoods + the error of the proposal ratios + 2^-53 (2 max|log likelihood| + 3 max|log ratio| + 7). States less likely than about 1/N are not sampled with the right probability: they are visited with a frequency of about 1/N however unlikely they are (refuted).",
 "all finite state spaces, target distributions (with states of probability zero), proposal distributions, arithmetics, callbacks up to given errors, random number generators with finitely many equally likely values, starting points, numbers of samples","a statement about probabilities over all random number sequences and about all roundings",
 [I+"producers/metropolis_hastings.impl.h: sample",I+"consumers/mean_value.impl.h: consume"])
p("C62","Where exceptions in a network go, and what they do and do not prevent",
 "Consumers, filters and std::async may throw at any time. A call of issue_sample() throws if and only if something threw on its behalf at a place that its sample had reached over synchronous connections only; likewise a call of consume(). What is thrown in a background task goes nowhere: nobody sees it, and flush(), flush_consumers() never throw (so the flush_consumers() that sample() functions run from a destructor while an exception passes does not terminate the program). When a flush call returns, whatever a producer or filter has issued before has been given exactly once to each consumer connected to it, except where std::async has thrown for this connection, or the slot of a connection made earlier was left by an exception: these consumers are never given it. No mutex stays locked: calls made later return as usual.",
 "all networks, mixtures of modes, programs of any number of threads, schedules, launch decisions, and all choices of the calls that throw","unbounded networks, threads and interleavings, and all crash points",
 [I+"consumer.impl.h: connect_to_producer, flush, trim_background_queue",I+"filter.impl.h: consume, flush",I+"producer.impl.h: issue_sample, flush_consumers",I+"scope_exit.impl.h: ScopeExit"])
p("C63","The statistical consumers follow changes of units, of coordinates and selections of components",
 "If every sample x is replaced by b + A x, then MeanValue returns b + A times, CovarianceMatrix A C A^H instead of C, AutoCovarianceMatrix A R A^T instead of R at every lag, and AutoCovarianceTrace is unchanged by translations and rotations and multiplied by c if A^T A = c I. Behind a filter that selects components (ComponentSplitter), MeanValue returns, bit for bit and in any arithmetic, these components of what it returns for whole samples, and so does CovarianceMatrix with its entries. The covariance matrix is Hermitian and positive semidefinite, its null vectors are exactly the linear combinations that are the same for all samples, variances are never negative and correlations lie between -1 and 1.",
 "all streams of samples, dimensions, matrices, translations, selections; exact arithmetic (selections: any arithmetic)","unbounded streams and all transformations",
 [I+"consumers/mean_value.impl.h: consume, get",I+"consumers/covariance_matrix.impl.h: consume, get",I+"consumers/auto_covariance_matrix.impl.h: consume, get",I+"consumers/auto_covariance_trace.impl.h: consume, get",I+"filters/component_splitter.impl.h: filter"])
p("C64","A statistical consumer fed by several producers returns the statistics of all their samples together",
 "MeanValue connected to two producers (or to one that samples twice) returns the mean of the two streams' means weighted by their lengths, and CovarianceMatrix returns ((n-1) C1 + (m-1) C2 + nm/(n+m) (mean1-mean2)(mean1-mean2)^H)/(n+m-1), whatever the order in which samples of the two streams arrive.",
 "all pairs of streams, all ways to interleave them, all exact arithmetics","unbounded streams and all interleavings",
 [I+"consumers/mean_value.impl.h: consume, get",I+"consumers/covariance_matrix.impl.h: consume, get",I+"consumer.impl.h: connect_to_producer"])
p("C65","Adaptive Metropolis samples the target distribution",
 "MetropolisHastings may be given proposals that depend on all samples so far, for example through consumers that are connected to it (the documented Adaptive Metropolis: the callback reads CountSamples and CovarianceMatrix). If every such proposal distribution is reversible in support, if the moves of some connected graph are always proposed with at least a fixed probability, and if the n-th sample changes the proposal probabilities by O(1/n), then the probability that the n-th sample is y converges to the target probability of y and averages (MeanValue) converge in mean square with an error of O(1/n), from every start. The documented strategy satisfies the last condition if proposals depend on the covariance matrix in a Lipschitz way. Without it the claim is false: proposals that depend on the last sample can miss the target although each of them is symmetric.",
 "all finite state spaces, log likelihoods, history dependent proposals, starting points, numbers of samples and functions; expectation over proposals and random numbers","an asymptotic statement about a probability distribution over unboundedly long, non-Markovian histories",
 [I+"producers/metropolis_hastings.impl.h: sample, class documentation (Adaptive Metropolis)",I+"consumers/covariance_matrix.impl.h: consume, get",I+"consumers/count_samples.impl.h: get","tests/adaptive_mh_01.cc"])
p("C66","The memory consumers need does not depend on the number of samples",
 "Whatever and however many samples of size d they get: MeanValue stores one vector of size d, CovarianceMatrix one vector and one d x d matrix, AutoCovarianceTrace and AutoCovarianceMatrix store the last max_lag+1 samples and no others, and per lag one scalar (or d x d matrix) and one (two) vectors; a Histogram keeps its bins. AutoCovariance consumers keep one more sample each time their 64 bit sample counter overflows.",
 "all streams of samples of any length (beyond 2^64), dimensions, lags, numbers of bins and arithmetics","a bound for streams of unbounded length",
 [I+"consumers/mean_value.impl.h: consume",I+"consumers/covariance_matrix.impl.h: consume",I+"consumers/auto_covariance_trace.impl.h: consume",I+"consumers/auto_covariance_matrix.impl.h: consume",I+"consumers/histogram.impl.h: consume"])
p("C67","A run of a sampler can be continued where it ended",
 "If the log likelihood is a function, then any number of calls of MetropolisHastings::sample() or DelayedRejectionMetropolisHastings::sample() on one object, each of which starts at the last sample of the previous one, issue exactly the samples and auxiliary data that one call for all samples issues, in any arithmetic, with any proposals and random numbers, and also if an exception ends the run. This is false if the likelihood is noisy (it is evaluated again), if each call is made on a new object (its random numbers are the same again), and for DifferentialEvaluationMetropolisHastings: calls for one generation never do crossover.",
 "all likelihoods, stateful proposals and random numbers, arithmetics, starting points, lists of numbers of samples, points where an exception is thrown","unboundedly many calls and samples, all proposals",
 [I+"producers/metropolis_hastings.impl.h: sample, MetropolisHastings",I+"producers/delayed_rejection_mh.impl.h: sample",I+"producers/differential_evaluation_mh.impl.h: sample"])
p("C68","The error of MeanValue is what the autocovariances predict",
 "If a Markov chain sampler (MetropolisHastings, or DelayedRejectionMetropolisHastings with at most one delay) can reach every state from every state by the same number of proposals, then the sums gamma(0) + 2 gamma(1) + ... + 2 gamma(L) of the autocovariances of the chain converge exponentially fast to some sigma2, and the mean square error of what MeanValue returns after n samples is sigma2/n up to O(1/n^2), from any starting point. The same sum of what AutoCovarianceTrace returns converges to the truncated sum, and sums truncated after an odd lag never overestimate the error. Refuted for periodic chains: there the sums do not converge.",
 "all finite state spaces, log likelihoods, proposal distributions that mix, starting points, numbers of samples and lags; expectation over proposals and random numbers","an asymptotic statement about a probability distribution over unboundedly long runs",
 [I+"consumers/mean_value.impl.h: consume, get",I+"consumers/auto_covariance_trace.impl.h: consume, get",I+"producers/metropolis_hastings.impl.h: sample",I+"producers/delayed_rejection_mh.impl.h: sample"])
p("C69","What a consumer is worth after an exception inside consume()",
 "A call of consume() that throws, at whatever operation of the sample type or allocation, is as if it had not been made for LastSample, CountSamples and MaximumProbabilitySample. Refuted for the others: in MeanValue it counts as one more sample equal to the mean so far; in AcceptanceRatio it may count as an accepted sample that is not a sample, so that the ratio exceeds every bound; CovarianceMatrix and AutoCovarianceTrace report wrong values, and the samples that AutoCovarianceTrace keeps grow beyond the largest lag for ever. If the very first call throws, the next call of MeanValue and CovarianceMatrix is undefined, but AutoCovarianceTrace is as new.",
 "all histories of calls that return or throw, all points within consume() at which one throws, sample types","exceptions at every point of unboundedly many calls",
 [I+"consumers/%s.impl.h: consume, get"%c for c in ["last_sample","count_samples","maximum_probability_sample","acceptance_ratio","mean_value","covariance_matrix","auto_covariance_trace"]])
p("C70","What consumers report during a run settles at the truth",
 "Let MetropolisHastings, or DelayedRejectionMetropolisHastings with at most one delay, draw from a finite set of states with proposals by which every state can be reached from every other. The probability that the result of a MeanValue, CovarianceMatrix, AutoCovarianceTrace, AverageCosineBetweenSuccessiveSamples, AcceptanceRatio or a bin of a Histogram is ever again eps or more away from its true value after n samples, however long the run is continued, is at most C/sqrt(n) with C independent of n, the length of the run and the starting point. Refuted for proposals that do not connect the states.",
 "all target distributions, proposal distributions, starting points, sample counts n and run lengths m >= n, tolerances eps","a statement about all prefixes of all random runs of unbounded length",
 [I+"producers/metropolis_hastings.impl.h: sample",I+"producers/delayed_rejection_mh.impl.h: sample"]+[I+"consumers/%s.impl.h: consume, get"%c for c in ["mean_value","covariance_matrix","auto_covariance_trace","average_cosinus","acceptance_ratio","histogram"]])
p("C71","Moving objects, and calls on a Chain",
"A Chain made by operator>> is not a handle on its parts: for every program, calling flush(), disconnect_and_flush() or set_parallel_mode() on it changes nothing that can be observed (deliveries, modes of connections, failures), then or later; in particular disconnect_and_flush() on a Chain does not stop the samples (documented claim refuted). A Chain can be moved at any time, connected or not, and the new one then does everything the old one would have done, whether or not the old one is destroyed, provided no other Chain refers to it (without the proviso: undefined behavior, witness). Moving any other object fails in a build with assertions exactly if something is connected to it; otherwise state and parallel mode go over to the new object, queue_size is zero, connections stay with the old object, which goes on receiving until it is destroyed and then nobody does (so the documented 'dangling connections' do not arise).",
"every sequence of constructions, chainings (by reference and by temporaries), moves, connects, mode changes, flushes, disconnects, issues and destructions, before and after the call or move",
"tests move a fixed pipeline once; the claim is about every later use of every object in every program",
[I+"connections.impl.h: Chain, operator>>", I+"consumer.impl.h: Consumer(Consumer&&), set_parallel_mode, flush, disconnect_and_flush", I+"producer.impl.h: Producer(Producer&&)", I+"filters/condition.impl.h: Condition(Condition&&)", I+"filters/pass_through.impl.h: PassThrough(PassThrough&&)"])
p("C72","AverageCosineBetweenSuccessiveSamples in double arithmetic",
"For samples of up to 2^20 doubles whose length (Euclidean norm) is between 2^-250 and 2^250, every entry of get() is finite, within (n + 2d + 24) 2^-53 of the true average of the cosines (n samples, d components), and exceeds 1 in absolute value by at most (2d + 11) 2^-53 however long the run. It can exceed 1 (witness), unlike in exact arithmetic. Outside of these lengths the result is arbitrarily wrong: a repeated sample of length 2^-300 has average cosine infinity and then NaN, one of length 2^300 has average cosine 0. A zero vector makes every average it takes part in NaN, for good.",
"all streams of fewer than 2^32 samples, all history lengths, all contents of the uninitialised matrices; rounding to nearest, overflow and underflow included",
"rounding errors accumulate over the run and depend on every bit of every sample",
[I+"consumers/average_cosinus.impl.h: consume, get"])
p("C73","AcceptanceRatio in double arithmetic",
"For every run of fewer than 2^64 samples the ratio that get() returns is finite, positive, at most 1, and within a relative error of 4 * 2^-53 of the exact ratio; up to 2^53 samples it is the correctly rounded ratio, and it is 1 only if every sample differed from its predecessor (with 2^53+1 samples it can be 1 otherwise).",
"all streams of samples and all equivalence relations on samples",
"the claim is about all counts up to 2^64",
[I+"consumers/acceptance_ratio.impl.h: consume, get"])
p("C74","AutoCovarianceTrace in double arithmetic",
"For every stream of at most 2^50 samples of d <= 2^20 components of absolute value at most 2^e (|e| <= 400) every value get() returns is finite, it is zero for lags without enough samples, and otherwise differs from the exact estimator (C15) by at most (18 n + 52 d + 198) 2^-53 (d+1) 4^e; its first entry is within (64 n + 52 d + 198) 2^-53 (d+1) 4^e of the trace of CovarianceMatrix. The error is relative to the squares of the samples, not to their variance: the documented equality of the first entry with that trace is refuted (the samples 2^27+1, 2^27+2, 2^27+3 give -4 instead of 1), the variance of a constant stream can be negative, and samples of 2^600 give NaN.",
"all streams, lags, dimensions and magnitudes in these ranges",
"tests compare sums of small numbers with saved output; rounding errors accumulate over every length of stream and show for samples far from zero only",
[I+"consumers/auto_covariance_trace.impl.h: consume, get", I+"consumers/covariance_matrix.impl.h: consume, get"])
p("C75","AutoCovarianceMatrix in double arithmetic",
"For every stream of at most 2^50 samples with components of absolute value at most 2^e (|e| <= 400), and uninitialised memory that held finite numbers of at most 4^e, every entry get() returns is finite; it is what the memory held for lags without enough samples, and otherwise differs from the exact auto-covariance plus the memory's contribution (C16) by at most (21 n + 260) 2^-53 4^e. If the memory held zeros, the matrix for lag zero is within (67 n + 260) 2^-53 4^e of what CovarianceMatrix returns and symmetric up to (42 n + 520) 2^-53 4^e. Exact symmetry and non-negative variances, which CovarianceMatrix has, are refuted.",
"all streams, lags, entries, dimensions, magnitudes and contents of the memory in these ranges",
"rounding errors accumulate over every length of stream and depend on what uninitialised memory contains",
[I+"consumers/auto_covariance_matrix.impl.h: consume, get", I+"consumers/covariance_matrix.impl.h: consume, get"])
p("C76","An exception cuts a sampler's run short and changes nothing before it",
"If the log likelihood, the proposal or crossover function, an iterator or a consumer throws during sample(), then everything up to that call is what it is in the run in which it does not throw; with Range, MetropolisHastings and DelayedRejection nothing else happens after the throwing call but one flush, and the exception arrives at the caller (if flushing throws as well: std::terminate). With DifferentialEvaluation the calls made after an exception in the log likelihood are those of the run without exceptions, too: exactly the samples whose trials were evaluated before it are issued, none of an earlier chain is lost and none of a later one arrives. So consumers have received an initial segment of the samples of the undisturbed run.",
"all samplers, functions (deterministic or depending on the whole history), arithmetic, random numbers, starting points, numbers of samples, chains and delays, and all sets of calls that throw",
"tests throw at one call of one run; which calls throw and what is kept in futures meanwhile is unbounded",
[I+"producers/range.impl.h: sample", I+"producers/metropolis_hastings.impl.h: sample", I+"producers/delayed_rejection_mh.impl.h: sample", I+"producers/differential_evaluation_mh.impl.h: sample", I+"scope_exit.impl.h: ScopeExit"])
p("C77","MetropolisHastings on a bounded domain: law, convergence and averages with states of probability zero",
"If the log likelihood of some states says that their probability is zero (-infinity, or the lowest double), a run of MetropolisHastings that starts at a state of positive probability never issues one of probability zero, whatever is proposed and drawn. What it issues is the Metropolis-Hastings Markov chain of the density, accepting y from x with probability min(1, pi(y) q(y,x) / (pi(x) q(x,y))), where pi(y) may be zero. If the states of positive probability can be reached from each other by proposals that stay among them, the distribution of the n-th sample converges to the target, which gives zero probability to the others, and averages over the samples (also as computed by MeanValue) converge to the mean in mean square at rate 1/n and in probability. If they can only be reached through states of probability zero this is false: such a run never arrives at the other part.",
"all finite sets of states, log likelihoods that are finite, the lowest double or -infinity, proposal distributions (symmetric or not), starting states of positive probability, run lengths and functions averaged; for the first part all sequences of proposals, random numbers and exceptions",
"tests sample one seed for a finite time; these are statements about the distribution of all runs of all lengths",
[I+"producers/metropolis_hastings.impl.h: sample", I+"consumers/mean_value.impl.h: consume"])
p("C78","DelayedRejectionMetropolisHastings on a bounded domain: law, convergence and averages with states of density zero",
"If the log likelihood is -infinity at some states, a run of DelayedRejectionMetropolisHastings that starts elsewhere issues none of these states with probability one (and never, if no random number is exactly zero; if one is, the code accepts a trial of density zero, which MetropolisHastings does not). Up to one delay, trials are accepted with the published probabilities for these densities; if proposals are symmetric along paths and the states of positive density can be reached from each other by proposals among them, the distribution of the n-th sample converges to the target and averages over the samples (also as computed by MeanValue) converge in mean square and in probability. With two or more delays, no trial is accepted any more after the second one of an iteration had density zero, which is not the published procedure.",
"all finite sets of states, log likelihoods that are finite or -infinity (any values for the law of a run), proposal distributions depending on the rejected samples, numbers of delays, run lengths, functions averaged; for the first part all sequences of proposals, random numbers and exceptions",
"tests sample one seed for a finite time; these are statements about the distribution of all runs of all lengths, and a random number that is exactly zero is hardly ever drawn",
[I+"producers/delayed_rejection_mh.impl.h: sample, alpha_fn", I+"consumers/mean_value.impl.h: consume"])
p("C79","Histogram in double arithmetic: accurate break points, no lost samples, counts right up to rounding at the break points",
"A Histogram(min, max, n) over double, with 2^-980 <= max - min <= DBL_MAX and at most 2^32 bins, is constructed without failure and consumes every sample that is not NaN (infinities included) without failure, with or without assertions. The break points returned by get() are finite, in non-decreasing order and differ from min + k(max-min)/n by at most 2^-53 (4 (max-min) + max(|min|,|max|)); the count of each bin is at least the number of samples that are by more than this inside the ideal bin and at most the number of samples in it or by at most this outside; and the counts add up exactly to the number of samples x with min <= x < max. If max - min exceeds the range of double, the construction still succeeds, but the first break point is NaN; every sample below max then fails an assertion, and without assertions all of them are counted in the first bin.",
"all pairs of finite doubles min, max, all numbers of bins, all sequences of fewer than 2^64 doubles other than NaN, both builds",
"the placement of samples near a break point depends on the rounding of each of them, for every range, number of bins and sample; tests use a few round numbers",
[I+"consumers/histogram.impl.h: Histogram, consume, get, bin_number"])
p("C80","PairHistogram in double arithmetic: accurate boxes, counts right up to rounding at the break points",
"A PairHistogram over double, with 2^-980 <= max - min <= DBL_MAX on both axes and at most 2^32 boxes, is constructed without failure and consumes every sample without NaN without failure. The corners returned by get() are finite, in order and differ from the ideal ones by at most 2^-53 (4 (max-min) + max(|min|,|max|)) of their axis; what is added to each count (whose initial value is whatever the memory contained) is at least the number of samples more than this inside the ideal box and at most the number of samples in it or at most this outside; if that memory was zero, the counts add up exactly to the number of samples with min <= x < max and min <= y < max. If max - min of the x axis exceeds the range of double, the construction succeeds, but every sample in the box fails an assertion.",
"all finite doubles min, max of both axes, all numbers of bins, all sequences of samples with two components that are not NaN, all initial contents of the memory, both builds",
"the placement of samples near a break point depends on the rounding of each of them, for every range, number of bins and sample; tests use a few round numbers",
[I+"consumers/pair_histogram.impl.h: PairHistogram, consume, get, x_bin_number, y_bin_number"])
p("C81","DifferentialEvaluationMetropolisHastings on a bounded domain: no sample outside, balance with states of density zero",
"If the log likelihood is -infinity at some states, then in every run of DifferentialEvaluationMetropolisHastings each sample comes from the previous one of its chain by a Metropolis-Hastings move for the densities; a chain that starts where the density is zero stays there until it is offered a trial of positive density, which it accepts. If all starting points have positive density and no random number is exactly zero, no sample of density zero is ever issued; if a random number is zero, one may be. Detailed balance holds with respect to the density, a generation without crossover keeps all chains independent and distributed like the density, and a reversible crossover keeps the last chain's distribution.",
"all environments (proposals, crossovers, random numbers, exceptions), at least three starting points, all crossover gaps and numbers of samples; for the second part all finite sets of states, log likelihoods that are finite or -infinity, proposal distributions, numbers of chains",
"whether a sample of density zero can be issued depends on the random number in a single step of one of all possible runs; distributions cannot be observed in a test",
[I+"producers/differential_evaluation_mh.impl.h: sample"])
with open('/verif/properties.jsonl','w') as f:
    for x in P: f.write(json.dumps(x)+"\n")
print(len(P))
