# Formal model of lithoxyl in Rocq: design

The library under study is /repo/lithoxyl (pinned commit).  Nothing in /repo is
executed; every definition of the model cites the file and lines it was read
from.  All Coq sources are in `rocq/theories/`:

* `model/*.v`  executable definitions only (no proofs), one file per module of
  /repo, or two where a module has unrelated parts;
* `spec/*.v`   small independent specifications used in statements;
* `proof/*.v`  lemmas;
* `props/*.v`  the property theorems (named `Cnn_...`), each with
  `Print Assumptions` and, beside it, an `Example` showing that a concrete
  non-trivial case meets its hypotheses.

`properties.jsonl` lists the properties in words, `MANIFEST.json` the theorems
for each, `seeded/LOG.jsonl` the wrong programs the theorems were tested on.

## Modelling conventions

* Python exceptions are values: a computation is
  `world -> world * res A`; state changes made before a raise persist.
* External things are parameters: the clock (a stream of readings), sink hooks
  (an oracle from the history of observations to an optional raised exception),
  note handlers, whether an exception object can be described, random numbers,
  Python's formatting of one value.  Theorems quantify over all of them.
* `dict` is an insertion ordered association list; `deque(maxlen=n)` drops its
  head when full; reference identity is an index into a table of objects.
* Numbers: rationals `Q` for quantiles, rates, actors and sinks; reals `R` for
  moments and EWMA (square roots, `exp`); integers for the accumulators where
  only comparisons matter, with -inf, +inf and NaN for histogram bounds.  Float
  rounding is modelled for quantiles, moments and moving averages (C87, C88:
  FloatStats.v and FloatMoments.v round after every operation, with no largest
  exponent) and in the single precision storage of
  ReservoirAccumulator (an arbitrary monotone rounding function); elsewhere
  arithmetic is exact.
* Threads: small-step interleavings with one atomic step per operation on
  shared data (`deque.append`, `deque.popleft`, flag read or write, lock acquire
  or release, hook call).  A schedule is any list of thread numbers.
* Programs using the library are arbitrary: either any sequence of API calls
  (`op`), or a program with nested `with` blocks, `try/except`, `raise`
  (`stmt`), or functions decorated by `wrap` calling each other.

When a natural reliance is false of the code, the property states the domain
where it holds and a `..._refuted` theorem gives the counterexample.  If it is
false only in corner cases the property counts as *proved* (for the domain
stated); if it is false on ordinary inputs it is *partial*: the strongest true
part is proved with suffix `_partial`.

## Properties

| id | model | what is proved and how |
|----|-------|------------------------|
| C01 (proved) | Core | every program with `with` blocks; induction over programs with a chain of small steps, counting end events per action |
| C02 (proved) | Core | every sequence of API calls with raising hooks; invariant over reachable worlds |
| C03 (proved) | Core | every program; the end event of a block is described by the outcome of its body |
| C04 (proved) | Core | every program; case analysis on `__exit__` over the body's outcome |
| C05 (proved) | Core | every program; induction over nesting |
| C06 (proved) | Core | every history; the shared counter only grows |
| C07 (proved) | Core | every program and non-decreasing clock |
| C08 (proved) | Core | every event and list of hooks, with raising hooks; induction over hooks |
| C09 (proved) | Core | every sequence of add/set/clear; induction |
| C10 (proved) | Core | simulation between the synchronous and the asynchronous run of one program |
| C11 (proved) | Core | bounded deque; induction over appends |
| C12 (proved) | Core | flush with raising hooks; induction over the queue and over flushes |
| C13 (proved) | Context, Core | every history of the context; induction over the logger list |
| C14 (partial) | Context | refuted as stated (enable_async passes False); later loggers and disable_async proved |
| C15 (proved) | Concurrent | every schedule of every number of threads; invariant over steps, measure for termination |
| C16 (partial) | Concurrent | refuted as stated; conservation for every schedule; exactly-once when no call is between reading the mode and queueing |
| C17 (proved) | Core | fuel 500 is the bound in the code; induction over the parent chain |
| C18 (proved) | Core | block whose on_exception hook raises |
| C19 (partial) | Core | refuted as stated; the leak characterised; restoration without raising begin/end hooks |
| C20 (proved) | Core | every history; the data map is the fold of the writes |
| C21 (proved) | Levels | all levels and keys |
| C22 (proved) | Levels | every sequence of registrations |
| C23 (proved) | Levels | every sequence of registrations, any iteration order of the set |
| C24 (proved) | Accumulators, Bisect | bisect specification; induction over adds |
| C25 (partial) | Accumulators | refuted as stated; invariant over adds for the true part |
| C26 (proved) | Accumulators | invariant over adds |
| C27 (proved) | Moments | invariant: the state is a function of the power sums; real field arithmetic |
| C28 (proved) | Moments | permutation and shift, from C27 |
| C29 (proved) | Quantile | every history of adds and reads |
| C30 (proved) | Quantile | every outcome of the random source |
| C31 (proved) | Quantile | interpolation lemmas on sorted lists |
| C32 (proved) | Quantile | from C31; counterexample with single precision storage |
| C33 (proved) | Quantile | invariant over adds; every marker within a constant of its ideal rank |
| C34 (partial) | Quantile | refuted as stated; exact description of count/min/max |
| C35 (proved) | Quantile | sound, complete, ValueError otherwise |
| C36 (proved) | Quantile | for any accumulator |
| C37 (proved) | Ewma | history split into measured intervals; each rate is the moving average of interval rates |
| C38 (partial) | Ewma | refuted for a clock that stands still; proved for an advancing clock |
| C39 (proved) | Sinks | induction over adds |
| C40 (proved) | Sinks | four regimes of the window |
| C41 (proved) | Sinks | induction over events |
| C42 (proved) | Sinks | for every accumulator type; induction over events |
| C43 (proved) | Sinks | for every accumulator type |
| C44 (proved) | Sinks | boltons ThresholdCounter modelled from its source; invariant over adds |
| C45 (proved) | Sinks | induction over appends |
| C46 (proved) | Actor | induction over task outcomes |
| C47 (proved) | Actor | labelled transition system; invariants over all interleavings |
| C48 (proved) | Actor | induction over outcomes |
| C49 (proved) | Emitters | arbitrary stream oracle; induction over entries |
| C50 (proved) | Emitters | case analysis over faults |
| C51 (partial) | Emitters | buffered file with stale handles; refuted for buffers, bounded loss proved |
| C52 (proved) | Sensible | all levels and statuses |
| C53 (proved) | Sensible | all filters, levels, events |
| C54 (proved) | Sensible | arbitrary filters, formatter, emitter |
| C55 (proved) | Format, Template | all templates, quoters, defaulters, getter outcomes; induction over tokens |
| C56 (proved) | Json | round trip by induction on the text |
| C57 (proved) | Json, Format | lines of quoted fields parse back |
| C58 (proved) | Template, Format | parser against a declarative grammar |
| C59 (proved) | Guid | positional numerals |
| C60 (proved) | Context | invariant over calls |
| C61 (proved) | Wrap, Core | calls of decorated functions nested to any depth |
| C62 (proved) | WrapAll | heaps of modules and classes of any shape; induction over names, classes, depth |
| C63 (proved) | Quantile | P2Accumulator before and after the threshold |
| C64 (proved) | Quantile | from C31 |
| C65 (proved) | Sinks | sums over the groups |
| C66 (proved) | Formatter, Format | the constructor with one template per kind of event and the on_* methods; rendering by C55 |
| C67 (proved) | Format, Template | Event.message over all raw messages |
| C68 (partial) | Context | exit functions and signals; refuted for Python 3 |
| C69 (proved) | Context | signal.signal raises off the main thread |
| C70 (proved) | Core | the events published by each call |
| C71 (proved) | Core | invariant relating the fields of an action to the ghost history |
| C72 (proved) | Core | induction over preflush hooks |
| C73 (proved) | Core | get_elapsed_time |
| C74 (proved) | GuidThreads | every schedule of threads, with fork |
| C75 (proved) | Actor | sums over task calls |
| C76 (proved) | Context | every history followed by process exit |
| C77 (proved) | Core | last outcome in the ghost history |
| C78 (proved) | Pipeline | logger, sink and file emitter together; content of the file in both modes |
| C79 (proved) | ParentThreads | every schedule of every number of threads; invariant relating the map to the open blocks of each thread; order of creation for acyclicity |
| C80 (proved) | SinkThreads | every schedule of the reads and writes of on_end; slack invariant for the bounds, exact invariant without overlap |
| C81 (proved) | Encoding.v: codecs as functions from code points to bytes, error handlers, check_encoding_settings. | Arithmetic over code point ranges against the Unicode table's decoder in EncodingSpec.v; composition with C51 through lines; refutations by witness. |
| C82 (proved) | Timestamps.v: CPython's ord_to_ymd, fromtimestamp, tzinfo.fromutc, strftime and the two functions of sensible.py over rational timestamps. | Correctness of ord_to_ymd against counting the days of years and months; digit blocks compare lexicographically as numbers; monotonicity of rounding half to even. |
| C83 (proved) | Fields.v: getters of all 51 built-in fields over the events and actions of Core.v, with messages formatted by the model of Event.message; SensibleFilters and formatter as an appender of Pipeline.v. MessageCache.v: the same with the cache of Event.message. | Each field depends on a part of the action that, for a line satisfying the condition, does not change between publication and flush; then C78's reduction to the list of published events. Status letters by invariants on end events and on the transaction flag. |
| C84 (proved) | Fields.v: fixed (correctly rounded fixed-point formatting), general14 (the format .14g), duration_auto and the getters. | Reading relation for decimal numerals (NumberSpec) against the digits produced; half-unit bound from the rounding lemma of C82; trailing zeros do not change the value; monotonicity of rounding. |
| C85 (proved) | Core events, Event.message and the built-in fields event_message and data_map_repr | message of each call (C70) pushed through the template grammar (C58): a default message is text, one field, text |
| C86 (proved) | Frames.v: stacks of frames with code, line and locals; sys._getframe, Callpoint.from_frame, the frames pushed by the logging methods, comment, decorated functions; get_frame_excluding_subtypes; the default target of wrap_all | induction on the call tree and on the chain of method frames; composed with C84 for the lines |
| C87 (proved) | FloatSpec.v: floats, rounding to nearest as a relation and IEEE 754 rounding; FloatStats.v: the functions of Quantile.v with a rounding after every operation. | Rounding to nearest is monotone and exact on floats, with a relative error bound; IEEE rounding is to nearest; the invariant of P2 carried through rounding (a rounded estimate between two floats stays between them, the tests compare exactly); quartile positions are exact in doubles; error analysis of the interpolation. |
| C88 (proved) | FloatMoments.v: moment.py and ewma.py with a rounding after every operation. | A rounded share of the distance to a new value never overshoots it (so the mean stays between); the square term is a product of two numbers of one sign; error recurrence n*e(n) <= (n-1)*e(n-1) + (n+5)*u*M; invariants of the rate map; without rounding the model equals Moments.v. |
| C89 (proved) | spec/ProgramSpec.v gives the lines of a program by recursion on its text, without objects, queues or hooks; model/Core.v runs it | Induction over the program: a relation between the open blocks of the specification and the action objects is kept by every statement; asynchronous mode through the simulation of C10; nesting by induction over the specification. |
| C90 (proved) | model/StatFeed.v: what the sinks read from the end events in the trace of model/Core.v; model/Sinks.v | The fed events match the end lines of C89 one by one; then C41, C42, C44. |
| C91 (proved) | spec/ProgramSpec.v lines; model/Fields.v sink; model/Emitters.v file | Every event received belongs to an action, so its rendering is the text of its line; C89 gives the lines and C51 the file; asynchronous mode by C10. |
| C92 (proved) | model/DevDebug.v: on_exception as a function of the event; model/Core.v | A relation between computations that differ in the hooks only (proof/SinkLocal.v): hooks matter only through the calls in the trace. The covered cases by stepping through __exit__ and _exception with the hook list split at the debugging sink. |
| C93 (proved) | model/HookThreads.v: add_sink, set_sinks and the publishing loops as small steps over list objects, any number of threads. | Invariants over all schedules: the hook lists only grow, a sink is appended to logger.sinks after all its hooks, the calls made for an event are a prefix of a hook list, the order of a hook list respects the order of registration. Uniqueness needs a second invariant on who is adding what. |
| C94 (proved) | model/SharedAction.v: the methods of Action as lists of micro instructions, one per access to a shared attribute, any number of threads. | Invariants over all schedules: counting publications owed by the rest of each thread's code, an order of assignments and publications, an inductive description of the way in and out of a with block. |
| C95 (proved) | Reentrant | threads as stacks of activations over re-entrant locks; counting and order invariants, lock ordering for progress, a lexicographic-style measure for termination; finite cycles for the refutations |
| C96 (proved) | StatReads: RateSink.on_end and get_total_counts, one step per operation on shared state; dict iterators carry the size they were made with. | Invariants over all schedules: dicts only grow at the end; what the reader has passed is what it has reported; counters are bounded by deliveries called and, with one deliverer, equal deliveries written. |
| C97 (proved) | model/EmitThreads.v: emit_entry, flush and close as single steps on self.stream and on file objects with their own buffers; a file object nobody refers to any more is closed. | An inductive step relation; invariants: lines in file and buffers are bounded by the lines handed over; calls made and returned match the program counters; without incidents there is one handle whose buffer is the missing suffix. |
| C98 (proved) | ActorThreads | every schedule of controlling threads and workers: invariants by induction over steps, with the calls in progress read off the trace |
| C99 (proved) | ThreadPrograms | every step of a thread is simulated by its program alone; each logger is a state of Concurrent, so C15 gives the sinks; the lines of the program alone are those of C89 |
| C100 (proved) | EmitterInit.v: both constructors, with stream objects as records of the attributes the code looks at, and codecs as an argument; Emitters.v for what is emitted. | Case analysis against a relational specification (stands_for, used_encoding, looks_writable, looks_binary); induction on the entries for what is written; concrete witnesses for the refuted expectations. |
| C101 (proved) | EwmaThreads.v: every load and store of add, _update and get_rates is a step; schedules are lists of steps of threads with clock readings. | Invariants over schedules: sums of distinct returned calls; bookkeeping of counted and waiting values for calls apart; bounds and clock for one reader; a completion function that each step of a lone call preserves (simulation with Ewma.v); concrete schedules for the refuted expectations. |
| C102 (proved) | model/ReservoirThreads.v: every load and store of _count, _min, _max, _data and _is_sorted and every array operation is a step; threads are interleaved in any order; items carry the number of the call that added them. | Invariants over schedules: tracing of items to calls and of the count to calls that stored it (proof/ReservoirTrace.v), room in the array without readers and lengths seen by a single reader (proof/ReservoirThreadProofs.v), the exact state at each line when calls do not overlap (proof/ReservoirApart.v); refuted by schedules. |
| C103 (proved) | model/MomentThreads.v: every load and store of add and of variance is a step; threads are interleaved in any order. | Invariant over schedules: tracing of the count to calls that stored it, what is known of the locals at each line (n >= 1, m2 >= 0, bounds set); for calls apart the exact state at each line, ending in mo_add of Moments.v; refuted by schedules. |
| C104 (proved) | model/GuidHash.v: the salt text, reseed_guid, int2hexguid and int2hexguid_seq over an arbitrary digest; sequences of calls with what the operating system answers at each | the parts of the salted text are separated by their dashes (the last one is followed by exactly eight hexadecimal digits and then the decimal number), so the text determines salt and number; induction over calls |
| C105 (proved) | model/RateThreads.v: add, get_rate and get_norm_times as threads, one step per access to the count or the deque; iterators compare the deque's change counter | an invariant that says of every thread at which moments of its call it looked at the sample and what it saw; what a rate can be is read off it; a rank for the steps of a call |
| C106 (proved) | model/Notes.v: the formatting of messages over an oracle for single conversions, and the loop over the list of handlers as it is at each turn, with handlers that may change the list or raise | the formatter is equivalent to an inductive relation between messages, arguments and texts; induction over the list of handlers and over the number of calls |
| C107 (proved) | model/Reprs.v: the texts with all digits, on top of Sinks.v and Ewma.v; sinks of other kinds by what their repr does. | The accumulators of a RateSink as one list, changed in one place by each event; sums over groups as sums over it; case analysis on the first sink that does not print; refuted by a schedule of reads. |

## Trusted base

### Kernel and axioms

Coq 8.16.1: its kernel (and `coqchk`).  No axiom of our own, no `Admitted`, no
disabled check, no functor or module type, no plugin.

`Print Assumptions` stands beneath every property theorem.  Of the 528 theorems in MANIFEST.json, 489 are closed under the global context (no axiom).  The others use the standard library's real numbers:

* `ClassicalDedekindReals.sig_forall_dec`, `FunctionalExtensionality.functional_extensionality_dep`: `C27_count_and_mean`, `C27_variance`, `C27_kurtosis`, `C28_order_independent`, `C28_variance_nonneg`, `C28_min_max`, `C38_constructor`, `C88_exact_arithmetic`, `C103_mean_unbounded_refuted`, `C103_observed`, `C103_variance`, `C103_ends`, `C103_exact`, `C103_mean_refuted`, `C103_min_refuted`, `C103_variance_refuted`
* `ClassicalDedekindReals.sig_forall_dec`, `ClassicalDedekindReals.sig_not_dec`, `Classical_Prop.classic`, `FunctionalExtensionality.functional_extensionality_dep`: `C27_std_dev`, `C27_skewness`, `C27_degenerate`, `C27_empty`, `C28_shift`, `C37_rates_between`, `C101_one_reader`, `C101_negative_rate_refuted`
* `ClassicalDedekindReals.sig_forall_dec`, `ClassicalDedekindReals.sig_not_dec`, `FunctionalExtensionality.functional_extensionality_dep`: `C37_moving_average`, `C37_steady_stream`, `C37_due_read_measures`, `C38_reads_succeed_refuted`, `C38_reads_succeed_partial`, `C101_sums`, `C101_bounds`, `C101_exact`, `C101_add_alone`, `C101_read_alone`, `C101_read_ends`, `C101_lost_add_refuted`, `C101_lost_in_update_refuted`, `C101_counted_again_refuted`, `C107_printing_is_harmless_refuted`

### What is modelled

| /repo/lithoxyl | model | not modelled |
|---|---|---|
| action.py | Core, ThreadPrograms (whole programs on threads), SharedAction (one action used by several threads), Fields and MessageCache (messages), Frames (callpoints) | the text boltons extracts from a traceback (oracle); `__repr__` |
| logger.py | Core, Concurrent, ThreadPrograms (whole programs on threads), HookThreads (registration under threads), Reentrant (hooks that call back into loggers), Wrap, Frames (module and callpoint detection), Reprs (`__repr__`) | |
| context.py | Context, Core (active parent map, note), ParentThreads (active parent with threads, default or by-thread hooks), Notes (note: its formatting and handlers) | flags, widths and mapping keys in the `%`-formatting of notes |
| actors.py | Actor, ActorThreads (several controlling threads) | |
| common.py | Levels | |
| accumulators.py | Accumulators, Bisect | TypeError for non-numeric bounds |
| moment.py | Moments, FloatMoments (with rounding), MomentThreads (used by several threads) | overflow, infinities and NaN |
| quantile.py, p_squared.py | Quantile, FloatStats (with rounding), ReservoirThreads (the reservoir used by several threads) | P2Accumulator used by several threads; overflow, infinities and NaN; rounding in `get_histogram`; the test functions at the end of p_squared.py |
| ewma.py | Ewma, EwmaThreads (used by several threads), FloatMoments (with rounding), Reprs (`__repr__`) | overflow of `exp`, the example at the end |
| sinks.py | Sinks, SinkThreads, StatFeed, DevDebug, StatReads (reading totals while threads deliver), RateThreads (reading rates and normalised times while threads add), Reprs (`__repr__` of AggregateSink, RateAccumulator, RateSink and QuantileSink) | the prompt of DevDebugSink(post_mortem=...), assumed to return; the other `__repr__`s |
| emitters.py | Emitters, EmitterInit (the constructors), EmitThreads (a FileEmitter used by several threads), Sinks (AggregateEmitter), Reprs (its `__repr__`), Encoding | codecs other than utf-8, ascii, latin-1, utf-16 (C50-C52 hold for an arbitrary partial function); `__repr__` of StreamEmitter |
| _syslog_emitter.py | Sensible | the syslog module |
| sensible.py | Sensible, Template, Format, Json, Timestamps, Fields | the `.14g` format outside 1 to 10^14; `str.upper` of level names and json.dumps/repr of data maps in fields (oracles) |
| utils.py | Guid, GuidHash, GuidThreads, WrapAll, Frames (default target), Encoding | SHA-1 itself |
| all of the above together | Pipeline, Fields, MessageCache | |

`wrap_all()` and `unwrap_all()` without a target always raise ValueError
(utils.py 55 and 99 ask a dict for `__name__`), so the model takes the target as
given.

### External code

Modelled from its source or documentation, and trusted to be what the model
says: CPython's dict, deque, list, bisect, sorted, set, `str.lower`/`upper`
(ASCII only), str.encode (four codecs), datetime.fromtimestamp/strftime, `with` and `try`, attribute lookup, threading.Event/Thread/RLock
(as atomic steps), atexit and signal delivery, io.BufferedWriter,
json.dumps/loads of text, string.Formatter.parse; boltons' ThresholdCounter,
tokenize_format_str, wraps, UTC and LocalTZ (from memory of its documentation: a standard
offset, daylight saving by wall clock reading, the default tzinfo.fromutc).  `str.format` of one value and nested format specs
are arbitrary partial functions.

### Reading of the code

That the definitions in `model/` say what the cited lines do was checked by
reading only.

