{"id": "C01", "title": "A with-block publishes exactly one end event", "statement": "If sinks do not raise, running `with logger.info(...) as act: body` delivers on_end to every sink having an on_end hook exactly once for that action, after the body finishes, no matter which success()/failure()/warn()/exception() calls, nested with-blocks, comments or raised exceptions the body contains.", "quantifier": "every block-structured program (any nesting depth, any calls, any raise/try), every set of sinks, every clock", "why_tests_cant": "the set of bodies is infinite and includes deferred publication, override of an earlier status, and nested blocks on the same logger", "anchors": ["lithoxyl/action.py:Action.__enter__", "lithoxyl/action.py:Action.__exit__", "lithoxyl/action.py:Action._end", "lithoxyl/logger.py:Logger.on_end"]}
{"id": "C02", "title": "Begin is published at most once and before any end", "statement": "For every action, on_begin is delivered at most once to each sink over the whole life of the action, and every delivered on_end of an action is preceded by the creation of its begin event (the end event's action always has a begin event).", "quantifier": "every sequence of API calls on any number of actions and loggers, every (possibly raising) sink", "why_tests_cant": "depends on the whole history of begin()/success()/failure()/with calls", "anchors": ["lithoxyl/action.py:Action.begin", "lithoxyl/action.py:Action._end"]}
{"id": "C03", "title": "The published status reflects the outcome of the block", "statement": "The end event published by a with-block has status 'exception' if an exception escaped the body (even if success() or failure() had been called before), otherwise the status of the last success()/failure()/exception() call made on it in the body, otherwise 'success'.", "quantifier": "every body and every exception", "why_tests_cant": "bodies are unbounded; the override rule interacts with deferred publication", "anchors": ["lithoxyl/action.py:Action.__exit__", "lithoxyl/action.py:Action._exception", "lithoxyl/action.py:Action._end"]}
{"id": "C04", "title": "Exceptions propagate unless reraise is False", "statement": "If sinks and note handlers do not raise, the with-statement re-raises exactly the exception that escaped its body when the action was created with any reraise other than False, and suppresses every exception (including KeyboardInterrupt and SystemExit) when reraise=False; it never introduces a new exception.", "quantifier": "every body, every exception kind, every reraise setting", "why_tests_cant": "must hold for every body and every exception object", "anchors": ["lithoxyl/action.py:Action.__exit__", "lithoxyl/logger.py:Logger.action"]}
{"id": "C05", "title": "Active parent is restored by nested blocks", "statement": "Running any program made of with-blocks over freshly created actions (no explicit parent_action) leaves each logger's active parent exactly as it was before, and each action created inside a block has that block's action as its parent.", "quantifier": "every well nested program over any number of loggers", "why_tests_cant": "unbounded nesting; restoration must survive exceptions", "anchors": ["lithoxyl/action.py:Action.__enter__", "lithoxyl/action.py:Action.__exit__", "lithoxyl/context.py:_consec_set_active_parent"]}
{"id": "C06", "title": "IDs are unique and increase with creation order", "statement": "All action ids and event ids handed out in a process are pairwise distinct, and a later created action or event always has a larger id than an earlier one; a parent's action id is smaller than its child's.", "quantifier": "every sequence of API calls", "why_tests_cant": "ids come from one counter shared by actions and five event types; history dependent", "anchors": ["lithoxyl/action.py:_ACT_ID_ITER", "lithoxyl/action.py:Action.__init__", "lithoxyl/action.py:BeginEvent"]}
{"id": "C07", "title": "Durations are non-negative and zero for atomic actions", "statement": "With a clock that never goes backwards the duration of an action is never negative; for an action never used as a context manager the duration is always exactly 0, even when begin() was called explicitly long before success()/failure(); for a with-block left without an earlier success()/failure() call, or by an exception, it is the time between entering and leaving the block.", "quantifier": "every API call sequence and every monotone clock", "why_tests_cant": "all clocks, all interleavings of begin/end calls", "anchors": ["lithoxyl/action.py:Action._end", "lithoxyl/action.py:Action.duration"]}
{"id": "C08", "title": "Synchronous dispatch reaches every sink once, in order", "statement": "In synchronous mode each published event is passed, before the publishing call returns, exactly once to each sink of the logger that has the matching hook, in the order sinks were added; if a hook raises, exactly the sinks before it (and it) have been called and the exception reaches the caller.", "quantifier": "every list of sinks, every event, every raising pattern", "why_tests_cant": "all sink lists and all raising patterns", "anchors": ["lithoxyl/logger.py:Logger.on_begin", "lithoxyl/logger.py:Logger.on_end", "lithoxyl/logger.py:Logger.on_warn", "lithoxyl/logger.py:Logger.on_exception", "lithoxyl/logger.py:Logger.comment"]}
{"id": "C09", "title": "Sink registration is idempotent and order preserving", "statement": "After any sequence of add_sink/set_sinks/clear_sinks calls, logger.sinks holds each sink at most once in first-addition order since the last reset, and the hook lists called for each event kind are exactly the sinks with that hook, in the same order.", "quantifier": "every sequence of registration calls", "why_tests_cant": "history dependent", "anchors": ["lithoxyl/logger.py:Logger.add_sink", "lithoxyl/logger.py:Logger.set_sinks", "lithoxyl/logger.py:Logger.clear_sinks"]}
{"id": "C10", "title": "Asynchronous mode delivers the same events in the same order", "statement": "If no hook raises and at most QUEUE_LIMIT events are pending, running any program in async mode and then flushing delivers to every sink exactly the begin/warn/end/comment events, in the same order, that synchronous mode would have delivered; on_exception is delivered immediately in both.", "quantifier": "every program, every sink set", "why_tests_cant": "program equivalence over all programs", "anchors": ["lithoxyl/logger.py:Logger.flush", "lithoxyl/logger.py:Logger.on_begin", "lithoxyl/logger.py:Logger.on_end"]}
{"id": "C11", "title": "Queue overflow drops only the oldest events", "statement": "The pending queue never exceeds QUEUE_LIMIT (10000) events, and after any number of appends it holds exactly the most recent min(n, QUEUE_LIMIT) of them in order.", "quantifier": "every number of appended events", "why_tests_cant": "unbounded histories; the limit is 10000", "anchors": ["lithoxyl/logger.py:QUEUE_LIMIT", "lithoxyl/logger.py:Logger.flush"]}
{"id": "C12", "title": "A raising hook during flush never duplicates or reorders events", "statement": "For arbitrary raising sinks, the sequence of events handed to a sink by any number of (possibly failing) flushes is, in order and without repetition, a subsequence of the events queued; a failed flush leaves all events after the failing one queued; the failing event is lost for the sinks registered after the raising one.", "quantifier": "every queue, every raising pattern, every number of flushes", "why_tests_cant": "all raising patterns and histories", "anchors": ["lithoxyl/logger.py:Logger.flush"]}
{"id": "C13", "title": "Context flush isolates loggers from each other", "statement": "LithoxylContext.flush flushes every registered logger in registration order even if some flushes raise ordinary exceptions, provided note handlers do not raise; a raising note handler stops it.", "quantifier": "every set of loggers and failure patterns", "why_tests_cant": "all failure patterns", "anchors": ["lithoxyl/context.py:LithoxylContext.flush", "lithoxyl/context.py:LithoxylContext.note"]}
{"id": "C14", "title": "Turning async on makes loggers asynchronous", "statement": "After LithoxylContext.enable_async() the loggers of the context queue their events instead of publishing inline; after disable_async() all loggers are synchronous and every queue is empty.", "quantifier": "every context state", "why_tests_cant": "all context states, including loggers created before and after", "anchors": ["lithoxyl/context.py:LithoxylContext.enable_async", "lithoxyl/context.py:LithoxylContext.disable_async", "lithoxyl/logger.py:Logger.set_async"]}
{"id": "C15", "title": "Concurrent producers and flushers: FIFO, no duplication, no loss below the limit", "statement": "For any number of threads logging to one async logger and any number of threads flushing it, under every interleaving each sink receives events in the order they were queued, each at most once; nothing is lost unless more than QUEUE_LIMIT events are pending; at most one thread delivers at a time. A flush that returns is a barrier: everything queued before it returned has been delivered.", "quantifier": "every schedule of any number of threads", "why_tests_cant": "interleavings cannot be enumerated by tests", "anchors": ["lithoxyl/logger.py:Logger.flush", "lithoxyl/logger.py:Logger.async_lock"]}
{"id": "C16", "title": "Disabling async under concurrency loses or reorders nothing", "statement": "When disable_async() runs concurrently with logging threads, every event logged before or during the call is delivered exactly once and in order once the call and the logging calls return.", "quantifier": "every schedule", "why_tests_cant": "race windows", "anchors": ["lithoxyl/context.py:LithoxylContext.disable_async", "lithoxyl/logger.py:Logger.on_end"]}
{"id": "C17", "title": "Parent depth is the length of the parent chain, capped at 500", "statement": "parent_depth terminates on every chain and equals min(number of ancestors, 500); the parent chain of API-created actions is acyclic.", "quantifier": "every chain length", "why_tests_cant": "unbounded chains", "anchors": ["lithoxyl/action.py:Action.parent_depth"]}
{"id": "C18", "title": "An exception sink that raises costs the end event but not the application", "statement": "If an on_exception hook raises an Exception while a with-block is handling an exception, no end event is created by that exit, the application still sees the original exception semantics (propagate or suppress according to reraise), and the raised hook exception is only noted; in particular DevDebugSink(reraise=True) cannot override reraise=False.", "quantifier": "every body, every raising on_exception hook", "why_tests_cant": "all hooks and bodies", "anchors": ["lithoxyl/action.py:Action.__exit__", "lithoxyl/sinks.py:DevDebugSink"]}
{"id": "C19", "title": "A raising begin/end sink leaks the active parent", "statement": "Users rely on the active parent being restored even when a sink raises. (It is not: when an on_begin hook raises on entry, or an on_end hook raises on a normal exit, the block's action stays the active parent of its logger.)", "quantifier": "every raising sink", "why_tests_cant": "raising sinks at every point", "anchors": ["lithoxyl/action.py:Action.__enter__", "lithoxyl/action.py:Action.__exit__"]}
{"id": "C20", "title": "data_map accumulates keyword data with last write winning", "statement": "After any sequence of begin/warn/success/failure calls with keyword data and item assignments, action[key] is the value of the latest write to key, keys never written raise KeyError, and events read the same data.", "quantifier": "every sequence of writes", "why_tests_cant": "history dependent", "anchors": ["lithoxyl/action.py:Action.__getitem__", "lithoxyl/action.py:Action.__setitem__", "lithoxyl/action.py:Action.begin", "lithoxyl/action.py:Action._end"]}
{"id": "C21", "title": "Level comparisons agree with numeric values", "statement": "For all levels, a < b and a >= b hold exactly when the numeric values compare so, hence filters are decided by value; among levels with pairwise distinct names and values exactly one of <, ==, > holds and < is a strict total order. (Without distinctness, == is not transitive and unequal hashes occur for equal levels.)", "quantifier": "all levels", "why_tests_cant": "all name/value combinations", "anchors": ["lithoxyl/common.py:Level"]}
{"id": "C22", "title": "Registered levels resolve by every alias", "statement": "After any sequence of register_level calls, get_level resolves a level's lower-case name, upper-case name, numeric value and the level itself to the most recent registration under that key, and returns the default for unknown keys.", "quantifier": "every registration history and every key", "why_tests_cant": "history dependent", "anchors": ["lithoxyl/common.py:register_level", "lithoxyl/common.py:get_level"]}
{"id": "C23", "title": "Next/previous level move along the registered order", "statement": "After any registrations the level list is sorted by value; with pairwise distinct values get_next_level(l) is the least registered level above l (or the top), get_prev_level the greatest below (or the bottom), saturating for any non-negative delta. (Levels sharing a value make get_next_level return the same level for ever; a negative delta wraps around.)", "quantifier": "every registry, level and delta", "why_tests_cant": "all registries", "anchors": ["lithoxyl/common.py:get_next_level", "lithoxyl/common.py:get_prev_level", "lithoxyl/common.py:LEVEL_LIST"]}
{"id": "C24", "title": "Histogram counts are exact", "statement": "For every list of bounds and every sequence of values below +infinity, each bucket of HistogramCounter.get_results() counts exactly the added values v with lo <= v < hi, the ranges partition the line, and the counts sum to the number of adds; adding +infinity raises IndexError.", "quantifier": "every bounds list and value sequence", "why_tests_cant": "unbounded inputs; boundary values", "anchors": ["lithoxyl/accumulators.py:HistogramCounter"]}
{"id": "C25", "title": "MaxAccumulator keeps the N largest values", "statement": "After adding any values, MaxAccumulator(count=N).max_list is the sorted list of the N largest values seen.", "quantifier": "every sequence of values and every N", "why_tests_cant": "all orders of insertion", "anchors": ["lithoxyl/accumulators.py:MaxAccumulator"]}
{"id": "C26", "title": "MinAccumulator's head is the minimum", "statement": "After adding any values to MinAccumulator(count=N), N >= 1, min_list is sorted, has at most N elements, all of them added values, and min_list[0] is the minimum of all values added (but the list is not in general the N smallest).", "quantifier": "every sequence of values and every N", "why_tests_cant": "all orders of insertion", "anchors": ["lithoxyl/accumulators.py:MinAccumulator"]}
{"id": "C27", "title": "Online moments equal the batch moments", "statement": "In exact arithmetic, after adding any non-empty sequence of values, MomentAccumulator.mean is the arithmetic mean and variance, skewness and kurtosis are those computed from the central sums of powers 2, 3, 4 of the whole data set; count is the number of values.", "quantifier": "every finite sequence of rationals", "why_tests_cant": "infinitely many inputs; algebraic identity", "anchors": ["lithoxyl/moment.py:MomentAccumulator.add"]}
{"id": "C28", "title": "Moments do not depend on insertion order", "statement": "In exact arithmetic any permutation of the same observations gives the same mean, variance, skewness, kurtosis and min/max; shifting all observations by a constant shifts the mean and leaves the central moments unchanged; variance is never negative.", "quantifier": "every permutation and every shift", "why_tests_cant": "all permutations", "anchors": ["lithoxyl/moment.py:MomentAccumulator"]}
{"id": "C29", "title": "An uncapped reservoir stores every observation", "statement": "ReservoirAccumulator(cap=None) after any adds and any interleaved quantile reads holds exactly the multiset of (storage-rounded) values added; count, min and max are those of the values added.", "quantifier": "every interleaving of adds and reads", "why_tests_cant": "histories", "anchors": ["lithoxyl/quantile.py:ReservoirAccumulator", "lithoxyl/quantile.py:BaseQuantileAccumulator"]}
{"id": "C30", "title": "A capped reservoir stays bounded and only holds observations", "statement": "With cap=N, for every outcome of the random source, the reservoir holds at most N values, each an added value; it holds min(n,N) values after n adds. count is the number of accepted (not observed) values, so count == number of adds is false.", "quantifier": "every random outcome sequence and every input sequence", "why_tests_cant": "all random outcomes", "anchors": ["lithoxyl/quantile.py:ReservoirAccumulator.add"]}
{"id": "C31", "title": "Reservoir quantiles interpolate order statistics and are monotone", "statement": "For a non-empty reservoir and 0<q<1, the quantile lies between the two order statistics around q*(n-1), is non-decreasing in q, and lies between the smallest and largest stored value; q outside (0,1) raises ValueError and an empty reservoir raises IndexError.", "quantifier": "every data set, every pair of q", "why_tests_cant": "real-valued q and arbitrary data", "anchors": ["lithoxyl/quantile.py:ReservoirAccumulator._get_quantile"]}
{"id": "C32", "title": "get_quantiles is monotone between min and max", "statement": "get_quantiles() of a ReservoirAccumulator with sorted q_points is non-decreasing from (0.0,min) to (1.0,max) when storage does not round; with single precision storage the top quantile can exceed the reported max.", "quantifier": "every data set", "why_tests_cant": "rounding corner cases", "anchors": ["lithoxyl/quantile.py:BaseQuantileAccumulator.get_quantiles", "lithoxyl/quantile.py:ReservoirAccumulator"]}
{"id": "C33", "title": "P2 estimates are ordered and the extremes exact", "statement": "In exact arithmetic, for every set of quantile points and every data sequence, P2Estimator never divides by zero, its estimates are non-decreasing in the quantile, the 0.0 and 1.0 entries are the exact minimum and maximum of all data, and marker positions stay strictly increasing from 1 to the number of observations, and the rank at which each estimate stands stays within a constant, depending only on the number of points, of its ideal rank.", "quantifier": "every data sequence and every quantile set", "why_tests_cant": "infinitely many sequences; invariant of an adaptive algorithm", "anchors": ["lithoxyl/p_squared.py:P2Estimator.add", "lithoxyl/p_squared.py:P2Estimator.__init__"]}
{"id": "C34", "title": "P2Accumulator counts every observation", "statement": "P2Accumulator.count is the number of values added and min/max are the extremes of all values added.", "quantifier": "every sequence of values", "why_tests_cant": "start-up threshold behaviour on all sequences", "anchors": ["lithoxyl/quantile.py:P2Accumulator.add"]}
{"id": "C35", "title": "Quantile point validation", "statement": "P2Estimator accepts exactly the q_points whose numeric members, after dropping one 0 and one 1, are non-empty and strictly between 0 and 1, and then tracks them in increasing order; everything else raises ValueError.", "quantifier": "every q_points input", "why_tests_cant": "all inputs", "anchors": ["lithoxyl/p_squared.py:P2Estimator._process_q_points"]}
{"id": "C36", "title": "Histogram cells tile the quantile range", "statement": "get_histogram() returns contiguous cells from quantile 0 to 1 whose ratios sum to 1, and for total_count >= number of quantile entries the cell counts sum to within the number of cells of the total count.", "quantifier": "every accumulator state", "why_tests_cant": "all states", "anchors": ["lithoxyl/quantile.py:BaseQuantileAccumulator.get_histogram"]}
{"id": "C37", "title": "EWMA rates are convex combinations of observed interval rates", "statement": "With a strictly advancing clock, every rate returned by EWMAAccumulator.get_rates lies between the smallest and largest interval rate observed so far, a steady stream gives exactly its rate, each added value enters exactly one measured interval, and at most one measured interval is shorter than the configured interval.", "quantifier": "every sequence of adds and reads, every increasing clock, all periods", "why_tests_cant": "infinitely many schedules of reads", "anchors": ["lithoxyl/ewma.py:EWMAAccumulator._update", "lithoxyl/ewma.py:EWMAAccumulator.get_rates"]}
{"id": "C38", "title": "EWMA reads never fail", "statement": "get_rates() never raises. (False: if the clock has not advanced since creation the forced first update divides by zero.)", "quantifier": "every clock", "why_tests_cant": "clock granularity", "anchors": ["lithoxyl/ewma.py:EWMAAccumulator._update"]}
{"id": "C39", "title": "RateAccumulator keeps the last sample_size timestamps and the exact total", "statement": "After any adds, total_count is the number of adds and the reservoir is the most recent sample_size timestamps in order.", "quantifier": "every sequence", "why_tests_cant": "unbounded histories", "anchors": ["lithoxyl/sinks.py:RateAccumulator.add"]}
{"id": "C40", "title": "get_rate counts exactly the retained events from start_time on", "statement": "With in-order timestamps, for creation_time < start_time, if some but not all retained timestamps precede start_time, get_rate(start_time,end_time) is (number of events ever added at or after start_time)/(end_time-start_time); for start_time <= creation_time it uses the exact total. An accumulator that has received nothing reports 0. A window containing no retained event raises ZeroDivisionError when all retained timestamps coincide (e.g. only one).", "quantifier": "every timestamp sequence and window", "why_tests_cant": "all windows", "anchors": ["lithoxyl/sinks.py:RateAccumulator.get_rate"]}
{"id": "C41", "title": "RateSink totals are exact", "statement": "For every history of end events over loggers with distinct names and no name '__all__', get_total_counts() reports for every logger/name/status exactly the number of such events, and every '__all__' is the sum of its group; loggers sharing a name break the sum.", "quantifier": "every event history", "why_tests_cant": "all histories", "anchors": ["lithoxyl/sinks.py:RateSink.on_end", "lithoxyl/sinks.py:RateSink.get_total_counts"]}
{"id": "C42", "title": "QuantileSink groups by logger name and action name", "statement": "After any history of end events the accumulator under (logger name, action name) has received exactly the getter values of the end events with these names, in order, and to_dict() reports their count, trimean and quantiles.", "quantifier": "every event history", "why_tests_cant": "all histories", "anchors": ["lithoxyl/sinks.py:QuantileSink.on_end"]}
{"id": "C43", "title": "EWMASink aggregates are sums over members", "statement": "get_values() reports under every '__all__' the period-wise sum of the rates of the accumulators in that group.", "quantifier": "every accumulator map", "why_tests_cant": "all maps", "anchors": ["lithoxyl/sinks.py:EWMASink.get_values", "lithoxyl/sinks.py:EWMASink._update_add"]}
{"id": "C44", "title": "CounterSink never loses events from the total", "statement": "For every event history, CounterSink.to_dict()[logger]['__all__'] is the number of end events of that logger (distinct logger names, no reserved keys), each reported count is at most the true count and undercounts by at most total // int(1/threshold) (that is threshold*total when 1/threshold is an integer; otherwise it can exceed threshold*total), and the reported counts together with '__missing__' add up to the total.", "quantifier": "every event history and threshold", "why_tests_cant": "lossy counting guarantee over all streams", "anchors": ["lithoxyl/sinks.py:CounterSink"]}
{"id": "C45", "title": "Aggregating sinks keep the most recent items", "statement": "AggregateSink(limit) and AggregateEmitter(limit) hold, per event kind respectively overall, exactly the most recent `limit` items in order (all if limit is None) added since the last clear().", "quantifier": "every sequence and limit", "why_tests_cant": "unbounded histories", "anchors": ["lithoxyl/sinks.py:AggregateSink", "lithoxyl/emitters.py:AggregateEmitter"]}
{"id": "C46", "title": "Actor interval stays within bounds and recovers", "statement": "With max_interval >= interval >= 0, after any sequence of task successes and failures the wait lies in [interval, max_interval]; k consecutive failures from the start give min(interval*2^k, max_interval); eight consecutive successes return it to interval. With max_interval < interval successes grow the wait without bound.", "quantifier": "every sequence of outcomes", "why_tests_cant": "unbounded sequences", "anchors": ["lithoxyl/actors.py:IntervalThreadActor._run"]}
{"id": "C47", "title": "Actor lifecycle under all interleavings", "statement": "With one controlling thread, under every interleaving of start/stop/join with the worker at most one worker is alive, and after stop() followed by a join() returning False no further task call starts until start() is called again; a start() while the previous worker is still stopping is silently lost. A stopped worker ends within five steps, join() without a timeout never returns True, and start() after a join() returning False, or in a forked child, returns normally with exactly one live worker.", "quantifier": "every interleaving", "why_tests_cant": "scheduling", "anchors": ["lithoxyl/actors.py:IntervalThreadActor.start", "lithoxyl/actors.py:IntervalThreadActor.stop", "lithoxyl/actors.py:IntervalThreadActor.join"]}
{"id": "C48", "title": "Task failures do not halt the actor", "statement": "The worker loop keeps calling the task after any sequence of ordinary exceptions, provided the note callback does not raise; a raising note callback ends the thread.", "quantifier": "every sequence of outcomes", "why_tests_cant": "unbounded sequences", "anchors": ["lithoxyl/actors.py:IntervalThreadActor._run", "lithoxyl/actors.py:IntervalThreadActor.note"]}
{"id": "C49", "title": "Stream emission writes each entry at most once and in order", "statement": "For every pattern of write/flush failures the bytes accepted by the streams are, in order, the encoded entries each followed by the separator, with no entry duplicated by the stale-handle retry; entries whose write fails with anything but ESTALE are dropped; standard streams are never reopened as files.", "quantifier": "every failure pattern and entry sequence", "why_tests_cant": "all failure patterns", "anchors": ["lithoxyl/emitters.py:StreamEmitter.emit_entry", "lithoxyl/emitters.py:StreamEmitter.flush"]}
{"id": "C50", "title": "Emission failures do not reach the application", "statement": "emit_entry never raises unless reopening a stale file or the single retry fails (or encoding does); flush never raises; emitting to a closed FileEmitter is a silent no-op.", "quantifier": "every failure pattern", "why_tests_cant": "all failure patterns", "anchors": ["lithoxyl/emitters.py:StreamEmitter.emit_entry", "lithoxyl/emitters.py:FileEmitter.close"]}
{"id": "C51", "title": "Stale handles are recovered for buffered files", "statement": "An ESTALE condition on the file of a FileEmitter is recovered by reopening without losing entries. (False for buffered streams: ESTALE surfaces in flush(), which swallows it, and buffered entries are lost when the stream is replaced.)", "quantifier": "every moment the handle goes stale", "why_tests_cant": "failure at every point", "anchors": ["lithoxyl/emitters.py:StreamEmitter.flush", "lithoxyl/emitters.py:FileEmitter"]}
{"id": "C52", "title": "Syslog priority is defined and graded", "statement": "For the built-in levels SyslogEmitter maps every begin/warn/end(success|failure|exception) event to a priority, at least as severe for a higher level and for a worse outcome; for any other registered level it raises KeyError, an event at a level that was never registered is reported like DEBUG, and there is no comment handler.", "quantifier": "all levels and statuses", "why_tests_cant": "custom levels are unbounded", "anchors": ["lithoxyl/_syslog_emitter.py:SyslogEmitter._get_syslog_priority"]}
{"id": "C53", "title": "Filter decisions", "statement": "SensibleFilter passes begin/warn/end events exactly when the action's level value is at least the threshold value configured for that kind (per status for end), or the verbose check is truthy; comments pass unless block_comments; raising a threshold never passes more, raising the action level never passes less. The constructor raises TypeError exactly for unknown keywords and for verbose_check together with verbose_flag.", "quantifier": "all levels, thresholds and events", "why_tests_cant": "all combinations", "anchors": ["lithoxyl/sensible.py:SensibleFilter"]}
{"id": "C54", "title": "SensibleSink emits exactly the subscribed events passing all filters", "statement": "A SensibleSink hands to its emitter one formatted entry for an event exactly when the event kind is among `on` and every filter accepts it; on='exception' is accepted but never emits.", "quantifier": "every filter list, every subscription, every event sequence", "why_tests_cant": "all combinations", "anchors": ["lithoxyl/sensible.py:SensibleSink"]}
{"id": "C55", "title": "Formatting never raises and isolates failing fields", "statement": "Rendering an event with any template never raises whatever field getters, user values or the quoter raise; the output is the concatenation of the literals, the rendered fields, and for each failing field its default text, so a failing field does not affect the others.", "quantifier": "every template, every field outcome", "why_tests_cant": "all templates and failure combinations", "anchors": ["lithoxyl/sensible.py:SensibleMessageFormatter.format"]}
{"id": "C56", "title": "Quoted fields decode back to the original text", "statement": "The text of a quoted field is ASCII without control characters or line breaks and decodes (as JSON) to exactly the original text, for every text without a high surrogate directly followed by a low surrogate.", "quantifier": "every Unicode text", "why_tests_cant": "all of Unicode, all lengths", "anchors": ["lithoxyl/sensible.py:DEFAULT_QUOTER", "lithoxyl/sensible.py:SensibleMessageFormatter._default_quoter"]}
{"id": "C57", "title": "Log lines of quoted fields can be parsed back", "statement": "A line rendered from a template whose fields are all quoted can be split back, without knowledge of the values, into exactly the field values; it occupies exactly one line if the literals contain no line break.", "quantifier": "every template of quoted fields and all values", "why_tests_cant": "all templates and values", "anchors": ["lithoxyl/sensible.py:SensibleMessageFormatter.format"]}
{"id": "C58", "title": "Templates and field values", "statement": "A template consists of exactly the characters, doubled braces, named and numbered fields the format string grammar says, anonymous fields being numbered in order; everything else is rejected. A positional field takes the argument of its number. A named field takes its value from the keyword arguments, else the action's data map, else the built-in or extra field getter, else None: user data shadows built-in fields, and shadowed unquoted fields are not escaped. Extra fields replace built-in ones of the same name; a field is quoted as declared, otherwise unless its spec is numeric.", "quantifier": "every data map and template", "why_tests_cant": "all maps", "anchors": ["lithoxyl/sensible.py:GetterDict", "lithoxyl/sensible.py:SensibleMessageFormatter.__init__"]}
{"id": "C59", "title": "GUIDs are unique and numerically ordered", "statement": "Within one process different ids give different guids, and a larger id gives a numerically larger guid; guids of equal length sort lexicographically like the ids, but across a length change they do not.", "quantifier": "every start value and pair of ids", "why_tests_cant": "2^96 start values", "anchors": ["lithoxyl/utils.py:int2hexguid_seq"]}
{"id": "C60", "title": "SIGTERM handlers installed by others are never replaced", "statement": "For every sequence of enable_async/disable_async calls and application signal() calls, a SIGTERM handler installed by the application is never replaced or removed, and after disable_async lithoxyl's handler is not installed.", "quantifier": "every call sequence", "why_tests_cant": "history dependent", "anchors": ["lithoxyl/context.py:install_sigterm_handler", "lithoxyl/context.py:uninstall_sigterm_handler"]}
{"id": "C61", "title": "wrap is transparent", "statement": "Calling a function decorated with Logger.wrap returns the same value or raises the same exception as the function (unless reraise=False), and publishes one begin and one end event per call, of an action with the given level, data, parent and name (the function's own by default); the action is passed to the function under inject_as if that is given; the decorated function keeps its name; with enable_wrap=False the function is returned unchanged.", "quantifier": "every function behaviour and nesting of calls", "why_tests_cant": "all functions", "anchors": ["lithoxyl/logger.py:Logger.wrap"]}
{"id": "C62", "title": "unwrap_all undoes wrap_all", "statement": "For a module or class tree whose wrapped attributes are the target's own and not already wrapped, unwrap_all(target) after wrap_all(logger, target) restores every attribute; inherited attributes are left as copies on the subclass. wrap_all wraps every function of the target whose name is not skipped, under the name label.attribute and the level level_map gives, returns exactly the names of the wrappers it put on, and raises on a function it cannot wrap unless skip_exc is set.", "quantifier": "every attribute tree", "why_tests_cant": "all trees", "anchors": ["lithoxyl/utils.py:wrap_all", "lithoxyl/utils.py:unwrap_all", "lithoxyl/utils.py:unwrap"]}
{"id": "C63", "title": "P2Accumulator quantiles are exact at first and ordered later", "statement": "Until a P2Accumulator has seen two values more than the number of tracked quantiles, each quantile in (0,1) is the linear interpolation of the values added; afterwards every tracked quantile is answered with a value between the smallest and largest value seen, the answers are non-decreasing in the quantile, an untracked quantile raises ValueError, and get_quantiles without arguments answers the tracked points.", "quantifier": "every sequence of adds and reads and every quantile set", "why_tests_cant": "all data sets and quantile sets", "anchors": ["lithoxyl/quantile.py:P2Accumulator", "lithoxyl/p_squared.py:P2Estimator"]}
{"id": "C64", "title": "Quartiles are ordered, iqr is non-negative and the trimean lies between the quartiles", "statement": "For every non-empty reservoir the three quartiles are the linear quantiles at 1/4, 1/2 and 3/4 and are non-decreasing, iqr is their spread and not negative, and trimean is their weighted mean and lies between the first and the third.", "quantifier": "every data set and read history", "why_tests_cant": "all data sets", "anchors": ["lithoxyl/quantile.py:BaseQuantileAccumulator"]}
{"id": "C65", "title": "RateSink rates add up", "statement": "When get_rates(start_time, end_time) returns, every member rate is the rate of an accumulator holding exactly the values of that logger's, name's and status's end events, and every '__all__' is the sum of the entries one level below it (distinct logger names, no reserved names).", "quantifier": "every event history and window", "why_tests_cant": "every history", "anchors": ["lithoxyl/sinks.py:RateSink.get_rates"]}
{"id": "C66", "title": "Per-event templates", "statement": "SensibleFormatter renders an event with the template given for its kind, an empty or None template rendering the empty line, and otherwise with the base template; the constructor raises exactly if the template of some kind of event is malformed; with neither a template of its own nor a base, the line is the word None.", "quantifier": "every base, every per-event template, every event", "why_tests_cant": "all combinations and all templates", "anchors": ["lithoxyl/sensible.py:SensibleFormatter.__init__", "lithoxyl/sensible.py:SensibleFormatter.on_begin"]}
{"id": "C67", "title": "Messages are templated predictably", "statement": "A message without an opening brace is reported verbatim; doubling the braces of any other text makes it reported verbatim; a template message is assembled from its literals, named fields and the positional arguments in order, unquoted; exactly the malformed templates make reading the message raise; once a message was computed non-empty it never changes.", "quantifier": "every raw message, arguments, data map", "why_tests_cant": "all texts and templates", "anchors": ["lithoxyl/action.py:Event.message", "lithoxyl/sensible.py:SensibleMessageFormatter"]}
{"id": "C68", "title": "SIGTERM handling is transparent", "statement": "A process with lithoxyl's SIGTERM handler installed that receives SIGTERM terminates with the same status as without the handler (killed by signal 15), after its exit handlers ran.", "quantifier": "every contents of the exit handler list", "why_tests_cant": "depends on the interpreter and the other exit handlers", "anchors": ["lithoxyl/context.py:signal_sysexit", "lithoxyl/context.py:atexit_reissue_sigterm"]}
{"id": "C69", "title": "Mode switches work on every thread or change nothing", "statement": "enable_async and disable_async called on a thread other than the main thread either succeed with the same effect or leave the context usable: with update_sigterm=False or an application handler they behave as on the main thread; otherwise they raise ValueError (enable_async after setting the context to async, disable_async without flushing).", "quantifier": "every context state and option set", "why_tests_cant": "all context states", "anchors": ["lithoxyl/context.py:LithoxylContext.enable_async", "lithoxyl/context.py:LithoxylContext.disable_async", "lithoxyl/context.py:install_sigterm_handler"]}
{"id": "C70", "title": "Every call publishes exactly its own events", "statement": "warn, begin, success, failure, exception and comment each publish exactly the events they stand for (begin only the first time; an end call first begins an action that has not begun; end events are held back inside the with-block), with the caller's message or the default text, the action's data hint, the time of the call, status and exception, to every listener of the action's logger in order in synchronous mode, into the queue in asynchronous mode (exception events at once), and change no other action or logger queue.", "quantifier": "every reachable state, action, message and data, both modes", "why_tests_cant": "all histories and logger configurations", "anchors": ["lithoxyl/action.py:Action.warn", "lithoxyl/action.py:Action.begin", "lithoxyl/action.py:Action._end", "lithoxyl/action.py:Action._exception", "lithoxyl/logger.py:Logger.comment"]}
{"id": "C71", "title": "An action's record is its history", "statement": "At any time warn_events and exc_events of an action are exactly the warn and exception events created for it in order, begin_event is its only begin event and end_event its latest end event.", "quantifier": "every reachable history, raising sinks included", "why_tests_cant": "all histories", "anchors": ["lithoxyl/action.py:Action"]}
{"id": "C72", "title": "Preflush hooks", "statement": "flush() calls every preflush hook once, in registration order, before anything is delivered; a hook raising an ordinary exception is reported through note and does not stop the others; last_flush is the time of the last flush that completed.", "quantifier": "every hook list, queue and hook behaviour", "why_tests_cant": "all hook behaviours", "anchors": ["lithoxyl/logger.py:Logger.flush"]}
{"id": "C73", "title": "Elapsed time", "statement": "get_elapsed_time is 0 before begin and afterwards the time since the first begin, whatever calls were made in between.", "quantifier": "every call history", "why_tests_cant": "all histories", "anchors": ["lithoxyl/action.py:Action.get_elapsed_time"]}
{"id": "C74", "title": "GUIDs with threads and forks", "statement": "In every interleaving of any number of threads in one process, guids of different ids differ and each is the process's start plus the id. After a fork, if some thread obtains a guid before any other asks for one, all guids of the child are based on one seed drawn in the child; once some thread has reseeded, every later guid is based on a seed drawn in the child. Otherwise a second thread can obtain a guid of the parent (refuted). An action's guid, once read, never changes; one not read before the fork differs between parent and child.", "quantifier": "every schedule, thread programs, fork", "why_tests_cant": "interleavings", "anchors": ["lithoxyl/utils.py:int2hexguid_seq", "lithoxyl/utils.py:reseed_guid", "lithoxyl/action.py:Action.guid"]}
{"id": "C75", "title": "Actor statistics", "statement": "get_stats() reports exactly the number of task calls made over all workers, the total time of the calls that returned to the loop, and the start time of the latest worker.", "quantifier": "every sequence of workers, outcomes and clock readings", "why_tests_cant": "unbounded sequences", "anchors": ["lithoxyl/actors.py:IntervalThreadActor.get_stats", "lithoxyl/actors.py:IntervalThreadActor._run"]}
{"id": "C76", "title": "Nothing buffered is lost at process exit", "statement": "Once enable_async has returned normally, when the process ends, by itself or by SIGTERM with lithoxyl's handler installed, every exit function still runs, disable_async is one of them and runs exactly once however often async was enabled, and the queue of every registered logger whose hooks do not raise is delivered completely, in order, to all its sinks.", "quantifier": "every history of logger creations, mode switches, signals and logging calls, both ways to end, with and without atexit._exithandlers", "why_tests_cant": "the queue contents, exit-function lists and signal histories are unbounded", "anchors": ["lithoxyl/context.py:LithoxylContext.enable_async", "lithoxyl/context.py:LithoxylContext.disable_async", "lithoxyl/context.py:signal_sysexit", "lithoxyl/context.py:atexit_reissue_sigterm"]}
{"id": "C77", "title": "An action's status is the last outcome recorded", "statement": "The status of an action is determined by the outcome calls made on it, in order: success, failure and exception set it, leaving its with-block sets it to exception when an exception leaves the block and to success when nothing was recorded before, and no other call on any action or logger changes it.", "quantifier": "every sequence of API calls on every action, logger and sink configuration", "why_tests_cant": "call sequences are unbounded", "anchors": ["lithoxyl/action.py:Action.status", "lithoxyl/action.py:Action._end", "lithoxyl/action.py:Action.__exit__"]}
{"id": "C78", "title": "What is in the log file", "statement": "With a SensibleSink writing through a FileEmitter, the file holds one line for each event the sink was given, subscribes to and lets through all its filters, in that order, and nothing else. In synchronous mode the line of every event a call publishes is there when the call returns. If filters and template use only what never changes about an event and its action, an asynchronous program that flushes at the end, with no event dropped, leaves the same file as the synchronous program, byte for byte. With a template showing the action's data this last part is false: lines are formatted at flush time.", "quantifier": "all sequences of API calls, sinks, filters, templates, encodings, buffer sizes and modes", "why_tests_cant": "the claim relates two whole executions and every template; a test compares one pair of files", "anchors": ["lithoxyl/logger.py: Logger.flush, Logger.on_begin, Logger.on_end, Logger.on_warn, Logger.on_comment", "lithoxyl/sensible.py: SensibleSink", "lithoxyl/emitters.py: FileEmitter"]}
{"id": "C79", "title": "Parents of actions across threads", "statement": "When no logger is used by two threads, or the context was given get/set_active_parent hooks that keep threads apart, every action gets as parent the innermost with-block its own thread has open on the same logger at that moment, and none if there is none. With the default hooks and a shared logger this is false: an action can be attributed to another thread's block, and after two overlapping blocks have both ended, every later action of that logger has a finished action as its parent. In every case action ids are distinct and following parent_action never comes back to the same action.", "quantifier": "every number of threads, every program of nested with-blocks and single actions, every schedule", "why_tests_cant": "which parent is found depends on the interleaving of creations and block boundaries", "anchors": ["lithoxyl/context.py:_consec_get_active_parent", "lithoxyl/context.py:_consec_set_active_parent", "lithoxyl/action.py:Action.__init__", "lithoxyl/action.py:Action.__enter__", "lithoxyl/action.py:Action.__exit__"]}
{"id": "C80", "title": "Counts of a RateSink fed by several threads", "statement": "Whatever the interleaving of threads delivering end events to one RateSink, a group's total count never exceeds the number of its events, and a group that got an event has a count of at least one once all calls have returned. If calls do not overlap, as in asynchronous mode, where only the one flushing thread delivers, counts are exact and the sample holds the most recent values. With overlapping calls, as in synchronous mode with threads, exactness is false: increments can be lost, and a whole accumulator with any number of counts can be thrown away.", "quantifier": "every number of threads, events and groups, every schedule of the reads and writes of on_end", "why_tests_cant": "lost updates need particular interleavings and the bounds must hold for all of them", "anchors": ["lithoxyl/sinks.py:RateSink.on_end", "lithoxyl/sinks.py:RateAccumulator.add"]}
{"id": "C81", "title": "Log files written with the default settings read back as the entries", "statement": "With the default settings (UTF-8, backslashreplace) writing an entry never fails because of its characters, whatever they are. The file is always well-formed UTF-8, and decoding it gives every entry followed by the separator; if no entry contains a newline, the lines of the file are exactly the entries in order. Lone surrogates appear as \\udXXX escapes, all other characters as they are. Any handler other than strict never fails; strict fails exactly on a character the codec does not have. Unknown codecs or handlers are rejected when the emitter is made. Not everything reads back: an escape is indistinguishable from text that contained it, and encoding='utf-16' puts a byte order mark before every entry and separator.", "quantifier": "all texts (every code point, including lone surrogates), all lists of entries, four codecs, four error handlers", "why_tests_cant": "tests use a few characters; a codec boundary (2, 3, 4 byte forms, surrogates) is a property of every code point", "anchors": ["lithoxyl/emitters.py: StreamEmitter.__init__, emit_entry", "lithoxyl/utils.py: check_encoding_settings"]}
{"id": "C82", "title": "Time stamps in log lines", "statement": "The UTC time stamp fields (iso_begin, iso_end and their variants without offset) show the time of the event to the nearest microsecond: read with nothing but the Gregorian calendar, the text gives that instant. They have a fixed length, contain no white space, and sort as texts in the order of time. The local variants with an offset stand for the right instant whenever the zone gives the same daylight saving for the reading shown as was used to compute it, and are otherwise off by exactly the difference; so in the hour the clocks go back two events an hour apart can have the same time stamp, and without offset the order can be reversed. The variants without a fraction show the second the event happened in, cut off and not rounded, so they can differ by one second from the others.", "quantifier": "all timestamps from 1970 to 9999 as rationals, all pairs of them, all local zones given by a standard offset and a daylight saving rule", "why_tests_cant": "calendar boundaries (leap years, centuries), rounding at the half microsecond and clock changes are not reached by the few instants of a test", "anchors": ["lithoxyl/sensible.py: timestamp2iso8601, timestamp2iso8601_noms, ISO8601_FIELDS"]}
{"id": "C83", "title": "Lines made of built-in fields are the same in both modes", "statement": "With a SensibleSink whose templates and messages use the built-in fields and data of the action, and whose filters are SensibleFilters, an asynchronous program that flushes at the end and drops nothing leaves the same file as the synchronous program, byte for byte, as long as no line shows something that came later: the end of the action in a line for an earlier event, data stored later under a name the line shows, an exception recorded later, or the letter of an end event of an action entered later. The status letter is b, W, !, # for begin, warn, exception and comment and the initial of the outcome for an end, a capital if and only if the action was used as a context manager. Not so: a begin line showing the duration differs between the modes; warn_char is never shown; event_message_raw shows the formatted message.", "quantifier": "all programs of API calls, templates, messages, filters, quoters, clocks and data", "why_tests_cant": "the claim relates two whole executions for every template of 51 fields; tests compare one line at a time", "anchors": ["lithoxyl/sensible.py: SensibleSink, SensibleFormatter, BASIC_FIELDS, ISO8601_FIELDS, PARENT_FIELDS, DELTA_FIELDS", "lithoxyl/action.py: Event.message, EndEvent.status_char, Action.duration, Action.exc_event", "lithoxyl/logger.py: Logger.flush"]}
{"id": "C84", "title": "Numbers in log lines", "statement": "The duration fields show the time between begin and end of the action in seconds, milliseconds and microseconds, as a decimal number within half a unit of its last digit; duration_auto is right-aligned in nine columns, in microseconds below a millisecond, milliseconds below a second and seconds from there on. An action that has not ended shows zero. import_delta_s and import_delta_ms are correctly rounded to six and four digits. begin_timestamp and end_timestamp show the time to the nearest tenth of a millisecond (from 2001 to 2286), and a later time is never shown as an earlier one. Fields that show integers show exactly that number. Not so: duration_auto can show 1000.000ms for less than a second; a duration below zero is always in microseconds; events 80 microseconds apart can have the same timestamp.", "quantifier": "all actions, begin and end times, clocks and depths", "why_tests_cant": "rounding at unit boundaries and halves must be right for every value; tests format a few", "anchors": ["lithoxyl/sensible.py: duration_auto, BASIC_FIELDS, DELTA_FIELDS, PARENT_FIELDS", "lithoxyl/action.py: Action.duration"]}
{"id": "C85", "title": "The default messages say what happened", "statement": "If no message is given, the line of an event says \"<name> beginning\", \"<name> succeeded\", \"<name> failed\" or \"<name> raised exception: <text>\", followed by \" - (<data map>)\" exactly if the action had data when the call was made; a message that is given and has no opening brace is shown as it is.  The exception and the end event of a failed action say the same.", "quantifier": "every action name and exception text without braces, every message, every reachable logger state, mode and sink, every later change of the data map, every line template that shows the message", "why_tests_cant": "names, messages and data are unbounded and lines are written long after the call", "anchors": ["lithoxyl/action.py: Action.begin, success, failure, exception, _exception, warn", "lithoxyl/action.py: Event.message", "lithoxyl/logger.py: comment", "lithoxyl/sensible.py: event_message, data_map_repr"]}
{"id": "C86", "title": "Lines show where the action was created, loggers belong to the module that created them", "statement": "The module, file, function and line number in the line of an event are those of the call of debug(), info(), critical(), action() or Action() that created the action.  A logger created without a module belongs to the module of the code that created it: the innermost frame that is no method of a logger type, however many subclass constructors are in between, or, with module_offset, that many frames further out; without a name it is named after it.", "quantifier": "every program as a tree of function calls of any depth and length, every call stack, every chain of logger subclasses shorter than 9999 frames, every offset", "why_tests_cant": "call stacks have any depth and shape; a test exercises the few call sites it is written with", "anchors": ["lithoxyl/action.py: Action.__init__", "lithoxyl/logger.py: get_frame_excluding_subtypes, Logger.__init__, debug, info, critical, action, comment, wrap", "lithoxyl/sensible.py: module_name, module_path, func_name, line_number"]}
{"id": "C87", "title": "Quantiles survive floating point rounding, with one exception", "statement": "All arithmetic of the accumulators is done in double precision. With rounding to nearest (any choice on ties, IEEE 754 included), the estimates of a streaming quantile estimator fed with floats stay in order, between the exact minimum and maximum seen, and are floats. The quartiles and the median of a reservoir are the exact linear quantiles rounded once, in order, between stored values, and the interquartile range is not negative. Any other quantile of a reservoir is the exact quantile of a point within 2^-53 (relative) of the one asked for, up to an error of 2^-50 times the largest magnitude stored. It may however fall outside the stored values: the 1% quantile of 3.0 and 3.0 is less than 3.0, so that get_quantiles() with the default points is not monotone.", "quantifier": "every rounding to nearest, every history of additions and reads, every stored values, every quantile point; no overflow", "why_tests_cant": "Rounding errors depend on every bit of every sample; the failing cases are sparse and tests with tolerant comparisons hide them.", "anchors": ["lithoxyl/p_squared.py: P2Estimator.__init__, P2Estimator.add, P2Estimator.get_quantiles", "lithoxyl/quantile.py: ReservoirAccumulator._get_quantile, ReservoirAccumulator.add, BaseQuantileAccumulator.get_quantiles, BaseQuantileAccumulator.median, BaseQuantileAccumulator.quartiles, BaseQuantileAccumulator.iqr"]}
{"id": "C88", "title": "Means, variances and moving averages survive floating point rounding", "statement": "With every operation rounded to a nearest double, the mean of a MomentAccumulator stays between the smallest and the largest value added and within (n/2+6)*2^-53 times the largest magnitude of the true mean of n values; the variance is never negative, so that std_dev exists; equal values have exactly that mean and zero variance, skewness and kurtosis. The rates of an EWMAAccumulator are never negative if no value added is, reads succeed while the clock advances, and each rate is between the smallest and largest rate measured up to a few rounding errors that do not accumulate. The mean depends on the order of the values, the kurtosis can be less than 1, and a moving average can exceed every rate measured by a rounding error.", "quantifier": "every rounding to nearest, every list of doubles of length up to 2^53, every history of additions and reads with an advancing clock, every exp with values in [0,1] for nonpositive arguments; no overflow", "why_tests_cant": "Accumulated rounding errors depend on every bit of every sample; tests compare with a tolerance on a few samples.", "anchors": ["lithoxyl/moment.py: MomentAccumulator.add, MomentAccumulator.mean, MomentAccumulator.variance, MomentAccumulator.skewness, MomentAccumulator.kurtosis", "lithoxyl/ewma.py: EWMAAccumulator.add, EWMAAccumulator._update, EWMAAccumulator.get_rates"]}
{"id": "C89", "title": "The log of a whole program follows from its text", "statement": "Take a program made of nested `with logger.action(...)` blocks on any number of loggers, whose bodies call begin, warn, success, failure and exception, set data, write comments, flush, raise and catch. What every sink receives is determined by the program text: block by block a begin line, the lines of the body in order, and when the block is left the end line with the status and message of the last explicit outcome, or success, or the exception that leaves it (with an exception line before it). Parents are the innermost open block of the logger. The program ends with the exception predicted by the reraise settings, and the active actions afterwards are those from before. In asynchronous mode the same lines arrive after a flush if nothing was dropped. Begin and end lines of a logger are properly nested.", "quantifier": "every program of this form (any nesting, any exceptions), every reachable starting state, every logger and sink", "why_tests_cant": "programs have unbounded nesting and every combination of handled and unhandled exceptions, explicit outcomes and loggers; tests fix a few programs", "anchors": ["lithoxyl/action.py:Action.__enter__, __exit__, begin, warn, success, failure, exception, _end", "lithoxyl/logger.py:Logger.on_*, comment, flush", "lithoxyl/context.py:LithoxylContext.get_active_parent"]}
{"id": "C90", "title": "Statistics sinks count what the program did", "statement": "A RateSink registered on any of the loggers reports as total counts, per logger, name and status and under '__all__', exactly the numbers of blocks of the program that ended so. A QuantileSink has one accumulator per logger and name that ended, with one value per end. A CounterSink's total per logger is exact and its count per name is never too high and falls short by at most the threshold share. In asynchronous mode, after a flush without drops, the logger has fed its sinks the same events in the same order.", "quantifier": "every program of nested blocks, every getter that answers, every set of loggers the sink is registered on", "why_tests_cant": "ties the grouping code of the sinks to every program that can feed them through the loggers; a test compares single scenarios", "anchors": ["lithoxyl/sinks.py:RateSink.on_end, get_total_counts", "lithoxyl/sinks.py:QuantileSink.on_end", "lithoxyl/sinks.py:CounterSink.on_end, to_dict", "lithoxyl/logger.py:Logger.on_end, flush"]}
{"id": "C91", "title": "The log file of a whole program follows from its text", "statement": "Attach a sink whose filters and template use only the kind, logger, name, level, parent, status, message and exception of an event, and let it write to a file. After a program of nested `with logger.action(...)` blocks the file holds, one after the other and in program order, exactly the rendered lines of those events of the program that the filters let through; nothing is lost, repeated or reordered. In asynchronous mode the same entries are written by the time a flush returns if nothing was dropped.", "quantifier": "every program of nested blocks, every such sink, every separator, encoding and buffer size, every reachable starting state", "why_tests_cant": "composes dispatch, filtering, formatting and file writing for every program; a test compares the file of one program", "anchors": ["lithoxyl/sensible.py:SensibleSink, SensibleFormatter", "lithoxyl/emitters.py:FileEmitter, StreamEmitter.emit_entry", "lithoxyl/logger.py:Logger.on_*, flush", "lithoxyl/action.py:Action.__enter__, __exit__"]}
{"id": "C92", "title": "What a debugging sink does to a program", "statement": "DevDebugSink(reraise=types) leaves a program alone as long as no exception of these types is handled by a block or an exception() call of a logger it is registered on: same results, same events, same order for everybody. If such an exception leaves a block, sinks registered before the debugging sink see the exception event and later ones do not, and no end event is published. An ordinary exception then has its usual fate and the active action is reset; any other exception (KeyboardInterrupt) comes out even of a block with reraise=False, and the block stays the active action. A call to exception() raises it again and records no end.", "quantifier": "every program, every set of other sinks, every reachable starting state, every choice of exception types", "why_tests_cant": "transparency must hold for every program that does not trigger the sink; the interference depends on registration order, reraise setting and exception class together", "anchors": ["lithoxyl/sinks.py:DevDebugSink", "lithoxyl/action.py:Action.__exit__, exception, _exception", "lithoxyl/logger.py:Logger.on_exception", "lithoxyl/utils.py:reraise"]}
{"id": "C93", "title": "Sinks can be registered while other threads log", "statement": "While some threads call add_sink() on a logger and others publish events on it: a sink whose add_sink() had returned before an event was published gets the event; only sinks with a hook of the event's kind whose add_sink() has been called get it; no sink gets an event twice, provided no two threads add the same sink; and sinks get an event in the order of registration when one add_sink() had returned before the other was called. A sink is among logger.sinks once add_sink() has returned. Two threads adding the same sink can register it twice, and replacing the sinks with set_sinks() while others publish or register can lose events and even detach a listed sink for good.", "quantifier": "every number of threads, every list of operations of each, every set of hooks of each sink and every interleaving of their single steps (attribute reads, membership tests, appends, iteration steps)", "why_tests_cant": "the outcome depends on where inside add_sink() and inside the publishing loop the threads are interleaved; tests run a few schedules", "anchors": ["lithoxyl/logger.py: Logger.add_sink, Logger.set_sinks, Logger.on_begin, Logger.on_end, Logger.on_warn, Logger.on_exception, Logger.comment, Logger.flush, Logger.sinks"]}
{"id": "C94", "title": "One action used by several threads", "statement": "However threads that share an action interleave: no call fails because an event is missing; every warn() publishes exactly one event of its own; no thread publishes two begin events, and once begin() has returned and all calls are over the action's begin event has been published; if the action had begun before the threads start, no other begin event is published and all end events carry its time; every published end event has an outcome somebody asked for, every success() or failure() outside with blocks publishes one end event, and the outcome the action finally shows has been published; if a single thread ends the action exactly its outcomes are published in order. A with block whose worker threads are started inside and joined before the end publishes one begin event and one end event, with the outcome the action showed before leaving, or success. Otherwise two concurrent begin() calls can publish the same event twice, an end event can come before the begin event, an outcome can be lost, the last one published can be stale, and a warning can be missing from action.warn_events.", "quantifier": "every number of threads, every list of calls of each (begin, success, failure, warn, __enter__, __exit__), every clock and every interleaving of single attribute reads, writes, appends and publications", "why_tests_cant": "the result depends on the interleaving between checking, assigning and re-reading the action's attributes; tests run a few schedules", "anchors": ["lithoxyl/action.py: Action.begin, Action.warn, Action.success, Action.failure, Action._end, Action.__enter__, Action.__exit__, Action.status, Action.warn_events"]}
{"id": "C95", "title": "Sinks and preflush hooks that call back into the loggers", "statement": "Hooks of sinks and preflush hooks may log, flush and switch modes on any logger, from any number of threads. Whatever they do: at most one thread is inside the locked part of flush on a logger; no event is handed to a sink more often than it was logged; no flush raises unless a hook does, and one that returns and gives up the lock has handed every event queued so far to every sink listening to it, exactly once, including what hooks logged during the flush; when all calls have returned each sink has received everything it listens to except what still waits in the queue, and in synchronous mode nothing waits. A sink gets queued events in order if no hook flushes that logger, or if it is the first sink. There is no deadlock if the hooks of each logger use only that logger and later ones, and every run ends if hooks only log events of lower rank. Otherwise: a hook that flushes makes later sinks get events out of order; a sink that logs in synchronous mode puts its reaction before the cause for later sinks; two loggers whose sinks flush each other deadlock two threads; a sink that comments on comments, or a preflush hook that flushes, keeps flush from ever returning.", "quantifier": "all hooks (any reaction, depending on all that happened before), all numbers of loggers and threads, all programs, all schedules, all raising hooks", "why_tests_cant": "re-entrant calls interleaved with other threads have unboundedly many shapes; a test fixes one reaction and one interleaving", "anchors": ["lithoxyl/logger.py: Logger.flush, Logger.on_begin, Logger.on_end, Logger.on_warn, Logger.on_exception, Logger.on_comment, Logger.comment, Logger.set_async, Logger.preflush_hooks"]}
{"id": "C96", "title": "Reading statistics while other threads deliver", "statement": "While any number of threads deliver end events to a RateSink, a thread that calls get_total_counts either gets a result or RuntimeError. A result reports no (logger, name, status) twice, reports every one to which a delivery had returned when the read was called, reports none that was never delivered to, no count above the number of deliveries called by then, and its '__all__' entries are the sums of the counts reported below them. For a (logger, name, status) only one thread delivers to, the count is at least the number of deliveries that had returned when the read was called, so it is exact if none is under way or starts during the read. RuntimeError is raised only if the first delivery to some (logger, name, status) had not returned when the read was called. The result need not be a snapshot, and with two threads delivering to one group a later read may report less. Reads do not disturb deliveries: all are made.", "quantifier": "every number of threads, every program of deliveries and reads for each, every interleaving of their steps on the shared dicts and counters", "why_tests_cant": "The outcome depends on where the threads are when the reader's iterators move; a test sees a handful of interleavings out of exponentially many.", "anchors": ["lithoxyl/sinks.py: RateSink.on_end, RateSink.get_total_counts, RateSink.get_rates, RateAccumulator.add", "lithoxyl/sinks.py: EWMASink.get_values, QuantileSink.to_dict, CounterSink.to_dict (same loops)"]}
{"id": "C97", "title": "A FileEmitter used by several threads", "statement": "However threads that share a FileEmitter interleave, with stale-file incidents and close() at any moment: the file consists of whole lines, no entry is in it more often than it was emitted, each call of emit_entry hands over its line at most once, in the order of the calls of its thread, and what is in the file stays there: the file only grows at its end. Without incidents the file is always a prefix of the lines in the order in which they were handed over, nothing raises, a call that has returned before close() was called has its line in the file, once close() has returned all lines handed over are in the file, and when all threads are done and nobody closed it the file is an interleaving of what the threads emitted. One incident, at any moment, costs at most what fits into one buffer, however many threads reopen the file: when all are done the file holds every other entry as often as it was emitted, and nothing has raised. But with an incident the lines of a single thread can end up in the wrong order, and close() in one thread while another reopens the file makes emit_entry raise.", "quantifier": "all numbers of threads, programs of emit/close/incident, schedules of the single reads, writes and method calls, buffer sizes and lines", "why_tests_cant": "The bad interleavings need several threads to be at particular single operations; tests run a handful of schedules.", "anchors": ["lithoxyl/emitters.py:StreamEmitter.emit_entry", "lithoxyl/emitters.py:StreamEmitter.flush", "lithoxyl/emitters.py:FileEmitter.close"]}
{"id": "C98", "title": "Actors and contexts controlled by several threads", "statement": "However threads that call start(), stop() and join() of interval actors and enable_async() and disable_async() of a context interleave with each other and with the workers: as long as two calls of start() of an actor never overlap, the actor has at most one running worker, start() never raises while nobody calls stop(), a join() that returns False means that nothing runs and no task call is made until the next start(), which does not raise if no stop() was in progress when join() was called, and once one of any number of concurrent stop() calls has returned at most one more task call is made and the worker ends within five of its own steps. As long as two calls of enable_async() never overlap, a context has at most one actor with at most one worker; if they do not overlap disable_async() either (calls of which may overlap each other, without timeout), neither raises, after disable_async() the context runs nothing and calls no task until the next enable_async(), disable_async() flushes after the last task call and returns once the caller and the worker get a few steps, and after enable_async() its worker runs until the next disable_async() unless a task call ends it. Without these restrictions it is false: overlapping start() calls leave two workers, one of which survives stop() and join(), or raise; a join() left over from before the last start() cancels a stop(); overlapping enable_async() calls leave a worker that no disable_async() ends; enable_async() during disable_async() can raise.", "quantifier": "all numbers of threads and actors, programs of start/stop/join/enable_async/disable_async, schedules of the single reads, writes and method calls, and task outcomes", "why_tests_cant": "The outcomes depend on which of a dozen single operations of each thread come in between; tests run a handful of schedules.", "anchors": ["lithoxyl/actors.py:IntervalThreadActor.start", "lithoxyl/actors.py:IntervalThreadActor.stop", "lithoxyl/actors.py:IntervalThreadActor.join", "lithoxyl/actors.py:IntervalThreadActor._run", "lithoxyl/context.py:LithoxylContext.enable_async", "lithoxyl/context.py:LithoxylContext.disable_async"]}
{"id": "C99", "title": "The log of a program with threads follows from the texts of its threads", "statement": "In a process whose threads run programs of nested with-blocks with their calls, raises and handlers, on any loggers, shared or not: at every moment of every schedule the events a thread has logged on a logger are an initial part of the lines its program alone writes there, with action, name, level, status, message and exception; when the thread is done they are all of them and it ended as the program alone ends. The parents are those of the program alone too if the active-action hooks tell threads apart or no other thread makes actions on that logger. In synchronous mode every sink has then received exactly the lines of the thread it listens to, in order; in asynchronous mode so it has once a flush returned after the last event was queued, if the queue discarded nothing: exception lines in order, all others in order. Sinks receive nothing else, and while some thread is not done some thread can go on. With the default hooks and a logger shared by threads the parents do not follow from the texts: an action can become the child of an action of another thread.", "quantifier": "all numbers of threads and loggers, programs, schedules of single atomic steps, sinks and modes", "why_tests_cant": "Tests run a handful of interleavings out of an unbounded number; the identity between what each thread logs among the others and what it logs alone must hold for all of them.", "anchors": ["lithoxyl/action.py:Action", "lithoxyl/logger.py:Logger", "lithoxyl/context.py:LithoxylContext", "lithoxyl/context.py:_consec_get_active_parent"]}
{"id": "C100", "title": "Creating stream and file emitters", "statement": "StreamEmitter(stream, encoding, errors, sep, reopen_stale) succeeds exactly if the encoding and the error handler are known, the argument is 'stdout', 'stderr', an instance of the accepted binary stream types or an object with a callable write, its mode attribute (if it has a nonempty one) contains 'b', and the separator can be encoded; otherwise it raises the exception for the first of these that fails. The encoding used is the argument, else the nonempty encoding attribute of the stream object, else UTF-8. An emitter created on a stream that takes bytes writes every entry it can encode, in that encoding, followed by the separator, and nothing else. FileEmitter keeps what is in the file unless overwrite is given, and is created whenever its settings are usable. Three natural expectations are false: a StringIO, which the docstring names, is accepted and every entry is then lost without an exception; 'stdout' on a console in another encoding writes UTF-8; and a FileEmitter with overwrite=True whose creation raises for a bad setting has already emptied the file.", "quantifier": "every stream argument, encoding, error handler, separator, set of codecs, console, list of entries and file content", "why_tests_cant": "the accepted arguments are an open set of objects with arbitrary attributes, and the loss of entries is silent, so tests with the usual streams see neither", "anchors": ["lithoxyl/emitters.py: StreamEmitter.__init__, _get_sys_stream, FileEmitter.__init__, StreamEmitter.emit_entry", "lithoxyl/utils.py: check_encoding_settings"]}
{"id": "C101", "title": "A moving average used by several threads", "statement": "However calls of add and get_rates of an EWMAAccumulator from several threads interleave, what is waiting to be counted and whatever an update counts is the sum of the values of different calls of add that had returned by then; with non-negative values it is between 0 and the sum of all values given. If calls do not overlap and none raises, every value is counted exactly once for every period or is still waiting, and each call does what it does in a program with one thread. While one thread reads and any threads add non-negative values, with positive periods and a rising clock, no read raises and every rate returned is between 0 and the largest rate counted. When calls overlap, exactness is lost: two adds at the same time can lose a value, a value added during an update can be lost, an add that spans an update brings back everything already counted, and with two readers a rate can be negative.", "quantifier": "every number of threads, every interleaving of loads and stores, every list of values, periods and clock readings", "why_tests_cant": "the outcomes depend on where in a line of code a thread is interrupted; tests practically never hit these points and cannot enumerate the interleavings", "anchors": ["lithoxyl/ewma.py: EWMAAccumulator.add, EWMAAccumulator._update, EWMAAccumulator.get_rates"]}
{"id": "C102", "title": "Reservoir quantiles used by several threads", "statement": "A reservoir accumulator that several threads add to and ask for quantiles, without a lock: whatever the schedule, what it holds comes from different calls of add and has the values of these calls, its count is the number of some of the calls, its minimum, its maximum and the items a quantile is computed from are values that were added, and every call ends after a bounded number of its own steps. If no thread asks for quantiles, add never raises, and afterwards every value is held if there were no more calls than the cap, and at least as many as the cap otherwise. A single thread that asks for quantiles never gets an IndexError once the reservoir holds something. If calls do not overlap, held values, count, minimum, maximum and quantiles are exact up to the cap. Otherwise the cap can be exceeded, counts and values be lost, minimum and maximum be wrong, the median stay wrong after all calls have ended, and both add and the quantiles can raise an IndexError.", "quantifier": "all caps, all numbers of threads, all values, all requests for quantiles and all interleavings of the loads, stores and array operations of the calls", "why_tests_cant": "The outcome depends on the interleaving of single loads and stores of the threads, of which there are unboundedly many; a test runs a few of them and cannot choose them.", "anchors": ["lithoxyl/quantile.py: BaseQuantileAccumulator.add", "lithoxyl/quantile.py: ReservoirAccumulator.add", "lithoxyl/quantile.py: ReservoirAccumulator._sort", "lithoxyl/quantile.py: ReservoirAccumulator._get_quantile"]}
{"id": "C103", "title": "Moments used by several threads", "statement": "A moment accumulator that several threads add to and ask for the variance, without a lock: whatever the schedule, its count is the number of some of the calls of add, its minimum and maximum are values that were added and are there once something is counted, no variance a thread is given is negative (so that the standard deviation exists), and every call ends after at most 16 of its own loads and stores. If calls do not overlap, count, bounds, mean and all moments are those one thread would have got for the values in the order of the calls. Otherwise counts can be lost, the mean can exceed the maximum (20 for 10 and 10; with n threads that each add the same value, n times that value), the minimum can be wrong and the variance stay wrong after all calls have ended.", "quantifier": "all numbers of threads, all values, all requests for the variance and all interleavings of the loads and stores of the calls", "why_tests_cant": "The outcome depends on the interleaving of single loads and stores of the threads, of which there are unboundedly many; a test runs a few of them and cannot choose them.", "anchors": ["lithoxyl/moment.py: MomentAccumulator.add", "lithoxyl/moment.py: MomentAccumulator.variance"]}
{"id": "C104", "title": "Hashed ids", "statement": "An id made with int2hexguid is 24 hexadecimal digits. In one process the same number always gives the same id, whatever other ids are made between, and different numbers give different ids unless the SHA-1 digests of the two texts hashed agree in their first 24 digits. The text that is hashed determines the process and the number: processes that seeded themselves and differ in process id, random bytes, time or host name give different ids, again unless these two texts collide. A fork is not protected: although the docstring of reseed_guid promises automatic reseeding by the functions below it, a child process that only makes hashed ids gives the same ids as its parent; only a call of int2hexguid_seq reseeds, and after it the ids of the child differ from those of the parent.", "quantifier": "every digest function, all numbers, all sequences of calls of the two functions in a process and in its forks, all process ids, host names, times and random bytes", "why_tests_cant": "tests see a few numbers in one process; collisions between processes and after forks depend on how salts and numbers are put together for every combination", "anchors": ["lithoxyl/utils.py: reseed_guid", "lithoxyl/utils.py: int2hexguid", "lithoxyl/utils.py: int2hexguid_seq"]}
{"id": "C105", "title": "Rates read while threads add", "statement": "Whatever the interleaving of threads that add times to a RateAccumulator with threads that ask it for rates and normalised times, the sample is the most recent of the times appended, and every call ends. If one thread adds (as in asynchronous mode), no time is lost and the total is exact whenever it is in no call. With times in order, a rate whose window starts, all through the call, between two retained times is the exact number of times at or after the start as of some moment of the call, over the length of the window; a rate since the creation, with one adding thread, counts the times as of some moment of the call, give or take the add under way; and a call during which nothing is appended returns what it would without threads. Normalised times are those retained at the return, less the first time retained at some moment of the call. Otherwise there is no such promise: when times are appended during the call a rate can be negative, raise ZeroDivisionError or count times before the window, and get_norm_times can raise RuntimeError or give a list that does not begin with 0; when two threads add, times can be appended out of order, and then even an undisturbed rate can be negative.", "quantifier": "all schedules of any number of threads calling add, get_rate and get_norm_times, all times, windows, sample sizes and rounding functions", "why_tests_cant": "the result depends on which of the five reads of the shared sample an append falls between; tests read rates when nothing is being added", "anchors": ["lithoxyl/sinks.py: RateAccumulator.add", "lithoxyl/sinks.py: RateAccumulator.get_rate", "lithoxyl/sinks.py: RateAccumulator.get_norm_times"]}
{"id": "C106", "title": "Notes about internal errors", "statement": "Context.note with no handlers does nothing, whatever the message and arguments are. With handlers that leave the list of handlers alone and raise nothing, each is called exactly once, in order of the list, with the name and the text: the message with its conversions replaced by the arguments if there are arguments and they fit, and otherwise the message unchanged. No message and no arguments make note raise: an exception comes out only if a handler raised it. But a handler that raises keeps the later handlers from being called and its exception reaches the caller; a handler that removes itself keeps the next one from being called; and if every handler call adds a handler, note never returns.", "quantifier": "all names, messages with one-letter conversions, arguments, conversion behaviours, lists of handlers and handler behaviours (changing the list, raising)", "why_tests_cant": "tests format a few messages with one handler; the claims are about every message and arguments and about handlers that misbehave", "anchors": ["lithoxyl/context.py: Context.note", "lithoxyl/context.py: note"]}
{"id": "C107", "title": "Printing loggers, sinks and accumulators", "statement": "repr(logger) never raises an Exception, whatever its sinks do when they are printed: if all of them print, it shows the logger's name and all sinks in their order; if one raises, it is what any object prints. An AggregateSink and an AggregateEmitter show how many events they still hold (of each kind; at most the limit). A RateAccumulator and a RateSink show how many times they were given, over all loggers, names and statuses, and that number divided by their age; printed within the clock tick they were made in they raise ZeroDivisionError, exactly if they were given a time (so that a logger with such a sink prints like any object then). A QuantileSink with reservoirs (the default) shows the number of values and the rounded median of each group, and raises IndexError exactly if the getter has raised for all events of some group so far. Printing an EWMAAccumulator is not harmless: it can change the rate that is read afterwards (10 instead of 5).", "quantifier": "all loggers with any number of sinks of any behaviour, all histories of events, all limits, sample sizes other than 0, all clock readings other than 0 from the creation of the sink on", "why_tests_cant": "Whether printing raises depends on the behaviour of every sink, on the whole history and on the clock; a test prints a few objects at a few times.", "anchors": ["lithoxyl/logger.py: Logger.__repr__", "lithoxyl/sinks.py: AggregateSink.__repr__", "lithoxyl/sinks.py: RateAccumulator.__repr__", "lithoxyl/sinks.py: RateSink.__repr__", "lithoxyl/sinks.py: QuantileSink.__repr__", "lithoxyl/emitters.py: AggregateEmitter.__repr__", "lithoxyl/ewma.py: EWMAAccumulator.__repr__"]}
