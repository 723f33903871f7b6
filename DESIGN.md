# A Rocq (Coq 8.16.1) model of delay-timer

## 1. What is modelled

### The timer: one transition system

`State.v` and `System.v` hold one executable transition system, with one state record `sys` and a function
`step : profile -> label -> sys -> option sys`.  The threads of the library are actors whose steps interleave freely.
A step is one access to shared memory (one DashMap guard scope, one atomic, one channel operation) together with
the local computation around it.

| actor | code | labels |
|---|---|---|
| user | `DelayTimer::*`, `TaskInstancesChain::*`, `TaskInstance::*` (`entity.rs`, `task_instance.rs`) | `LAdd` … `LReturn` |
| scheduler thread | `Timer::async_schedule`, `maintain_task`, `handle_task` (`timer_core.rs`) | `LTimer`, `LRoutinePanic` |
| event handler thread | `EventHandle::handle_event`, `event_dispatch` and all its callees (`event_handle.rs`) | `LHandler` |
| running instances | `Routine::spawn_by_*`, `TaskContext::finish_task` (`task.rs`) | `LFinish`, `LPanic` |
| sweeper | `RecyclingBins::recycle`, `add_recycle_unit` (`sweeper.rs`) | `LSweep`, `LSweepRecv` |

The environment is in the labels: the values the system clock returns, the record ids the generator returns,
the order in which a `HashMap` is iterated, which of several equal deadlines a `BinaryHeap` pops, when a user's
future ends or panics.  Theorems quantify over all label sequences (`reachable pf t0 t1 s`), so over all of these.

Numbers are `N`/`Z`.  Where Rust arithmetic can overflow, the operation is `add64`/`sub64`/`mul64`, which take the
build profile (overflow checks on or off) and return `Panic` or the wrapped value.

The ghost log of observations (`obs`) records what a user can observe: starts, skips, quit requests, instance state
changes, status events, results of `next*`.  Theorems about behaviour are statements about this log; `Spec.v` holds the
vocabulary they are written in (and nothing of the proofs).

### Models of their own

| file | code | used for |
|---|---|---|
| `Frequency.v`, `Task.v` | `task.rs` 140-258, 391-432, 680-698, 1031-1117; `slot.rs` | part of the system |
| `Sweeper.v` | `sweeper.rs` 91-178 with the length of its sleeps, in milliseconds | C17 |
| `Cron.v` | the cron expression cache, `task.rs` 260-389 | C26 |
| `Builder.v` | `TaskBuilder`, `task.rs` 437-456, 700-1030, with the strings it leaks and frees | C24, C25, C27, C74 |
| `PropNightly.v` (first part) | both variants of `quit_one_task_handler`, `task_handle.rs` 43-118 | C29 |
| `Shell.v` | `utils/parse.rs`, process tasks of `utils/convenience.rs` | C34-C36, C50, C51 |
| `Launch.v` | `DelayTimerBuilder`, `entity.rs` 78-87, 131-185, 215-324, 397-517 | C48 |
| `Fleet.v` | several timers and the global status channel, `status_report.rs` 10-46 | C47 |
| `Routine.v` | one running instance: `AsyncFn`/`SyncFn` on tokio/smol, `task.rs` 518-536, 571-678, `task_handle.rs` 274-292 | C52, C53 |
| `Crash.v` | the drops when the event handler's thread unwinds, `task_handle.rs` 163-174, `timer_core.rs` 277-286, as a layer over `step` | C58 |
| `PropCancel.v` (first part) | the refusals and the time-out of the cancelling calls, `task_instance.rs` 155-192, as a layer over `step` | C61 |
| `Ends.v` | who holds senders, receivers and shared pointers, `entity.rs` 78-97, 215-437, `event_handle.rs` 98-200, 543-570, `sweeper.rs` 91-164 | C59 |
| `Apart.v`, `ApartRun.v` | no new code: the whole transition system seen from some of the ids | C77 |
| `Names.v` | no new code: the whole transition system under a renaming of ids and record ids | C78 |
| `Shift.v` | no new code: the whole transition system with all clock readings and dates moved by a number of seconds | C79 |
| `Aged.v` | no new code: the whole transition system with the wheel turned by a number of slots, as after so many idle ticks | C80 |
| `Ticker.v` | the clock of the scheduler on smol and tokio, in nanoseconds, and the loop that waits for it, `timer_core.rs` 18-110, 187-265 | C75, C76 |
| `Locks.v` | the shard locks the two threads take, operation by operation | C33 |

## 2. Trusted base

* Coq's kernel (`coqc`, `coqchk`).  `Print Assumptions` stands under each property theorem, and
  `tools/assumptions.sh` prints it for every theorem named in `MANIFEST.json`: each is
  **closed under the global context**, so no theorem uses an axiom, of the standard library or otherwise.
  (`coqchk -o` lists seven axioms of `Coq.ssr.ssrunder`, a file of the Coq distribution that std++ loads; no theorem
  here depends on them.)
* That the model is the code.  Each definition cites the lines it models.  The assumptions made there:
  * DashMap, the channels (`smol::channel`, unbounded), atomics and `event-listener` are atomic and sequentially
    consistent: a map, a FIFO queue, a cell, an event that wakes the listeners registered before.
    The code uses Acquire/Release; the cells shared by the two threads (second hand, global time, the
    stop flag) are each written by one thread only.
  * The record ids of `rs-snowflake` are not repeated (C29 also needs: increasing); nothing else about them.
  * The system clock returns any `u64`, in particular it may jump; theorems that need a steady clock say so
    (`ideal`: iteration k > 0 reads second b + k).  `C75_steady` derives that from the two clocks of `timer_core.rs`, with `b` the second of the
    start for smol and one less for tokio, under the assumption that no iteration takes longer than its second.
  * `DelayTaskHandler::quit` succeeds (all three implementations return `Ok`), and it ends a running future at some
    later time or never: after `OQuit` the instance may still send its finish event.
  * A DashMap guard locks a shard.  In `System.v` the one guard that is held across another access (the mark, during update,
    advance and remove) blocks the scheduler's write to that same mark.  A shared shard only adds waiting, which removes
    executions; that waiting ends is C33.
  * When the event handler panics (`HDead`, only by overflow in `add_task`) the marks and chains, which are shared, stay as they are.
    Its own data is dropped: `Crash.v` adds what that does to the running instances.  Messages that are in the event channel
    when its receiver is dropped stay there unreceived (async-channel frees them with the last sender), and in `System.v` what is sent
    afterwards is queued without effect; in the code the user's call returns an error.  When a maintainer is dropped after the user dropped the chain, the chain's state goes from DROPPED
    to ABANDONED; the user cannot see it any more.
  * `usize` has 64 bits.  Counters of running instances do not reach 2^64.

## 3. Not modelled

* The async runtimes: an enabled step may be delayed for any time.  Theorems of the form "will happen" are therefore stated as
  "can be brought about by the library's own steps", as bounds in iterations of the scheduler,
  for the sweeper, in time with an explicit latency, or, C54-C57, C62-C69 and C72, for infinite executions under an explicit fairness
  condition: `weakly_fair` (a thread that can always go on takes a step) for the event handler, `strongly_fair` (a thread that can
  go on again and again takes a step: the lock of the mark is fair) for the scheduler, `receives` (the sweeper's
  receiver is let in between two rounds).  `fair_exists`: every reachable state lies on such an
  execution, so the conditions contradict nothing.
* The `cron_clock` parser and its date computation (arbitrary functions), `rs-snowflake`, `lru` beyond get/put, the three
  process libraries behind `CommandUnify` (an arbitrary world of answers), logging and tracing, memory capacity
  (`Slot::shrink`), `Debug` output, error texts, examples, benches and the macros of `macros/`.
* `futures` of users: they run, end, panic or are dropped.

## 4. Reading guide

`Base` (64-bit arithmetic) → `Frequency`, `Task`, `State`, `System` (the model) → `Spec` (vocabulary) → invariants:
`Inv` (shape), `Own` (where Task values are), `Life`, `Count` (countdowns), `Quiet` (tasks left alone), `Timing`, `Arrival`,
`Phase`, `Rearm`, `Sched`, `Interval`, `Clock`, `Added`, `Drift` (when tasks run), `Lost`, `Panics`, `Zero`, `Cases`, `Frame`,
`Meanwhile` (effects of single operations), `Inst`, `Ended`, `Origin`, `Fifo`, `Account`, `Way`, `Settle`, `Chain`, `Kept` (instances),
`Live`, `LiveEnd`, `Stay` (infinite executions, fairness), `Apart`, `ApartRun` (the part of an execution that belongs to some ids), `Names` (executions with renamed ids).
The property theorems are in the files `Prop*.v`, named `Cnn_…`; examples and counterexamples are played out with `Scen.v`.

Suffixes: `_refuted` - the property, or the named part of it, is false of the code, with an execution as witness;
`_partial` - the part that holds, with its exact condition in the statement.

## 5. The properties

`properties.jsonl` has the English.  This table is generated from `MANIFEST.json`.

<!-- claims -->
| id | property | result | theorems |
|---|---|---|---|
| C01 | Re-arming is exact | proved. Every clock, every interleaving; due times at least an hour below 2^64. | `C01_rearming_is_exact` `C01_consecutive_runs` `C01_due_times` |
| C02 | The first run of an added task comes on time | partial. False of the code: an add whose slot lies behind the second hand comes one revolution (3600 ticks) late. Proved: on time or exactly one revolution late, with the exact condition. | `C02_first_run_on_time_refuted` `C02_first_run_on_time_partial` `C02_first_run_any_delay` |
| C03 | A task is never started before its due time | proved. With the property's own proviso that the handler does not stall, and a clock of one second per iteration (C75); the second theorem shows that the first proviso is needed, C76_never_early_refuted that the second one is. | `C03_never_early` `C03_early_if_handler_stalls` |
| C04 | A countdown task is started at most n times | proved. Every execution, every build profile. | `C04_at_most_n_starts` |
| C05 | A task is never lost before its countdown is used up | partial. False of the code: a task with a parallel limit that is due between its insertion into the wheel and the recording of its mark is dropped. Proved: that is the only way. | `C05_never_lost_refuted` `C05_never_lost_partial` `C05_repeated_task_stays` |
| C06 | A countdown of zero runs zero times | partial. False of the code: 0 - 1 panics (overflow checks) or wraps. | `C06_zero_never_starts_refuted` `C06_zero_kills_scheduler` `C06_zero_repeats` `C06_zero_never_starts_partial` |
| C07 | The parallel limit is never exceeded | proved. Every execution in which the id is submitted once. | `C07_limit_holds` `C07_counted_once` |
| C08 | Parallel slots are always given back | partial. False of the code twice: an instance that ends before its start is counted, and a finish after the user dropped the chain, leave the count too high, and the task can be blocked for ever. Proved: these are the only ways. | `C08_given_back_refuted` `C08_given_back_refuted2` `C08_given_back_partial` `C08_refused_only_at_limit` `C08_blocked_for_good` |
| C09 | A run skipped because of the parallel limit costs nothing but that run | proved. Every reachable state at the limit; no start, no instance, re-armed like a run, count unchanged. | `C09_skip` `C09_count_unchanged` `C09_only_at_limit` |
| C10 | A removed task is not started again | partial. False of the code when the scheduler holds the task while the removal is handled: the task is put back on the wheel afterwards and can no longer be removed. Proved for a task that waits in the slot of its mark; and a task with a parallel limit ends even in that race. | `C10_never_again_refuted` `C10_never_again_partial` `C10_none_left_partial` `C10_place_recorded` `C10_limited_ends` |
| C11 | Removing a task touches nothing else | proved. Effect of each step of a removal on every field of the state. | `C11_others_untouched` `C11_times_unchanged` `C11_unknown_id` |
| C12 | Cancelling hits exactly the addressed instance | proved. Every reachable state, every pair of ids; effect on every field of the state. | `C12_cancel_is_exact` |
| C13 | The final state of an instance is final | proved. Every execution. | `C13_final_state_is_final` `C13_final_state_has_a_cause` |
| C14 | Status events of an instance form a protocol | proved. Every execution. | `C14_protocol` |
| C15 | Every running handle is told to quit at most once | proved. Every execution. | `C15_quit_at_most_once` `C15_quit_by_first_event` |
| C16 | No instance is timed out early, or without a limit | partial. False of builds without overflow checks: start + m can wrap. Proved: that is the only exception. | `C16_not_early_refuted` `C16_not_early_partial` |
| C17 | Timeouts are delivered promptly | partial. False of the code for every bound K: the sweeper sleeps until the earliest deadline it knows, so a unit with an earlier deadline that arrives meanwhile waits that long. C17_delay gives the exact bound for every execution, C17_prompt_partial the promptness when no unit arrives before an earlier deadline. Timed model of the sweeper in Sweeper.v. | `C17_prompt_refuted` `C17_delay` `C17_prompt_partial` `C17_not_early` |
| C18 | Late events for an ended instance are harmless | proved. The state after the event is the state before it minus the event. | `C18_late_events_harmless` |
| C19 | Stop stops starts and nothing else | proved. Every execution. | `C19_no_start_in_later_ticks` `C19_stopped_for_good` `C19_flag_is_seen` `C19_stop_changes_only_the_flag` `C19_the_rest_goes_on` |
| C20 | An advanced task runs in the next tick | partial. False of the code: at second hand 3599 the advanced task is put into slot 3600, which does not exist, and is lost for ever. Proved for every other position, while the scheduler does not itself work on the task. | `C20_runs_in_next_tick_refuted` `C20_lost_on_last_slot` `C20_runs_in_next_tick_partial` `C20_taken_in_next_tick` |
| C21 | An advanced task can still be removed | partial. False of the code: advance_task does not record the new slot, so a removal looks into the old one. Proved: removable exactly when the old slot is the new one. | `C21_removable_refuted` `C21_removable_partial` `C21_stays` |
| C22 | Update replaces the task in place | partial. False of the code when the scheduler holds the task at that moment: then the update inserts a second copy. Proved for a task that waits in the wheel while the update is handled. | `C22_replaces_refuted` `C22_replaces_partial` `C22_others_untouched` |
| C23 | An updated task follows its own schedule | partial. False of the code: the updated task is first started when the hand next reaches the slot of the old one. Proved: that exact time, and that it follows its own due times from then on. | `C23_own_schedule_refuted` `C23_own_schedule_partial` `C23_then_own_due_times` |
| C24 | Interval frequencies produce the advertised due times | proved. All twelve setters, both build profiles. | `C24_due_times` `C24_zero` `C24_checked` |
| C25 | set_frequency_once_by_timestamp_seconds always gives a runnable task | partial. False of the code: a time stamp equal to the current second gives the interval zero and an error. C25_partial says what happens in every case, also when the task is built in a later second than the setter was called. | `C25_full_refuted` `C25_partial` |
| C26 | The cron expression cache is invisible | proved. The cron_clock crate (parsing and date computation) is an arbitrary function; the lru crate is modelled. | `C26_invisible` `C26_starts_now` `C26_dates` `C26_bounded` `C26_rejected` `C26_parsed` `C26_trim` |
| C27 | TaskBuilder::free only frees what the builder owns | partial. False of the code: free twice, free of two copies, or another expression after a candy one free a string twice or free the user's string (C27_programs). C27_free_partial: programs that follow the rules in the comment of free. | `C27_full_refuted` `C27_free_partial` `C27_without_candy` |
| C28 | Only events that took effect are reported | proved. Every execution. | `C28_reported_event_was_handled` `C28_reported_event_had_effect` |
| C29 | The nightly and the stable build cancel the same instance | proved. For the lists of every reachable state of the system whose record ids were handed out in increasing order. | `C29_sorted_lists` `C29_nightly_sound` `C29_same_effect` |
| C30 | API calls take effect in the order they are made | partial. Events are handled in the order of the calls (proved). False of the code: an add followed by a remove can leave the task, and a remove followed by an add can leave two. Proved when the scheduler does not hold the task while the two events are handled. | `C30_first_in_first_out` `C30_add_then_remove_refuted` `C30_remove_then_add_refuted` `C30_add_then_remove_partial` `C30_remove_then_add_partial` |
| C31 | The instance chain delivers every instance once, in start order | proved. Order and at-most-once for every execution; nothing left out when the id is added by one insertion and not removed (updates and advances allowed); only this task's own instances when the id is used by that insertion only. Without that, C31_own_refuted: an instance of an earlier task of the same id can come out of the new task's chain. | `C31_in_order` `C31_at_most_once` `C31_none_missed` `C31_next` `C31_expired` `C31_own_alone` |
| C32 | The scheduler never spins or loses its place | proved. Every execution. | `C32_place` `C32_hand_moves_by_one` `C32_each_pass_ends_in_a_tick` `C32_never_stuck` |
| C33 | The scheduler and the event handler cannot deadlock | proved. Two threads, any operations, any interleaving, any assignment of keys to shards: never both wait, no thread waits for itself, and a waiting thread is let in after at most eight steps of the other one. Starvation by an unfair lock is not covered. C33_mark_is_given_back is the counterpart in the main model. | `C33_no_deadlock` `C33_waiting_ends` `C33_exclusion` `C33_mark_is_given_back` |
| C34 | Shell pipelines are split into the written commands | proved. C34_behind_redirection: commands written behind a redirection are never started. Every pipeline of words without whitespace and '>' (a word may contain '\|', but not be '\|'), with and without redirection, both variants of the redirection parser; C34_attempts: also when the operating system refuses something. | `C34_pipeline` `C34_attempts` `C34_behind_redirection` |
| C35 | Redirections behave like a shell | partial. '>>' proved. '>' is false of the code: the file is not truncated, so the rest of a longer old content stays; C35_overwrite says what is left. | `C35_append` `C35_replace_refuted` `C35_overwrite` `C35_replace_partial` |
| C36 | A failing pipeline leaves no process behind | proved. Every input text and every behaviour of the operating system, dropping of the future included. | `C36_failed` `C36_done` `C36_no_later` `C36_written` |
| C37 | cancel_with_wait returns | partial. False of the code twice: the instance can be cancelled between the sending of the event and the start of listening, and after a removal nobody wakes the caller; C37_stuck: such a call never returns. Proved when the caller listens before the instance ends, the id is added by that insertion only and not removed (updates and advances allowed) and the user keeps the chain. | `C37_returns_refuted` `C37_returns_refuted2` `C37_stuck` `C37_returns_partial` |
| C38 | A task added after its due time runs at once | partial. False of the code: the delay is task id mod 3600 (+1). Proved: the exact delay. | `C38_overdue_runs_at_once_refuted` `C38_overdue_runs_at_once_partial` |
| C39 | Clock jumps never lose a task | proved. Any clock values. | `C39_clock_jumps_lose_nothing` |
| C40 | Tasks with different ids do not influence each other | partial. False of the code: a panicking routine closure ends the scheduler and so stops every other task. Proved: that is the only influence. | `C40_no_influence_refuted` `C40_no_influence_partial` `C40_waits_for_its_iteration` `C40_mark` |
| C41 | An id names at most one task | partial. False of the code when an id is submitted twice. Proved for ids submitted once, and per slot. | `C41_one_task_per_id_refuted` `C41_one_task_per_id_partial` `C41_one_task_per_id_and_slot` |
| C42 | A submitted task is in one place | proved. Every execution. | `C42_one_place` |
| C43 | Periodic tasks do not drift | partial. False of the code for p = 1 once the task is 2 s late (then every 2 s for ever). Proved: exact next run for every lateness; no drift from a punctual run on. | `C43_no_drift_refuted` `C43_no_drift_partial` `C43_next_run` `C43_first_run` `C43_late_every_two_seconds` `C43_recovers` |
| C44 | An instance whose future panics does not block its task | partial. False of the code for a task without a maximum running time: an instance whose future panicked (an async body, or a sync closure on smol; on tokio see C53) never ends unless the user cancels it, and such instances block the task at its parallel limit. Proved for tasks with a maximum running time. | `C44_panic_ends_refuted` `C44_never_ends` `C44_blocks_task` `C44_timed_ends` `C44_timed_has_ended` |
| C45 | Bookkeeping of finished tasks is released | partial. False of the code: the mark stays until the task is removed by hand, and the (empty) list of its instances stays for ever. Proved: no copy of the task and no handle is kept. | `C45_released_refuted` `C45_released_partial` `C45_handles_released` `C45_mark_stays` `C45_remove_releases` `C45_list_stays` |
| C46 | The sweeper works off every due unit | proved. C46_same_round: the round of the timed model of C17 is a round of the system. Every execution of the whole system, with the other threads working during the round; ties in any order. | `C46_none_lost_or_doubled` `C46_round` `C46_one_event` `C46_same_round` |
| C47 | Status events reach the timer they belong to | partial. False: all DelayTimers of a process share one global channel, so a reporter shows, and takes away, the events of another timer. Proved: over all reporters together nothing is lost, invented or reordered, and with one reporting timer the property holds. | `C47_full_refuted` `C47_conserved_partial` `C47_alone_partial` |
| C48 | The builder's runtime choice is honoured | proved. For any sequence of setters. Runtimes and channels are modelled by their identity only. | `C48_build` `C48_clones` |
| C49 | No task parameter can kill the scheduler | partial. False of the code in four ways, each with a witness. Proved: there is no other way. | `C49_threads_survive_refuted` `C49_maximum_running_time` `C49_interval` `C49_closure` `C49_threads_survive_partial` `C49_safe_parameters` |
| C50 | Both ways to find a redirection file agree | partial. False for a command that ends with its bracket ('a >'); proved for all others. | `C50_same_refuted` `C50_same_partial` |
| C51 | No process of a shell task outlives the task | partial. False of the code: after a cancellation the last process of the line runs on, and exactly that one. None is left when the last process exits or when the start of the line fails. | `C51_none_left_refuted` `C51_cancelled` `C51_none_left_partial` |
| C52 | A cancelled instance runs no more user code | partial. False for sync tasks: a closure on a blocking thread runs on, and on tokio it can even be started after the instance was cancelled. Proved for async tasks. C52_only_by_quit: an instance is dropped only after, and at most once for, a quit. | `C52_silent_refuted` `C52_silent_partial` `C52_smol_not_started` `C52_only_by_quit` |
| C53 | The finish event means that the body returned | partial. False for sync tasks on tokio: a panicked closure is reported as finished. Proved otherwise; at most once, never after a cancellation, and sent when the body returned, in every case. C53_in_system: the instances of the main model do the same. | `C53_means_returned_refuted` `C53_means_returned_partial` `C53_finish_once` `C53_reported` `C53_panic_not_reported` `C53_after_gate` `C53_in_system` |
| C54 | Every event is eventually handled | proved. Infinite executions (Live.v) in which the handler is weakly fair. That the handler's own waiting for shard locks ends is C33; in this model it never waits | `C54_every_event_is_handled` `C54_calm_handled` |
| C55 | The scheduler neither gets stuck nor outlives a stop | proved. Handler weakly fair, scheduler strongly fair. With a weakly fair scheduler only, the statement is false: a user who keeps calling advance_task can starve the scheduler at the mark of the task | `C55_keeps_ticking` `C55_stop_stops` `C55_calm_ticks_forever` `C55_weak_fairness_is_enough_refuted` |
| C56 | A repeated task is started again and again | proved. A run is a start or a skip by the parallel limit. For repeated interval tasks without limit, C56_starts_for_ever has no exception for due times near 2^64. Every finite execution can be continued to a fair one | `C56_runs_again` `C56_interval_task_starts_again` `C56_calm_starts_again` `C56_starts_for_ever` `C56_calm_starts_for_ever` `C56_fair_executions_exist` |
| C57 | A maximum running time ends every instance | proved. Handler and sweeper weakly fair, scheduler strongly fair, the receiver is let in, the clock readings grow beyond every bound. In builds without overflow checks: unless a deadline wraps around (C16). Exception: the scheduler died before it sent the handle, or the event handler died | `C57_timed_instance_ends` `C57_ends_or_wraps` `C57_calm_ends` `C57_every_unit_is_swept` |
| C58 | A dying event handler leaves no instance running unattended | partial. False of the code: an instance whose handle is in the event channel when the event handler panics is never told to quit. Proved: these are the only ones left out; recorded instances are told at the panic, later ones right after their start, each once. | `C58_all_told_refuted` `C58_all_told_partial` `C58_never_told` `C58_recorded` `C58_started_later` `C58_told_once` `C58_not_before` |
| C59 | A stopped timer that everybody let go of ends | partial. False of the code: the RecyclingBins, owned by the event handler and by the sweeper, hold a sender of the channel the event handler waits on, so it never returns. Proved: that, that on smol the sweeper never ends, that on tokio everything ends if the event handler panicked, and that calls fail exactly after such a panic. | `C59_all_ends_refuted` `C59_handler_never_returns` `C59_never_closes` `C59_nothing_ends` `C59_sweeper_stays` `C59_all_ends_partial` `C59_receiver_ends` `C59_calls_succeed` `C59_drop_does_not_stop` |
| C60 | Whoever reads the status events knows what runs | partial. False of the code: cancelled instances, those that finish after the user dropped their chain and those that run out of time after their task was removed are shown as running for ever. Proved: no running instance is hidden, exactly which ends are shown, that what is not shown then never is, and the full claim for tasks added once and not removed (updates and advances allowed) whose instances are not cancelled and whose chain is kept. | `C60_nothing_hidden` `C60_end_shown` `C60_ended_for_good` `C60_knows_refuted` `C60_knows_refuted2` `C60_knows_refuted3` `C60_knows_partial` |
| C61 | Cancelling an instance reports the truth | partial. Ok, DisCancel, the effect of an accepted call, that a call answers once and that no call is accepted after the end: proved. False of the code: get_state gives RUNNING for ever for an instance that ended after its task was removed, and DisCancelTimeOut is answered for an instance that ended between the sending of the event and the start of listening, or after its task was removed. Both proved for tasks that are inserted once and not removed (updates and advances allowed), while the chain is held and the caller listened in time. | `C61_ok` `C61_refused` `C61_answers_once` `C61_final_means_ended` `C61_cancels` `C61_refused_for_good` `C61_running_refuted` `C61_running_for_ever` `C61_running_partial` `C61_time_out_refuted` `C61_time_out_refuted2` `C61_time_out_partial` |
| C62 | An instance that returned or was cancelled ends, and its caller returns | proved. For fair infinite executions. Exceptions in general: a thread of the timer has died; none in calm executions (no overflow checks, no panicking closure, no stop). The caller is awake only if it listened before the end, the task is inserted once and not removed and the chain is held: C37 shows that this is needed. | `C62_no_end_is_lost` `C62_event_ends` `C62_returned_ends` `C62_cancelled_ends` `C62_caller_returns` `C62_calm_returned_ends` `C62_calm_cancelled_ends` `C62_calm_caller_returns` |
| C63 | What the calls for the next instance tell is so, and waiting ones return | partial. Finality and NoData are proved; a waiting call returns when an instance was started and not yet delivered, and when the task is removed. False: Expired leaves instances that were handed over but not yet taken unreachable, and a call waiting on a task that has used up its countdown waits for ever (its mark and so its chain stay, C45): C63_waits_for_ever says exactly when. | `C63_abandoned_is_final` `C63_expired_is_final` `C63_closed_is_final` `C63_no_data` `C63_gets_the_instance` `C63_told_of_the_removal` `C63_waits_for_ever` `C63_used_up_waits_for_ever` `C63_waiting_returns_refuted` `C63_expired_has_delivered_all_refuted` `C63_calm_gets_the_instance` `C63_calm_told_of_the_removal` |
| C64 | Whoever keeps asking gets every instance | proved. Chain on which calls wait again and again is alive; everything started is sent, handled and delivered. C64_asking_users_exist builds such executions. | `C64_gets_every_instance` `C64_calm_gets_every_instance` `C64_without_end` `C64_asking_users_exist` |
| C65 | A removed task is not started for ever | partial. False of the code: a task that the scheduler has in its hands (or that sits in another slot) when its removal is handled is started for ever, whatever is called. Proved: finitely often if and only if neither the wheel nor the scheduler has it any more when its mark is gone; never again if the removal finds it in the slot it looks into. | `C65_removed_ends_refuted` `C65_exactly` `C65_found_is_final` `C65_no_call_ends_it` `C65_removal_orphans` |
| C66 | A task left alone is started exactly as often as its schedule and its countdown say | proved. Fair infinite executions, both build profiles for C66_exactly; C66_every_date is the count for tasks with a parallel limit (starts and starts left out together); countdown 0 is C06, removals and reuse of the id are C10, C22, C41 and C65. | `C66_demands_one_list` `C66_over_exactly` `C66_every_date` `C66_exactly` `C66_calm_countdown` `C66_calm_interval` `C66_calm_gets_them` |
| C67 | A task with a parallel limit is started again and again as long as its instances end | partial. False of the code: after an end that is handled before the start is counted (or after the chain was dropped) the place is never given back, and with a limit of 1 no start ever comes again though no instance runs. Proved: started as often as one likes if and only if the task is not discarded for want of its mark and no start is left out while none of its instances runs; never the latter if no place was forgotten. C67_timed: the same for tasks with a maximum running time, unless a deadline passes 2^64. | `C67_limited_goes_on_refuted` `C67_goes_on` `C67_exactly` `C67_tidy_goes_on` `C67_timed` `C67_finishing_users_exist` |
| C68 | Advancing a task costs it none of its starts | partial. False of the code: an advance that reads the second hand on the last slot (3599) puts the task nowhere (C68_never_lost_refuted); every such reading loses the task, with one planned date unserved and no start ever after (C68_last_slot_loses). Proved: that is the only way, a task that is only advanced is otherwise always held until it is over (C68_never_lost_partial); a task that comes to its end has had a start on each of its dates, or one left out because of its parallel limit, however often and whenever it was advanced (C68_every_date, C68_over_exactly); and if it is advanced finitely often and never on the last slot it comes to that in every fair execution: exactly n starts for a countdown of n, any number for a task that repeats without end. Not claimed: that a task which is advanced infinitely often is started. | `C68_never_lost_refuted` `C68_never_lost_partial` `C68_last_slot_loses` `C68_every_date` `C68_over_exactly` `C68_exactly` `C68_calm_interval` `C68_calm_starts_for_ever` |
| C69 | A task put in place by an update is started as often as its schedule and its countdown say | partial. False of the code: the update takes the old task's next time for a first start and consumes no date of the new schedule, so a schedule that runs out gets one start more than it has dates (C69_as_often_refuted). Proved exactly: as often as the countdown says if that ends the task (C69_as_often_partial; an interval task exactly n times, C69_calm_interval), otherwise exactly once more than there are dates (C69_once_more); repeated intervals for ever; also when no old task was left in the slot. | `C69_as_often_refuted` `C69_as_often_partial` `C69_once_more` `C69_every_date` `C69_exactly` `C69_calm_interval` `C69_calm_starts_for_ever` |
| C70 | An update is not lost | partial. False of the code: an hourly task that the scheduler holds while the update is handled is put back into the same slot and overwrites the new one (C70_not_lost_refuted). Proved: never lost if all the scheduler has under the id waits in the slot used (C70_not_lost_partial); a waiting task is lost exactly in the step that puts another one with its id into its slot (C70_lost_exactly), which for a task taken under the second hand means a distance that is a multiple of an hour (C70_hourly). | `C70_not_lost_refuted` `C70_not_lost_partial` `C70_lost_exactly` `C70_hourly` |
| C71 | The sweeper remembers an instance only while it runs | partial. False of the code (sweeper.rs 139-141 has a FIXME about it): ending an instance does not touch its unit, which stays until its deadline. Proved exactly: the sweeper forgets a unit when a round reads a clock that has reached its deadline and for no other reason, so after a full round it holds the registered units that are not due, each of an instance started less than its maximum running time ago, ended or not. | `C71_only_running_refuted` `C71_only_running_partial` `C71_after_round` `C71_recent` |
| C72 | An id can be used again once the timer has nothing left under it | partial. Starts: proved in full. A task added under a used id of which the scheduler holds nothing any more, and left alone then, is started exactly as often as its schedule and countdown say (for every moment of an execution, and for fair infinite executions). Limit: false of the code, because an instance of the removed task that ends takes one off the count of the new task (finish_task and cancel_task look the mark up by id only): C72_limit_refuted. Proved: all instances with the id together are at most the new limit plus the old instances still running when the new task was added (C72_limit_shared), so the limit holds if none ran (C72_limit_partial). | `C72_every_date` `C72_over_exactly` `C72_exactly` `C72_calm_interval` `C72_calm_starts_for_ever` `C72_limit_refuted` `C72_limit_partial` `C72_limit_shared` |
| C73 | The parallel limit of an id holds across updates, advances and removals | partial. False of the code: the start that uses up a countdown (or after which there is no further date) is not counted in the mark, which stays; a task then put in place by update_task is started although the last instance still runs. Proved: in every execution with one add and any updates, advances and removals, at most the limit plus the number of tasks with this id that came to their end run at a time (C73_one_more_each); so the limit holds as long as none has ended (C73_limit_partial). C07 is the case without updates, where it always holds. | `C73_limit_refuted` `C73_limit_partial` `C73_one_more_each` |
| C74 | A task is built from the last settings made | proved. For every sequence of setter calls (induction over the calls), every cron crate, cache history and profile: id and limits are the last ones set; due times and count are those of the last frequency setter (interval, time stamp, cron expression in the last time zone, or once in a minute); a call panics exactly if an interval overflows 64 bits with overflow checks on. | `C74_settings` `C74_interval` `C74_stamp` `C74_default` `C74_cron` `C74_panics` |
| C75 | The scheduler ticks once a second, without drift | partial. False on tokio, the default runtime: its first tick is ready at once, so all iterations but the first come one second ahead. Proved for both runtimes with that second: never early, late by at most the wake-up latency if every iteration is done in time, missed ticks are made up, none is left out; the clock readings are then steady, as C03 and C43 assume. | `C75_once_a_second_refuted` `C75_never_early` `C75_once_a_second_partial` `C75_lateness` `C75_catches_up` `C75_is_caught_up` `C75_no_tick_lost` `C75_steady` |
| C76 | A scheduler that fell behind does not start tasks early | partial. False of the code: after a stall tasks are started early. Proved: exactly by what the clock made up since the last run, less one second. | `C76_never_early_refuted` `C76_exact` `C76_never_early_partial` `C76_first_run` |
| C77 | A group of tasks behaves as if it were alone in the timer | proved. The property's proviso is needed (C77_proviso_needed): the 200 timeouts a round may hand out are shared by all tasks. A panic of another task's routine on the scheduler or of its schedule on the event handler is covered: it leaves the part without further steps. | `C77_as_if_alone` `C77_few_timeouts` `C77_transfer` `C77_proviso_needed` |
| C78 | Ids are only names | proved. C78_proviso_needed: with an overdue task the renamed log is impossible. | `C78_only_names` `C78_any_ids` `C78_transfer` `C78_proviso_needed` |
| C79 | The date makes no difference | proved. C79_range_needed: a due time moved beyond 2^64 does not exist. In the debug profile (overflow checks) the executions are those in which neither thread died. | `C79_any_date` `C79_release` `C79_no_special_date` `C79_transfer` `C79_range_needed` |
| C80 | The age of a timer makes no difference | partial. False in full: a task due in 3598 s is started on time by a new timer and an hour late by one that is a tick old (C80_age_refuted; the cause is that of C02). Proved for executions in which the way from the hand to the slot of each added task leads past slot 0 as often and advance_task does not meet the last slot, where it loses tasks (C20), in either timer; in particular without exception for ages of whole revolutions (C80_whole_turns), and for delays within the revolution (C80_within). C80_exactly: under these provisos the older timer can do the same steps and no others. Due times in the last hour of the 64 bit clock are left out, and in the debug profile executions in which a thread died. | `C80_age_partial` `C80_exactly` `C80_whole_turns` `C80_within` `C80_age_refuted` |
<!-- /claims -->

## 6. What the proofs found in the code

| finding | where | theorem |
|---|---|---|
| A task whose slot number wraps past 3599 first runs 3600 ticks late | `event_handle.rs` 285-294: the rounds are counted from distance + second hand, so the wrap itself counts as one | `C02_first_run_on_time_refuted` |
| An overdue task waits `task_id % 3600` ticks | `event_handle.rs` 287 | `C38_…_refuted` |
| A limited task due between insertion and mark is dropped | `event_handle.rs` 211-221, `timer_core.rs` 309 | `C05_never_lost_refuted` |
| A countdown of 0 panics, or runs 2^64 times | `task.rs` 417-424 | `C06_…` |
| Counting runs after the instance has ended, or a dropped chain, blocks a limited task for ever | `handle_task` 396-407, `finish_task` 456-479 | `C08_…`, `C08_blocked_for_good`, `C67_…` |
| A task taken out by the scheduler survives its removal, or is doubled by an update | `remove_task`, `update_task` | `C10_…`, `C22_…`, `C30_…` |
| No call ends such a task: it is started for ever | `remove_task` deletes the only mark | `C65_…` |
| A wrapped deadline times an instance out at once | `get_maximum_running_time`, release builds | `C16_not_early_refuted` |
| The sweeper keeps the units of ended instances until their deadlines | `sweeper.rs` 139-165 (FIXME there), no removal on finish or cancel | `C71_only_running_refuted`, `C71_after_round` |
| The end of an instance of a removed task is counted as the end of an instance of the task that has its id now, so the parallel limit can be exceeded | `timer/event_handle.rs` 434 and 468 look the mark up by task id only | `C72_limit_refuted`, `C72_limit_shared` |
| The last start of a task is not counted (the task is dropped before its mark is raised), so a task put in its place by an update can be started beyond the parallel limit | `timer/timer_core.rs` `maintain_task` returns before `handle_task` raises the count (404) | `C73_limit_refuted`, `C73_one_more_each` |
| The sweeper sleeps past earlier deadlines | `sweeper.rs` 118-130 | `C17_prompt_refuted` |
| An `update_task` handled while the scheduler has the old task of an hourly schedule is lost: the old task, put back into the same slot, overwrites the new one | `event_handle.rs` 322-332, `slot.rs` add_task, `timer_core.rs` 381-394 | `C70_not_lost_refuted`, `C70_lost_exactly`, `C70_hourly` |
| An updated task is started once more than its schedule has dates | `event_handle.rs` 322-332: the update consumes no date of the new schedule | `C69_as_often_refuted`, `C69_once_more` |
| `advance_task` at second hand 3599 loses the task | `event_handle.rs` 363 | `C20_lost_on_last_slot`, `C68_…` |
| After `advance_task` the task cannot be removed | the mark keeps the old slot | `C21_removable_refuted` |
| An updated task first runs on the old task's date | `update_task` keeps the slot | `C23_…` |
| `set_frequency_once_by_timestamp_seconds(now)` gives no runnable task | `task.rs` 1022-1029 | `C25_full_refuted` |
| `free` can free twice, and strings of the user | `task.rs` 836-849 | `C27_full_refuted` |
| An instance of an earlier task of the same id comes out of the new chain | `maintain_task_status` | `C31_own_refuted` |
| `>` does not truncate | `parse.rs` 386-399 | `C35_replace_refuted` |
| Commands behind a redirection (`a > f \| b`) are silently dropped | `parse.rs` 334-336 | `C34_behind_redirection` |
| `cancel_with_wait` can hang (lost wake-up; removed task) | `task_instance.rs` 147-152 | `C37_…` |
| An instance whose handle is in the event channel when the event handler panics is never told to quit; the others are | `task_handle.rs` 163-174, `timer_core.rs` 277-286 | `C58_…` |
| A stopped and dropped timer leaves its event handler thread and its sweeper behind for ever: the event handler owns a sender of the channel it waits on | `event_handle.rs` 62-66, 102-116 | `C59_…` |
| A panicking closure ends the scheduler for all tasks | `task.rs` 586, 605 | `C40_…`, `C49_closure` |
| Two tasks of one id | `add_task` | `C41_…` |
| After a stall of the scheduler tasks are started early, by as much as the stall: a task is re-armed by the time that is left, counted from a second hand that is behind and will catch up | `timer_core.rs` `handle_task` 376-394, `SmolClock::tick`, tokio's `Interval` | `C76_never_early_refuted`, `C76_exact` |
| The 200 timeouts a round of the sweeper may hand out are shared by all tasks: timeouts of other tasks can put off one's own | `sweeper.rs` `RecyclingBins::recycle` 91-132 | `C77_proviso_needed` |
| On tokio the second hand advances twice in the first second | `timer_core.rs` 68-75: `interval_at(start, …)` is ready at once | `C75_once_a_second_refuted` |
| An interval of one second can run every two seconds for ever | `handle_task` 381 | `C43_late_every_two_seconds` |
| A panicked instance never ends | `task.rs` 591-594 | `C44_never_ends` |
| Mark and instance list of a finished task stay | no caller removes them | `C45_mark_stays`, `C45_list_stays` |
| A user who keeps calling `advance_task` can starve the scheduler at the lock of the task's mark, if locks are only weakly fair | `event_handle.rs` 340-370, `timer_core.rs` | `C55_weak_fairness_is_enough_refuted` |
| A status reader is never told that an instance was cancelled, that it finished after its chain was dropped, or that it ran out of time after its task was removed | `status_report.rs` 128-149, `event_handle.rs` 412-479 | `C60_knows_refuted…`, `C60_ended_for_good` |
| `get_state` gives RUNNING for ever when the instance ends after its task was removed, and `cancel_with_wait_timeout` can answer DisCancelTimeOut for an instance that has ended | `task_instance.rs` 146-192, `task.rs` 105-137 | `C61_running_refuted`, `C61_running_for_ever`, `C61_time_out_refuted…` |
| Instances already handed over cannot be got once the task is removed, and `next_with_wait` never returns after the countdown is used up | `task_instance.rs` 208-256 | `C63_expired_has_delivered_all_refuted`, `C63_waits_for_ever` |
| Timers of one process share one status channel | `status_report.rs` 10-12 | `C47_full_refuted` |
| Both spellings of "last piece" differ on `a >` | `parse.rs` 352-372 | `C50_same_refuted` |
| A sync closure runs on after its instance was cancelled; on tokio it can even start afterwards | `task.rs` 639, 661 | `C52_silent_refuted` |
| On tokio a panicked sync closure is reported as finished | `task.rs` 646-650 | `C53_means_returned_refuted` |
| The last process of a cancelled shell task runs on | `convenience.rs` 36-60 | `C51_none_left_refuted` |

## 7. Tests of the theorems

`seeded/LOG.jsonl`: the model was edited in a scratch copy the way a bug would change the program, everything was rebuilt with each failing
proof admitted in turn, and `Print Assumptions` then told which property theorems still stand.  Theorems that stood although their English claim
was false of the edited program were tightened.

`rocq/theories/RepoTests.v` plays the repository's own tests (`tests/simulation.rs`, the unit tests of `task.rs` and `sweeper.rs`) in the
model; the model gives the asserted results.  These are tests of the model, not proofs.
