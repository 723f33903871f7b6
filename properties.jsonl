{"id": "C01", "title": "Re-arming is exact", "statement": "After a periodic task was started (or skipped because of its parallel limit) in clock second T and its next due time is E >= T, the scheduler starts it again exactly E-T+1 ticks later, and not in any tick before: the delay is right for every distance (more than one revolution of the 3600-second wheel included), for every position of the second hand, and whatever other tasks do meanwhile.", "quantifier": "every next due time, every second-hand position, every interleaving with other tasks, users and instances", "why_tests_cant": "an hour-long wheel and unbounded delays cannot be sampled by tests that run for seconds, and the interference of other tasks ranges over all schedules", "anchors": ["src/timer/timer_core.rs::Timer::handle_task", "src/timer/timer_core.rs::Timer::async_schedule", "src/timer/task.rs::Task::check_arrived", "src/timer/slot.rs::Slot::arrival_time_tasks"]}
{"id": "C02", "title": "The first run of an added task comes on time", "statement": "A task given to add_task / insert_task whose first due time is d seconds after the timer's current second is started d+1 ticks after the tick in which the add was handled.", "quantifier": "every second-hand position 0..3599, every distance d", "why_tests_cant": "depends on where the second hand stands when the add is handled; a test starts with the hand at 0 and never sees a wrap", "anchors": ["src/timer/event_handle.rs::EventHandle::add_task", "src/entity.rs::SencondHand"]}
{"id": "C03", "title": "A task is never started before its due time", "statement": "With a clock that advances one second per tick, no start of a task added by add_task/insert_task and left alone afterwards happens in a clock second before the due time the start belongs to.", "quantifier": "every schedule, every due time, every interleaving of the handler and the scheduler in which the add is handled without stalling", "why_tests_cant": "a race between two atomics read by one thread and written by the other, over all schedules", "anchors": ["src/timer/event_handle.rs::EventHandle::add_task", "src/timer/timer_core.rs::Timer::handle_task"]}
{"id": "C04", "title": "A countdown task is started at most n times", "statement": "A task built with a countdown of n >= 1 (set_frequency_count_down_*; set_frequency_once_* is n = 1) is started at most n times in total, whatever is advanced, cancelled, removed, updated or stopped in between.", "quantifier": "every n >= 1, every history of API calls and every interleaving", "why_tests_cant": "must hold for every history; a test observes one", "anchors": ["src/timer/task.rs::FrequencyInner::down_count", "src/timer/task.rs::Task::down_count_and_set_vaild", "src/timer/timer_core.rs::Timer::maintain_task"]}
{"id": "C05", "title": "A task is never lost before its countdown is used up", "statement": "A task that was added and that nobody removes, updates, advances or adds again is, at every moment, either waiting in the scheduler (or in its event queue) or has been started exactly as often as its countdown says; in particular a repeating task is never dropped.", "quantifier": "every reachable state of every interleaving", "why_tests_cant": "loss can only show up in some particular interleaving or position; absence needs an invariant over all of them", "anchors": ["src/timer/timer_core.rs::Timer::maintain_task", "src/timer/timer_core.rs::Timer::handle_task", "src/timer/timer_core.rs::Timer::async_schedule", "src/timer/event_handle.rs::EventHandle::add_task"]}
{"id": "C06", "title": "A countdown of zero runs zero times", "statement": "A task built with a countdown of 0 is never started and does not disturb the scheduler.", "quantifier": "both arithmetic profiles (overflow checks on and off), every history", "why_tests_cant": "the outcome depends on the build profile; unit tests run one profile", "anchors": ["src/timer/task.rs::FrequencyInner::down_count", "src/timer/timer_core.rs::Timer::maintain_task"]}
{"id": "C07", "title": "The parallel limit is never exceeded", "statement": "If a task was built with set_maximum_parallel_runnable_num(m) and its id was submitted once, then at no moment are more than m of its instances started and not yet ended (finished, cancelled or timed out).", "quantifier": "every m, every interleaving of starts, finishes, cancels, timeouts and removes", "why_tests_cant": "a concurrency bound over all interleavings of two threads that share a counter without a common lock", "anchors": ["src/timer/timer_core.rs::Timer::maintain_task", "src/timer/timer_core.rs::Timer::handle_task", "src/timer/event_handle.rs::EventHandle::finish_task", "src/timer/event_handle.rs::EventHandle::cancel_task", "src/timer/task.rs::TaskMark"]}
{"id": "C08", "title": "Parallel slots are always given back", "statement": "When all instances of a task have ended, the task's parallel count is zero again, so that a task with a parallel limit can always be started again.", "quantifier": "every interleaving of the scheduler and the event handler, every moment at which the user drops the instance chain", "why_tests_cant": "needs a particular interleaving of two threads, or a drop of the chain between two events", "anchors": ["src/timer/timer_core.rs::Timer::handle_task", "src/timer/event_handle.rs::EventHandle::finish_task", "src/timer/task.rs::TaskMark::notify_cancel_finish", "src/timer/task.rs::TaskMark::dec_parallel_runnable_num"]}
{"id": "C09", "title": "A run skipped because of the parallel limit costs nothing but that run", "statement": "When a task is due and its parallel limit is reached, the run is skipped: no instance is started, the countdown is not consumed, the parallel count does not change, and the task is re-armed for its next due time.", "quantifier": "every task, limit, count and clock value", "why_tests_cant": "must hold for every combination of limit, count and frequency", "anchors": ["src/timer/timer_core.rs::Timer::maintain_task", "src/timer/timer_core.rs::Timer::handle_task"]}
{"id": "C10", "title": "A removed task is not started again", "statement": "After remove_task(id) has been handled, no task with that id that was submitted before is ever started again.", "quantifier": "every interleaving of the scheduler with the event handler, every later history", "why_tests_cant": "the dangerous moment is the window in which the scheduler holds the task outside the wheel; tests cannot force it", "anchors": ["src/timer/event_handle.rs::EventHandle::remove_task", "src/timer/event_handle.rs::EventHandle::event_dispatch", "src/timer/timer_core.rs::Timer::maintain_task", "src/timer/timer_core.rs::Timer::handle_task"]}
{"id": "C11", "title": "Removing a task touches nothing else", "statement": "remove_task(id) leaves every other task where it is, leaves running instances (also those of the removed task) running, and with an unknown id changes nothing and is not reported as a removal.", "quantifier": "every state, every id", "why_tests_cant": "a frame property: for every other id in every state", "anchors": ["src/timer/event_handle.rs::EventHandle::remove_task", "src/timer/event_handle.rs::EventHandle::event_dispatch"]}
{"id": "C12", "title": "Cancelling hits exactly the addressed instance", "statement": "cancel_task(id, rec) asks exactly the instance rec of task id to quit; every other instance keeps running, every scheduled task stays scheduled with the same due time, and for an unknown pair nothing changes.", "quantifier": "every state, every pair of ids", "why_tests_cant": "a frame property over all states", "anchors": ["src/timer/event_handle.rs::EventHandle::cancel_task", "src/timer/runtime_trace/task_handle.rs::TaskTrace::quit_one_task_handler"]}
{"id": "C13", "title": "The final state of an instance is final", "statement": "The state a TaskInstance shows goes from RUNNING to one of COMPLETED, CANCELLED, TIMEOUT at most once and never changes afterwards.", "quantifier": "every history and interleaving, every instance", "why_tests_cant": "finish, cancel and timeout events for one instance can arrive in any order and multiplicity", "anchors": ["src/timer/runtime_trace/task_instance.rs::Instance::notify_cancel_finish", "src/timer/task.rs::TaskMark::notify_cancel_finish", "src/timer/event_handle.rs::EventHandle::cancel_task", "src/timer/event_handle.rs::EventHandle::finish_task"]}
{"id": "C14", "title": "Status events of an instance form a protocol", "statement": "For each instance the status reporter shows one RunningTask, then at most one of FinishTask and TimeoutTask, and nothing more.", "quantifier": "every history and interleaving, every instance", "why_tests_cant": "needs the order of events in the channel to be right in every interleaving (issue 45 was a violation)", "anchors": ["src/timer/event_handle.rs::EventHandle::handle_event", "src/timer/timer_core.rs::Timer::maintain_task", "src/timer/task.rs::TaskContext::finish_task", "src/utils/status_report.rs::PublicEvent"]}
{"id": "C15", "title": "Every running handle is told to quit at most once", "statement": "For each started instance the handle is asked to quit at most once, by the first finish, cancel or timeout that reaches it, and only after the instance was registered.", "quantifier": "every history and interleaving, every instance", "why_tests_cant": "multiplicities over all histories", "anchors": ["src/timer/runtime_trace/task_handle.rs::TaskTrace", "src/timer/runtime_trace/task_handle.rs::DelayTaskHandlerBox"]}
{"id": "C16", "title": "No instance is timed out early, or without a limit", "statement": "An instance is only timed out if its task was built with set_maximum_running_time(m) and the clock had reached start second + m when the sweeper decided so.", "quantifier": "every m, every history, every order of deadlines in the heap", "why_tests_cant": "over all heaps and clocks", "anchors": ["src/timer/runtime_trace/sweeper.rs::RecyclingBins::recycle", "src/timer/task.rs::Task::get_maximum_running_time", "src/timer/event_handle.rs::EventHandle::maintain_task_status"]}
{"id": "C17", "title": "Timeouts are delivered promptly", "statement": "An instance that is still running at start + m is timed out within a few seconds of that moment.", "quantifier": "every sequence of registrations and deadlines", "why_tests_cant": "the delay depends on what the sweeper saw before it went to sleep; worst cases take hours of wall-clock time", "anchors": ["src/timer/runtime_trace/sweeper.rs::RecyclingBins::recycle", "src/timer/runtime_trace/sweeper.rs::RecyclingBins::yield_for_while", "src/timer/runtime_trace/sweeper.rs::RecyclingBins::add_recycle_unit"]}
{"id": "C18", "title": "Late events for an ended instance are harmless", "statement": "A finish, cancel or timeout event for an instance that has already ended changes nothing: no count, no instance state, no other instance, no status event.", "quantifier": "every state, every such event", "why_tests_cant": "any number of stale events can arrive at any time", "anchors": ["src/timer/event_handle.rs::EventHandle::cancel_task", "src/timer/event_handle.rs::EventHandle::finish_task", "src/timer/runtime_trace/task_handle.rs::TaskTrace::quit_one_task_handler"]}
{"id": "C19", "title": "Stop stops starts and nothing else", "statement": "After stop_delay_timer has been handled, the scheduler starts tasks only in the tick it is in; once it has looked at the flag it never starts anything again, while running instances and the handling of events go on.", "quantifier": "every later history", "why_tests_cant": "an all-futures property", "anchors": ["src/timer/event_handle.rs::EventHandle::event_dispatch", "src/timer/timer_core.rs::Timer::async_schedule"]}
{"id": "C20", "title": "An advanced task runs in the next tick", "statement": "advance_task(id) on a waiting task makes it run in the next tick, and its later schedule continues; the task is not lost.", "quantifier": "every second-hand position, every waiting task", "why_tests_cant": "one of the 3600 second-hand positions behaves differently", "anchors": ["src/timer/event_handle.rs::EventHandle::advance_task"]}
{"id": "C21", "title": "An advanced task can still be removed", "statement": "remove_task(id) handled after advance_task(id) and before the advanced run removes the task.", "quantifier": "every state", "why_tests_cant": "needs two API calls within one tick", "anchors": ["src/timer/event_handle.rs::EventHandle::advance_task", "src/timer/event_handle.rs::EventHandle::remove_task"]}
{"id": "C22", "title": "Update replaces the task in place", "statement": "update_task(t) for a waiting task with the same id replaces it: the old task is never started again, there is exactly one task with that id in the wheel, in the same place, and all other tasks are untouched.", "quantifier": "every state, every waiting task", "why_tests_cant": "frame property over all states", "anchors": ["src/timer/event_handle.rs::EventHandle::update_task", "src/timer/slot.rs::Slot::update_task"]}
{"id": "C23", "title": "An updated task follows its own schedule", "statement": "After update_task(t) the first start of the new task happens at the due time of the new task's own frequency.", "quantifier": "every pair of old and new frequency", "why_tests_cant": "two schedules and the wheel geometry are involved", "anchors": ["src/timer/event_handle.rs::EventHandle::update_task", "src/timer/slot.rs::Slot::update_task"]}
{"id": "C24", "title": "Interval frequencies produce the advertised due times", "statement": "A task built with set_frequency_{once,repeated,count_down}_by_{seconds,minutes,hours,days}(v) in second b has due times b+v*u, b+2*v*u, b+3*v*u, ... where u is the unit, unless a number does not fit 64 bits; v = 0 is rejected with an error.", "quantifier": "every v, every index k, every build time", "why_tests_cant": "an infinite sequence for unboundedly many parameters, and overflow corners", "anchors": ["src/timer/task.rs::TaskBuilder", "src/timer/task.rs::FrequencyInner::try_from", "src/timer/task.rs::FrequencyInner::next_alarm_timestamp"]}
{"id": "C25", "title": "set_frequency_once_by_timestamp_seconds always gives a runnable task", "statement": "For a time stamp in the future the task is due at that time stamp; for a time stamp that is not in the future it is due one second from now; building succeeds in every case.", "quantifier": "every time stamp and every current time", "why_tests_cant": "one particular second behaves differently", "anchors": ["src/timer/task.rs::TaskBuilder::set_frequency_once_by_timestamp_seconds", "src/timer/task.rs::FrequencyInner::try_from"]}
{"id": "C26", "title": "The cron expression cache is invisible", "statement": "Building a task from a cron expression gives the same schedule, starting from now, whatever expressions and time zones were analysed before on the same thread; the cache never holds more than 256 entries; a wrong expression is rejected every time.", "quantifier": "every history of analysed expressions, zones and times", "why_tests_cant": "over all cache histories, evictions included", "anchors": ["src/timer/task.rs::DelayTimerScheduleIteratorOwned::analyze_cron_expression"]}
{"id": "C27", "title": "TaskBuilder::free only frees what the builder owns", "statement": "In any sequence of safe TaskBuilder calls, free releases a string leaked by set_frequency_by_candy at most once and never releases a string given by the user.", "quantifier": "every sequence of builder calls, copies of the builder included", "why_tests_cant": "undefined behaviour cannot be observed reliably by a test", "anchors": ["src/timer/task.rs::TaskBuilder::free", "src/timer/task.rs::TaskBuilder::set_frequency_by_candy"]}
{"id": "C28", "title": "Only events that took effect are reported", "statement": "The status reporter shows a RemoveTask, RunningTask, FinishTask or TimeoutTask event only if the corresponding internal event was handled successfully, with the ids and data of that event; other internal events are never shown.", "quantifier": "every state and every event", "why_tests_cant": "the failing branches need unusual states", "anchors": ["src/timer/event_handle.rs::EventHandle::handle_event", "src/timer/event_handle.rs::EventHandle::event_dispatch", "src/utils/status_report.rs::PublicEvent"]}
{"id": "C29", "title": "The nightly and the stable build cancel the same instance", "statement": "The two implementations of quit_one_task_handler (cursor based on nightly, split_off based on stable) have the same effect and the same success or failure whenever record ids were handed out in increasing order.", "quantifier": "every list of handles, every id", "why_tests_cant": "the two are compiled under exclusive cfg flags: no test sees both", "anchors": ["src/timer/runtime_trace/task_handle.rs::TaskTrace::quit_one_task_handler"]}
{"id": "C30", "title": "API calls take effect in the order they are made", "statement": "Events are handled in the order in which the API calls were made; in particular add followed by remove leaves no such task behind, and remove followed by add leaves exactly the new one.", "quantifier": "every sequence of API calls", "why_tests_cant": "all sequences", "anchors": ["src/entity.rs::DelayTimer::seed_timer_event", "src/timer/event_handle.rs::EventHandle::handle_event"]}
{"id": "C31", "title": "The instance chain delivers every instance once, in start order", "statement": "The chain returned by insert_task yields each started instance of the task at most once and in the order they were started; after the task was removed it answers Expired.", "quantifier": "every history and interleaving", "why_tests_cant": "all histories", "anchors": ["src/timer/runtime_trace/task_instance.rs::TaskInstancesChain", "src/timer/runtime_trace/task_instance.rs::TaskInstancesChainMaintainer::push_instance", "src/timer/event_handle.rs::EventHandle::maintain_task_status"]}
{"id": "C32", "title": "The scheduler never spins or loses its place", "statement": "The second hand always points to one of the 3600 slots, every slot always exists, each pass through the scheduling loop is followed by a tick, and the hand visits the slots cyclically.", "quantifier": "every reachable state", "why_tests_cant": "the error branch would be an endless loop", "anchors": ["src/timer/timer_core.rs::Timer::async_schedule", "src/entity.rs::SencondHand::next", "src/timer/event_handle.rs::EventHandle::init_task_wheel"]}
{"id": "C33", "title": "The scheduler and the event handler cannot deadlock", "statement": "The locks taken by the scheduler thread and the event-handler thread on the shared maps can never block both threads for ever, whatever keys collide in a shard.", "quantifier": "every pair of operations, every interleaving, every assignment of keys to shards", "why_tests_cant": "deadlocks need a particular interleaving and hash collision", "anchors": ["src/timer/event_handle.rs::EventHandle::advance_task", "src/timer/event_handle.rs::EventHandle::update_task", "src/timer/event_handle.rs::EventHandle::remove_task", "src/timer/timer_core.rs::Timer::handle_task"]}
{"id": "C34", "title": "Shell pipelines are split into the written commands", "statement": "parse_and_run on a pipeline of commands written with single blanks, ' | ' between the commands and at most one redirection at the end starts exactly these programs with exactly these arguments, in order, each reading from the previous one.", "quantifier": "every list of commands and arguments without whitespace, '>' and '|'", "why_tests_cant": "a parser round trip over all inputs", "anchors": ["src/utils/parse.rs::shell_command::parse_and_run", "src/utils/parse.rs::shell_command::_remove_angle_bracket_command"]}
{"id": "C35", "title": "Redirections behave like a shell", "statement": "'cmd > file' leaves exactly the output of cmd in the file, 'cmd >> file' appends it to the previous content.", "quantifier": "every previous content and every output", "why_tests_cant": "depends on what the file held before", "anchors": ["src/utils/parse.rs::shell_command::create_stdio_file", "src/utils/parse.rs::shell_command::_has_redirect_file"]}
{"id": "C36", "title": "A failing pipeline leaves no process behind", "statement": "If some stage of a pipeline cannot be started, every process started for earlier stages is killed exactly once and no later stage is started; if all stages start, none is killed.", "quantifier": "every pipeline, every failing stage", "why_tests_cant": "every position of the failure", "anchors": ["src/utils/parse.rs::shell_command::parse_and_run", "src/utils/parse.rs::shell_command::ChildGuard"]}
{"id": "C37", "title": "cancel_with_wait returns", "statement": "TaskInstance::cancel_with_wait on a running instance returns once the cancellation has been handled.", "quantifier": "every interleaving of the caller and the event handler, every history", "why_tests_cant": "a lost wake-up needs the handler to run between two statements of the caller", "anchors": ["src/timer/runtime_trace/task_instance.rs::TaskInstance::cancel_with_wait", "src/timer/runtime_trace/task_instance.rs::Instance::notify_cancel_finish", "src/timer/event_handle.rs::EventHandle::cancel_task"]}
{"id": "C38", "title": "A task added after its due time runs at once", "statement": "If the first due time of an added task has already passed when the add is handled, the task runs within the next ticks.", "quantifier": "every task id, every lateness", "why_tests_cant": "the delay is a function of the task id", "anchors": ["src/timer/event_handle.rs::EventHandle::add_task"]}
{"id": "C39", "title": "Clock jumps never lose a task", "statement": "Whatever values the system clock returns (jumps forward or backward), a started or skipped task whose countdown is not used up and whose schedule still has dates is put back on the wheel, to be started again after a finite number of ticks that is 2 if the next due time has passed.", "quantifier": "every clock value sequence", "why_tests_cant": "all clock behaviours", "anchors": ["src/timer/timer_core.rs::Timer::handle_task", "src/timer/timer_core.rs::Timer::maintain_task"]}
{"id": "C40", "title": "Tasks with different ids do not influence each other", "statement": "Operations on one task id (adding, updating, removing, advancing, starting, cancelling, finishing) never change whether, when and in which tick a waiting task with another id will be started.", "quantifier": "every pair of ids, every operation, every state", "why_tests_cant": "a frame property over all states and operations", "anchors": ["src/timer/slot.rs::Slot", "src/timer/event_handle.rs::EventHandle", "src/timer/timer_core.rs::Timer"]}
{"id": "C41", "title": "An id names at most one task", "statement": "At any time the scheduler holds at most one task per task id.", "quantifier": "every history of API calls", "why_tests_cant": "histories with re-used ids or updates in flight", "anchors": ["src/timer/event_handle.rs::EventHandle::add_task", "src/timer/event_handle.rs::EventHandle::update_task", "src/timer/timer_core.rs::Timer::handle_task"]}
{"id": "C42", "title": "A submitted task is in one place", "statement": "Each Task value handed to the timer is, at every moment, in at most one of: the event queue, the event handler, one wheel slot, the scheduler's hands; it is never duplicated.", "quantifier": "every history and interleaving", "why_tests_cant": "an invariant over all interleavings", "anchors": ["src/timer/slot.rs::Slot", "src/timer/event_handle.rs::EventHandle", "src/timer/timer_core.rs::Timer"]}
{"id": "C43", "title": "Periodic tasks do not drift", "statement": "With a clock that advances one second per tick, the j-th start of a task repeated every p seconds that is left alone happens exactly p seconds after the previous one, for ever.", "quantifier": "every period p, every number of starts, every interleaving with other tasks", "why_tests_cant": "drift accumulates over unboundedly many runs", "anchors": ["src/timer/timer_core.rs::Timer::handle_task", "src/timer/timer_core.rs::Timer::async_schedule", "src/timer/task.rs::FrequencyInner::next_alarm_timestamp"]}
{"id": "C44", "title": "An instance whose future panics does not block its task", "statement": "If the user's future panics, the instance still ends (it is released by the sweeper if the task has a maximum running time) and gives its parallel slot back.", "quantifier": "every history", "why_tests_cant": "depends on the absence of events in the future", "anchors": ["src/timer/task.rs::AsyncFn::spawn_by_tokio", "src/timer/event_handle.rs::EventHandle::finish_task", "src/timer/runtime_trace/sweeper.rs::RecyclingBins::recycle"]}
{"id": "C45", "title": "Bookkeeping of finished tasks is released", "statement": "When a task's countdown is used up and all its instances have ended, the timer keeps no record of it.", "quantifier": "every history", "why_tests_cant": "a leak shows up only over long histories", "anchors": ["src/timer/timer_core.rs::Timer::maintain_task", "src/timer/runtime_trace/task_handle.rs::TaskTrace::quit_one_task_handler", "src/timer/event_handle.rs::EventHandle::record_task_mark"]}
{"id": "C46", "title": "The sweeper works off every due unit", "statement": "Each round of the sweeper sends one timeout for each due unit, earliest deadline first, at most 200 per round, and keeps exactly the others; no unit is lost or sent twice.", "quantifier": "every heap content and clock value", "why_tests_cant": "over all multisets of units, ties included", "anchors": ["src/timer/runtime_trace/sweeper.rs::RecyclingBins::recycle"]}
{"id": "C47", "title": "Status events reach the timer they belong to", "statement": "The StatusReporter of a DelayTimer shows only events of this DelayTimer, and all of them.", "quantifier": "every pair of timers in one process", "why_tests_cant": "needs two timers and a global channel", "anchors": ["src/utils/status_report.rs::GLOBAL_STATUS_REPORTER", "src/entity.rs::DelayTimerBuilder::get_status_report_receiver"]}
{"id": "C48", "title": "The builder's runtime choice is honoured", "statement": "After any sequence of DelayTimerBuilder runtime setters, build uses the last chosen kind, has a Tokio runtime exactly if the kind is Tokio, and keeps a user-supplied runtime; sender and receiver of the event channel belong together.", "quantifier": "every sequence of builder calls", "why_tests_cant": "all sequences", "anchors": ["src/entity.rs::DelayTimerBuilder"]}
{"id": "C49", "title": "No task parameter can kill the scheduler", "statement": "No task accepted by the API makes the scheduler thread or the event-handler thread panic.", "quantifier": "every task parameter, both arithmetic profiles", "why_tests_cant": "arithmetic corner cases in a background thread", "anchors": ["src/timer/task.rs::Task::get_maximum_running_time", "src/timer/task.rs::FrequencyInner::down_count", "src/timer/timer_core.rs::Timer::handle_task", "src/timer/event_handle.rs::EventHandle::add_task"]}
{"id": "C50", "title": "Both ways to find a redirection file agree", "statement": "The two implementations of _has_redirect_file, chosen by the compiler version, open the same file for the same command.", "quantifier": "every command line", "why_tests_cant": "one build contains only one of them", "anchors": ["src/utils/parse.rs::shell_command::_has_redirect_file", "build/build.rs::main"]}
{"id": "C51", "title": "No process of a shell task outlives the task", "statement": "When the body of a process task is over, by the end of its last process or by a cancellation at any await point, no process it started is still running.", "quantifier": "every command line, every point of cancellation", "why_tests_cant": "needs a cancellation at each await point", "anchors": ["src/utils/convenience.rs::functions::unblock_process_task_fn", "src/utils/convenience.rs::functions::tokio_unblock_process_task_fn", "src/utils/parse.rs::shell_command::ChildGuard::wait"]}
{"id": "C52", "title": "A cancelled instance runs no more user code", "statement": "Once a quit has taken effect on a running instance, none of the user's code of that instance runs any more.", "quantifier": "async and sync tasks, both runtimes, every interleaving", "why_tests_cant": "what runs after a cancellation shows up outside of the assertions of a test", "anchors": ["src/timer/task.rs::AsyncFn", "src/timer/task.rs::SyncFn", "src/timer/runtime_trace/task_handle.rs::DelayTaskHandler::quit"]}
{"id": "C53", "title": "The finish event means that the body returned", "statement": "An instance sends at most one finish event, only after its body returned, and none after it was cancelled; if its body returns and it is not cancelled, the event is sent.", "quantifier": "async and sync tasks, both runtimes, every interleaving", "why_tests_cant": "panics and cancellations at every point of four combinations", "anchors": ["src/timer/task.rs::Routine::spawn_by_tokio", "src/timer/task.rs::Routine::spawn_by_smol", "src/timer/task.rs::TaskContext::finish_task"]}
{"id": "C54", "title": "Every event is eventually handled", "statement": "Every event that was sent is taken by the event handler and dealt with completely after finitely many steps, unless the handler thread died.", "quantifier": "every infinite execution in which the handler goes on whenever it can", "why_tests_cant": "speaks about infinite executions: no finite run can violate it", "anchors": ["src/timer/event_handle.rs::EventHandle::handle_event", "src/timer/event_handle.rs::EventHandle::event_dispatch"]}
{"id": "C55", "title": "The scheduler neither gets stuck nor outlives a stop", "statement": "The scheduler reaches every later second unless it was stopped or died; after a stop event it stops.", "quantifier": "every infinite execution with fair threads and fair locks", "why_tests_cant": "speaks about infinite executions: no finite run can violate it", "anchors": ["src/timer/timer_core.rs::Timer::async_schedule", "src/timer/event_handle.rs::EventHandle::event_dispatch"]}
{"id": "C56", "title": "A repeated task is started again and again", "statement": "From every point on, a submitted task that nobody touches is run again after finitely many steps, until its countdown is used up or its exhausted schedule is over or the timer is stopped; an interval task without limit is started infinitely often.", "quantifier": "every infinite fair execution, every task", "why_tests_cant": "speaks about infinite executions: no finite run can violate it", "anchors": ["src/timer/timer_core.rs::Timer::async_schedule", "src/timer/timer_core.rs::Timer::maintain_task", "src/timer/event_handle.rs::EventHandle::add_task"]}
{"id": "C57", "title": "A maximum running time ends every instance", "statement": "Every started instance of a task with a maximum running time ends after finitely many steps, even if its own code never returns or panicked.", "quantifier": "every infinite fair execution in which the clock passes", "why_tests_cant": "speaks about infinite executions: no finite run can violate it", "anchors": ["src/timer/runtime_trace/sweeper.rs::RecyclingBins::recycle", "src/timer/runtime_trace/sweeper.rs::RecyclingBins::add_recycle_unit", "src/timer/event_handle.rs::EventHandle::maintain_task_status", "src/timer/timer_core.rs::Timer::maintain_task"]}
{"id": "C58", "title": "A dying event handler leaves no instance running unattended", "statement": "When the event handler panics, every instance that has been started is told to quit, once: those it has recorded at once, those started later as soon as the scheduler hands their handle over.", "quantifier": "every execution up to and after a panic of the event handler", "why_tests_cant": "the outcome depends on which handles are in the channel at the moment of the panic", "anchors": ["src/timer/runtime_trace/task_handle.rs::DelayTaskHandlerBox::drop", "src/timer/timer_core.rs::Timer::send_timer_event", "src/timer/event_handle.rs::EventHandle::lauch", "src/entity.rs::DelayTimerBuilder::run_event_handle"]}
{"id": "C59", "title": "A stopped timer that everybody let go of ends", "statement": "Once a timer was stopped, no instance runs and the user has dropped every DelayTimer, chain and instance, its event handler thread and the tasks of the sweeper end. Until its event handler panics, every call succeeds.", "quantifier": "every way to clone, drop, send and stop, in every order, on both runtimes", "why_tests_cant": "a thread that waits for ever looks like one that waits a little", "anchors": ["src/entity.rs::DelayTimerBuilder::build", "src/timer/event_handle.rs::EventHandle::handle_event", "src/timer/event_handle.rs::RecyclingBinWorker::new", "src/timer/runtime_trace/sweeper.rs::RecyclingBins::recycle", "src/timer/runtime_trace/sweeper.rs::RecyclingBins::add_recycle_unit", "src/entity.rs::DelayTimer::stop_delay_timer"]}
{"id": "C60", "title": "Whoever reads the status events knows what runs", "statement": "A reader who counts an instance as running from its RunningTask event to its FinishTask or TimeoutTask event has, whenever no event is on its way, exactly the instances that run.", "quantifier": "every task, every execution, every point at which nothing is on its way", "why_tests_cant": "which ends are reported depends on removals, cancellations and dropped chains before the end", "anchors": ["src/timer/event_handle.rs::EventHandle::event_dispatch", "src/timer/event_handle.rs::EventHandle::cancel_task", "src/timer/event_handle.rs::EventHandle::finish_task", "src/utils/status_report.rs::PublicEvent::try_from", "src/utils/status_report.rs::PublicEvent::get_record_id"]}
{"id": "C61", "title": "Cancelling an instance reports the truth", "statement": "What the calls that cancel an instance answer is so: Ok(state) means that it ended with that state, DisCancel that it had ended, DisCancelTimeOut that it has not ended yet; and get_state gives RUNNING exactly while it has not ended. An accepted call ends the instance whatever it answers.", "quantifier": "every task, every execution, every moment at which a call starts, listens or runs out of time", "why_tests_cant": "depends on what the event handler does between the caller's checks, and on what happened to the task before", "anchors": ["src/timer/runtime_trace/task_instance.rs::TaskInstance::cancel_with_wait", "src/timer/runtime_trace/task_instance.rs::TaskInstance::cancel_with_wait_timeout", "src/timer/runtime_trace/task_instance.rs::TaskInstance::cancel_with_async_wait", "src/timer/runtime_trace/task_instance.rs::TaskInstance::cancel", "src/timer/runtime_trace/task_instance.rs::TaskInstance::get_state", "src/timer/event_handle.rs::EventHandle::cancel_task", "src/timer/task.rs::TaskMark::notify_cancel_finish"]}
{"id": "C62", "title": "An instance that returned or was cancelled ends, and its caller returns", "statement": "If the event handler goes on whenever it can, then every instance whose future has returned, and every instance on which a cancelling call was accepted, is at some point ended in the timer's books; and a caller that was listening before the end gets back to its code with a final state, as long as the task is not removed and the user keeps the chain. No event that ends an instance is lost once the instance has been announced.", "quantifier": "every infinite execution that is fair to the event handler (and to the caller), every task, every instance, every interleaving of the rest", "why_tests_cant": "a statement about all infinite executions; a lost event or a lost wake-up shows only as something that never happens", "anchors": ["src/timer/task.rs::TaskContext::finish_task", "src/timer/event_handle.rs::EventHandle::finish_task", "src/timer/event_handle.rs::EventHandle::cancel_task", "src/timer/runtime_trace/task_instance.rs::TaskInstance::cancel_with_wait", "src/timer/timer_core.rs::Timer::maintain_task", "src/timer/runtime_trace/task_handle.rs::TaskTrace::quit_one_task_handler"]}
{"id": "C63", "title": "What the calls for the next instance tell is so, and waiting ones return", "statement": "Once next* has answered Expired or found the channel closed, the chain gives no further instance (but to calls that were already waiting), and everything the timer handed over has been delivered; NoData means that everything handed over so far has been delivered. A waiting call returns when there is an instance it can get and when there will be no further one.", "quantifier": "every task inserted with a chain, every execution, every number of calls at the same time; for the returning, every fair infinite execution", "why_tests_cant": "an instance that is handed over late, or a call that waits for ever, cannot be told from one that is merely slow", "anchors": ["src/timer/runtime_trace/task_instance.rs::TaskInstancesChain::next", "src/timer/runtime_trace/task_instance.rs::TaskInstancesChain::next_with_wait", "src/timer/runtime_trace/task_instance.rs::TaskInstancesChain::next_with_async_wait", "src/timer/runtime_trace/task_instance.rs::TaskInstancesChain::get_timer_event_sender", "src/timer/runtime_trace/task_instance.rs::TaskInstancesChainMaintainer::push_instance", "src/timer/event_handle.rs::EventHandle::remove_task", "src/timer/event_handle.rs::EventHandle::record_task_mark"]}
{"id": "C64", "title": "Whoever keeps asking gets every instance", "statement": "A user who asks for the next instance of a task again and again is handed every instance that is started, in the order of the starts; of a task that repeats without end and without a parallel limit, as many as the user wants.", "quantifier": "every task inserted with a chain whose id is added once and not removed, every fair infinite execution in which calls wait on the chain again and again and neither the scheduler nor the event handler dies", "why_tests_cant": "that an instance is handed over some time, for an endless task and however the threads are interleaved, is not shown by the hand-overs a test saw", "anchors": ["src/timer/timer_core.rs::Timer::maintain_task", "src/timer/event_handle.rs::EventHandle::maintain_task_status", "src/timer/runtime_trace/task_instance.rs::TaskInstancesChain::next_with_wait", "src/timer/runtime_trace/task_instance.rs::TaskInstancesChainMaintainer::push_instance"]}
{"id": "C65", "title": "A removed task is not started for ever", "statement": "If a task that repeats without end was removed and its id is not used again, it is started only finitely often from then on.", "quantifier": "every task, every moment at which the removal is handled, every fair infinite execution, whatever else is called", "why_tests_cant": "that a task is started again and again although no call can reach it any more is a statement about infinite executions and one unlucky moment", "anchors": ["src/timer/event_handle.rs::EventHandle::remove_task", "src/timer/event_handle.rs::EventHandle::update_task", "src/timer/event_handle.rs::EventHandle::advance_task", "src/timer/timer_core.rs::Timer::handle_task", "src/timer/timer_core.rs::Timer::maintain_task"]}
{"id": "C66", "title": "A task left alone is started exactly as often as its schedule and its countdown say", "statement": "A task without a parallel limit whose id is added once and not touched again is started on every date its schedule gives, up to its countdown of at least one: a countdown of n over an interval schedule exactly n times, a schedule that runs out once per date, any other one as often as one likes. Afterwards the timer holds nothing of it, and a user who keeps asking was handed exactly these instances.", "quantifier": "every task, every schedule, every countdown of at least one, every fair infinite execution in which the timer is not stopped and no thread dies", "why_tests_cant": "a start too few or too many shows only at the end of a long countdown, and a start that never comes cannot be observed", "anchors": ["src/timer/timer_core.rs::Timer::handle_task", "src/timer/timer_core.rs::Timer::maintain_task", "src/timer/task.rs::Task::down_count_and_set_vaild", "src/timer/task.rs::Task::get_next_exec_timestamp", "src/timer/event_handle.rs::EventHandle::add_task"]}
{"id": "C67", "title": "A task with a parallel limit is started again and again as long as its instances end", "statement": "A task that repeats without end and has a parallel limit of at least one, whose id is added once and not touched again, is started as often as one likes if each of its instances ends (returns, is cancelled or times out) some time.", "quantifier": "every task, every limit of at least one, every fair infinite execution in which the timer is not stopped and no thread dies", "why_tests_cant": "that no start ever comes again is a statement about infinite executions, and the moment that causes it (an end handled before the start is counted) is short", "anchors": ["src/timer/timer_core.rs::Timer::maintain_task", "src/timer/timer_core.rs::Timer::handle_task", "src/timer/event_handle.rs::EventHandle::maintain_task_status", "src/timer/event_handle.rs::EventHandle::finish_task", "src/timer/event_handle.rs::EventHandle::cancel_task", "src/timer/task.rs::TaskMark::inc_parallel_runnable_num", "src/timer/task.rs::TaskMark::dec_parallel_runnable_num"]}
{"id": "C68", "title": "Advancing a task costs it none of its starts", "statement": "A task whose id is added once and then only advanced, any number of times, is started on every date its schedule gives, up to its countdown: a start that was advanced takes the place of the scheduled one, none is lost and none is added.", "quantifier": "every task, every schedule and countdown of at least one, every number of advances at every moment, every execution", "why_tests_cant": "a start is lost only if the second hand stands on the last of 3600 slots when the handler reads it", "anchors": ["src/timer/event_handle.rs::EventHandle::advance_task", "src/timer/timer_core.rs::Timer::handle_task", "src/timer/timer_core.rs::Timer::maintain_task", "src/timer/task.rs::Task::clear_cylinder_line", "src/timer/slot.rs::Slot::remove_task"]}
{"id": "C69", "title": "A task put in place by an update is started as often as its schedule and its countdown say", "statement": "After update_task(t) was handled while the old task with this id waited in the wheel, and if there is no other call about this id, t is started once for each date its own schedule gives, up to its countdown of at least one.", "quantifier": "every old and new task, every schedule and countdown of at least one, every fair execution", "why_tests_cant": "one start too many shows only when the schedule of the new task ends, and a start that never comes cannot be observed", "anchors": ["src/timer/event_handle.rs::EventHandle::update_task", "src/timer/slot.rs::Slot::update_task", "src/timer/timer_core.rs::Timer::handle_task", "src/timer/timer_core.rs::Timer::maintain_task", "src/timer/task.rs::Task::down_count_and_set_vaild"]}
{"id": "C70", "title": "An update is not lost", "statement": "A task that was put into the wheel by a successful update_task is held by the timer until it is over, if there is no other call about its id.", "quantifier": "every old and new task, every moment at which the update is handled, every execution", "why_tests_cant": "the update is lost only if it is handled while the scheduler holds the old task, and only for intervals that are a multiple of an hour", "anchors": ["src/timer/event_handle.rs::EventHandle::update_task", "src/timer/slot.rs::Slot::update_task", "src/timer/slot.rs::Slot::add_task", "src/timer/timer_core.rs::Timer::handle_task"]}
{"id": "C71", "title": "The sweeper remembers an instance only while it runs", "statement": "When all events are handled and the sweeper has finished a round that found everything due, each unit it still holds belongs to an instance that is running; so its memory is bounded by the number of running instances.", "quantifier": "all executions: any tasks with a maximum running time, any clock, any interleaving of users, event handler, scheduler and sweeper", "why_tests_cant": "Memory that is held for instances that ended is invisible to a test that looks at results; it depends on how many instances end early and on maximum running times of hours.", "anchors": ["src/timer/runtime_trace/sweeper.rs::RecyclingBins::recycle", "src/timer/runtime_trace/sweeper.rs::RecyclingBins::add_recycle_unit", "src/timer/event_handle.rs::EventHandle::maintain_task_status"]}
{"id": "C72", "title": "An id can be used again once the timer has nothing left under it", "statement": "When a task is added under an id that was used before, the scheduler holds no task with this id any more and there is no other call about it, the new task is started once for each date its schedule gives, up to its countdown, and no more of its instances run at a time than its parallel limit allows - whatever the earlier tasks with this id left behind.", "quantifier": "every number of earlier tasks with the id, every schedule, countdown and limit, instances of earlier tasks that still run, every fair execution", "why_tests_cant": "the old task's instances, its mark and its chain may still be around when the new one is added; the limit is exceeded only if an instance of the old task ends while the new one is at its limit", "anchors": ["src/timer/event_handle.rs::EventHandle::add_task", "src/timer/event_handle.rs::EventHandle::remove_task", "src/timer/event_handle.rs::EventHandle::record_task_mark", "src/timer/task.rs::TaskMark::dec_parallel_runnable_num", "src/timer/timer_core.rs::Timer::maintain_task"]}
{"id": "C73", "title": "The parallel limit of an id holds across updates, advances and removals", "statement": "If an id is added once and its task is then updated, advanced and removed at will, and every task submitted under it has a parallel limit of at most m, then at most m instances with this id run at a time.", "quantifier": "every number and order of calls, every schedule and countdown, every interleaving with the scheduler and with ends of instances", "why_tests_cant": "needs an update that comes after the last start of a countdown task whose last instance is still running", "anchors": ["src/timer/timer_core.rs::Timer::maintain_task", "src/timer/timer_core.rs::Timer::handle_task", "src/timer/event_handle.rs::EventHandle::update_task", "src/timer/event_handle.rs::EventHandle::advance_task", "src/timer/task.rs::TaskMark::inc_parallel_runnable_num"]}
{"id": "C74", "title": "A task is built from the last settings made", "statement": "After any sequence of TaskBuilder setters, the built task has the id, the maximum running time and the parallel limit that were set last (0 and none if they were never set), and its due times and number of runs are those of the frequency that was set last, a cron expression being read in the time zone that was set last; without a frequency it runs once after a minute.", "quantifier": "every sequence of setter calls with any arguments, every state of the expression cache, both overflow modes", "why_tests_cant": "the number of orders of setters is unbounded, and each setter must leave every other field alone", "anchors": ["src/timer/task.rs::TaskBuilder", "src/timer/task.rs::TaskBuilder::spawn_async_routine", "src/timer/task.rs::FrequencyInner::try_from", "src/timer/task.rs::DelayTimerScheduleIteratorOwned::analyze_cron_expression"]}
{"id": "C75", "title": "The scheduler ticks once a second, without drift", "statement": "Iteration k of the scheduler begins k seconds after the timer was started, never earlier, and never later by more than the runtime's own wake-up latency as long as each iteration is done in time; after a stall the missed ticks are made up, none is left out.", "quantifier": "every number of iterations, every duration of the work in each iteration, every wake-up latency, both runtimes", "why_tests_cant": "drift shows only after hours; the work and latency of every single iteration vary independently", "anchors": ["src/timer/timer_core.rs::Clock::new", "src/timer/timer_core.rs::SmolClock::tick", "src/timer/timer_core.rs::TokioClock::tick", "src/timer/timer_core.rs::Timer::lapse", "src/timer/timer_core.rs::Timer::async_schedule"]}
{"id": "C76", "title": "A scheduler that fell behind does not start tasks early", "statement": "Whatever the scheduler's iterations take, a task that is left alone is never started before its due time.", "quantifier": "every course of the clock, with stalls of any length; every schedule, every execution", "why_tests_cant": "needs a scheduler thread that stalls for seconds while a task is run, and an interval longer than the stall", "anchors": ["src/timer/timer_core.rs::Timer::handle_task", "src/timer/timer_core.rs::Timer::async_schedule", "src/timer/timer_core.rs::Timer::lapse", "src/timer/timer_core.rs::SmolClock::tick"]}
{"id": "C77", "title": "A group of tasks behaves as if it were alone in the timer", "statement": "Whatever else is submitted to the same timer, what happens to the tasks of any chosen ids (their events, due times, starts, ends, timeouts, notifications and public events, with their clock times and in their order) is what happens in some execution of a timer whose users only name these ids, at the same ticks; provided that no round of the sweeper reaches its limit of 200 timeouts while one of theirs is due.", "quantifier": "every choice of ids, every execution: any calls about other ids, any failures of their tasks", "why_tests_cant": "needs two executions to be compared, and the number of ways in which other tasks can interleave with the chosen ones is unbounded", "anchors": ["src/timer/event_handle.rs::EventHandle::event_dispatch", "src/timer/event_handle.rs::EventHandle::cancel_task", "src/timer/event_handle.rs::EventHandle::finish_task", "src/timer/event_handle.rs::EventHandle::maintain_task_status", "src/timer/timer_core.rs::Timer::handle_task", "src/timer/slot.rs::Slot::arrival_time_tasks", "src/timer/runtime_trace/sweeper.rs::RecyclingBins::recycle"]}
{"id": "C78", "title": "Ids are only names", "statement": "Which ids the tasks have, and which record ids their instances get, makes no difference: renaming them one to one in an execution gives an execution with the same events, starts, ends, timeouts and notifications at the same ticks. The one exception is a task added after its due time, which add_task deliberately spreads by its id modulo 3600; such ids must keep their remainder.", "quantifier": "every one-to-one renaming of ids and record ids, every execution", "why_tests_cant": "compares executions for 2^64 ids; a dependence on the id (a collision, an order, a truncation) shows only for particular pairs of ids", "anchors": ["src/timer/event_handle.rs::EventHandle::add_task", "src/timer/event_handle.rs::EventHandle::event_dispatch", "src/timer/event_handle.rs::EventHandle::cancel_task", "src/timer/timer_core.rs::Timer::maintain_task", "src/timer/timer_core.rs::Timer::handle_task", "src/timer/slot.rs::Slot::arrival_time_tasks", "src/timer/runtime_trace/task_handle.rs::TaskTrace::quit_one_task_handler", "src/timer/runtime_trace/sweeper.rs::RecycleUnit"]}
{"id": "C79", "title": "The date makes no difference", "statement": "What a timer does depends only on the differences of times: moving all clock readings, first due times and cron dates of an execution by the same number of seconds gives an execution in which everything happens the same way, so many seconds later. No date, such as the end of 32 bit seconds in 2038 or 2106, is special; only times of 2^64 seconds and more are out of range.", "quantifier": "every execution, every number of seconds such that the moved times still fit in 64 bits", "why_tests_cant": "would need running the timer at other dates; a constant or a truncation to 32 bits somewhere in the arithmetic shows only decades from now", "anchors": ["src/timer/event_handle.rs::EventHandle::add_task", "src/timer/timer_core.rs::Timer::handle_task", "src/timer/timer_core.rs::Timer::maintain_task", "src/timer/task.rs::Task::get_next_exec_timestamp", "src/timer/task.rs::Task::get_maximum_running_time", "src/timer/runtime_trace/sweeper.rs::RecyclingBins::recycle", "src/timer/task.rs::FrequencyInner::next_alarm_timestamp"]}
{"id": "C80", "title": "The age of a timer makes no difference", "statement": "A timer that has been running unused for any number of seconds goes on exactly as a newly created one: the same calls lead to the same events, starts, ends, timeouts and notifications, as many ticks after the call.", "quantifier": "every execution of a new timer, every idle time before it, every course of the clock during it", "why_tests_cant": "the position of the second hand at the moment of a call ranges over 3600 slots, each of which would have to be tried with every delay", "anchors": ["src/timer/event_handle.rs::EventHandle::add_task", "src/timer/event_handle.rs::EventHandle::advance_task", "src/timer/event_handle.rs::EventHandle::remove_task", "src/timer/timer_core.rs::Timer::handle_task", "src/timer/timer_core.rs::Timer::next_position", "src/timer/timer_core.rs::Timer::async_schedule"]}
