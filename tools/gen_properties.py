#!/usr/bin/env python3
"""Writes ../properties.jsonl.  One tuple per property."""
import json, os
P = []
def p(title, statement, quantifier, why, *anchors):
    P.append(dict(id="C%02d" % (len(P)+1), title=title, statement=statement, quantifier=quantifier,
                  why_tests_cant=why, anchors=list(anchors)))
TC="src/timer/timer_core.rs"; EH="src/timer/event_handle.rs"; TK="src/timer/task.rs"; SL="src/timer/slot.rs"
TH="src/timer/runtime_trace/task_handle.rs"; TI="src/timer/runtime_trace/task_instance.rs"; SW="src/timer/runtime_trace/sweeper.rs"
EN="src/entity.rs"; PA="src/utils/parse.rs"; SR="src/utils/status_report.rs"; CV="src/utils/convenience.rs"

p("Re-arming is exact",
  "After a periodic task was started (or skipped because of its parallel limit) in clock second T and its next due time is E >= T, the scheduler starts it again exactly E-T+1 ticks later, and not in any tick before: the delay is right for every distance (more than one revolution of the 3600-second wheel included), for every position of the second hand, and whatever other tasks do meanwhile.",
  "every next due time, every second-hand position, every interleaving with other tasks, users and instances",
  "an hour-long wheel and unbounded delays cannot be sampled by tests that run for seconds, and the interference of other tasks ranges over all schedules",
  TC+"::Timer::handle_task", TC+"::Timer::async_schedule", TK+"::Task::check_arrived", SL+"::Slot::arrival_time_tasks")
p("The first run of an added task comes on time",
  "A task given to add_task / insert_task whose first due time is d seconds after the timer's current second is started d+1 ticks after the tick in which the add was handled.",
  "every second-hand position 0..3599, every distance d",
  "depends on where the second hand stands when the add is handled; a test starts with the hand at 0 and never sees a wrap",
  EH+"::EventHandle::add_task", EN+"::SencondHand")
p("A task is never started before its due time",
  "With a clock that advances one second per tick, no start of a task added by add_task/insert_task and left alone afterwards happens in a clock second before the due time the start belongs to.",
  "every schedule, every due time, every interleaving of the handler and the scheduler in which the add is handled without stalling",
  "a race between two atomics read by one thread and written by the other, over all schedules",
  EH+"::EventHandle::add_task", TC+"::Timer::handle_task")
p("A countdown task is started at most n times",
  "A task built with a countdown of n >= 1 (set_frequency_count_down_*; set_frequency_once_* is n = 1) is started at most n times in total, whatever is advanced, cancelled, removed, updated or stopped in between.",
  "every n >= 1, every history of API calls and every interleaving",
  "must hold for every history; a test observes one",
  TK+"::FrequencyInner::down_count", TK+"::Task::down_count_and_set_vaild", TC+"::Timer::maintain_task")
p("A task is never lost before its countdown is used up",
  "A task that was added and that nobody removes, updates, advances or adds again is, at every moment, either waiting in the scheduler (or in its event queue) or has been started exactly as often as its countdown says; in particular a repeating task is never dropped.",
  "every reachable state of every interleaving",
  "loss can only show up in some particular interleaving or position; absence needs an invariant over all of them",
  TC+"::Timer::maintain_task", TC+"::Timer::handle_task", TC+"::Timer::async_schedule", EH+"::EventHandle::add_task")
p("A countdown of zero runs zero times",
  "A task built with a countdown of 0 is never started and does not disturb the scheduler.",
  "both arithmetic profiles (overflow checks on and off), every history",
  "the outcome depends on the build profile; unit tests run one profile",
  TK+"::FrequencyInner::down_count", TC+"::Timer::maintain_task")
p("The parallel limit is never exceeded",
  "If a task was built with set_maximum_parallel_runnable_num(m) and its id was submitted once, then at no moment are more than m of its instances started and not yet ended (finished, cancelled or timed out).",
  "every m, every interleaving of starts, finishes, cancels, timeouts and removes",
  "a concurrency bound over all interleavings of two threads that share a counter without a common lock",
  TC+"::Timer::maintain_task", TC+"::Timer::handle_task", EH+"::EventHandle::finish_task", EH+"::EventHandle::cancel_task", TK+"::TaskMark")
p("Parallel slots are always given back",
  "When all instances of a task have ended, the task's parallel count is zero again, so that a task with a parallel limit can always be started again.",
  "every interleaving of the scheduler and the event handler, every moment at which the user drops the instance chain",
  "needs a particular interleaving of two threads, or a drop of the chain between two events",
  TC+"::Timer::handle_task", EH+"::EventHandle::finish_task", TK+"::TaskMark::notify_cancel_finish", TK+"::TaskMark::dec_parallel_runnable_num")
p("A run skipped because of the parallel limit costs nothing but that run",
  "When a task is due and its parallel limit is reached, the run is skipped: no instance is started, the countdown is not consumed, the parallel count does not change, and the task is re-armed for its next due time.",
  "every task, limit, count and clock value",
  "must hold for every combination of limit, count and frequency",
  TC+"::Timer::maintain_task", TC+"::Timer::handle_task")
p("A removed task is not started again",
  "After remove_task(id) has been handled, no task with that id that was submitted before is ever started again.",
  "every interleaving of the scheduler with the event handler, every later history",
  "the dangerous moment is the window in which the scheduler holds the task outside the wheel; tests cannot force it",
  EH+"::EventHandle::remove_task", EH+"::EventHandle::event_dispatch", TC+"::Timer::maintain_task", TC+"::Timer::handle_task")
p("Removing a task touches nothing else",
  "remove_task(id) leaves every other task where it is, leaves running instances (also those of the removed task) running, and with an unknown id changes nothing and is not reported as a removal.",
  "every state, every id",
  "a frame property: for every other id in every state",
  EH+"::EventHandle::remove_task", EH+"::EventHandle::event_dispatch")
p("Cancelling hits exactly the addressed instance",
  "cancel_task(id, rec) asks exactly the instance rec of task id to quit; every other instance keeps running, every scheduled task stays scheduled with the same due time, and for an unknown pair nothing changes.",
  "every state, every pair of ids",
  "a frame property over all states",
  EH+"::EventHandle::cancel_task", TH+"::TaskTrace::quit_one_task_handler")
p("The final state of an instance is final",
  "The state a TaskInstance shows goes from RUNNING to one of COMPLETED, CANCELLED, TIMEOUT at most once and never changes afterwards.",
  "every history and interleaving, every instance",
  "finish, cancel and timeout events for one instance can arrive in any order and multiplicity",
  TI+"::Instance::notify_cancel_finish", TK+"::TaskMark::notify_cancel_finish", EH+"::EventHandle::cancel_task", EH+"::EventHandle::finish_task")
p("Status events of an instance form a protocol",
  "For each instance the status reporter shows one RunningTask, then at most one of FinishTask and TimeoutTask, and nothing more.",
  "every history and interleaving, every instance",
  "needs the order of events in the channel to be right in every interleaving (issue 45 was a violation)",
  EH+"::EventHandle::handle_event", TC+"::Timer::maintain_task", TK+"::TaskContext::finish_task", SR+"::PublicEvent")
p("Every running handle is told to quit at most once",
  "For each started instance the handle is asked to quit at most once, by the first finish, cancel or timeout that reaches it, and only after the instance was registered.",
  "every history and interleaving, every instance",
  "multiplicities over all histories",
  TH+"::TaskTrace", TH+"::DelayTaskHandlerBox")
p("No instance is timed out early, or without a limit",
  "An instance is only timed out if its task was built with set_maximum_running_time(m) and the clock had reached start second + m when the sweeper decided so.",
  "every m, every history, every order of deadlines in the heap",
  "over all heaps and clocks",
  SW+"::RecyclingBins::recycle", TK+"::Task::get_maximum_running_time", EH+"::EventHandle::maintain_task_status")
p("Timeouts are delivered promptly",
  "An instance that is still running at start + m is timed out within a few seconds of that moment.",
  "every sequence of registrations and deadlines",
  "the delay depends on what the sweeper saw before it went to sleep; worst cases take hours of wall-clock time",
  SW+"::RecyclingBins::recycle", SW+"::RecyclingBins::yield_for_while", SW+"::RecyclingBins::add_recycle_unit")
p("Late events for an ended instance are harmless",
  "A finish, cancel or timeout event for an instance that has already ended changes nothing: no count, no instance state, no other instance, no status event.",
  "every state, every such event",
  "any number of stale events can arrive at any time",
  EH+"::EventHandle::cancel_task", EH+"::EventHandle::finish_task", TH+"::TaskTrace::quit_one_task_handler")
p("Stop stops starts and nothing else",
  "After stop_delay_timer has been handled, the scheduler starts tasks only in the tick it is in; once it has looked at the flag it never starts anything again, while running instances and the handling of events go on.",
  "every later history",
  "an all-futures property",
  EH+"::EventHandle::event_dispatch", TC+"::Timer::async_schedule")
p("An advanced task runs in the next tick",
  "advance_task(id) on a waiting task makes it run in the next tick, and its later schedule continues; the task is not lost.",
  "every second-hand position, every waiting task",
  "one of the 3600 second-hand positions behaves differently",
  EH+"::EventHandle::advance_task")
p("An advanced task can still be removed",
  "remove_task(id) handled after advance_task(id) and before the advanced run removes the task.",
  "every state",
  "needs two API calls within one tick",
  EH+"::EventHandle::advance_task", EH+"::EventHandle::remove_task")
p("Update replaces the task in place",
  "update_task(t) for a waiting task with the same id replaces it: the old task is never started again, there is exactly one task with that id in the wheel, in the same place, and all other tasks are untouched.",
  "every state, every waiting task",
  "frame property over all states",
  EH+"::EventHandle::update_task", SL+"::Slot::update_task")
p("An updated task follows its own schedule",
  "After update_task(t) the first start of the new task happens at the due time of the new task's own frequency.",
  "every pair of old and new frequency",
  "two schedules and the wheel geometry are involved",
  EH+"::EventHandle::update_task", SL+"::Slot::update_task")
p("Interval frequencies produce the advertised due times",
  "A task built with set_frequency_{once,repeated,count_down}_by_{seconds,minutes,hours,days}(v) in second b has due times b+v*u, b+2*v*u, b+3*v*u, ... where u is the unit, unless a number does not fit 64 bits; v = 0 is rejected with an error.",
  "every v, every index k, every build time",
  "an infinite sequence for unboundedly many parameters, and overflow corners",
  TK+"::TaskBuilder", TK+"::FrequencyInner::try_from", TK+"::FrequencyInner::next_alarm_timestamp")
p("set_frequency_once_by_timestamp_seconds always gives a runnable task",
  "For a time stamp in the future the task is due at that time stamp; for a time stamp that is not in the future it is due one second from now; building succeeds in every case.",
  "every time stamp and every current time",
  "one particular second behaves differently",
  TK+"::TaskBuilder::set_frequency_once_by_timestamp_seconds", TK+"::FrequencyInner::try_from")
p("The cron expression cache is invisible",
  "Building a task from a cron expression gives the same schedule, starting from now, whatever expressions and time zones were analysed before on the same thread; the cache never holds more than 256 entries; a wrong expression is rejected every time.",
  "every history of analysed expressions, zones and times",
  "over all cache histories, evictions included",
  TK+"::DelayTimerScheduleIteratorOwned::analyze_cron_expression")
p("TaskBuilder::free only frees what the builder owns",
  "In any sequence of safe TaskBuilder calls, free releases a string leaked by set_frequency_by_candy at most once and never releases a string given by the user.",
  "every sequence of builder calls, copies of the builder included",
  "undefined behaviour cannot be observed reliably by a test",
  TK+"::TaskBuilder::free", TK+"::TaskBuilder::set_frequency_by_candy")
p("Only events that took effect are reported",
  "The status reporter shows a RemoveTask, RunningTask, FinishTask or TimeoutTask event only if the corresponding internal event was handled successfully, with the ids and data of that event; other internal events are never shown.",
  "every state and every event",
  "the failing branches need unusual states",
  EH+"::EventHandle::handle_event", EH+"::EventHandle::event_dispatch", SR+"::PublicEvent")
p("The nightly and the stable build cancel the same instance",
  "The two implementations of quit_one_task_handler (cursor based on nightly, split_off based on stable) have the same effect and the same success or failure whenever record ids were handed out in increasing order.",
  "every list of handles, every id",
  "the two are compiled under exclusive cfg flags: no test sees both",
  TH+"::TaskTrace::quit_one_task_handler")
p("API calls take effect in the order they are made",
  "Events are handled in the order in which the API calls were made; in particular add followed by remove leaves no such task behind, and remove followed by add leaves exactly the new one.",
  "every sequence of API calls",
  "all sequences",
  EN+"::DelayTimer::seed_timer_event", EH+"::EventHandle::handle_event")
p("The instance chain delivers every instance once, in start order",
  "The chain returned by insert_task yields each started instance of the task at most once and in the order they were started; after the task was removed it answers Expired.",
  "every history and interleaving",
  "all histories",
  TI+"::TaskInstancesChain", TI+"::TaskInstancesChainMaintainer::push_instance", EH+"::EventHandle::maintain_task_status")
p("The scheduler never spins or loses its place",
  "The second hand always points to one of the 3600 slots, every slot always exists, each pass through the scheduling loop is followed by a tick, and the hand visits the slots cyclically.",
  "every reachable state",
  "the error branch would be an endless loop",
  TC+"::Timer::async_schedule", EN+"::SencondHand::next", EH+"::EventHandle::init_task_wheel")
p("The scheduler and the event handler cannot deadlock",
  "The locks taken by the scheduler thread and the event-handler thread on the shared maps can never block both threads for ever, whatever keys collide in a shard.",
  "every pair of operations, every interleaving, every assignment of keys to shards",
  "deadlocks need a particular interleaving and hash collision",
  EH+"::EventHandle::advance_task", EH+"::EventHandle::update_task", EH+"::EventHandle::remove_task", TC+"::Timer::handle_task")
p("Shell pipelines are split into the written commands",
  "parse_and_run on a pipeline of commands written with single blanks, ' | ' between the commands and at most one redirection at the end starts exactly these programs with exactly these arguments, in order, each reading from the previous one.",
  "every list of commands and arguments without whitespace, '>' and '|'",
  "a parser round trip over all inputs",
  PA+"::shell_command::parse_and_run", PA+"::shell_command::_remove_angle_bracket_command")
p("Redirections behave like a shell",
  "'cmd > file' leaves exactly the output of cmd in the file, 'cmd >> file' appends it to the previous content.",
  "every previous content and every output",
  "depends on what the file held before",
  PA+"::shell_command::create_stdio_file", PA+"::shell_command::_has_redirect_file")
p("A failing pipeline leaves no process behind",
  "If some stage of a pipeline cannot be started, every process started for earlier stages is killed exactly once and no later stage is started; if all stages start, none is killed.",
  "every pipeline, every failing stage",
  "every position of the failure",
  PA+"::shell_command::parse_and_run", PA+"::shell_command::ChildGuard")
p("cancel_with_wait returns",
  "TaskInstance::cancel_with_wait on a running instance returns once the cancellation has been handled.",
  "every interleaving of the caller and the event handler, every history",
  "a lost wake-up needs the handler to run between two statements of the caller",
  TI+"::TaskInstance::cancel_with_wait", TI+"::Instance::notify_cancel_finish", EH+"::EventHandle::cancel_task")
p("A task added after its due time runs at once",
  "If the first due time of an added task has already passed when the add is handled, the task runs within the next ticks.",
  "every task id, every lateness",
  "the delay is a function of the task id",
  EH+"::EventHandle::add_task")
p("Clock jumps never lose a task",
  "Whatever values the system clock returns (jumps forward or backward), a started or skipped task whose countdown is not used up and whose schedule still has dates is put back on the wheel, to be started again after a finite number of ticks that is 2 if the next due time has passed.",
  "every clock value sequence",
  "all clock behaviours",
  TC+"::Timer::handle_task", TC+"::Timer::maintain_task")
p("Tasks with different ids do not influence each other",
  "Operations on one task id (adding, updating, removing, advancing, starting, cancelling, finishing) never change whether, when and in which tick a waiting task with another id will be started.",
  "every pair of ids, every operation, every state",
  "a frame property over all states and operations",
  SL+"::Slot", EH+"::EventHandle", TC+"::Timer")
p("An id names at most one task",
  "At any time the scheduler holds at most one task per task id.",
  "every history of API calls",
  "histories with re-used ids or updates in flight",
  EH+"::EventHandle::add_task", EH+"::EventHandle::update_task", TC+"::Timer::handle_task")
p("A submitted task is in one place",
  "Each Task value handed to the timer is, at every moment, in at most one of: the event queue, the event handler, one wheel slot, the scheduler's hands; it is never duplicated.",
  "every history and interleaving",
  "an invariant over all interleavings",
  SL+"::Slot", EH+"::EventHandle", TC+"::Timer")
p("Periodic tasks do not drift",
  "With a clock that advances one second per tick, the j-th start of a task repeated every p seconds that is left alone happens exactly p seconds after the previous one, for ever.",
  "every period p, every number of starts, every interleaving with other tasks",
  "drift accumulates over unboundedly many runs",
  TC+"::Timer::handle_task", TC+"::Timer::async_schedule", TK+"::FrequencyInner::next_alarm_timestamp")
p("An instance whose future panics does not block its task",
  "If the user's future panics, the instance still ends (it is released by the sweeper if the task has a maximum running time) and gives its parallel slot back.",
  "every history",
  "depends on the absence of events in the future",
  TK+"::AsyncFn::spawn_by_tokio", EH+"::EventHandle::finish_task", SW+"::RecyclingBins::recycle")
p("Bookkeeping of finished tasks is released",
  "When a task's countdown is used up and all its instances have ended, the timer keeps no record of it.",
  "every history",
  "a leak shows up only over long histories",
  TC+"::Timer::maintain_task", TH+"::TaskTrace::quit_one_task_handler", EH+"::EventHandle::record_task_mark")
p("The sweeper works off every due unit",
  "Each round of the sweeper sends one timeout for each due unit, earliest deadline first, at most 200 per round, and keeps exactly the others; no unit is lost or sent twice.",
  "every heap content and clock value",
  "over all multisets of units, ties included",
  SW+"::RecyclingBins::recycle")
p("Status events reach the timer they belong to",
  "The StatusReporter of a DelayTimer shows only events of this DelayTimer, and all of them.",
  "every pair of timers in one process",
  "needs two timers and a global channel",
  SR+"::GLOBAL_STATUS_REPORTER", EN+"::DelayTimerBuilder::get_status_report_receiver")
p("The builder's runtime choice is honoured",
  "After any sequence of DelayTimerBuilder runtime setters, build uses the last chosen kind, has a Tokio runtime exactly if the kind is Tokio, and keeps a user-supplied runtime; sender and receiver of the event channel belong together.",
  "every sequence of builder calls",
  "all sequences",
  EN+"::DelayTimerBuilder")
p("No task parameter can kill the scheduler",
  "No task accepted by the API makes the scheduler thread or the event-handler thread panic.",
  "every task parameter, both arithmetic profiles",
  "arithmetic corner cases in a background thread",
  TK+"::Task::get_maximum_running_time", TK+"::FrequencyInner::down_count", TC+"::Timer::handle_task", EH+"::EventHandle::add_task")
p("Both ways to find a redirection file agree",
  "The two implementations of _has_redirect_file, chosen by the compiler version, open the same file for the same command.",
  "every command line",
  "one build contains only one of them",
  "src/utils/parse.rs::shell_command::_has_redirect_file", "build/build.rs::main")
p("No process of a shell task outlives the task",
  "When the body of a process task is over, by the end of its last process or by a cancellation at any await point, no process it started is still running.",
  "every command line, every point of cancellation",
  "needs a cancellation at each await point",
  "src/utils/convenience.rs::functions::unblock_process_task_fn", "src/utils/convenience.rs::functions::tokio_unblock_process_task_fn", "src/utils/parse.rs::shell_command::ChildGuard::wait")
p("A cancelled instance runs no more user code",
  "Once a quit has taken effect on a running instance, none of the user's code of that instance runs any more.",
  "async and sync tasks, both runtimes, every interleaving",
  "what runs after a cancellation shows up outside of the assertions of a test",
  TK+"::AsyncFn", TK+"::SyncFn", "src/timer/runtime_trace/task_handle.rs::DelayTaskHandler::quit")
p("The finish event means that the body returned",
  "An instance sends at most one finish event, only after its body returned, and none after it was cancelled; if its body returns and it is not cancelled, the event is sent.",
  "async and sync tasks, both runtimes, every interleaving",
  "panics and cancellations at every point of four combinations",
  TK+"::Routine::spawn_by_tokio", TK+"::Routine::spawn_by_smol", TK+"::TaskContext::finish_task")
p("Every event is eventually handled",
  "Every event that was sent is taken by the event handler and dealt with completely after finitely many steps, unless the handler thread died.",
  "every infinite execution in which the handler goes on whenever it can",
  "speaks about infinite executions: no finite run can violate it",
  EH+"::EventHandle::handle_event", EH+"::EventHandle::event_dispatch")
p("The scheduler neither gets stuck nor outlives a stop",
  "The scheduler reaches every later second unless it was stopped or died; after a stop event it stops.",
  "every infinite execution with fair threads and fair locks",
  "speaks about infinite executions: no finite run can violate it",
  TC+"::Timer::async_schedule", EH+"::EventHandle::event_dispatch")
p("A repeated task is started again and again",
  "From every point on, a submitted task that nobody touches is run again after finitely many steps, until its countdown is used up or its exhausted schedule is over or the timer is stopped; an interval task without limit is started infinitely often.",
  "every infinite fair execution, every task",
  "speaks about infinite executions: no finite run can violate it",
  TC+"::Timer::async_schedule", TC+"::Timer::maintain_task", EH+"::EventHandle::add_task")
p("A maximum running time ends every instance",
  "Every started instance of a task with a maximum running time ends after finitely many steps, even if its own code never returns or panicked.",
  "every infinite fair execution in which the clock passes",
  "speaks about infinite executions: no finite run can violate it",
  SW+"::RecyclingBins::recycle", SW+"::RecyclingBins::add_recycle_unit", EH+"::EventHandle::maintain_task_status", TC+"::Timer::maintain_task")
p("A dying event handler leaves no instance running unattended",
  "When the event handler panics, every instance that has been started is told to quit, once: those it has recorded at once, those started later as soon as the scheduler hands their handle over.",
  "every execution up to and after a panic of the event handler",
  "the outcome depends on which handles are in the channel at the moment of the panic",
  TH+"::DelayTaskHandlerBox::drop", TC+"::Timer::send_timer_event", EH+"::EventHandle::lauch", EN+"::DelayTimerBuilder::run_event_handle")
p("A stopped timer that everybody let go of ends",
  "Once a timer was stopped, no instance runs and the user has dropped every DelayTimer, chain and instance, its event handler thread and the tasks of the sweeper end. Until its event handler panics, every call succeeds.",
  "every way to clone, drop, send and stop, in every order, on both runtimes",
  "a thread that waits for ever looks like one that waits a little",
  EN+"::DelayTimerBuilder::build", EH+"::EventHandle::handle_event", EH+"::RecyclingBinWorker::new", SW+"::RecyclingBins::recycle", SW+"::RecyclingBins::add_recycle_unit", EN+"::DelayTimer::stop_delay_timer")
p("Whoever reads the status events knows what runs",
  "A reader who counts an instance as running from its RunningTask event to its FinishTask or TimeoutTask event has, whenever no event is on its way, exactly the instances that run.",
  "every task, every execution, every point at which nothing is on its way",
  "which ends are reported depends on removals, cancellations and dropped chains before the end",
  EH+"::EventHandle::event_dispatch", EH+"::EventHandle::cancel_task", EH+"::EventHandle::finish_task", SR+"::PublicEvent::try_from", "src/utils/status_report.rs::PublicEvent::get_record_id")
p("Cancelling an instance reports the truth",
  "What the calls that cancel an instance answer is so: Ok(state) means that it ended with that state, DisCancel that it had ended, DisCancelTimeOut that it has not ended yet; and get_state gives RUNNING exactly while it has not ended. An accepted call ends the instance whatever it answers.",
  "every task, every execution, every moment at which a call starts, listens or runs out of time",
  "depends on what the event handler does between the caller's checks, and on what happened to the task before",
  "src/timer/runtime_trace/task_instance.rs::TaskInstance::cancel_with_wait", "src/timer/runtime_trace/task_instance.rs::TaskInstance::cancel_with_wait_timeout", "src/timer/runtime_trace/task_instance.rs::TaskInstance::cancel_with_async_wait", "src/timer/runtime_trace/task_instance.rs::TaskInstance::cancel", "src/timer/runtime_trace/task_instance.rs::TaskInstance::get_state", EH+"::EventHandle::cancel_task", TK+"::TaskMark::notify_cancel_finish")
p("An instance that returned or was cancelled ends, and its caller returns",
  "If the event handler goes on whenever it can, then every instance whose future has returned, and every instance on which a cancelling call was accepted, is at some point ended in the timer's books; and a caller that was listening before the end gets back to its code with a final state, as long as the task is not removed and the user keeps the chain. No event that ends an instance is lost once the instance has been announced.",
  "every infinite execution that is fair to the event handler (and to the caller), every task, every instance, every interleaving of the rest",
  "a statement about all infinite executions; a lost event or a lost wake-up shows only as something that never happens",
  TK+"::TaskContext::finish_task", EH+"::EventHandle::finish_task", EH+"::EventHandle::cancel_task", "src/timer/runtime_trace/task_instance.rs::TaskInstance::cancel_with_wait", TC+"::Timer::maintain_task", TH+"::TaskTrace::quit_one_task_handler")
p("What the calls for the next instance tell is so, and waiting ones return",
  "Once next* has answered Expired or found the channel closed, the chain gives no further instance (but to calls that were already waiting), and everything the timer handed over has been delivered; NoData means that everything handed over so far has been delivered. A waiting call returns when there is an instance it can get and when there will be no further one.",
  "every task inserted with a chain, every execution, every number of calls at the same time; for the returning, every fair infinite execution",
  "an instance that is handed over late, or a call that waits for ever, cannot be told from one that is merely slow",
  "src/timer/runtime_trace/task_instance.rs::TaskInstancesChain::next", "src/timer/runtime_trace/task_instance.rs::TaskInstancesChain::next_with_wait", "src/timer/runtime_trace/task_instance.rs::TaskInstancesChain::next_with_async_wait", "src/timer/runtime_trace/task_instance.rs::TaskInstancesChain::get_timer_event_sender", "src/timer/runtime_trace/task_instance.rs::TaskInstancesChainMaintainer::push_instance", EH+"::EventHandle::remove_task", EH+"::EventHandle::record_task_mark")
p("Whoever keeps asking gets every instance",
  "A user who asks for the next instance of a task again and again is handed every instance that is started, in the order of the starts; of a task that repeats without end and without a parallel limit, as many as the user wants.",
  "every task inserted with a chain whose id is added once and not removed, every fair infinite execution in which calls wait on the chain again and again and neither the scheduler nor the event handler dies",
  "that an instance is handed over some time, for an endless task and however the threads are interleaved, is not shown by the hand-overs a test saw",
  TC+"::Timer::maintain_task", EH+"::EventHandle::maintain_task_status", "src/timer/runtime_trace/task_instance.rs::TaskInstancesChain::next_with_wait", "src/timer/runtime_trace/task_instance.rs::TaskInstancesChainMaintainer::push_instance")
p("A removed task is not started for ever",
  "If a task that repeats without end was removed and its id is not used again, it is started only finitely often from then on.",
  "every task, every moment at which the removal is handled, every fair infinite execution, whatever else is called",
  "that a task is started again and again although no call can reach it any more is a statement about infinite executions and one unlucky moment",
  EH+"::EventHandle::remove_task", EH+"::EventHandle::update_task", EH+"::EventHandle::advance_task", TC+"::Timer::handle_task", TC+"::Timer::maintain_task")
p("A task left alone is started exactly as often as its schedule and its countdown say",
  "A task without a parallel limit whose id is added once and not touched again is started on every date its schedule gives, up to its countdown of at least one: a countdown of n over an interval schedule exactly n times, a schedule that runs out once per date, any other one as often as one likes. Afterwards the timer holds nothing of it, and a user who keeps asking was handed exactly these instances.",
  "every task, every schedule, every countdown of at least one, every fair infinite execution in which the timer is not stopped and no thread dies",
  "a start too few or too many shows only at the end of a long countdown, and a start that never comes cannot be observed",
  TC+"::Timer::handle_task", TC+"::Timer::maintain_task", TK+"::Task::down_count_and_set_vaild", TK+"::Task::get_next_exec_timestamp", EH+"::EventHandle::add_task")
p("A task with a parallel limit is started again and again as long as its instances end",
  "A task that repeats without end and has a parallel limit of at least one, whose id is added once and not touched again, is started as often as one likes if each of its instances ends (returns, is cancelled or times out) some time.",
  "every task, every limit of at least one, every fair infinite execution in which the timer is not stopped and no thread dies",
  "that no start ever comes again is a statement about infinite executions, and the moment that causes it (an end handled before the start is counted) is short",
  TC+"::Timer::maintain_task", TC+"::Timer::handle_task", EH+"::EventHandle::maintain_task_status", EH+"::EventHandle::finish_task", EH+"::EventHandle::cancel_task", TK+"::TaskMark::inc_parallel_runnable_num", TK+"::TaskMark::dec_parallel_runnable_num")
p("Advancing a task costs it none of its starts",
  "A task whose id is added once and then only advanced, any number of times, is started on every date its schedule gives, up to its countdown: a start that was advanced takes the place of the scheduled one, none is lost and none is added.",
  "every task, every schedule and countdown of at least one, every number of advances at every moment, every execution",
  "a start is lost only if the second hand stands on the last of 3600 slots when the handler reads it",
  EH+"::EventHandle::advance_task", TC+"::Timer::handle_task", TC+"::Timer::maintain_task", TK+"::Task::clear_cylinder_line", SL+"::Slot::remove_task")
p("A task put in place by an update is started as often as its schedule and its countdown say",
  "After update_task(t) was handled while the old task with this id waited in the wheel, and if there is no other call about this id, t is started once for each date its own schedule gives, up to its countdown of at least one.",
  "every old and new task, every schedule and countdown of at least one, every fair execution",
  "one start too many shows only when the schedule of the new task ends, and a start that never comes cannot be observed",
  EH+"::EventHandle::update_task", SL+"::Slot::update_task", TC+"::Timer::handle_task", TC+"::Timer::maintain_task", TK+"::Task::down_count_and_set_vaild")
p("An update is not lost",
  "A task that was put into the wheel by a successful update_task is held by the timer until it is over, if there is no other call about its id.",
  "every old and new task, every moment at which the update is handled, every execution",
  "the update is lost only if it is handled while the scheduler holds the old task, and only for intervals that are a multiple of an hour",
  EH+"::EventHandle::update_task", SL+"::Slot::update_task", SL+"::Slot::add_task", TC+"::Timer::handle_task")
p("The sweeper remembers an instance only while it runs",
  "When all events are handled and the sweeper has finished a round that found everything due, each unit it still holds belongs to an instance that is running; so its memory is bounded by the number of running instances.",
  "all executions: any tasks with a maximum running time, any clock, any interleaving of users, event handler, scheduler and sweeper",
  "Memory that is held for instances that ended is invisible to a test that looks at results; it depends on how many instances end early and on maximum running times of hours.",
  SW+"::RecyclingBins::recycle", SW+"::RecyclingBins::add_recycle_unit", EH+"::EventHandle::maintain_task_status")

p("An id can be used again once the timer has nothing left under it",
  "When a task is added under an id that was used before, the scheduler holds no task with this id any more and there is no other call about it, the new task is started once for each date its schedule gives, up to its countdown, and no more of its instances run at a time than its parallel limit allows - whatever the earlier tasks with this id left behind.",
  "every number of earlier tasks with the id, every schedule, countdown and limit, instances of earlier tasks that still run, every fair execution",
  "the old task's instances, its mark and its chain may still be around when the new one is added; the limit is exceeded only if an instance of the old task ends while the new one is at its limit",
  EH+"::EventHandle::add_task", EH+"::EventHandle::remove_task", EH+"::EventHandle::record_task_mark", TK+"::TaskMark::dec_parallel_runnable_num", TC+"::Timer::maintain_task")
p("The parallel limit of an id holds across updates, advances and removals",
  "If an id is added once and its task is then updated, advanced and removed at will, and every task submitted under it has a parallel limit of at most m, then at most m instances with this id run at a time.",
  "every number and order of calls, every schedule and countdown, every interleaving with the scheduler and with ends of instances",
  "needs an update that comes after the last start of a countdown task whose last instance is still running",
  TC+"::Timer::maintain_task", TC+"::Timer::handle_task", EH+"::EventHandle::update_task", EH+"::EventHandle::advance_task", TK+"::TaskMark::inc_parallel_runnable_num")
p("A task is built from the last settings made",
  "After any sequence of TaskBuilder setters, the built task has the id, the maximum running time and the parallel limit that were set last (0 and none if they were never set), and its due times and number of runs are those of the frequency that was set last, a cron expression being read in the time zone that was set last; without a frequency it runs once after a minute.",
  "every sequence of setter calls with any arguments, every state of the expression cache, both overflow modes",
  "the number of orders of setters is unbounded, and each setter must leave every other field alone",
  TK+"::TaskBuilder", TK+"::TaskBuilder::spawn_async_routine", TK+"::FrequencyInner::try_from", TK+"::DelayTimerScheduleIteratorOwned::analyze_cron_expression")
p("The scheduler ticks once a second, without drift",
  "Iteration k of the scheduler begins k seconds after the timer was started, never earlier, and never later by more than the runtime's own wake-up latency as long as each iteration is done in time; after a stall the missed ticks are made up, none is left out.",
  "every number of iterations, every duration of the work in each iteration, every wake-up latency, both runtimes",
  "drift shows only after hours; the work and latency of every single iteration vary independently",
  TC+"::Clock::new", TC+"::SmolClock::tick", TC+"::TokioClock::tick", TC+"::Timer::lapse", TC+"::Timer::async_schedule")
p("A scheduler that fell behind does not start tasks early",
  "Whatever the scheduler's iterations take, a task that is left alone is never started before its due time.",
  "every course of the clock, with stalls of any length; every schedule, every execution",
  "needs a scheduler thread that stalls for seconds while a task is run, and an interval longer than the stall",
  TC+"::Timer::handle_task", TC+"::Timer::async_schedule", TC+"::Timer::lapse", TC+"::SmolClock::tick")
p("A group of tasks behaves as if it were alone in the timer",
  "Whatever else is submitted to the same timer, what happens to the tasks of any chosen ids (their events, due times, starts, ends, timeouts, notifications and public events, with their clock times and in their order) is what happens in some execution of a timer whose users only name these ids, at the same ticks; provided that no round of the sweeper reaches its limit of 200 timeouts while one of theirs is due.",
  "every choice of ids, every execution: any calls about other ids, any failures of their tasks",
  "needs two executions to be compared, and the number of ways in which other tasks can interleave with the chosen ones is unbounded",
  EH+"::EventHandle::event_dispatch", EH+"::EventHandle::cancel_task", EH+"::EventHandle::finish_task", EH+"::EventHandle::maintain_task_status", TC+"::Timer::handle_task", SL+"::Slot::arrival_time_tasks", SW+"::RecyclingBins::recycle")
p("Ids are only names",
  "Which ids the tasks have, and which record ids their instances get, makes no difference: renaming them one to one in an execution gives an execution with the same events, starts, ends, timeouts and notifications at the same ticks. The one exception is a task added after its due time, which add_task deliberately spreads by its id modulo 3600; such ids must keep their remainder.",
  "every one-to-one renaming of ids and record ids, every execution",
  "compares executions for 2^64 ids; a dependence on the id (a collision, an order, a truncation) shows only for particular pairs of ids",
  EH+"::EventHandle::add_task", EH+"::EventHandle::event_dispatch", EH+"::EventHandle::cancel_task", TC+"::Timer::maintain_task", TC+"::Timer::handle_task", SL+"::Slot::arrival_time_tasks", TH+"::TaskTrace::quit_one_task_handler", SW+"::RecycleUnit")
p("The date makes no difference",
  "What a timer does depends only on the differences of times: moving all clock readings, first due times and cron dates of an execution by the same number of seconds gives an execution in which everything happens the same way, so many seconds later. No date, such as the end of 32 bit seconds in 2038 or 2106, is special; only times of 2^64 seconds and more are out of range.",
  "every execution, every number of seconds such that the moved times still fit in 64 bits",
  "would need running the timer at other dates; a constant or a truncation to 32 bits somewhere in the arithmetic shows only decades from now",
  EH+"::EventHandle::add_task", TC+"::Timer::handle_task", TC+"::Timer::maintain_task", TK+"::Task::get_next_exec_timestamp", TK+"::Task::get_maximum_running_time", SW+"::RecyclingBins::recycle", TK+"::FrequencyInner::next_alarm_timestamp")
p("The age of a timer makes no difference",
  "A timer that has been running unused for any number of seconds goes on exactly as a newly created one: the same calls lead to the same events, starts, ends, timeouts and notifications, as many ticks after the call.",
  "every execution of a new timer, every idle time before it, every course of the clock during it",
  "the position of the second hand at the moment of a call ranges over 3600 slots, each of which would have to be tried with every delay",
  EH+"::EventHandle::add_task", EH+"::EventHandle::advance_task", EH+"::EventHandle::remove_task", TC+"::Timer::handle_task", TC+"::Timer::next_position", TC+"::Timer::async_schedule")
here = os.path.dirname(os.path.abspath(__file__))
with open(os.path.join(here, "..", "properties.jsonl"), "w") as f:
    for q in P: f.write(json.dumps(q, ensure_ascii=False) + "\n")
print(len(P))
