{
 "claims": [
  {
   "property": "C01",
   "status": "proved",
   "theorems": [
    "C01_rearming_is_exact",
    "C01_consecutive_runs",
    "C01_due_times"
   ],
   "note": "Every clock, every interleaving; due times at least an hour below 2^64."
  },
  {
   "property": "C02",
   "status": "partial",
   "theorems": [
    "C02_first_run_on_time_refuted",
    "C02_first_run_on_time_partial",
    "C02_first_run_any_delay"
   ],
   "note": "False of the code: an add whose slot lies behind the second hand comes one revolution (3600 ticks) late. Proved: on time or exactly one revolution late, with the exact condition."
  },
  {
   "property": "C03",
   "status": "proved",
   "theorems": [
    "C03_never_early",
    "C03_early_if_handler_stalls"
   ],
   "note": "With the property's own proviso that the handler does not stall, and a clock of one second per iteration (C75); the second theorem shows that the first proviso is needed, C76_never_early_refuted that the second one is."
  },
  {
   "property": "C04",
   "status": "proved",
   "theorems": [
    "C04_at_most_n_starts"
   ],
   "note": "Every execution, every build profile."
  },
  {
   "property": "C05",
   "status": "partial",
   "theorems": [
    "C05_never_lost_refuted",
    "C05_never_lost_partial",
    "C05_repeated_task_stays"
   ],
   "note": "False of the code: a task with a parallel limit that is due between its insertion into the wheel and the recording of its mark is dropped. Proved: that is the only way."
  },
  {
   "property": "C06",
   "status": "partial",
   "theorems": [
    "C06_zero_never_starts_refuted",
    "C06_zero_kills_scheduler",
    "C06_zero_repeats",
    "C06_zero_never_starts_partial"
   ],
   "note": "False of the code: 0 - 1 panics (overflow checks) or wraps."
  },
  {
   "property": "C41",
   "status": "partial",
   "theorems": [
    "C41_one_task_per_id_refuted",
    "C41_one_task_per_id_partial",
    "C41_one_task_per_id_and_slot"
   ],
   "note": "False of the code when an id is submitted twice. Proved for ids submitted once, and per slot."
  },
  {
   "property": "C42",
   "status": "proved",
   "theorems": [
    "C42_one_place"
   ],
   "note": "Every execution."
  },
  {
   "property": "C49",
   "status": "partial",
   "theorems": [
    "C49_threads_survive_refuted",
    "C49_maximum_running_time",
    "C49_interval",
    "C49_closure",
    "C49_threads_survive_partial",
    "C49_safe_parameters"
   ],
   "note": "False of the code in four ways, each with a witness. Proved: there is no other way."
  },
  {
   "property": "C38",
   "status": "partial",
   "theorems": [
    "C38_overdue_runs_at_once_refuted",
    "C38_overdue_runs_at_once_partial"
   ],
   "note": "False of the code: the delay is task id mod 3600 (+1). Proved: the exact delay."
  },
  {
   "property": "C39",
   "status": "proved",
   "theorems": [
    "C39_clock_jumps_lose_nothing"
   ],
   "note": "Any clock values."
  },
  {
   "property": "C43",
   "status": "partial",
   "theorems": [
    "C43_no_drift_refuted",
    "C43_no_drift_partial",
    "C43_next_run",
    "C43_first_run",
    "C43_late_every_two_seconds",
    "C43_recovers"
   ],
   "note": "False of the code for p = 1 once the task is 2 s late (then every 2 s for ever). Proved: exact next run for every lateness; no drift from a punctual run on."
  },
  {
   "property": "C12",
   "status": "proved",
   "theorems": [
    "C12_cancel_is_exact"
   ],
   "note": "Every reachable state, every pair of ids; effect on every field of the state."
  },
  {
   "property": "C13",
   "status": "proved",
   "theorems": [
    "C13_final_state_is_final",
    "C13_final_state_has_a_cause"
   ],
   "note": "Every execution."
  },
  {
   "property": "C14",
   "status": "proved",
   "theorems": [
    "C14_protocol"
   ],
   "note": "Every execution."
  },
  {
   "property": "C15",
   "status": "proved",
   "theorems": [
    "C15_quit_at_most_once",
    "C15_quit_by_first_event"
   ],
   "note": "Every execution."
  },
  {
   "property": "C16",
   "status": "partial",
   "theorems": [
    "C16_not_early_refuted",
    "C16_not_early_partial"
   ],
   "note": "False of builds without overflow checks: start + m can wrap. Proved: that is the only exception."
  },
  {
   "property": "C18",
   "status": "proved",
   "theorems": [
    "C18_late_events_harmless"
   ],
   "note": "The state after the event is the state before it minus the event."
  },
  {
   "property": "C28",
   "status": "proved",
   "theorems": [
    "C28_reported_event_was_handled",
    "C28_reported_event_had_effect"
   ],
   "note": "Every execution."
  },
  {
   "property": "C09",
   "status": "proved",
   "theorems": [
    "C09_skip",
    "C09_count_unchanged",
    "C09_only_at_limit"
   ],
   "note": "Every reachable state at the limit; no start, no instance, re-armed like a run, count unchanged."
  },
  {
   "property": "C11",
   "status": "proved",
   "theorems": [
    "C11_others_untouched",
    "C11_times_unchanged",
    "C11_unknown_id"
   ],
   "note": "Effect of each step of a removal on every field of the state."
  },
  {
   "property": "C19",
   "status": "proved",
   "theorems": [
    "C19_no_start_in_later_ticks",
    "C19_stopped_for_good",
    "C19_flag_is_seen",
    "C19_stop_changes_only_the_flag",
    "C19_the_rest_goes_on"
   ],
   "note": "Every execution."
  },
  {
   "property": "C32",
   "status": "proved",
   "theorems": [
    "C32_place",
    "C32_hand_moves_by_one",
    "C32_each_pass_ends_in_a_tick",
    "C32_never_stuck"
   ],
   "note": "Every execution."
  },
  {
   "property": "C40",
   "status": "partial",
   "theorems": [
    "C40_no_influence_refuted",
    "C40_no_influence_partial",
    "C40_waits_for_its_iteration",
    "C40_mark"
   ],
   "note": "False of the code: a panicking routine closure ends the scheduler and so stops every other task. Proved: that is the only influence."
  },
  {
   "property": "C20",
   "status": "partial",
   "theorems": [
    "C20_runs_in_next_tick_refuted",
    "C20_lost_on_last_slot",
    "C20_runs_in_next_tick_partial",
    "C20_taken_in_next_tick"
   ],
   "note": "False of the code: at second hand 3599 the advanced task is put into slot 3600, which does not exist, and is lost for ever. Proved for every other position, while the scheduler does not itself work on the task."
  },
  {
   "property": "C21",
   "status": "partial",
   "theorems": [
    "C21_removable_refuted",
    "C21_removable_partial",
    "C21_stays"
   ],
   "note": "False of the code: advance_task does not record the new slot, so a removal looks into the old one. Proved: removable exactly when the old slot is the new one."
  },
  {
   "property": "C22",
   "status": "partial",
   "theorems": [
    "C22_replaces_refuted",
    "C22_replaces_partial",
    "C22_others_untouched"
   ],
   "note": "False of the code when the scheduler holds the task at that moment: then the update inserts a second copy. Proved for a task that waits in the wheel while the update is handled."
  },
  {
   "property": "C23",
   "status": "partial",
   "theorems": [
    "C23_own_schedule_refuted",
    "C23_own_schedule_partial",
    "C23_then_own_due_times"
   ],
   "note": "False of the code: the updated task is first started when the hand next reaches the slot of the old one. Proved: that exact time, and that it follows its own due times from then on."
  },
  {
   "property": "C10",
   "status": "partial",
   "theorems": [
    "C10_never_again_refuted",
    "C10_never_again_partial",
    "C10_none_left_partial",
    "C10_place_recorded",
    "C10_limited_ends"
   ],
   "note": "False of the code when the scheduler holds the task while the removal is handled: the task is put back on the wheel afterwards and can no longer be removed. Proved for a task that waits in the slot of its mark; and a task with a parallel limit ends even in that race."
  },
  {
   "property": "C30",
   "status": "partial",
   "theorems": [
    "C30_first_in_first_out",
    "C30_add_then_remove_refuted",
    "C30_remove_then_add_refuted",
    "C30_add_then_remove_partial",
    "C30_remove_then_add_partial"
   ],
   "note": "Events are handled in the order of the calls (proved). False of the code: an add followed by a remove can leave the task, and a remove followed by an add can leave two. Proved when the scheduler does not hold the task while the two events are handled."
  },
  {
   "property": "C07",
   "status": "proved",
   "theorems": [
    "C07_limit_holds",
    "C07_counted_once"
   ],
   "note": "Every execution in which the id is submitted once."
  },
  {
   "property": "C08",
   "status": "partial",
   "theorems": [
    "C08_given_back_refuted",
    "C08_given_back_refuted2",
    "C08_given_back_partial",
    "C08_refused_only_at_limit",
    "C08_blocked_for_good"
   ],
   "note": "False of the code twice: an instance that ends before its start is counted, and a finish after the user dropped the chain, leave the count too high, and the task can be blocked for ever. Proved: these are the only ways."
  },
  {
   "property": "C44",
   "status": "partial",
   "theorems": [
    "C44_panic_ends_refuted",
    "C44_never_ends",
    "C44_blocks_task",
    "C44_timed_ends",
    "C44_timed_has_ended"
   ],
   "note": "False of the code for a task without a maximum running time: an instance whose future panicked (an async body, or a sync closure on smol; on tokio see C53) never ends unless the user cancels it, and such instances block the task at its parallel limit. Proved for tasks with a maximum running time."
  },
  {
   "property": "C45",
   "status": "partial",
   "theorems": [
    "C45_released_refuted",
    "C45_released_partial",
    "C45_handles_released",
    "C45_mark_stays",
    "C45_remove_releases",
    "C45_list_stays"
   ],
   "note": "False of the code: the mark stays until the task is removed by hand, and the (empty) list of its instances stays for ever. Proved: no copy of the task and no handle is kept."
  },
  {
   "property": "C31",
   "status": "proved",
   "theorems": [
    "C31_in_order",
    "C31_at_most_once",
    "C31_none_missed",
    "C31_next",
    "C31_expired",
    "C31_own_alone"
   ],
   "note": "Order and at-most-once for every execution; nothing left out when the id is added by one insertion and not removed (updates and advances allowed); only this task's own instances when the id is used by that insertion only. Without that, C31_own_refuted: an instance of an earlier task of the same id can come out of the new task's chain."
  },
  {
   "property": "C37",
   "status": "partial",
   "theorems": [
    "C37_returns_refuted",
    "C37_returns_refuted2",
    "C37_stuck",
    "C37_returns_partial"
   ],
   "note": "False of the code twice: the instance can be cancelled between the sending of the event and the start of listening, and after a removal nobody wakes the caller; C37_stuck: such a call never returns. Proved when the caller listens before the instance ends, the id is added by that insertion only and not removed (updates and advances allowed) and the user keeps the chain."
  },
  {
   "property": "C34",
   "status": "proved",
   "theorems": [
    "C34_pipeline",
    "C34_attempts",
    "C34_behind_redirection"
   ],
   "note": "C34_behind_redirection: commands written behind a redirection are never started. Every pipeline of words without whitespace and '>' (a word may contain '|', but not be '|'), with and without redirection, both variants of the redirection parser; C34_attempts: also when the operating system refuses something."
  },
  {
   "property": "C35",
   "status": "partial",
   "theorems": [
    "C35_append",
    "C35_replace_refuted",
    "C35_overwrite",
    "C35_replace_partial"
   ],
   "note": "'>>' proved. '>' is false of the code: the file is not truncated, so the rest of a longer old content stays; C35_overwrite says what is left."
  },
  {
   "property": "C36",
   "status": "proved",
   "theorems": [
    "C36_failed",
    "C36_done",
    "C36_no_later",
    "C36_written"
   ],
   "note": "Every input text and every behaviour of the operating system, dropping of the future included."
  },
  {
   "property": "C50",
   "status": "partial",
   "theorems": [
    "C50_same_refuted",
    "C50_same_partial"
   ],
   "note": "False for a command that ends with its bracket ('a >'); proved for all others."
  },
  {
   "property": "C51",
   "status": "partial",
   "theorems": [
    "C51_none_left_refuted",
    "C51_cancelled",
    "C51_none_left_partial"
   ],
   "note": "False of the code: after a cancellation the last process of the line runs on, and exactly that one. None is left when the last process exits or when the start of the line fails."
  },
  {
   "property": "C46",
   "status": "proved",
   "theorems": [
    "C46_none_lost_or_doubled",
    "C46_round",
    "C46_one_event",
    "C46_same_round"
   ],
   "note": "C46_same_round: the round of the timed model of C17 is a round of the system. Every execution of the whole system, with the other threads working during the round; ties in any order."
  },
  {
   "property": "C17",
   "status": "partial",
   "theorems": [
    "C17_prompt_refuted",
    "C17_delay",
    "C17_prompt_partial",
    "C17_not_early"
   ],
   "note": "False of the code for every bound K: the sweeper sleeps until the earliest deadline it knows, so a unit with an earlier deadline that arrives meanwhile waits that long. C17_delay gives the exact bound for every execution, C17_prompt_partial the promptness when no unit arrives before an earlier deadline. Timed model of the sweeper in Sweeper.v."
  },
  {
   "property": "C24",
   "status": "proved",
   "theorems": [
    "C24_due_times",
    "C24_zero",
    "C24_checked"
   ],
   "note": "All twelve setters, both build profiles."
  },
  {
   "property": "C25",
   "status": "partial",
   "theorems": [
    "C25_full_refuted",
    "C25_partial"
   ],
   "note": "False of the code: a time stamp equal to the current second gives the interval zero and an error. C25_partial says what happens in every case, also when the task is built in a later second than the setter was called."
  },
  {
   "property": "C26",
   "status": "proved",
   "theorems": [
    "C26_invisible",
    "C26_starts_now",
    "C26_dates",
    "C26_bounded",
    "C26_rejected",
    "C26_parsed",
    "C26_trim"
   ],
   "note": "The cron_clock crate (parsing and date computation) is an arbitrary function; the lru crate is modelled."
  },
  {
   "property": "C27",
   "status": "partial",
   "theorems": [
    "C27_full_refuted",
    "C27_free_partial",
    "C27_without_candy"
   ],
   "note": "False of the code: free twice, free of two copies, or another expression after a candy one free a string twice or free the user's string (C27_programs). C27_free_partial: programs that follow the rules in the comment of free."
  },
  {
   "property": "C29",
   "status": "proved",
   "theorems": [
    "C29_sorted_lists",
    "C29_nightly_sound",
    "C29_same_effect"
   ],
   "note": "For the lists of every reachable state of the system whose record ids were handed out in increasing order."
  },
  {
   "property": "C33",
   "status": "proved",
   "theorems": [
    "C33_no_deadlock",
    "C33_waiting_ends",
    "C33_exclusion",
    "C33_mark_is_given_back"
   ],
   "note": "Two threads, any operations, any interleaving, any assignment of keys to shards: never both wait, no thread waits for itself, and a waiting thread is let in after at most eight steps of the other one. Starvation by an unfair lock is not covered. C33_mark_is_given_back is the counterpart in the main model."
  },
  {
   "property": "C47",
   "status": "partial",
   "theorems": [
    "C47_full_refuted",
    "C47_conserved_partial",
    "C47_alone_partial"
   ],
   "note": "False: all DelayTimers of a process share one global channel, so a reporter shows, and takes away, the events of another timer. Proved: over all reporters together nothing is lost, invented or reordered, and with one reporting timer the property holds."
  },
  {
   "property": "C48",
   "status": "proved",
   "theorems": [
    "C48_build",
    "C48_clones"
   ],
   "note": "For any sequence of setters. Runtimes and channels are modelled by their identity only."
  },
  {
   "property": "C52",
   "status": "partial",
   "theorems": [
    "C52_silent_refuted",
    "C52_silent_partial",
    "C52_smol_not_started",
    "C52_only_by_quit"
   ],
   "note": "False for sync tasks: a closure on a blocking thread runs on, and on tokio it can even be started after the instance was cancelled. Proved for async tasks. C52_only_by_quit: an instance is dropped only after, and at most once for, a quit."
  },
  {
   "property": "C53",
   "status": "partial",
   "theorems": [
    "C53_means_returned_refuted",
    "C53_means_returned_partial",
    "C53_finish_once",
    "C53_reported",
    "C53_panic_not_reported",
    "C53_after_gate",
    "C53_in_system"
   ],
   "note": "False for sync tasks on tokio: a panicked closure is reported as finished. Proved otherwise; at most once, never after a cancellation, and sent when the body returned, in every case. C53_in_system: the instances of the main model do the same."
  },
  {
   "property": "C54",
   "status": "proved",
   "theorems": [
    "C54_every_event_is_handled",
    "C54_calm_handled"
   ],
   "note": "Infinite executions (Live.v) in which the handler is weakly fair. That the handler's own waiting for shard locks ends is C33; in this model it never waits"
  },
  {
   "property": "C55",
   "status": "proved",
   "theorems": [
    "C55_keeps_ticking",
    "C55_stop_stops",
    "C55_calm_ticks_forever",
    "C55_weak_fairness_is_enough_refuted"
   ],
   "note": "Handler weakly fair, scheduler strongly fair. With a weakly fair scheduler only, the statement is false: a user who keeps calling advance_task can starve the scheduler at the mark of the task"
  },
  {
   "property": "C56",
   "status": "proved",
   "theorems": [
    "C56_runs_again",
    "C56_interval_task_starts_again",
    "C56_calm_starts_again",
    "C56_starts_for_ever",
    "C56_calm_starts_for_ever",
    "C56_fair_executions_exist"
   ],
   "note": "A run is a start or a skip by the parallel limit. For repeated interval tasks without limit, C56_starts_for_ever has no exception for due times near 2^64. Every finite execution can be continued to a fair one"
  },
  {
   "property": "C57",
   "status": "proved",
   "theorems": [
    "C57_timed_instance_ends",
    "C57_ends_or_wraps",
    "C57_calm_ends",
    "C57_every_unit_is_swept"
   ],
   "note": "Handler and sweeper weakly fair, scheduler strongly fair, the receiver is let in, the clock readings grow beyond every bound. In builds without overflow checks: unless a deadline wraps around (C16). Exception: the scheduler died before it sent the handle, or the event handler died"
  },
  {
   "property": "C58",
   "status": "partial",
   "theorems": [
    "C58_all_told_refuted",
    "C58_all_told_partial",
    "C58_never_told",
    "C58_recorded",
    "C58_started_later",
    "C58_told_once",
    "C58_not_before"
   ],
   "note": "False of the code: an instance whose handle is in the event channel when the event handler panics is never told to quit. Proved: these are the only ones left out; recorded instances are told at the panic, later ones right after their start, each once."
  },
  {
   "property": "C59",
   "status": "partial",
   "theorems": [
    "C59_all_ends_refuted",
    "C59_handler_never_returns",
    "C59_never_closes",
    "C59_nothing_ends",
    "C59_sweeper_stays",
    "C59_all_ends_partial",
    "C59_receiver_ends",
    "C59_calls_succeed",
    "C59_drop_does_not_stop"
   ],
   "note": "False of the code: the RecyclingBins, owned by the event handler and by the sweeper, hold a sender of the channel the event handler waits on, so it never returns. Proved: that, that on smol the sweeper never ends, that on tokio everything ends if the event handler panicked, and that calls fail exactly after such a panic."
  },
  {
   "property": "C60",
   "status": "partial",
   "theorems": [
    "C60_nothing_hidden",
    "C60_end_shown",
    "C60_ended_for_good",
    "C60_knows_refuted",
    "C60_knows_refuted2",
    "C60_knows_refuted3",
    "C60_knows_partial"
   ],
   "note": "False of the code: cancelled instances, those that finish after the user dropped their chain and those that run out of time after their task was removed are shown as running for ever. Proved: no running instance is hidden, exactly which ends are shown, that what is not shown then never is, and the full claim for tasks added once and not removed (updates and advances allowed) whose instances are not cancelled and whose chain is kept."
  },
  {
   "property": "C61",
   "status": "partial",
   "theorems": [
    "C61_ok",
    "C61_refused",
    "C61_answers_once",
    "C61_final_means_ended",
    "C61_cancels",
    "C61_refused_for_good",
    "C61_running_refuted",
    "C61_running_for_ever",
    "C61_running_partial",
    "C61_time_out_refuted",
    "C61_time_out_refuted2",
    "C61_time_out_partial"
   ],
   "note": "Ok, DisCancel, the effect of an accepted call, that a call answers once and that no call is accepted after the end: proved. False of the code: get_state gives RUNNING for ever for an instance that ended after its task was removed, and DisCancelTimeOut is answered for an instance that ended between the sending of the event and the start of listening, or after its task was removed. Both proved for tasks that are inserted once and not removed (updates and advances allowed), while the chain is held and the caller listened in time."
  },
  {
   "property": "C62",
   "status": "proved",
   "theorems": [
    "C62_no_end_is_lost",
    "C62_event_ends",
    "C62_returned_ends",
    "C62_cancelled_ends",
    "C62_caller_returns",
    "C62_calm_returned_ends",
    "C62_calm_cancelled_ends",
    "C62_calm_caller_returns"
   ],
   "note": "For fair infinite executions. Exceptions in general: a thread of the timer has died; none in calm executions (no overflow checks, no panicking closure, no stop). The caller is awake only if it listened before the end, the task is inserted once and not removed and the chain is held: C37 shows that this is needed."
  },
  {
   "property": "C63",
   "status": "partial",
   "theorems": [
    "C63_abandoned_is_final",
    "C63_expired_is_final",
    "C63_closed_is_final",
    "C63_no_data",
    "C63_gets_the_instance",
    "C63_told_of_the_removal",
    "C63_waits_for_ever",
    "C63_used_up_waits_for_ever",
    "C63_waiting_returns_refuted",
    "C63_expired_has_delivered_all_refuted",
    "C63_calm_gets_the_instance",
    "C63_calm_told_of_the_removal"
   ],
   "note": "Finality and NoData are proved; a waiting call returns when an instance was started and not yet delivered, and when the task is removed. False: Expired leaves instances that were handed over but not yet taken unreachable, and a call waiting on a task that has used up its countdown waits for ever (its mark and so its chain stay, C45): C63_waits_for_ever says exactly when."
  },
  {
   "property": "C64",
   "status": "proved",
   "theorems": [
    "C64_gets_every_instance",
    "C64_calm_gets_every_instance",
    "C64_without_end",
    "C64_asking_users_exist"
   ],
   "note": "Chain on which calls wait again and again is alive; everything started is sent, handled and delivered. C64_asking_users_exist builds such executions."
  },
  {
   "property": "C65",
   "status": "partial",
   "theorems": [
    "C65_removed_ends_refuted",
    "C65_exactly",
    "C65_found_is_final",
    "C65_no_call_ends_it",
    "C65_removal_orphans"
   ],
   "note": "False of the code: a task that the scheduler has in its hands (or that sits in another slot) when its removal is handled is started for ever, whatever is called. Proved: finitely often if and only if neither the wheel nor the scheduler has it any more when its mark is gone; never again if the removal finds it in the slot it looks into."
  },
  {
   "property": "C66",
   "status": "proved",
   "theorems": [
    "C66_demands_one_list",
    "C66_over_exactly",
    "C66_every_date",
    "C66_exactly",
    "C66_calm_countdown",
    "C66_calm_interval",
    "C66_calm_gets_them"
   ],
   "note": "Fair infinite executions, both build profiles for C66_exactly; C66_every_date is the count for tasks with a parallel limit (starts and starts left out together); countdown 0 is C06, removals and reuse of the id are C10, C22, C41 and C65."
  },
  {
   "property": "C67",
   "status": "partial",
   "theorems": [
    "C67_limited_goes_on_refuted",
    "C67_goes_on",
    "C67_exactly",
    "C67_tidy_goes_on",
    "C67_timed",
    "C67_finishing_users_exist"
   ],
   "note": "False of the code: after an end that is handled before the start is counted (or after the chain was dropped) the place is never given back, and with a limit of 1 no start ever comes again though no instance runs. Proved: started as often as one likes if and only if the task is not discarded for want of its mark and no start is left out while none of its instances runs; never the latter if no place was forgotten. C67_timed: the same for tasks with a maximum running time, unless a deadline passes 2^64."
  },
  {
   "property": "C68",
   "status": "partial",
   "theorems": [
    "C68_never_lost_refuted",
    "C68_never_lost_partial",
    "C68_last_slot_loses",
    "C68_every_date",
    "C68_over_exactly",
    "C68_exactly",
    "C68_calm_interval",
    "C68_calm_starts_for_ever"
   ],
   "note": "False of the code: an advance that reads the second hand on the last slot (3599) puts the task nowhere (C68_never_lost_refuted); every such reading loses the task, with one planned date unserved and no start ever after (C68_last_slot_loses). Proved: that is the only way, a task that is only advanced is otherwise always held until it is over (C68_never_lost_partial); a task that comes to its end has had a start on each of its dates, or one left out because of its parallel limit, however often and whenever it was advanced (C68_every_date, C68_over_exactly); and if it is advanced finitely often and never on the last slot it comes to that in every fair execution: exactly n starts for a countdown of n, any number for a task that repeats without end. Not claimed: that a task which is advanced infinitely often is started."
  },
  {
   "property": "C69",
   "status": "partial",
   "theorems": [
    "C69_as_often_refuted",
    "C69_as_often_partial",
    "C69_once_more",
    "C69_every_date",
    "C69_exactly",
    "C69_calm_interval",
    "C69_calm_starts_for_ever"
   ],
   "note": "False of the code: the update takes the old task's next time for a first start and consumes no date of the new schedule, so a schedule that runs out gets one start more than it has dates (C69_as_often_refuted). Proved exactly: as often as the countdown says if that ends the task (C69_as_often_partial; an interval task exactly n times, C69_calm_interval), otherwise exactly once more than there are dates (C69_once_more); repeated intervals for ever; also when no old task was left in the slot."
  },
  {
   "property": "C70",
   "status": "partial",
   "theorems": [
    "C70_not_lost_refuted",
    "C70_not_lost_partial",
    "C70_lost_exactly",
    "C70_hourly"
   ],
   "note": "False of the code: an hourly task that the scheduler holds while the update is handled is put back into the same slot and overwrites the new one (C70_not_lost_refuted). Proved: never lost if all the scheduler has under the id waits in the slot used (C70_not_lost_partial); a waiting task is lost exactly in the step that puts another one with its id into its slot (C70_lost_exactly), which for a task taken under the second hand means a distance that is a multiple of an hour (C70_hourly)."
  },
  {
   "property": "C71",
   "status": "partial",
   "theorems": [
    "C71_only_running_refuted",
    "C71_only_running_partial",
    "C71_after_round",
    "C71_recent"
   ],
   "note": "False of the code (sweeper.rs 139-141 has a FIXME about it): ending an instance does not touch its unit, which stays until its deadline. Proved exactly: the sweeper forgets a unit when a round reads a clock that has reached its deadline and for no other reason, so after a full round it holds the registered units that are not due, each of an instance started less than its maximum running time ago, ended or not."
  },
  {
   "property": "C72",
   "status": "partial",
   "theorems": [
    "C72_every_date",
    "C72_over_exactly",
    "C72_exactly",
    "C72_calm_interval",
    "C72_calm_starts_for_ever",
    "C72_limit_refuted",
    "C72_limit_partial",
    "C72_limit_shared"
   ],
   "note": "Starts: proved in full. A task added under a used id of which the scheduler holds nothing any more, and left alone then, is started exactly as often as its schedule and countdown say (for every moment of an execution, and for fair infinite executions). Limit: false of the code, because an instance of the removed task that ends takes one off the count of the new task (finish_task and cancel_task look the mark up by id only): C72_limit_refuted. Proved: all instances with the id together are at most the new limit plus the old instances still running when the new task was added (C72_limit_shared), so the limit holds if none ran (C72_limit_partial)."
  },
  {
   "property": "C73",
   "status": "partial",
   "theorems": [
    "C73_limit_refuted",
    "C73_limit_partial",
    "C73_one_more_each"
   ],
   "note": "False of the code: the start that uses up a countdown (or after which there is no further date) is not counted in the mark, which stays; a task then put in place by update_task is started although the last instance still runs. Proved: in every execution with one add and any updates, advances and removals, at most the limit plus the number of tasks with this id that came to their end run at a time (C73_one_more_each); so the limit holds as long as none has ended (C73_limit_partial). C07 is the case without updates, where it always holds."
  },
  {
   "property": "C74",
   "status": "proved",
   "theorems": [
    "C74_settings",
    "C74_interval",
    "C74_stamp",
    "C74_default",
    "C74_cron",
    "C74_panics"
   ],
   "note": "For every sequence of setter calls (induction over the calls), every cron crate, cache history and profile: id and limits are the last ones set; due times and count are those of the last frequency setter (interval, time stamp, cron expression in the last time zone, or once in a minute); a call panics exactly if an interval overflows 64 bits with overflow checks on."
  },
  {
   "property": "C75",
   "status": "partial",
   "theorems": [
    "C75_once_a_second_refuted",
    "C75_never_early",
    "C75_once_a_second_partial",
    "C75_lateness",
    "C75_catches_up",
    "C75_is_caught_up",
    "C75_no_tick_lost",
    "C75_steady"
   ],
   "note": "False on tokio, the default runtime: its first tick is ready at once, so all iterations but the first come one second ahead. Proved for both runtimes with that second: never early, late by at most the wake-up latency if every iteration is done in time, missed ticks are made up, none is left out; the clock readings are then steady, as C03 and C43 assume."
  },
  {
   "property": "C76",
   "status": "partial",
   "theorems": [
    "C76_never_early_refuted",
    "C76_exact",
    "C76_never_early_partial",
    "C76_first_run"
   ],
   "note": "False of the code: after a stall tasks are started early. Proved: exactly by what the clock made up since the last run, less one second."
  },
  {
   "property": "C77",
   "status": "proved",
   "theorems": [
    "C77_as_if_alone",
    "C77_few_timeouts",
    "C77_transfer",
    "C77_proviso_needed"
   ],
   "note": "The property's proviso is needed (C77_proviso_needed): the 200 timeouts a round may hand out are shared by all tasks. A panic of another task's routine on the scheduler or of its schedule on the event handler is covered: it leaves the part without further steps."
  },
  {
   "property": "C78",
   "status": "proved",
   "theorems": [
    "C78_only_names",
    "C78_any_ids",
    "C78_transfer",
    "C78_proviso_needed"
   ],
   "note": "C78_proviso_needed: with an overdue task the renamed log is impossible."
  },
  {
   "property": "C79",
   "status": "proved",
   "theorems": [
    "C79_any_date",
    "C79_release",
    "C79_no_special_date",
    "C79_transfer",
    "C79_range_needed"
   ],
   "note": "C79_range_needed: a due time moved beyond 2^64 does not exist. In the debug profile (overflow checks) the executions are those in which neither thread died."
  },
  {
   "property": "C80",
   "status": "partial",
   "theorems": [
    "C80_age_partial",
    "C80_exactly",
    "C80_whole_turns",
    "C80_within",
    "C80_age_refuted"
   ],
   "note": "False in full: a task due in 3598 s is started on time by a new timer and an hour late by one that is a tick old (C80_age_refuted; the cause is that of C02). Proved for executions in which the way from the hand to the slot of each added task leads past slot 0 as often and advance_task does not meet the last slot, where it loses tasks (C20), in either timer; in particular without exception for ages of whole revolutions (C80_whole_turns), and for delays within the revolution (C80_within). C80_exactly: under these provisos the older timer can do the same steps and no others. Due times in the last hour of the 64 bit clock are left out, and in the debug profile executions in which a thread died."
  }
 ]
}
