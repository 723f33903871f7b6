(** State of one DelayTimer: shared memory, channels, threads, and the ghost log. *)
From Verif Require Import Base.
From Verif Require Export Task.

(** /repo/src/timer/runtime_trace/state.rs:2-14. *)
Definition RUNNING : N := 2.
Definition COMPLETED : N := 4.
Definition CANCELLED : N := 8.
Definition TIMEOUT : N := 16.
(** /repo/src/timer/runtime_trace/state.rs:16-26. *)
Definition LIVING : N := 2.
Definition DROPPED : N := 4.
Definition ABANDONED : N := 8.

(** [TaskMark] (/repo/src/timer/task.rs:20-30).  The chain maintainer
    (/repo/src/timer/runtime_trace/task_instance.rs:78-82) is the id of its
    chain, which stands for the shared [inner_state] and the channel, and the
    record ids of its [inner_list]. *)
Record mark := Mark {
  m_id : N;
  m_slot : N;
  m_num : N;
  m_chain : option (N * list Z)
}.

(** The shared part of a TaskInstancesChain / TaskInstancesChainMaintainer pair
    (task_instance.rs:69-82): [c_state] is inner_state, [c_buf] the content of
    the instance channel.  Ghost: [c_got], the instances taken out so far;
    [c_pend], the number of calls of next* between their state check and recv. *)
Record chain := Chain {
  c_state : N;
  c_buf : list Z;
  c_got : list Z;
  c_pend : nat
}.

(** [InstanceHeader] (task_instance.rs:31-36), the state shared by all clones
    of one instance, with the fields task_id of Instance (14-21).  Ghost:
    [h_chain], the chain it was pushed to. *)
Record hdr := Hdr { h_state : N; h_tid : N; h_chain : N }.

(** A call of TaskInstance::cancel_with_wait (task_instance.rs:147-152):
    [WSent] after [self.cancel()] succeeded, [WListen] after [event.listen()]
    registered the listener, [WWoken] after a notify reached the listener,
    [WRet st] after it returned [Ok st]. *)
Inductive wphase := WSent | WListen | WWoken | WRet (st : N).
Record waiter := Waiter { w_rec : Z; w_phase : wphase }.

(** [DelayTaskHandlerBox] (/repo/src/timer/runtime_trace/task_handle.rs:149-161).
    The handler itself stands for the running instance [hb_rec]; it is present
    as long as the box is stored (quit takes it out and drops the box). *)
Record hbox := HBox { hb_tid : N; hb_rec : Z; hb_start : N; hb_end : option N }.

(** [RecycleUnit] (/repo/src/timer/runtime_trace/sweeper.rs:16-25). *)
Record runit := RUnit { u_deadline : N; u_tid : N; u_rec : Z }.

(** [FinishOutput] (/repo/src/timer/timer_core.rs:114-119), content opaque. *)
Definition output := N.

(** [TimerEvent] (/repo/src/timer/timer_core.rs:124-146). *)
Inductive event :=
| EStop
| EAdd (t : task)
| EInsert (t : task)          (* with the maintainer of chain [t_uid t] *)
| EUpdate (t : task)
| ERemove (tid : N)
| ECancel (tid : N) (rec : Z)
| ETimeout (tid : N) (rec : Z)
| EFinish (tid : N) (rec : Z) (time : N) (out : option output)
| EAppend (tid : N) (hb : hbox)
| EAdvance (tid : N).

(** [PublicEvent] (/repo/src/utils/status_report.rs:117-126). *)
Inductive pubev :=
| PRemove (tid : N)
| PRunning (tid : N) (rec : Z)
| PFinish (tid : N) (rec : Z) (time : N) (out : option output)
| PTimeout (tid : N) (rec : Z).

(** Local variables of async_schedule that live across its steps
    (timer_core.rs:196-198): current_timestamp, second_hand, next_second_hand. *)
Record loop := Loop { l_ts : N; l_hand : N; l_next : N }.

(** Program counter of the scheduler thread (timer_core.rs:193-414).  Each state
    is named after the shared access that comes next. *)
Inductive timer_pc :=
| TCheck (l : loop)                                 (* load shared_motivation, 202 *)
| TStore (l : loop)                                 (* store global_time, 206 *)
| TScan (l : loop)                                  (* arrival_time_tasks, 218 *)
| TLoop (l : loop) (ids : list N)                   (* remove_task in the for, 235 *)
| TMaint (l : loop) (ids : list N) (t : task)       (* maintain_task, 290 *)
| TSpawn (l : loop) (ids : list N) (t : task) (rec : Z)            (* routine_exec, 336 *)
| TSend (l : loop) (ids : list N) (t : task) (rec : Z) (e : option N)  (* AppendTaskHandle, 346 *)
| TGate (l : loop) (ids : list N) (t : task) (rec : Z)             (* s.try_send, 348 *)
| TPark (l : loop) (ids : list N) (t : task) (upd : bool)          (* handle_task, 361 *)
| TMark (l : loop) (ids : list N) (tid sl : N) (upd : bool)        (* task_flag_map, 397 *)
| TLapse (l : loop)                                 (* lapse, 263 *)
| TStopped                                          (* async_schedule returned *)
| TDead.                                            (* the thread panicked *)

(** Program counter of the event handler thread
    (/repo/src/timer/event_handle.rs:166-400), between its shared accesses. *)
Inductive handler_pc :=
| HIdle                                             (* recv, 170/194 *)
| HAdd1 (t : task) (c : option N) (h k : N)         (* add_task: second hand read, 276
                                                       (ghost k: in iteration k) *)
| HAdd2 (t : task) (c : option N) (sl : N)          (* slot computed, insert next, 297 *)
| HAdd3 (tid : N) (c : option N) (sl : N)           (* record_task_mark next, 315 *)
| HUpd (t : task) (sl : N)                          (* update_task: mark read, 325 *)
| HAdv1 (tid sl : N)                                (* advance_task: mark read, 347 *)
| HAdv2 (t : task)                                  (* task taken out, 361 *)
| HAdv3 (t : task) (sl : N)                         (* second hand read, 363 *)
| HRem1 (tid sl : N)                                (* remove_task: mark read, 389 *)
| HRem2 (tid : N) (ok : bool)                       (* task_flag_map.remove next, 234 *)
| HDead.                                            (* the thread panicked *)

(** One running instance: the future spawned by Routine::spawn_by_*
    (task.rs:573-678).  [i_gate]: the one-shot channel could_send_finish_event
    was signalled (or closed); [i_done]: it ran to its end, or panicked. *)
Inductive ifate := IRunning | IEnded | IPanicked.
Record inst := Inst { i_tid : N; i_uid : N; i_gate : bool; i_fate : ifate }.

(** Sweeper (sweeper.rs:91-132): between rounds, or in a round that read [now]
    and may still pop [k] units. *)
Inductive sweeper_pc := SSleep | SRound (now : N) (k : N).

(** Errors of TaskInstancesChain::next* (task_instance.rs:208-259). *)
Inductive next_res := NGot (rec : Z) | NEmpty | NClosed | NExpired.

(** Why a task was discarded with an error: a task with a parallel limit has no
    mark (timer_core.rs:308-314), or its schedule has no further date
    (timer_core.rs:371-373, event_handle.rs:278-280). *)
Inductive why := NoMark | NoDate.

(** Ghost log: what happened, newest first.
    [it] is the number of the scheduler iteration (the number of calls of
    next_position so far), [ts] its current_timestamp. *)
Inductive obs :=
| OLaunch (uid tid : N) (rec : Z) (it ts : N)       (* routine_exec called *)
| OSkip (uid tid : N) (it ts : N)                   (* not run because of the parallel limit *)
| OQuit (tid : N) (rec : Z)                         (* DelayTaskHandler::quit called *)
| ONotify (rec : Z) (st : N)                        (* Instance::notify_cancel_finish *)
| OPublic (p : pubev)                               (* sent to the status reporter *)
| OPop (e : event)                                  (* the handler took an event *)
| OSweep (tid : N) (rec : Z) (deadline now : N)     (* sweeper sends TimeoutTask *)
| OTick (it ts : N)                                 (* lapse done: iteration [it] begins *)
| ONext (c : N) (r : next_res)                      (* a next* call returned *)
| OSend (e : event)                                 (* an event was put into the channel *)
| OPlan (uid tid : N) (k g : N) (due : N)           (* add_task computed the slot, from the second
                                                       hand of iteration k, global time g, due time *)
| OAdded (uid tid : N) (n sl cyl : N)               (* add_task put the task on the wheel; the next
                                                       scan to come is that of iteration n *)
| OPark (uid tid : N) (it ts : N) (due : N)         (* handle_task put the task on the wheel *)
| OEnd (uid tid : N)                                (* task discarded: countdown used up *)
| ODrop (uid tid : N) (w : why).                    (* task discarded with an error *)

Record sys := Sys {
  wheel : wheel_t;             (* SharedHeader.wheel_queue *)
  flags : gmap N mark;         (* SharedHeader.task_flag_map *)
  hand : N;                    (* SharedHeader.second_hand *)
  gtime : N;                   (* SharedHeader.global_time *)
  motiv : bool;                (* SharedHeader.shared_motivation *)
  tpc : timer_pc;
  hpc : handler_pc;
  hpub : option pubev;         (* public_event_result of the event in hand *)
  queue : list event;          (* timer_event channel, FIFO *)
  trace : gmap N (list hbox);  (* EventHandle.task_trace *)
  recq : list runit;           (* channel to the sweeper *)
  heap : list runit;           (* RecyclingBins.recycle_unit_heap, as a multiset *)
  spc : sweeper_pc;
  insts : gmap Z inst;         (* spawned instances, by record id *)
  hdrs : gmap Z hdr;           (* instance headers, by record id *)
  chains : gmap N chain;
  waiters : gmap N waiter;
  used : gset N;               (* ghost: Task values submitted so far *)
  iters : N;                   (* ghost: iterations completed by the scheduler *)
  log : list obs
}.

(** Field setters (no code counterpart). *)
Definition set_wheel x s := Sys x (flags s) (hand s) (gtime s) (motiv s) (tpc s) (hpc s) (hpub s) (queue s) (trace s) (recq s) (heap s) (spc s) (insts s) (hdrs s) (chains s) (waiters s) (used s) (iters s) (log s).
Definition set_flags x s := Sys (wheel s) x (hand s) (gtime s) (motiv s) (tpc s) (hpc s) (hpub s) (queue s) (trace s) (recq s) (heap s) (spc s) (insts s) (hdrs s) (chains s) (waiters s) (used s) (iters s) (log s).
Definition set_hand x s := Sys (wheel s) (flags s) x (gtime s) (motiv s) (tpc s) (hpc s) (hpub s) (queue s) (trace s) (recq s) (heap s) (spc s) (insts s) (hdrs s) (chains s) (waiters s) (used s) (iters s) (log s).
Definition set_gtime x s := Sys (wheel s) (flags s) (hand s) x (motiv s) (tpc s) (hpc s) (hpub s) (queue s) (trace s) (recq s) (heap s) (spc s) (insts s) (hdrs s) (chains s) (waiters s) (used s) (iters s) (log s).
Definition set_motiv x s := Sys (wheel s) (flags s) (hand s) (gtime s) x (tpc s) (hpc s) (hpub s) (queue s) (trace s) (recq s) (heap s) (spc s) (insts s) (hdrs s) (chains s) (waiters s) (used s) (iters s) (log s).
Definition set_tpc x s := Sys (wheel s) (flags s) (hand s) (gtime s) (motiv s) x (hpc s) (hpub s) (queue s) (trace s) (recq s) (heap s) (spc s) (insts s) (hdrs s) (chains s) (waiters s) (used s) (iters s) (log s).
Definition set_hpc x s := Sys (wheel s) (flags s) (hand s) (gtime s) (motiv s) (tpc s) x (hpub s) (queue s) (trace s) (recq s) (heap s) (spc s) (insts s) (hdrs s) (chains s) (waiters s) (used s) (iters s) (log s).
Definition set_hpub x s := Sys (wheel s) (flags s) (hand s) (gtime s) (motiv s) (tpc s) (hpc s) x (queue s) (trace s) (recq s) (heap s) (spc s) (insts s) (hdrs s) (chains s) (waiters s) (used s) (iters s) (log s).
Definition set_queue x s := Sys (wheel s) (flags s) (hand s) (gtime s) (motiv s) (tpc s) (hpc s) (hpub s) x (trace s) (recq s) (heap s) (spc s) (insts s) (hdrs s) (chains s) (waiters s) (used s) (iters s) (log s).
Definition set_trace x s := Sys (wheel s) (flags s) (hand s) (gtime s) (motiv s) (tpc s) (hpc s) (hpub s) (queue s) x (recq s) (heap s) (spc s) (insts s) (hdrs s) (chains s) (waiters s) (used s) (iters s) (log s).
Definition set_recq x s := Sys (wheel s) (flags s) (hand s) (gtime s) (motiv s) (tpc s) (hpc s) (hpub s) (queue s) (trace s) x (heap s) (spc s) (insts s) (hdrs s) (chains s) (waiters s) (used s) (iters s) (log s).
Definition set_heap x s := Sys (wheel s) (flags s) (hand s) (gtime s) (motiv s) (tpc s) (hpc s) (hpub s) (queue s) (trace s) (recq s) x (spc s) (insts s) (hdrs s) (chains s) (waiters s) (used s) (iters s) (log s).
Definition set_spc x s := Sys (wheel s) (flags s) (hand s) (gtime s) (motiv s) (tpc s) (hpc s) (hpub s) (queue s) (trace s) (recq s) (heap s) x (insts s) (hdrs s) (chains s) (waiters s) (used s) (iters s) (log s).
Definition set_insts x s := Sys (wheel s) (flags s) (hand s) (gtime s) (motiv s) (tpc s) (hpc s) (hpub s) (queue s) (trace s) (recq s) (heap s) (spc s) x (hdrs s) (chains s) (waiters s) (used s) (iters s) (log s).
Definition set_hdrs x s := Sys (wheel s) (flags s) (hand s) (gtime s) (motiv s) (tpc s) (hpc s) (hpub s) (queue s) (trace s) (recq s) (heap s) (spc s) (insts s) x (chains s) (waiters s) (used s) (iters s) (log s).
Definition set_chains x s := Sys (wheel s) (flags s) (hand s) (gtime s) (motiv s) (tpc s) (hpc s) (hpub s) (queue s) (trace s) (recq s) (heap s) (spc s) (insts s) (hdrs s) x (waiters s) (used s) (iters s) (log s).
Definition set_waiters x s := Sys (wheel s) (flags s) (hand s) (gtime s) (motiv s) (tpc s) (hpc s) (hpub s) (queue s) (trace s) (recq s) (heap s) (spc s) (insts s) (hdrs s) (chains s) x (used s) (iters s) (log s).
Definition set_used x s := Sys (wheel s) (flags s) (hand s) (gtime s) (motiv s) (tpc s) (hpc s) (hpub s) (queue s) (trace s) (recq s) (heap s) (spc s) (insts s) (hdrs s) (chains s) (waiters s) x (iters s) (log s).
Definition set_iters x s := Sys (wheel s) (flags s) (hand s) (gtime s) (motiv s) (tpc s) (hpc s) (hpub s) (queue s) (trace s) (recq s) (heap s) (spc s) (insts s) (hdrs s) (chains s) (waiters s) (used s) x (log s).
Definition set_log x s := Sys (wheel s) (flags s) (hand s) (gtime s) (motiv s) (tpc s) (hpc s) (hpub s) (queue s) (trace s) (recq s) (heap s) (spc s) (insts s) (hdrs s) (chains s) (waiters s) (used s) (iters s) x.
Definition emit o s := set_log (o :: log s) s.

(** A new timer: DelayTimerBuilder::build with SharedHeader::default
    (/repo/src/entity.rs:187-207) and the first lines of async_schedule
    (timer_core.rs:196-198).  [t0] is timestamp() in SharedHeader::default, [t1]
    timestamp() in async_schedule.  [n] is the number of slots, 3600. *)
Definition init_n (n : nat) (t0 t1 : N) : sys := {|
  wheel := init_task_wheel n; flags := ∅; hand := 0; gtime := t0; motiv := true;
  tpc := TCheck {| l_ts := t1; l_hand := 0; l_next := 1 |};
  hpc := HIdle; hpub := None; queue := []; trace := ∅; recq := []; heap := [];
  spc := SSleep; insts := ∅; hdrs := ∅; chains := ∅; waiters := ∅; used := ∅;
  iters := 0; log := [OTick 0 t1] |}.
Definition init (t0 t1 : N) : sys := init_n (N.to_nat SLOTS) t0 t1.
