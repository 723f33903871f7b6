(** The transition system: one step is one shared access of one thread.
    DashMap guards, atomics and channels are taken as atomic (sequentially
    consistent) operations. *)
From Verif Require Import Base.
From Verif Require Export State.

(* ------------------------------------------------------------------ *)
(** * Task marks *)

(** [TaskMark::set_slot_mark] (/repo/src/timer/task.rs:45-48). *)
Definition set_slot_mark (sl : N) (m : mark) : mark := Mark (m_id m) sl (m_num m) (m_chain m).
(** [TaskMark::inc_parallel_runnable_num] (task.rs:66-69).  Simplification:
    no overflow at 2^64 simultaneously running instances. *)
Definition inc_num (m : mark) : mark := Mark (m_id m) (m_slot m) (m_num m + 1) (m_chain m).
(** [TaskMark::dec_parallel_runnable_num] (task.rs:72-79): checked_sub, default 0. *)
Definition dec_num (m : mark) : mark := Mark (m_id m) (m_slot m) (m_num m - 1) (m_chain m).
Definition set_m_chain (c : option (N * list Z)) (m : mark) : mark := Mark (m_id m) (m_slot m) (m_num m) c.

Definition set_c_state (st : N) (c : chain) : chain := Chain st (c_buf c) (c_got c) (c_pend c).

(** [Drop for TaskInstancesChainMaintainer]
    (/repo/src/timer/runtime_trace/task_instance.rs:268-273). *)
Definition abandon_chain (cid : N) (s : sys) : sys :=
  set_chains (alter (set_c_state ABANDONED) cid (chains s)) s.
(** Dropping an optional maintainer, alone or as part of a mark. *)
Definition abandon_opt (c : option N) (s : sys) : sys :=
  set_chains (match c with Some cid => alter (set_c_state ABANDONED) cid (chains s) | None => chains s end) s.
Definition drop_mark (m : option mark) (s : sys) : sys :=
  abandon_opt (match m with Some m => fst <$> m_chain m | None => None end) s.

Definition chain_state (s : sys) (cid : N) : option N := c_state <$> chains s !! cid.

(** [TaskMark::get_task_instances_chain_maintainer] (task.rs:90-103): the
    maintainer is dropped if the user dropped the chain.  Result: the mark with
    its maintainer, and the state in which a dropped maintainer has set its
    chain to ABANDONED. *)
Definition get_maintainer (m : mark) (s : sys) : mark * sys :=
  match m_chain m with
  | Some (cid, _) =>
      if decide (chain_state s cid = Some DROPPED)
      then (set_m_chain None m, abandon_chain cid s)
      else (m, s)
  | None => (m, s)
  end.

(** Removing the first occurrence of a record id: position, split_off,
    pop_front, append (task.rs:117-132; also task_handle.rs:94-115). *)
Fixpoint take_rec {A} (key : A -> Z) (rec : Z) (l : list A) : option (A * list A) :=
  match l with
  | [] => None
  | x :: r => if decide (key x = rec) then Some (x, r)
              else match take_rec key rec r with
                   | Some (y, r') => Some (y, x :: r')
                   | None => None
                   end
  end.

(** [Instance::notify_cancel_finish] (task_instance.rs:120-123): store the
    state, then wake all listeners registered on this instance. *)
Definition wake (rec : Z) (w : waiter) : waiter :=
  if decide (w_rec w = rec)
  then match w_phase w with WListen => Waiter (w_rec w) WWoken | _ => w end
  else w.
Definition notify_instance (rec : Z) (st : N) (s : sys) : sys :=
  emit (ONotify rec st)
    (set_waiters (wake rec <$> waiters s)
      (set_hdrs (alter (fun h => Hdr st (h_tid h) (h_chain h)) rec (hdrs s)) s)).

(** [TaskMark::notify_cancel_finish] (task.rs:105-137).  The boolean is Ok/Err. *)
Definition notify_cancel_finish (m : mark) (rec : Z) (st : N) (s : sys) : bool * mark * sys :=
  let '(m1, s1) := get_maintainer m s in
  match m_chain m1 with
  | None => (false, m1, s1)
  | Some (cid, l) =>
      match take_rec id rec l with
      | None => (false, m1, s1)
      | Some (_, l') => (true, set_m_chain (Some (cid, l')) m1, notify_instance rec st s1)
      end
  end.

(* ------------------------------------------------------------------ *)
(** * Task trace *)

(** [TaskTrace::insert] (task_handle.rs:20-26). *)
Definition trace_insert (tid : N) (hb : hbox) (tr : gmap N (list hbox)) : gmap N (list hbox) :=
  <[tid := default [] (tr !! tid) ++ [hb]]> tr.

(** [TaskTrace::quit_one_task_handler], stable variant (task_handle.rs:86-118);
    the quit of the handler itself (243-249) is logged by the caller.
    Simplification: [DelayTaskHandler::quit] returns Ok, as all three
    implementations in task_handle.rs:255-313 do. *)
Definition quit_one_task_handler (tid : N) (rec : Z) (tr : gmap N (list hbox))
    : option (gmap N (list hbox)) :=
  match tr !! tid with
  | None => None
  | Some l => match take_rec hb_rec rec l with
              | None => None
              | Some (_, l') => Some (<[tid := l']> tr)
              end
  end.

(* ------------------------------------------------------------------ *)
(** * Event handler *)

(** Sending on the unbounded timer_event channel: [seed_timer_event]
    (/repo/src/entity.rs:388-390), [send_timer_event] (timer_core.rs:277-286),
    sweeper.rs:134-139, task.rs:524-532. *)
Definition enqueue (e : event) (s : sys) : sys := emit (OSend e) (set_queue (queue s ++ [e]) s).

(** [PublicEvent::try_from(&TimerEvent)] (/repo/src/utils/status_report.rs:128-149). *)
Definition public_of (e : event) : option pubev :=
  match e with
  | ERemove tid => Some (PRemove tid)
  | EAppend _ hb => Some (PRunning (hb_tid hb) (hb_rec hb))
  | EFinish tid rec time out => Some (PFinish tid rec time out)
  | ETimeout tid rec => Some (PTimeout tid rec)
  | _ => None
  end.

(** End of one turn of the loop of [handle_event]
    (/repo/src/timer/event_handle.rs:170-189): the public event is sent iff the
    dispatch returned Ok(true).  The model always has a status reporter; without
    one (194-199) only this sending is absent. *)
Definition complete (ok : bool) (s : sys) : sys :=
  set_hpub None (set_hpc HIdle
    (set_log (match hpub s with
              | Some p => if ok then OPublic p :: log s else log s
              | None => log s
              end) s)).

(** [EventHandle::cancel_task] (event_handle.rs:412-454); [init] is INITIATIVE. *)
Definition cancel_task (init : bool) (tid : N) (rec : Z) (st : N) (s : sys) : sys :=
  match quit_one_task_handler tid rec (trace s) with
  | None => complete false s
  | Some tr =>
      let s1 := emit (OQuit tid rec) (set_trace tr s) in
      match flags s1 !! tid with
      | Some m =>
          let m1 := dec_num m in
          match m_chain m1 with
          | Some _ =>
              let '(ok, m2, s2) := notify_cancel_finish m1 rec st s1 in
              complete ok (set_flags (<[tid := m2]> (flags s2)) s2)
          | None => complete true (set_flags (<[tid := m1]> (flags s1)) s1)
          end
      | None => complete false s1
      end
  end.

(** [EventHandle::finish_task] (event_handle.rs:456-479). *)
Definition finish_task (tid : N) (rec : Z) (s : sys) : sys :=
  match quit_one_task_handler tid rec (trace s) with
  | None => complete false s
  | Some tr =>
      let s1 := emit (OQuit tid rec) (set_trace tr s) in
      match flags s1 !! tid with
      | Some m =>
          match m_chain m with
          | Some _ =>
              let '(ok, m2, s2) := notify_cancel_finish m rec COMPLETED s1 in
              if ok then complete true (set_flags (<[tid := dec_num m2]> (flags s2)) s2)
              else complete false (set_flags (<[tid := m2]> (flags s2)) s2)
          | None => complete true (set_flags (<[tid := dec_num m]> (flags s1)) s1)
          end
      | None => complete true s1
      end
  end.

(** [EventHandle::maintain_task_status] (event_handle.rs:481-518), with
    [push_instance] (task_instance.rs:195-204): the instance goes into the
    channel and into inner_list.  The three shared accesses touch data of
    the handler only or are queues, so they are one step. *)
Definition push_instance (tid cid : N) (rec : Z) (s : sys) : sys :=
  set_hdrs (<[rec := Hdr RUNNING tid cid]> (hdrs s))
    (set_chains (alter (fun c => Chain (c_state c) (c_buf c ++ [rec]) (c_got c) (c_pend c)) cid (chains s)) s).
Definition maintain_mark (tid : N) (rec : Z) (s : sys) : sys :=
  match flags s !! tid with
  | Some m =>
      let '(m1, s1) := get_maintainer m s in
      match m_chain m1 with
      | Some (cid, l) =>
          set_flags (<[tid := set_m_chain (Some (cid, l ++ [rec])) m1]> (flags s1))
            (push_instance tid cid rec s1)
      | None => set_flags (<[tid := m1]> (flags s1)) s1
      end
  | None => s
  end.
Definition maintain_task_status (tid : N) (hb : hbox) (s : sys) : sys :=
  let s1 := maintain_mark tid (hb_rec hb) s in
  let s2 := match hb_end hb with
            | Some d => set_recq (recq s1 ++ [RUnit d (hb_tid hb) (hb_rec hb)]) s1
            | None => s1
            end in
  complete true (set_trace (trace_insert tid hb (trace s2)) s2).

(** [EventHandle::event_dispatch] (event_handle.rs:202-263), up to the first
    point where another thread's access can come in between. *)
Definition dispatch (e : event) (s : sys) : sys :=
  match e with
  | EStop => complete true (set_motiv false s)
  (* add_task, 276: read the second hand *)
  | EAdd t => set_hpc (HAdd1 t None (hand s) (iters s)) s
  | EInsert t => set_hpc (HAdd1 t (Some (t_uid t)) (hand s) (iters s)) s
  (* update_task, 323-325; without a mark: None, then Ok(true) *)
  | EUpdate t => match flags s !! t_id t with
                 | Some m => set_hpc (HUpd t (m_slot m)) s
                 | None => complete true s
                 end
  (* advance_task, 336-347 *)
  | EAdvance tid => match flags s !! tid with
                    | Some m => set_hpc (HAdv1 tid (m_slot m)) s
                    | None => complete false s
                    end
  (* remove_task, 378-389 *)
  | ERemove tid => match flags s !! tid with
                   | Some m => set_hpc (HRem1 tid (m_slot m)) s
                   | None => set_hpc (HRem2 tid false) s
                   end
  | ECancel tid rec => cancel_task true tid rec CANCELLED s
  | ETimeout tid rec => cancel_task false tid rec TIMEOUT s
  | EAppend tid hb => maintain_task_status tid hb s
  | EFinish tid rec _ _ => finish_task tid rec s
  end.

(** The due distance used by [EventHandle::add_task] (event_handle.rs:285-289):
    exec_time - global time, or task_id % 3600 if that would be negative. *)
Definition add_distance (exec gt tid : N) : N :=
  match checked_sub exec gt with Some d => d | None => tid mod SLOTS end.

(** Ghost: the number of the iteration whose scan comes next. *)
Definition next_scan (s : sys) : N :=
  match tpc s with
  | TCheck _ | TStore _ | TScan _ | TStopped => iters s
  | _ => iters s + 1
  end.

(** One step of the event handler thread. *)
Definition handler_step (pf : profile) (s : sys) : option sys :=
  match hpc s with
  | HIdle =>
      match queue s with
      | [] => None
      | e :: q => Some (dispatch e (emit (OPop e) (set_hpub (public_of e) (set_queue q s))))
      end
  (* add_task, 278-293: next due time, read the global time, compute slot and line *)
  | HAdd1 t c h k =>
      match get_next_exec_timestamp pf t with
      | Panic => Some (set_hpc HDead s)
      | Ret (None, t') => Some (complete false (abandon_opt c (emit (ODrop (t_uid t) (t_id t) NoDate) s)))
      | Ret (Some exec, t') =>
          match (let! a := add64 pf (add_distance exec (gtime s) (t_id t)) h in add64 pf a 1) with
          | Panic => Some (set_hpc HDead s)
          | Ret seed =>
              Some (set_hpc (HAdd2 (set_cylinder_line (seed / SLOTS) t') c (seed mod SLOTS))
                     (emit (OPlan (t_uid t) (t_id t) k (gtime s) exec) s))
          end
      end
  (* add_task, 297-299 *)
  | HAdd2 t c sl =>
      Some (set_hpc (HAdd3 (t_id t) c sl)
        (match wheel s !! sl with
         | Some m => emit (OAdded (t_uid t) (t_id t) (next_scan s) sl (t_cyl t))
                       (set_wheel (<[sl := slot_add_task m t]> (wheel s)) s)
         | None => s
         end))
  (* event_dispatch, 211-221: record_task_mark; a previous mark is dropped *)
  | HAdd3 tid c sl =>
      let old := flags s !! tid in
      Some (complete true
        (drop_mark old
          (set_flags (<[tid := Mark tid sl 0 ((fun c => (c, [])) <$> c)]> (flags s)) s)))
  (* update_task, 327-331 *)
  | HUpd t sl =>
      Some (complete true
        (set_wheel (match wheel s !! sl with
                    | Some m => <[sl := slot_update_task m t]> (wheel s)
                    | None => wheel s
                    end) s))
  (* advance_task, 349-361 *)
  | HAdv1 tid sl =>
      match wheel s !! sl with
      | Some m => let '(o, m') := slot_remove_task m tid in
                  let s1 := set_wheel (<[sl := m']> (wheel s)) s in
                  match o with
                  | Some t => Some (set_hpc (HAdv2 (clear_cylinder_line t)) s1)
                  | None => Some (complete false s1)
                  end
      | None => Some (complete false s)
      end
  (* advance_task, 363: current second hand + 1, no modulo *)
  | HAdv2 t => Some (set_hpc (HAdv3 t (hand s + 1)) s)
  (* advance_task, 365-373 *)
  | HAdv3 t sl =>
      match wheel s !! sl with
      | Some m => Some (complete true (set_wheel (<[sl := slot_add_task m t]> (wheel s)) s))
      | None => Some (complete false s)
      end
  (* remove_task, 391-399 *)
  | HRem1 tid sl =>
      match wheel s !! sl with
      | Some m => Some (set_hpc (HRem2 tid true)
                   (set_wheel (<[sl := snd (slot_remove_task m tid)]> (wheel s)) s))
      | None => Some (set_hpc (HRem2 tid false) s)
      end
  (* event_dispatch, 231-236 *)
  | HRem2 tid ok =>
      let old := flags s !! tid in
      Some (complete ok (drop_mark old (set_flags (delete tid (flags s)) s)))
  | HDead => None
  end.

(** The handler keeps the read guard of the task's mark alive during
    update_task, advance_task and remove_task (the binding [task_mark] lives to
    the end of the function); get_mut of the scheduler on that mark waits.
    Simplification: DashMap locks a shard, of which the mark is one entry. *)
Definition mark_locked (s : sys) (tid : N) : bool :=
  match hpc s with
  | HUpd t _ => t_id t =? tid
  | HAdv1 i _ => i =? tid
  | HAdv2 t => t_id t =? tid
  | HAdv3 t _ => t_id t =? tid
  | HRem1 i _ => i =? tid
  | _ => false
  end.

(* ------------------------------------------------------------------ *)
(** * Scheduler *)

(** The distance used by [Timer::handle_task] (timer_core.rs:381). *)
Definition park_distance (exec ts : N) : N :=
  match checked_sub exec ts with Some d => d | None => 1 end.

(** One step of the scheduler thread ([async_schedule], [maintain_task],
    [handle_task]; timer_core.rs:193-414).  [ch] picks the next id of the
    remaining [task_ids] (HashMap iteration order), [rec] is the id that
    real_time_generate returns, [now] the value of timestamp().  A record id is
    never handed out twice (assumption on rs-snowflake). *)
Definition timer_step (pf : profile) (ch : nat) (rec : Z) (now : N) (s : sys) : option sys :=
  match tpc s with
  | TCheck l => Some (set_tpc (if motiv s then TStore l else TStopped) s)
  | TStore l => Some (set_tpc (TScan l) (set_gtime (l_ts l) s))
  (* 218-223; a missing slot: [continue], so back to the top without a tick *)
  | TScan l =>
      match wheel s !! l_hand l with
      | Some m => let '(ids, m') := slot_arrival_time_tasks m in
                  Some (set_tpc (TLoop l ids) (set_wheel (<[l_hand l := m']> (wheel s)) s))
      | None => Some (set_tpc (TCheck l) s)
      end
  (* 235-252 *)
  | TLoop l ids =>
      match ids with
      | [] => Some (set_tpc (TLapse l) s)
      | _ =>
        match ids !! ch with
        | None => None
        | Some i =>
            let ids' := delete ch ids in
            match wheel s !! l_hand l with
            | None => Some (set_tpc (TLoop l ids') s)
            | Some m =>
                let '(o, m') := slot_remove_task m i in
                let s1 := set_wheel (<[l_hand l := m']> (wheel s)) s in
                match o with
                | Some t => Some (set_tpc (TMaint l ids' t) s1)
                | None => Some (set_tpc (TLoop l ids') s1)
                end
            end
        end
      end
  (* maintain_task, 296-324.  Without a mark a limited task is discarded (Err). *)
  | TMaint l ids t =>
      if decide (insts s !! rec = None) then
        match t_maxpar t with
        | Some mx =>
            match flags s !! t_id t with
            | None => Some (set_tpc (TLoop l ids) (emit (ODrop (t_uid t) (t_id t) NoMark) s))
            | Some m =>
                if mx <=? m_num m
                then Some (set_tpc (TPark l ids t false)
                            (emit (OSkip (t_uid t) (t_id t) (iters s) (l_ts l)) s))
                else Some (set_tpc (TSpawn l ids t rec) s)
            end
        | None => Some (set_tpc (TSpawn l ids t rec) s)
        end
      else None
  (* 326-344: the instance starts running; get_maximum_running_time is
     evaluated after routine_exec.  If it panics, unwinding drops the sender of the
     one-shot channel, which also opens the gate. *)
  | TSpawn l ids t r =>
      let s1 := emit (OLaunch (t_uid t) (t_id t) r (iters s) (l_ts l)) s in
      match get_maximum_running_time pf t (l_ts l) with
      | Panic => Some (set_tpc TDead
                   (set_insts (<[r := Inst (t_id t) (t_uid t) true IRunning]> (insts s1)) s1))
      | Ret e => Some (set_tpc (TSend l ids t r e)
                   (set_insts (<[r := Inst (t_id t) (t_uid t) false IRunning]> (insts s1)) s1))
      end
  (* 346 *)
  | TSend l ids t r e =>
      Some (set_tpc (TGate l ids t r)
        (enqueue (EAppend (t_id t) (HBox (t_id t) r (l_ts l) e)) s))
  (* 348-355 *)
  | TGate l ids t r =>
      let s1 := set_insts (alter (fun i => Inst (i_tid i) (i_uid i) true (i_fate i)) r (insts s)) s in
      match down_count_and_set_valid pf t with
      | Panic => Some (set_tpc TDead s1)
      | Ret t' => if t_valid t' then Some (set_tpc (TPark l ids t' true) s1)
                  else Some (set_tpc (TLoop l ids) (emit (OEnd (t_uid t) (t_id t)) s1))
      end
  (* handle_task, 368-394 *)
  | TPark l ids t upd =>
      match get_next_exec_timestamp pf t with
      | Panic => Some (set_tpc TDead s)
      | Ret (None, _) => Some (set_tpc (TLoop l ids) (emit (ODrop (t_uid t) (t_id t) NoDate) s))
      | Ret (Some exec, t') =>
          let step := park_distance exec (l_ts l) in
          match add64 pf step (l_next l) with
          | Panic => Some (set_tpc TDead s)
          | Ret sum =>
              let sl := sum mod SLOTS in
              match wheel s !! sl with
              | None => Some (set_tpc (TLoop l ids) s)
              | Some m =>
                  Some (set_tpc (TMark l ids (t_id t) sl upd)
                    (emit (OPark (t_uid t) (t_id t) (iters s) (l_ts l) exec)
                      (set_wheel (<[sl := slot_add_task m (set_cylinder_line (step / SLOTS) t')]> (wheel s)) s)))
              end
          end
      end
  (* handle_task, 396-407 *)
  | TMark l ids tid sl upd =>
      if mark_locked s tid then None else
      match flags s !! tid with
      | None => Some (set_tpc (TLoop l ids) s)
      | Some m =>
          let m1 := set_slot_mark sl m in
          Some (set_tpc (TLoop l ids)
            (set_flags (<[tid := if upd then inc_num m1 else m1]> (flags s)) s))
      end
  (* 263-267 with SencondHand::next (/repo/src/entity.rs:59-64) *)
  | TLapse l =>
      let h := (hand s + 1) mod SLOTS in
      Some (set_tpc (TCheck {| l_ts := now; l_hand := h; l_next := (h + 1) mod SLOTS |})
        (emit (OTick (iters s + 1) now) (set_iters (iters s + 1) (set_hand h s))))
  | TStopped | TDead => None
  end.

(* ------------------------------------------------------------------ *)
(** * Sweeper *)

(** Least deadline of the heap: [BinaryHeap<Reverse<RecycleUnit>>::peek]. *)
Fixpoint least_deadline (h : list runit) : option N :=
  match h with
  | [] => None
  | u :: r => match least_deadline r with
              | None => Some (u_deadline u)
              | Some d => Some (N.min (u_deadline u) d)
              end
  end.

(** One step of the recycler (/repo/src/timer/runtime_trace/sweeper.rs:91-132):
    start a round by reading the clock, or pop one unit that is due.
    [ch]: which of the units with the least deadline is popped.  The sleep
    between rounds has no length here (see Sweeper.v for its timing). *)
Definition sweep_step (ch : nat) (now : N) (s : sys) : option sys :=
  match spc s with
  | SSleep => Some (set_spc (SRound now 200) s)
  | SRound nw k =>
      if k =? 0 then Some (set_spc SSleep s)
      else match least_deadline (heap s) with
      | None => Some (set_spc SSleep s)
      | Some d =>
          if d <=? nw then
            match heap s !! ch with
            | Some u =>
                if u_deadline u =? d then
                  Some (set_spc (SRound nw (k - 1))
                    (emit (OSweep (u_tid u) (u_rec u) (u_deadline u) nw)
                      (enqueue (ETimeout (u_tid u) (u_rec u))
                        (set_heap (delete ch (heap s)) s))))
                else None
            | None => None
            end
          else Some (set_spc SSleep s)
      end
  end.

(** [add_recycle_unit] (sweeper.rs:144-165); needs the lock the round holds. *)
Definition sweep_recv (s : sys) : option sys :=
  match spc s, recq s with
  | SSleep, u :: q => Some (set_heap (u :: heap s) (set_recq q s))
  | _, _ => None
  end.

(* ------------------------------------------------------------------ *)
(** * Users and running instances *)

(** Values of the fields fit their Rust types, and the task comes from the
    builder: cylinder_line 0, valid (/repo/src/timer/task.rs:785-824).
    (The frequency may already have been advanced: get_next_exec_timestamp is
    public, task.rs:1114.) *)
Definition freq_in_range (f : freq) : bool :=
  match f with
  | CronExpressionRepeated _ => true
  | CronExpressionCountDown n _ => n <? U64
  | SecondsRepeated s => (ss_start s <? U64) && (ss_step s <? U64)
  | SecondsCountDown n s => (n <? U64) && (ss_start s <? U64) && (ss_step s <? U64)
  end.
Definition opt_in_range (o : option N) : bool :=
  match o with Some n => n <? U64 | None => true end.
Definition fresh_task (t : task) : bool :=
  (t_id t <? U64) && freq_in_range (t_freq t) && opt_in_range (t_maxrun t) &&
  opt_in_range (t_maxpar t) && (t_cyl t =? 0) && t_valid t.

Inductive label :=
| LAdd (t : task) | LInsert (t : task) | LUpdate (t : task)
| LRemove (tid : N) | LAdvance (tid : N) | LCancel (tid : N) (rec : Z) | LStop
| LNextCheck (c : N) | LNextTry (c : N) | LNextRecv (c : N) | LChainDrop (c : N)
| LInstCancel (w : N) (rec : Z) | LListen (w : N) | LReturn (w : N)
| LTimer (ch : nat) (rec : Z) (now : N) | LRoutinePanic
| LHandler
| LFinish (rec : Z) (now : N) (out : option output) | LPanic (rec : Z)
| LSweepRecv | LSweep (ch : nat) (now : N).

(** [add_task], [update_task] (entity.rs:333-335, 352-354): Box the task, send. *)
Definition submit (ev : task -> event) (t : task) (s : sys) : option sys :=
  if fresh_task t && negb (bool_decide (t_uid t ∈ used s))
  then Some (enqueue (ev t) (set_used ({[t_uid t]} ∪ used s) s)) else None.

(** [insert_task] (entity.rs:339-349) with task_instance_chain_pair
    (task_instance.rs:47-64). *)
Definition submit_insert (t : task) (s : sys) : option sys :=
  option_map (fun s' => set_chains (<[t_uid t := Chain LIVING [] [] 0]> (chains s')) s')
    (submit EInsert t s).

(** [TaskInstancesChain::next] (task_instance.rs:208-218) and [next_with_wait],
    [next_with_async_wait] (221-242): the state check, then try_recv or recv. *)
Definition next_check (c : N) (s : sys) : option sys :=
  match chains s !! c with
  | Some ch =>
      if c_state ch =? DROPPED then None   (* the user no longer has it *)
      else if c_state ch =? ABANDONED then Some (emit (ONext c NExpired) s)
      else Some (set_chains (<[c := Chain (c_state ch) (c_buf ch) (c_got ch) (S (c_pend ch))]> (chains s)) s)
  | None => None
  end.
Definition next_take (blocking : bool) (c : N) (s : sys) : option sys :=
  match chains s !! c with
  | Some ch =>
      match c_pend ch with
      | O => None
      | S p =>
          match c_buf ch with
          | r :: b => Some (emit (ONext c (NGot r))
              (set_chains (<[c := Chain (c_state ch) b (c_got ch ++ [r]) p]> (chains s)) s))
          | [] =>
              if c_state ch =? ABANDONED
              then Some (emit (ONext c NClosed)
                     (set_chains (<[c := Chain (c_state ch) [] (c_got ch) p]> (chains s)) s))
              else if blocking then None
              else Some (emit (ONext c NEmpty)
                     (set_chains (<[c := Chain (c_state ch) [] (c_got ch) p]> (chains s)) s))
          end
      end
  | None => None
  end.

(** [Drop for TaskInstancesChain] (task_instance.rs:261-266).  No next* call is
    in progress (they borrow the chain). *)
Definition chain_drop (c : N) (s : sys) : option sys :=
  match chains s !! c with
  | Some ch =>
      match c_pend ch with
      | O => if c_state ch =? DROPPED then None
             else Some (set_chains (<[c := set_c_state DROPPED ch]> (chains s)) s)
      | S _ => None
      end
  | None => None
  end.

(** [TaskInstance::cancel_with_wait] (task_instance.rs:147-152, 182-191), in
    three steps: check the state and send CancelTask; register the listener;
    return when woken.  The caller must have got the instance from its chain.  A
    call refused with DisCancel changes nothing and is not a step. *)
Definition inst_cancel (w : N) (rec : Z) (s : sys) : option sys :=
  match waiters s !! w, hdrs s !! rec with
  | None, Some h =>
      match chains s !! h_chain h with
      | Some ch =>
          if bool_decide (rec ∈ c_got ch) && (h_state h =? RUNNING)
          then Some (enqueue (ECancel (h_tid h) rec)
                 (set_waiters (<[w := Waiter rec WSent]> (waiters s)) s))
          else None
      | None => None
      end
  | _, _ => None
  end.
Definition inst_listen (w : N) (s : sys) : option sys :=
  match waiters s !! w with
  | Some (Waiter rec WSent) => Some (set_waiters (<[w := Waiter rec WListen]> (waiters s)) s)
  | _ => None
  end.
Definition inst_return (w : N) (s : sys) : option sys :=
  match waiters s !! w with
  | Some (Waiter rec WWoken) =>
      match hdrs s !! rec with
      | Some h => Some (set_waiters (<[w := Waiter rec (WRet (h_state h))]> (waiters s)) s)
      | None => None
      end
  | _ => None
  end.

(** The end of a routine: [TaskContext::finish_task]
    (/repo/src/timer/task.rs:518-534), after the gate opened. *)
Definition inst_finish (rec : Z) (now : N) (out : option output) (s : sys) : option sys :=
  match insts s !! rec with
  | Some (Inst tid uid true IRunning) =>
      Some (enqueue (EFinish tid rec now out)
        (set_insts (<[rec := Inst tid uid true IEnded]> (insts s)) s))
  | _ => None
  end.
(** The user's future panics: the spawned task is gone, finish_task is never
    reached (task.rs:591-594, 610-613). *)
Definition inst_panic (rec : Z) (s : sys) : option sys :=
  match insts s !! rec with
  | Some (Inst tid uid g IRunning) =>
      Some (set_insts (<[rec := Inst tid uid g IPanicked]> (insts s)) s)
  | _ => None
  end.
(** The closure that builds the future runs on the scheduler thread
    ([let user_future = self.0();] task.rs:586, 605); if it panics the thread
    is gone. *)
Definition routine_panic (s : sys) : option sys :=
  match tpc s with
  | TSpawn _ _ _ _ => Some (set_tpc TDead s)
  | _ => None
  end.

Definition step (pf : profile) (lb : label) (s : sys) : option sys :=
  match lb with
  | LAdd t => submit EAdd t s
  | LInsert t => submit_insert t s
  | LUpdate t => submit EUpdate t s
  | LRemove tid => Some (enqueue (ERemove tid) s)
  | LAdvance tid => Some (enqueue (EAdvance tid) s)
  | LCancel tid rec => Some (enqueue (ECancel tid rec) s)
  | LStop => Some (enqueue EStop s)
  | LNextCheck c => next_check c s
  | LNextTry c => next_take false c s
  | LNextRecv c => next_take true c s
  | LChainDrop c => chain_drop c s
  | LInstCancel w rec => inst_cancel w rec s
  | LListen w => inst_listen w s
  | LReturn w => inst_return w s
  | LTimer ch rec now => timer_step pf ch rec now s
  | LRoutinePanic => routine_panic s
  | LHandler => handler_step pf s
  | LFinish rec now out => inst_finish rec now out s
  | LPanic rec => inst_panic rec s
  | LSweepRecv => sweep_recv s
  | LSweep ch now => sweep_step ch now s
  end.

(** Executions: any sequence of enabled steps. *)
Fixpoint run (pf : profile) (ls : list label) (s : sys) : option sys :=
  match ls with
  | [] => Some s
  | lb :: r => match step pf lb s with Some s' => run pf r s' | None => None end
  end.

Definition reachable (pf : profile) (t0 t1 : N) (s : sys) : Prop :=
  exists ls, run pf ls (init t0 t1) = Some s.
