(** Vocabulary of the property theorems: how to read the log and the state.

    The log [log s] has the newest entry first.  In [log s = l1 ++ o :: l2] the
    entries of [l1] happened after [o], those of [l2] before it.  A Task value
    is identified by [t_uid] (a user cannot copy a Task); [t_id] is the task id
    the user chose. *)
From Verif Require Export Base System.

Definition ev_task (e : event) : list task :=
  match e with EAdd t | EInsert t | EUpdate t => [t] | _ => [] end.

Definition hpc_task (p : handler_pc) : list task :=
  match p with HAdd1 t _ _ _ | HAdd2 t _ _ | HUpd t _ | HAdv2 t | HAdv3 t _ => [t] | _ => [] end.

Definition tpc_task (p : timer_pc) : list task :=
  match p with
  | TMaint _ _ t | TSpawn _ _ t _ | TSend _ _ t _ _ | TGate _ _ t _ | TPark _ _ t _ => [t]
  | _ => []
  end.

Definition slot_tasks (m : slot) : list task := (map_to_list m).*2.

Definition wheel_tasks (w : wheel_t) : list task := (map_to_list w).*2 ≫= slot_tasks.

(** All Task values the timer holds: in the event channel, in the event
    handler's hands, in the scheduler's hands, on the wheel. *)
Definition held (s : sys) : list task :=
  (queue s ≫= ev_task) ++ hpc_task (hpc s) ++ tpc_task (tpc s) ++ wheel_tasks (wheel s).

(** The Task values that were handed to the timer. *)
Definition submits (t : task) (e : event) : Prop := e = EAdd t \/ e = EInsert t \/ e = EUpdate t.

Definition submitted (t : task) (lg : list obs) : Prop := exists e, OSend e ∈ lg /\ submits t e.

(** The number of further starts a countdown allows. *)
Definition count (f : freq) : option N :=
  match f with
  | CronExpressionCountDown n _ | SecondsCountDown n _ => Some n
  | _ => None
  end.

(** The number of starts of the Task value [u]. *)
Fixpoint starts (u : N) (lg : list obs) : N :=
  match lg with
  | [] => 0
  | OLaunch u' _ _ _ _ :: r => (if u' =? u then 1 else 0) + starts u r
  | _ :: r => starts u r
  end.

(** The events by which a user addresses the task id [i]. *)
Definition names (i : N) (e : event) : Prop :=
  match e with
  | EAdd t | EInsert t | EUpdate t => t_id t = i
  | ERemove j | EAdvance j => j = i
  | _ => False
  end.

(** Nothing was ever asked of the id of [t] but to add [t]. *)
Definition quiet (t : task) (lg : list obs) : Prop :=
  forall e, OSend e ∈ lg -> names (t_id t) e -> e = EAdd t \/ e = EInsert t.

(** Iterations are numbered from 0; iteration [k] looks at slot [k mod 3600].
    [due n sl c]: the first iteration >= [n] whose second hand is [sl], plus [c] revolutions. *)
Definition gap (sl n : N) : N := (sl + SLOTS - n mod SLOTS) mod SLOTS.

Definition due (n sl c : N) : N := n + gap sl n + SLOTS * c.

(** The due times of [u] are at least an hour away from the end of u64. *)
Definition near (u : N) (lg : list obs) : Prop :=
  forall i it ts d, OPark u i it ts d ∈ lg -> d + SLOTS < U64.

(** A run of the Task [u] is a start or a start skipped because of the parallel limit. *)
Definition is_run (u : N) (o : obs) : Prop :=
  match o with OLaunch u' _ _ _ _ | OSkip u' _ _ _ => u' = u | _ => False end.

Definition has_run (u : N) (lg : list obs) : Prop := exists o, o ∈ lg /\ is_run u o.

(** The iteration of the run (start or skip) of [u] that is logged in [o]. *)
Definition run_it (u : N) (o : obs) : option N :=
  match o with
  | OLaunch u' _ _ it _ | OSkip u' _ it _ => if u' =? u then Some it else None
  | _ => None
  end.

(** The first run of [u] in a log (newest entry first). *)
Fixpoint first_run (u : N) (lg : list obs) : option N :=
  match lg with
  | [] => None
  | o :: r => match first_run u r with Some k => Some k | None => run_it u o end
  end.

(** Ticks to wait for the due time [d] from second [ts]; 1 if it has passed. *)
Definition until (ts d : N) : N := if ts <=? d then d - ts else 1.

(** [o] is a run of [u] in iteration [it], in second [ts]. *)
Definition runs_at (u it ts : N) (o : obs) : Prop :=
  match o with OLaunch u' _ _ it' ts' | OSkip u' _ it' ts' => u' = u /\ it' = it /\ ts' = ts | _ => False end.

(** The iterator in a frequency, without the count. *)
Definition iter_of (f : freq) : cron_iter + sstate :=
  match f with
  | CronExpressionRepeated c | CronExpressionCountDown _ c => inl c
  | SecondsRepeated s | SecondsCountDown _ s => inr s
  end.

(** The due times for which the Task [u] was put on the wheel, newest first. *)
Fixpoint planned (u : N) (lg : list obs) : list N :=
  match lg with
  | [] => []
  | OPlan u' _ _ _ d :: r | OPark u' _ _ _ d :: r => if u' =? u then d :: planned u r else planned u r
  | _ :: r => planned u r
  end.

(** [follows pf i l i']: the iterator [i] gave the due times [l] (newest first) and is
    now [i']. *)
Definition iter_next (pf : profile) (i : cron_iter + sstate) : res (option Z * (cron_iter + sstate)) :=
  match i with
  | inl c => let '(o, c') := cron_step c in Ret (o, inl c')
  | inr s => let! (x, s') := ss_next pf s in Ret (Some (as_i64 x), inr s')
  end.

Inductive follows (pf : profile) (i : cron_iter + sstate) : list N -> cron_iter + sstate -> Prop :=
| follows_nil : follows pf i [] i
| follows_next l i1 d i2 : follows pf i l i1 -> iter_next pf i1 = Ret (Some d, i2) -> follows pf i (as_u64 d :: l) i2.

(** The first [n] times of the sequence st, st + p, st + 2p, ... (in u64), newest first. *)
Fixpoint times (st p : N) (n : nat) : list N :=
  match n with
  | O => []
  | S m => (st + N.of_nat m * p) mod U64 :: times st p m
  end.

(** A task from the builder with due times st, st + p, st + 2p, ...: its iterator was not used yet. *)
Definition interval (f : freq) : option (N * N) :=
  match f with
  | SecondsRepeated s | SecondsCountDown _ s => if ss_first s then Some (ss_start s, ss_step s + 1) else None
  | _ => None
  end.

(** The task [t] has done all its work: its countdown is used up, or its schedule has no further date. *)
Definition over (pf : profile) (t : task) (s : sys) : Prop :=
  (exists n, count (t_freq t) = Some n /\ (1 <= n -> starts (t_uid t) (log s) = n)) \/
  (exists l c c', follows pf (iter_of (t_freq t)) l (inl c) /\ cron_step c = (None, c')).

(** Why [t] may no longer be held: its countdown is used up, it has a parallel limit and was dropped for want of
    a mark, or its schedule has no further date. *)
Inductive finished (pf : profile) (t : task) (s : sys) : Prop :=
| fin_count n : count (t_freq t) = Some n -> (1 <= n -> starts (t_uid t) (log s) = n) -> finished pf t s
| fin_mark i : ODrop (t_uid t) i NoMark ∈ log s -> t_maxpar t <> None -> finished pf t s
| fin_dates l c c' : follows pf (iter_of (t_freq t)) l (inl c) -> cron_step c = (None, c') -> finished pf t s.

(** A clock that advances one second per tick: iteration [k] reads second [b + k].  Iteration 0 reads the time at which the timer
    was started, [t1].  With smol the first tick comes a second after that, so [b = t1]; with tokio, whose interval completes
    its first tick at once, iteration 1 still reads [t1], so [b = t1 - 1] (see Ticker.v). *)
Definition steady (b : N) (lg : list obs) : Prop := forall k ts, OTick k ts ∈ lg -> 0 < k -> ts = b + k.

(** The plan made for [u] by add_task: iteration in which the second hand was read,
    global time read, due time. *)
Fixpoint plan_of (u : N) (lg : list obs) : option (N * N * N * N) :=
  match lg with
  | [] => None
  | OPlan u' i k g d :: r => if u' =? u then Some (i, k, g, d) else plan_of u r
  | _ :: r => plan_of u r
  end.

(** Iteration in which a task planned in iteration [k] for [dist] ticks ahead is run if the next
    scan after its insertion is that of iteration [n]. *)
Definition arrival (k n dist : N) : N :=
  due n ((dist + k mod SLOTS + 1) mod SLOTS) ((dist + k mod SLOTS + 1) / SLOTS).

(** The due times of [t], those up to now and the next one, fit in u64 with an hour to spare. *)
Definition fits (t : task) (st p : N) (lg : list obs) : Prop :=
  st + N.of_nat (length (planned (t_uid t) lg)) * p + SLOTS < U64.

(** The state [s] is reachable, and so far nobody asked anything of the id of [t] but to add [t]. *)
Definition alone (pf : profile) (t0 t1 : N) (t : task) (s : sys) : Prop :=
  reachable pf t0 t1 s /\ submitted t (log s) /\ quiet t (log s) /\ near (t_uid t) (log s).
(** ... and the clock is steady. *)
Definition ideal (pf : profile) (t0 t1 b : N) (t : task) (s : sys) : Prop :=
  alone pf t0 t1 t s /\ steady b (log s).

(** Reachable by steps that all satisfy [P]. *)
Definition reachable_with (P : label -> Prop) (pf : profile) (t0 t1 : N) (s : sys) : Prop :=
  exists ls, Forall P ls /\ run pf ls (init t0 t1) = Some s.

(** Parameters of [t] with which no 64-bit computation overflows: the countdown is not 0, start second plus maximum
    running time fits, and all due times up to the next one fit, with an hour to spare. *)
Definition safe (t : task) (lg : list obs) : Prop :=
  count (t_freq t) <> Some 0 /\
  (forall m k ts, t_maxrun t = Some m -> OTick k ts ∈ lg -> m + ts < U64) /\
  match iter_of (t_freq t) with
  | inl c => forall x d, ci_next c x = Some d -> (0 <= d)%Z /\ (d + Z.of_N SLOTS < Z.of_N U64)%Z
  | inr i => ss_first i = true /\ fits t (ss_start i) (ss_step i + 1) lg
  end.

(* ------------------------------------------------------------------ *)
(** ** Instances *)

(** The instances told to quit, newest first. *)
Fixpoint quits (lg : list obs) : list (N * Z) :=
  match lg with
  | [] => []
  | OQuit tid rec :: r => (tid, rec) :: quits r
  | _ :: r => quits r
  end.
(** The starts: Task value, task id, record id, iteration, second. *)
Fixpoint launches (lg : list obs) : list (N * N * Z * N * N) :=
  match lg with
  | [] => []
  | OLaunch u tid rec it ts :: r => (u, tid, rec, it, ts) :: launches r
  | _ :: r => launches r
  end.
Definition l_rec (x : N * N * Z * N * N) : Z := let '(_, _, r, _, _) := x in r.
(** The instances of the task id [i] that were started and have not ended: neither finished, nor cancelled, nor timed out. *)
Fixpoint running (i : N) (lg : list obs) : list Z :=
  match lg with
  | [] => []
  | OLaunch _ j r _ _ :: l => if j =? i then r :: running i l else running i l
  | OQuit j r :: l => if j =? i then filter (fun x => x <> r) (running i l) else running i l
  | _ :: l => running i l
  end.
(** The events that end an instance, with the state they give it. *)
Inductive ending : event -> bool -> N -> Z -> N -> Prop :=
| ending_cancel tid rec : ending (ECancel tid rec) false tid rec CANCELLED
| ending_timeout tid rec : ending (ETimeout tid rec) false tid rec TIMEOUT
| ending_finish tid rec time out : ending (EFinish tid rec time out) true tid rec COMPLETED.

(** The status events of the instance [rec], newest first. *)
Fixpoint shown (rec : Z) (lg : list obs) : list pubev :=
  match lg with
  | [] => []
  | OPublic p :: r =>
      match p with
      | PRunning _ rec' | PFinish _ rec' _ _ | PTimeout _ rec' => if decide (rec' = rec) then p :: shown rec r else shown rec r
      | PRemove _ => shown rec r
      end
  | _ :: r => shown rec r
  end.
(** The states of the instance [rec] that were announced, newest first. *)
Fixpoint told (rec : Z) (lg : list obs) : list N :=
  match lg with
  | [] => []
  | ONotify rec' st :: r => if decide (rec' = rec) then st :: told rec r else told rec r
  | _ :: r => told rec r
  end.
(** The events sent and the events taken, newest first. *)
Fixpoint sends (lg : list obs) : list event :=
  match lg with [] => [] | OSend e :: r => e :: sends r | _ :: r => sends r end.
Fixpoint pops (lg : list obs) : list event :=
  match lg with [] => [] | OPop e :: r => e :: pops r | _ :: r => pops r end.
(** The timer has the handle of the instance [rec] of the task id [tid]. *)
Definition handle_of (s : sys) (tid : N) (rec : Z) : Prop := exists l, trace s !! tid = Some l /\ rec ∈ hb_rec <$> l.
(** The status event that belongs to an event. *)
Inductive reports : event -> pubev -> Prop :=
| reports_remove tid : reports (ERemove tid) (PRemove tid)
| reports_running tid hb : reports (EAppend tid hb) (PRunning tid (hb_rec hb))
| reports_finish tid rec time out : reports (EFinish tid rec time out) (PFinish tid rec time out)
| reports_timeout tid rec : reports (ETimeout tid rec) (PTimeout tid rec).

(* ------------------------------------------------------------------ *)
(** ** Waiting tasks *)

(** The task [t] is stored under the id [i] in the slot [sl]. *)
Definition on (w : wheel_t) (i sl : N) (t : task) : Prop :=
  exists m, w !! sl = Some m /\ m !! i = Some t.
Notation sits s := (on (wheel s)).

(** The ids of the tasks that are due in the present iteration and still to be taken. *)
Definition ids_of (p : timer_pc) : list N :=
  match p with
  | TLoop _ ids | TMaint _ ids _ | TSpawn _ ids _ _ | TSend _ ids _ _ _ | TGate _ ids _ _
  | TPark _ ids _ _ | TMark _ ids _ _ _ => ids
  | _ => []
  end.
(** The iteration in which the scheduler will take the task stored under [i] in slot [sl]. *)
Definition when_at (s : sys) (i sl : N) (t : task) : N :=
  if decide (i ∈ ids_of (tpc s) /\ sl = hand s) then iters s else due (next_scan s) sl (t_cyl t).
(** The id of the waiting task that the next step of the event handler may add, replace or take. *)
Definition handler_on (p : handler_pc) : option N :=
  match p with
  | HAdd2 t _ _ | HUpd t _ | HAdv3 t _ => Some (t_id t)
  | HAdv1 i _ | HRem1 i _ => Some i
  | _ => None
  end.
(** The step is part of an operation on the waiting tasks with id [i]: the handler adds, updates, advances or removes
    it, or the scheduler puts back another task that has this id, too. *)
Definition touches (i : N) (lb : label) (s : sys) : Prop :=
  match lb with
  | LHandler => handler_on (hpc s) = Some i
  | LTimer _ _ _ => exists l ids t upd, tpc s = TPark l ids t upd /\ t_id t = i
  | _ => False
  end.
(** After the step the task still waits for the same iteration, or the scheduler has taken it, in that iteration. *)
Definition waits (s s' : sys) (i sl : N) (t : task) : Prop :=
  (exists t', sits s' i sl t' /\ when_at s' i sl t' = when_at s i sl t /\ exists c, t' = set_cylinder_line c t) \/
  (exists l ids, tpc s' = TMaint l ids t /\ iters s' = when_at s i sl t).

(** The task id whose mark the next step of the event handler may change. *)
Definition handler_marks (s : sys) : option N :=
  match hpc s with
  | HIdle => match queue s with
             | ECancel i _ :: _ | ETimeout i _ :: _ | EFinish i _ _ _ :: _ | EAppend i _ :: _ => Some i
             | _ => None
             end
  | HAdd3 i _ _ | HRem2 i _ => Some i
  | _ => None
  end.
Definition touches_mark (i : N) (lb : label) (s : sys) : Prop :=
  match lb with
  | LHandler => handler_marks s = Some i
  | LTimer _ _ _ => exists l ids sl upd, tpc s = TMark l ids i sl upd
  | _ => False
  end.

(* ------------------------------------------------------------------ *)
(** ** Operations of the event handler on one task id *)

(** The scheduler has a task with the id [i] in its hands: it took it off the wheel and has not yet both put it back
    and recorded its new place. *)
Definition processing (i : N) (p : timer_pc) : Prop :=
  match p with
  | TMaint _ _ t | TSpawn _ _ t _ | TSend _ _ t _ _ | TGate _ _ t _ | TPark _ _ t _ => t_id t = i
  | TMark _ _ j _ _ => j = i
  | _ => False
  end.
Definition not_handler (lb : label) : Prop := match lb with LHandler => False | _ => True end.
(** Steps of all other threads, while the scheduler does not have a task with the id [i] in its hands. *)
Inductive meanwhile (pf : profile) (i : N) : sys -> sys -> Prop :=
| mw_refl s : meanwhile pf i s s
| mw_step lb s s1 s2 : not_handler lb -> step pf lb s = Some s1 -> ~ processing i (tpc s1) -> meanwhile pf i s1 s2 -> meanwhile pf i s s2.
(** [n] steps of the event handler, with any such steps of the other threads before each of them. *)
Inductive handles (pf : profile) (i : N) : nat -> sys -> sys -> Prop :=
| handles_0 s : handles pf i 0 s s
| handles_S n s s1 s2 s' : meanwhile pf i s s1 -> step pf LHandler s1 = Some s2 -> handles pf i n s2 s' -> handles pf i (S n) s s'.
(** The task [t], whatever its present cylinder line, waits under the id [i] in the slot [sl]. *)
Definition holds (s : sys) (i sl : N) (t : task) : Prop := exists c, sits s i sl (set_cylinder_line c t).
(** [n] steps of the event handler, with any steps of the other threads before each of them. *)
Inductive turns (pf : profile) : nat -> sys -> sys -> Prop :=
| turns_0 s : turns pf 0 s s
| turns_S n ls s s1 s2 s' : Forall not_handler ls -> run pf ls s = Some s1 -> step pf LHandler s1 = Some s2 -> turns pf n s2 s' -> turns pf (S n) s s'.
