(** Tasks, wheel slots and task marks.
    Models /repo/src/timer/task.rs:680-698 and 1031-1117, /repo/src/timer/slot.rs. *)
From Verif Require Import Base.
From Verif Require Export Frequency.

(** [Task] (task.rs:682-698).  [t_uid] stands for the field [routine]: it is
    the identity of this Task value (a Task is neither Clone nor Copy, so Rust's
    ownership makes it unique). *)
Record task := Task {
  t_uid : N;
  t_id : N;
  t_freq : freq;
  t_maxrun : option N;   (* maximum_running_time *)
  t_cyl : N;             (* cylinder_line *)
  t_valid : bool;
  t_maxpar : option N    (* maximum_parallel_runnable_num *)
}.

(** [Task::set_cylinder_line] (task.rs:1056-1058). *)
Definition set_cylinder_line (c : N) (t : task) : task :=
  {| t_uid := t_uid t; t_id := t_id t; t_freq := t_freq t; t_maxrun := t_maxrun t;
     t_cyl := c; t_valid := t_valid t; t_maxpar := t_maxpar t |}.
Definition set_freq (f : freq) (t : task) : task :=
  {| t_uid := t_uid t; t_id := t_id t; t_freq := f; t_maxrun := t_maxrun t;
     t_cyl := t_cyl t; t_valid := t_valid t; t_maxpar := t_maxpar t |}.
Definition set_valid (v : bool) (t : task) : task :=
  {| t_uid := t_uid t; t_id := t_id t; t_freq := t_freq t; t_maxrun := t_maxrun t;
     t_cyl := t_cyl t; t_valid := v; t_maxpar := t_maxpar t |}.

(** [Task::clear_cylinder_line] (task.rs:1074-1076). *)
Definition clear_cylinder_line (t : task) : task := set_cylinder_line 0 t.

(** [Task::is_can_running] (task.rs:1099-1104): valid and cylinder_line == 0. *)
Definition is_can_running (t : task) : bool :=
  if t_valid t then t_cyl t =? 0 else false.

(** [Task::check_arrived] (task.rs:1080-1089).  [sub_cylinder_line] is only
    reached with cylinder_line > 0, so it does not underflow. *)
Definition check_arrived (t : task) : bool * task :=
  if t_cyl t =? 0 then (is_can_running t, t)
  else (false, set_cylinder_line (t_cyl t - 1) t).

(** [Task::down_count_and_set_vaild] (task.rs:1035-1051). *)
Definition down_count_and_set_valid (pf : profile) (t : task) : res task :=
  let! f := down_count pf (t_freq t) in
  Ret (set_valid (negb (is_down_over f)) (set_freq f t)).

(** [Task::get_next_exec_timestamp] (task.rs:1114-1116). *)
Definition get_next_exec_timestamp (pf : profile) (t : task) : res (option N * task) :=
  let! (o, f) := next_alarm_timestamp pf (t_freq t) in
  Ret (option_map as_u64 o, set_freq f t).

(** [Task::get_maximum_running_time] (task.rs:1062-1064). *)
Definition get_maximum_running_time (pf : profile) (t : task) (start : N) : res (option N) :=
  match t_maxrun t with
  | None => Ret None
  | Some m => let! e := add64 pf m start in Ret (Some e)
  end.

(** [Slot] (slot.rs:8-13): the task_map. *)
Notation slot := (gmap N task).
(** [Slot::add_task] (slot.rs:22-24); the replaced task, if any, is dropped. *)
Definition slot_add_task (sl : slot) (t : task) : slot := <[t_id t := t]> sl.
(** [Slot::update_task] (slot.rs:26-35): both branches leave the new task
    under its id; the previous one is returned (and dropped by the caller). *)
Definition slot_update_task (sl : slot) (t : task) : slot :=
  match sl !! t_id t with
  | Some _ => <[t_id t := t]> sl
  | None => <[t_id t := t]> sl
  end.
(** [Slot::remove_task] (slot.rs:37-39). *)
Definition slot_remove_task (sl : slot) (tid : N) : option task * slot :=
  (sl !! tid, delete tid sl).
(** [Slot::arrival_time_tasks] (slot.rs:43-53).  The ids are returned in the
    map's own order here; the scheduler model processes them in an arbitrary
    order, as HashMap iteration does.  [shrink] (slot.rs:58-60) only affects
    capacity and is not modelled. *)
Definition slot_arrival_time_tasks (sl : slot) : list N * slot :=
  ((fun p => t_id (snd p)) <$> filter (fun p => fst (check_arrived (snd p)) = true) (map_to_list sl),
   (fun t => snd (check_arrived t)) <$> sl).

(** The wheel: [SharedTaskWheel = Arc<DashMap<u64, Slot>>] (entity.rs:44). *)
Notation wheel_t := (gmap N slot).
(** [EventHandle::init_task_wheel] (/repo/src/timer/event_handle.rs:520-528). *)
Definition init_task_wheel (n : nat) : wheel_t :=
  foldr (fun i w => <[N.of_nat i := ∅]> w) ∅ (seq 0 n).
