(** The locks of the two shared maps.  A DashMap is an array of shards, each behind a
    readers-writer lock; get takes the lock of the key's shard for reading, get_mut, insert and
    remove for writing, and the guard that get and get_mut return keeps it until it is
    dropped (dashmap 4, Cargo.toml:33; not modelled further).  Here every operation of the scheduler
    and of the event handler is the sequence of locks it takes and gives back. *)
From Verif Require Import Base.

(** Shards of [wheel_queue] (keys: slots) and of [task_flag_map] (keys: task ids). *)
Inductive lock := Wheel (shard : N) | Flag (shard : N).
#[global] Instance lock_eq_dec : EqDecision lock.
Proof. solve_decision. Defined.
Inductive mode := Rd | Wr.
#[global] Instance mode_eq_dec : EqDecision mode.
Proof. solve_decision. Defined.
Inductive act := Acq (l : lock) (m : mode) | Rel (l : lock).

(** How keys are spread over the shards: any two functions. *)
Record shards := Shards { sw : N -> N; sf : N -> N }.

(** Operations of the event handler (event_handle.rs). What a lookup finds is a parameter. *)
Inductive hop :=
| HNone                                    (* StopTimer 206-209; a failing quit, add_task without a date *)
| HAdd (tid sl : N)                        (* add_task 297-299, record_task_mark 315-319 *)
| HUpdate (tid : N) (found : option N)     (* update_task 322-332 *)
| HAdvance (tid : N) (found : option (N * option N)) (* advance_task 335-374: slot of the mark; slot of the hand if the task is there *)
| HRemove (tid : N) (found : option N)     (* remove_task 377-400, then remove of the mark 231-236 *)
| HEnd (tid : N)                           (* cancel_task 431-443, finish_task 460-471 *)
| HAppend (tid : N).                       (* maintain_task_status 487-505; the send in push_instance does not wait *)
Definition write_wheel (sh : shards) (sl : N) : list act := [Acq (Wheel (sw sh sl)) Wr; Rel (Wheel (sw sh sl))].
Definition write_flag (sh : shards) (tid : N) : list act := [Acq (Flag (sf sh tid)) Wr; Rel (Flag (sf sh tid))].
Definition hop_acts (sh : shards) (o : hop) : list act :=
  match o with
  | HNone => []
  | HAdd tid sl => write_wheel sh sl ++ write_flag sh tid
  (* the guard [task_mark] lives to the end of the function *)
  | HUpdate tid None => [Acq (Flag (sf sh tid)) Rd; Rel (Flag (sf sh tid))]
  | HUpdate tid (Some sl) => Acq (Flag (sf sh tid)) Rd :: write_wheel sh sl ++ [Rel (Flag (sf sh tid))]
  | HAdvance tid None => [Acq (Flag (sf sh tid)) Rd; Rel (Flag (sf sh tid))]
  | HAdvance tid (Some (sl, None)) => Acq (Flag (sf sh tid)) Rd :: write_wheel sh sl ++ [Rel (Flag (sf sh tid))]
  (* the block at 349-361 drops the guard of the first slot *)
  | HAdvance tid (Some (sl, Some sl')) =>
      Acq (Flag (sf sh tid)) Rd :: write_wheel sh sl ++ write_wheel sh sl' ++ [Rel (Flag (sf sh tid))]
  | HRemove tid None => [Acq (Flag (sf sh tid)) Rd; Rel (Flag (sf sh tid))] ++ write_flag sh tid
  | HRemove tid (Some sl) => Acq (Flag (sf sh tid)) Rd :: write_wheel sh sl ++ [Rel (Flag (sf sh tid))] ++ write_flag sh tid
  | HEnd tid => write_flag sh tid
  | HAppend tid => write_flag sh tid
  end.

(** Operations of the scheduler (timer_core.rs). *)
Inductive top :=
| TScan (sl : N)                           (* 218-223 *)
| TTake (sl : N)                           (* 239-245 *)
| TLimit (tid : N)                         (* maintain_task 307-316 *)
| TPark (sl tid : N) (found : bool)        (* handle_task 386-407 *)
| TShrink (sl : N).                        (* 258-260 *)
Definition top_acts (sh : shards) (o : top) : list act :=
  match o with
  | TScan sl | TTake sl | TShrink sl => write_wheel sh sl
  | TLimit tid => [Acq (Flag (sf sh tid)) Rd; Rel (Flag (sf sh tid))]
  | TPark sl tid found => write_wheel sh sl ++ (if found then write_flag sh tid else [])
  end.

(** A thread: the locks it holds and what is left of its operation. *)
Record thread := Thread { th_held : list (lock * mode); th_left : list act }.
Inductive who := Scheduler | Handler.
Definition state : Type := who -> thread.
Definition start : state := fun _ => Thread [] [].
Definition peer (w : who) : who := match w with Scheduler => Handler | Handler => Scheduler end.
Definition upd (w : who) (t : thread) (s : state) : state :=
  fun x => match w, x with Scheduler, Scheduler | Handler, Handler => t | _, _ => s x end.

(** Readers share; a writer excludes everybody, the thread itself included. *)
Definition conflict (l : lock) (m : mode) (h : lock * mode) : bool :=
  bool_decide (fst h = l) && match m, snd h with Rd, Rd => false | _, _ => true end.
Definition free (l : lock) (m : mode) (s : state) (w : who) : bool :=
  negb (existsb (conflict l m) (th_held (s w))).
Definition grantable (l : lock) (m : mode) (s : state) : bool := free l m s Scheduler && free l m s Handler.
Fixpoint give_back (l : lock) (h : list (lock * mode)) : list (lock * mode) :=
  match h with [] => [] | x :: r => if bool_decide (fst x = l) then r else x :: give_back l r end.

(** One step of thread [w]: the next act of its operation, which waits if it asks for a lock that is
    not free; or, when the operation is over, the beginning of any other. *)
Inductive lstep (sh : shards) : who -> state -> state -> Prop :=
| s_acq w s l m r : th_left (s w) = Acq l m :: r -> grantable l m s = true ->
    lstep sh w s (upd w (Thread ((l, m) :: th_held (s w)) r) s)
| s_rel w s l r : th_left (s w) = Rel l :: r ->
    lstep sh w s (upd w (Thread (give_back l (th_held (s w))) r) s)
| s_handler s o : th_left (s Handler) = [] -> lstep sh Handler s (upd Handler (Thread (th_held (s Handler)) (hop_acts sh o)) s)
| s_scheduler s o : th_left (s Scheduler) = [] -> lstep sh Scheduler s (upd Scheduler (Thread (th_held (s Scheduler)) (top_acts sh o)) s).
Definition lreach (sh : shards) : state -> Prop := rtc (fun a b => exists w, lstep sh w a b) start.

(** The thread asks for a lock it cannot have now. *)
Definition waits (s : state) (w : who) (l : lock) (m : mode) : Prop :=
  (exists r, th_left (s w) = Acq l m :: r) /\ grantable l m s = false.
