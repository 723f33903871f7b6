(** One running instance: the user's body and the future wrapped around it.
    Models /repo/src/timer/task.rs:571-678 ([Routine] for [AsyncFn] and [SyncFn]),
    [TaskContext::finish_task] (518-536) and the [quit] of the two handle types
    (/repo/src/timer/runtime_trace/task_handle.rs:274-292).

    The runtimes are modelled by what they promise: a spawned future is polled
    until it is ready, panics or is cancelled; [JoinHandle::abort] and
    [Task::cancel] drop the future at a moment when it is not being polled; a
    closure given to [spawn_blocking] or [unblock] runs on a thread of its own
    and cannot be interrupted; dropping a tokio JoinHandle detaches the closure,
    dropping a smol Task revokes it if it has not been started. *)
From Verif Require Import Base.
From Verif Require Import State.

Inductive rkind := AsyncFn | SyncFn.
Inductive runtime := Tokio | Smol.

(** The user's code: an async body, or the closure of a sync task. *)
Inductive body := BNew | BActive | BReturned | BPanicked | BDropped.
(** The future that [spawn_by_tokio], [spawn_by_smol] spawn: awaiting the body,
    in [finish_task] before the event is sent, after it; panicked; dropped. *)
Inductive wrapper := WAwait | WGate | WSent | WPanicked | WDropped.

(** What happens: user code starts, goes on, returns, panics; the finish event is
    sent; [quit] is called; the wrapper is dropped because of it. *)
Inductive robs := UStart | URun | UReturn | UPanic | SFinish | SQuit | SGone.
Record rst := RSt { r_body : body; r_wrap : wrapper; r_gate : bool; r_told : bool; r_log : list robs }.
Definition rinit : rst := RSt BNew WAwait false false [].

Inductive rlabel := RStart | RRun | RReturn | RPanic | RJoin | RGate | RSend | RQuit | RGone.

(** [self.0()] gives the user's future; the wrapper polls it: [user_future.await]
    (586-594, 605-613).  When it returns, the same poll goes on into [finish_task];
    when it panics, the wrapper panics. *)
Definition async_step (l : rlabel) (r : rst) : option rst :=
  match l, r_wrap r, r_body r with
  | RStart, WAwait, BNew => Some (RSt BActive WAwait (r_gate r) (r_told r) (UStart :: r_log r))
  | RRun, WAwait, BActive => Some (RSt BActive WAwait (r_gate r) (r_told r) (URun :: r_log r))
  | RReturn, WAwait, BActive => Some (RSt BReturned WGate (r_gate r) (r_told r) (UReturn :: r_log r))
  | RPanic, WAwait, BActive => Some (RSt BPanicked WPanicked (r_gate r) (r_told r) (UPanic :: r_log r))
  | _, _, _ => None
  end.

(** [spawn_blocking], [unblock] of the closure, before the wrapper is spawned
    (639, 661).  The closure does not need the wrapper.  [fn_handle.await]: tokio
    returns a JoinError for a panic, which is logged (646-649); smol passes the panic
    on (668). *)
Definition sync_step (rt : runtime) (l : rlabel) (r : rst) : option rst :=
  match l, r_body r with
  | RStart, BNew => Some (RSt BActive (r_wrap r) (r_gate r) (r_told r) (UStart :: r_log r))
  | RRun, BActive => Some (RSt BActive (r_wrap r) (r_gate r) (r_told r) (URun :: r_log r))
  | RReturn, BActive => Some (RSt BReturned (r_wrap r) (r_gate r) (r_told r) (UReturn :: r_log r))
  | RPanic, BActive => Some (RSt BPanicked (r_wrap r) (r_gate r) (r_told r) (UPanic :: r_log r))
  | RJoin, BReturned =>
      match r_wrap r with WAwait => Some (RSt BReturned WGate (r_gate r) (r_told r) (r_log r)) | _ => None end
  | RJoin, BPanicked =>
      match r_wrap r, rt with
      | WAwait, Tokio => Some (RSt BPanicked WGate (r_gate r) (r_told r) (r_log r))
      | WAwait, Smol => Some (RSt BPanicked WPanicked (r_gate r) (r_told r) (r_log r))
      | _, _ => None
      end
  | _, _ => None
  end.

(** The body when the wrapper is dropped: an async body is a part of it; a sync
    closure is detached (tokio) or revoked if still waiting for a thread (smol). *)
Definition body_dropped (k : rkind) (rt : runtime) (b : body) : body :=
  match k, rt, b with
  | AsyncFn, _, (BNew | BActive) => BDropped
  | SyncFn, Smol, BNew => BDropped
  | _, _, _ => b
  end.

Definition rstep (k : rkind) (rt : runtime) (l : rlabel) (r : rst) : option rst :=
  match l with
  (* the scheduler opens the gate after it has sent AppendTaskHandle (timer_core.rs:346-348) *)
  | RGate => if r_gate r then None else Some (RSt (r_body r) (r_wrap r) true (r_told r) (r_log r))
  (* wait.recv().await; send (task.rs:519-535) *)
  | RSend => match r_wrap r, r_gate r with
             | WGate, true => Some (RSt (r_body r) WSent true (r_told r) (SFinish :: r_log r))
             | _, _ => None
             end
  (* quit consumes the handle *)
  | RQuit => if r_told r then None else Some (RSt (r_body r) (r_wrap r) (r_gate r) true (SQuit :: r_log r))
  | RGone => match r_told r, r_wrap r with
             | true, (WAwait | WGate) => Some (RSt (body_dropped k rt (r_body r)) WDropped (r_gate r) true (SGone :: r_log r))
             | _, _ => None
             end
  | _ => match k with AsyncFn => async_step l r | SyncFn => sync_step rt l r end
  end.

Fixpoint rrun (k : rkind) (rt : runtime) (ls : list rlabel) (r : rst) : option rst :=
  match ls with
  | [] => Some r
  | l :: ls' => match rstep k rt l r with Some r' => rrun k rt ls' r' | None => None end
  end.
Definition rreach (k : rkind) (rt : runtime) (r : rst) : Prop := exists ls, rrun k rt ls rinit = Some r.
