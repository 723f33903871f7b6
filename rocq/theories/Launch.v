(** DelayTimerBuilder: the runtime setters and [build].
    /repo/src/entity.rs:78-87, 131-185, 215-324, 397-517; EventHandleBuilder,
    /repo/src/timer/event_handle.rs:27-80.  Runtimes, channels and shared headers are
    values with an identity: a number, handed out by the [world]. *)
From Verif Require Import Base.

(** Counters of what exists already: tokio runtimes, event channels, headers. *)
Record world := World { w_rt : N; w_chan : N; w_hdr : N }.

(** [RuntimeKind] and [RuntimeInstance] (entity.rs:131-146). *)
Inductive rkind := Smol | Tokio.
#[global] Instance rkind_eq_dec : EqDecision rkind.
Proof. solve_decision. Defined.
Record rt_instance := RtInstance { ri_inner : option N; ri_kind : rkind }.
(** [RuntimeInstance::default] (148-154). *)
Definition default_instance : rt_instance := RtInstance None Tokio.

(** [DelayTimerBuilder] (80-87).  The pair in [timer_event_channel] is a sender
    and a receiver, each naming the channel it is an end of. *)
Record tbuilder := TBuilder {
  tb_rt : rt_instance;
  tb_chan : option (N * N);
  tb_report : bool
}.
(** [DelayTimerBuilder::default] (derived, 79). *)
Definition new_tbuilder : tbuilder := TBuilder default_instance None false.

(** The setters: 440-445, 450-454, 457-462, 465-470 and enable_status_report, 481-484. *)
Definition smol_runtime_by_default (b : tbuilder) : tbuilder := TBuilder (RtInstance None Smol) (tb_chan b) (tb_report b).
Definition tokio_runtime_by_default (b : tbuilder) : tbuilder := TBuilder (RtInstance None Tokio) (tb_chan b) (tb_report b).
Definition tokio_runtime_by_custom (rt : N) (b : tbuilder) : tbuilder := TBuilder (RtInstance (Some rt) Tokio) (tb_chan b) (tb_report b).
Definition tokio_runtime_shared_by_custom (rt : N) (b : tbuilder) : tbuilder := TBuilder (RtInstance (Some rt) Tokio) (tb_chan b) (tb_report b).
Definition enable_status_report (b : tbuilder) : tbuilder := TBuilder (tb_rt b) (tb_chan b) true.

(** [get_or_insert_with(unbounded)] (311-323). *)
Definition event_channel (w : world) (b : tbuilder) : (N * N) * world * tbuilder :=
  match tb_chan b with
  | Some c => (c, w, b)
  | None => let c := (w_chan w, w_chan w) in
            (c, World (w_rt w) (w_chan w + 1) (w_hdr w), TBuilder (tb_rt b) (Some c) (tb_report b))
  end.
Definition get_timer_event_sender (w : world) (b : tbuilder) : N * world * tbuilder :=
  let '(c, w', b') := event_channel w b in (fst c, w', b').
Definition get_timer_event_receiver (w : world) (b : tbuilder) : N * world * tbuilder :=
  let '(c, w', b') := event_channel w b in (snd c, w', b').

(** [RuntimeInstance::init_tokio_runtime] (164-171); the expect panics if tokio
    cannot build a runtime ([ok] is false). *)
Definition init_tokio_runtime (ok : bool) (w : world) : res (rt_instance * world) :=
  if ok then Ret (RtInstance (Some (w_rt w)) Tokio, World (w_rt w + 1) (w_chan w) (w_hdr w)) else Panic.

(** [SharedHeader]: its identity (wheel, marks, hand … are shared by clones) and the
    runtime instance (98-115). *)
Record header := Header { sh_id : N; sh_rt : rt_instance }.

(** The threads started: the scheduler and the event handler; [on] is the tokio
    runtime whose block_on they run in, None being smol's. *)
Inductive thread :=
| Scheduler (on : option N) (tx : N) (h : header)
| Handler (on : option N) (rx tx : N) (sub : rkind) (report : bool) (h : header).

(** [EventHandleBuilder] (event_handle.rs:27-37); [build] (58-80): the sub-workers get the
    sender and the runtime kind of the header. *)
Record hbuilder := HBuilder { eb_hdr : option header; eb_rx : option N; eb_tx : option N; eb_report : bool }.
Definition handle_build (e : hbuilder) : option (N * N * rkind * bool * header) :=
  match eb_hdr e, eb_tx e, eb_rx e with
  | Some h, Some tx, Some rx => Some (rx, tx, ri_kind (sh_rt h), eb_report e, h)
  | _, _, _ => None
  end.

(** [assign_task] (248-255), run_async_schedule, run_event_handle (256-283). *)
Definition assign_task (eh : N * N * rkind * bool * header) (h : header) (w : world) (b : tbuilder) : list thread * world * tbuilder :=
  let '(tx, w1, b1) := get_timer_event_sender w b in
  let '(rx, tx', k, r, h') := eh in
  ([Scheduler None tx h; Handler None rx tx' k r h'], w1, b1).
(** [assign_task_by_tokio] (398-437): without a runtime in the header no thread starts. *)
Definition assign_task_by_tokio (eh : N * N * rkind * bool * header) (h : header) (w : world) (b : tbuilder) : list thread * world * tbuilder :=
  let '(tx, w1, b1) := get_timer_event_sender w b in
  let '(rx, tx', k, r, h') := eh in
  (match ri_inner (sh_rt h) with
   | Some rt => [Scheduler (Some rt) tx h; Handler (Some rt) rx tx' k r h']
   | None => []
   end, w1, b1).

(** [lauch] (221-246). *)
Definition launch (h : header) (w : world) (b : tbuilder) : res (list thread * world * tbuilder) :=
  let '(rx, w1, b1) := get_timer_event_receiver w b in
  let '(tx, w2, b2) := get_timer_event_sender w1 b1 in
  match handle_build (HBuilder (Some h) (Some rx) (Some tx) (tb_report b2)) with
  | None => Panic
  | Some eh => Ret (match ri_kind (tb_rt b2) with
                    | Smol => assign_task eh h w2 b2
                    | Tokio => assign_task_by_tokio eh h w2 b2
                    end)
  end.

(** [DelayTimer] (91-97). *)
Record dtimer := DTimer { dt_hdr : header; dt_tx : N; dt_reporter : bool }.

(** [build] and [init_delay_timer] (216-218, 285-309). *)
Definition build (ok : bool) (w : world) (b : tbuilder) : res (dtimer * list thread * world) :=
  let! (rt, w1) := (match ri_kind (tb_rt b), ri_inner (tb_rt b) with
                    | Tokio, None => init_tokio_runtime ok w
                    | _, _ => Ret (tb_rt b, w)
                    end) in
  let b1 := TBuilder rt (tb_chan b) (tb_report b) in
  let h := Header (w_hdr w1) rt in
  let w2 := World (w_rt w1) (w_chan w1) (w_hdr w1 + 1) in
  let '(tx, w3, b3) := get_timer_event_sender w2 b1 in
  let! (ts, w4, b4) := launch h w3 b3 in
  Ret (DTimer h tx (tb_report b4), ts, w4).
