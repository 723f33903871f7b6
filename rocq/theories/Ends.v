(** Who holds the channels, and what ends when they are let go.

    A channel of async-channel counts its senders and its receivers, and closes when either
    count reaches 0.  [recv] fails on a channel that is empty and closed, [send] and [try_send]
    fail on a closed one.  An [Arc] counts its owners and drops its content when the count
    reaches 0.  Here the counts of one DelayTimer are followed through the code:

    - the event channel ([unbounded::<TimerEvent>], entity.rs:309-323);
    - the channel of RecycleUnits (event_handle.rs:555-557);
    - the [Arc<RecyclingBins>] (event_handle.rs:559-563), which holds a sender of the event channel
      (sweeper.rs:64) and the receiver of the RecycleUnits (61);
    - the [Arc<Runtime>] of tokio in the [RuntimeInstance] of every [SharedHeader] (entity.rs:112)
      and in both thread closures (entity.rs:407, 427).

    What the messages say is in System.v; here an event is either [StopTimer] or another. *)
From stdpp Require Import prelude.
From Coq Require Import Lia.
Local Open Scope nat_scope.

Inductive ekind := Smol | Tokio.
Inductive emsg := MStop | MOther.
(** The event handler thread: spawned, in [handle_event], returned from it, or unwound by a panic. *)
Inductive hstate := HNew | HRun | HRet | HPanic.
Global Instance hstate_eq_dec : EqDecision hstate.
Proof. solve_decision. Defined.
Global Instance emsg_eq_dec : EqDecision emsg.
Proof. solve_decision. Defined.

Record own := Own {
  o_builder : bool;      (* [build] has not returned: the builder holds a pair of ends (entity.rs:81) *)
  o_timers : nat;        (* values of type DelayTimer (entity.rs:91-97) *)
  o_chains : nat;        (* TaskInstancesChain, with a sender (task_instance.rs:70, entity.rs:340) *)
  o_insts : nat;         (* TaskInstance, with a sender (task_instance.rs:25-28) *)
  o_ctxs : nat;          (* TaskContext of a running instance, with a sender (timer_core.rs:329) *)
  o_user_rt : nat;       (* the user's own [Arc<Runtime>], if they gave one (entity.rs:447-455) *)
  o_sched : bool;        (* the scheduler thread is alive; its Timer holds a sender *)
  o_hand : hstate;
  o_rec : bool;          (* the task [recycle] exists *)
  o_add : bool;          (* the task [add_recycle_unit] exists *)
  o_motiv : bool;        (* shared_motivation *)
  o_queue : list emsg;
  o_units : nat;         (* messages in the channel of RecycleUnits *)
  o_calls : list bool;   (* results of the calls of the user, newest first; [true] is Ok *)
  (* the counts *)
  o_snd : nat; o_rcv : nat;   (* event channel *)
  o_rsnd : nat;               (* senders of RecycleUnits *)
  o_bins : nat;               (* Arc<RecyclingBins> *)
  o_rt : nat                  (* Arc<Runtime> *)
}.
Definition w_builder v (o : own) : own := Own v (o_timers o) (o_chains o) (o_insts o) (o_ctxs o) (o_user_rt o) (o_sched o) (o_hand o) (o_rec o) (o_add o) (o_motiv o) (o_queue o) (o_units o) (o_calls o) (o_snd o) (o_rcv o) (o_rsnd o) (o_bins o) (o_rt o).
Definition w_timers v (o : own) : own := Own (o_builder o) v (o_chains o) (o_insts o) (o_ctxs o) (o_user_rt o) (o_sched o) (o_hand o) (o_rec o) (o_add o) (o_motiv o) (o_queue o) (o_units o) (o_calls o) (o_snd o) (o_rcv o) (o_rsnd o) (o_bins o) (o_rt o).
Definition w_chains v (o : own) : own := Own (o_builder o) (o_timers o) v (o_insts o) (o_ctxs o) (o_user_rt o) (o_sched o) (o_hand o) (o_rec o) (o_add o) (o_motiv o) (o_queue o) (o_units o) (o_calls o) (o_snd o) (o_rcv o) (o_rsnd o) (o_bins o) (o_rt o).
Definition w_insts v (o : own) : own := Own (o_builder o) (o_timers o) (o_chains o) v (o_ctxs o) (o_user_rt o) (o_sched o) (o_hand o) (o_rec o) (o_add o) (o_motiv o) (o_queue o) (o_units o) (o_calls o) (o_snd o) (o_rcv o) (o_rsnd o) (o_bins o) (o_rt o).
Definition w_ctxs v (o : own) : own := Own (o_builder o) (o_timers o) (o_chains o) (o_insts o) v (o_user_rt o) (o_sched o) (o_hand o) (o_rec o) (o_add o) (o_motiv o) (o_queue o) (o_units o) (o_calls o) (o_snd o) (o_rcv o) (o_rsnd o) (o_bins o) (o_rt o).
Definition w_user_rt v (o : own) : own := Own (o_builder o) (o_timers o) (o_chains o) (o_insts o) (o_ctxs o) v (o_sched o) (o_hand o) (o_rec o) (o_add o) (o_motiv o) (o_queue o) (o_units o) (o_calls o) (o_snd o) (o_rcv o) (o_rsnd o) (o_bins o) (o_rt o).
Definition w_sched v (o : own) : own := Own (o_builder o) (o_timers o) (o_chains o) (o_insts o) (o_ctxs o) (o_user_rt o) v (o_hand o) (o_rec o) (o_add o) (o_motiv o) (o_queue o) (o_units o) (o_calls o) (o_snd o) (o_rcv o) (o_rsnd o) (o_bins o) (o_rt o).
Definition w_hand v (o : own) : own := Own (o_builder o) (o_timers o) (o_chains o) (o_insts o) (o_ctxs o) (o_user_rt o) (o_sched o) v (o_rec o) (o_add o) (o_motiv o) (o_queue o) (o_units o) (o_calls o) (o_snd o) (o_rcv o) (o_rsnd o) (o_bins o) (o_rt o).
Definition w_rec v (o : own) : own := Own (o_builder o) (o_timers o) (o_chains o) (o_insts o) (o_ctxs o) (o_user_rt o) (o_sched o) (o_hand o) v (o_add o) (o_motiv o) (o_queue o) (o_units o) (o_calls o) (o_snd o) (o_rcv o) (o_rsnd o) (o_bins o) (o_rt o).
Definition w_add v (o : own) : own := Own (o_builder o) (o_timers o) (o_chains o) (o_insts o) (o_ctxs o) (o_user_rt o) (o_sched o) (o_hand o) (o_rec o) v (o_motiv o) (o_queue o) (o_units o) (o_calls o) (o_snd o) (o_rcv o) (o_rsnd o) (o_bins o) (o_rt o).
Definition w_motiv v (o : own) : own := Own (o_builder o) (o_timers o) (o_chains o) (o_insts o) (o_ctxs o) (o_user_rt o) (o_sched o) (o_hand o) (o_rec o) (o_add o) v (o_queue o) (o_units o) (o_calls o) (o_snd o) (o_rcv o) (o_rsnd o) (o_bins o) (o_rt o).
Definition w_queue v (o : own) : own := Own (o_builder o) (o_timers o) (o_chains o) (o_insts o) (o_ctxs o) (o_user_rt o) (o_sched o) (o_hand o) (o_rec o) (o_add o) (o_motiv o) v (o_units o) (o_calls o) (o_snd o) (o_rcv o) (o_rsnd o) (o_bins o) (o_rt o).
Definition w_units v (o : own) : own := Own (o_builder o) (o_timers o) (o_chains o) (o_insts o) (o_ctxs o) (o_user_rt o) (o_sched o) (o_hand o) (o_rec o) (o_add o) (o_motiv o) (o_queue o) v (o_calls o) (o_snd o) (o_rcv o) (o_rsnd o) (o_bins o) (o_rt o).
Definition w_calls v (o : own) : own := Own (o_builder o) (o_timers o) (o_chains o) (o_insts o) (o_ctxs o) (o_user_rt o) (o_sched o) (o_hand o) (o_rec o) (o_add o) (o_motiv o) (o_queue o) (o_units o) v (o_snd o) (o_rcv o) (o_rsnd o) (o_bins o) (o_rt o).
Definition w_snd v (o : own) : own := Own (o_builder o) (o_timers o) (o_chains o) (o_insts o) (o_ctxs o) (o_user_rt o) (o_sched o) (o_hand o) (o_rec o) (o_add o) (o_motiv o) (o_queue o) (o_units o) (o_calls o) v (o_rcv o) (o_rsnd o) (o_bins o) (o_rt o).
Definition w_rcv v (o : own) : own := Own (o_builder o) (o_timers o) (o_chains o) (o_insts o) (o_ctxs o) (o_user_rt o) (o_sched o) (o_hand o) (o_rec o) (o_add o) (o_motiv o) (o_queue o) (o_units o) (o_calls o) (o_snd o) v (o_rsnd o) (o_bins o) (o_rt o).
Definition w_rsnd v (o : own) : own := Own (o_builder o) (o_timers o) (o_chains o) (o_insts o) (o_ctxs o) (o_user_rt o) (o_sched o) (o_hand o) (o_rec o) (o_add o) (o_motiv o) (o_queue o) (o_units o) (o_calls o) (o_snd o) (o_rcv o) v (o_bins o) (o_rt o).
Definition w_bins v (o : own) : own := Own (o_builder o) (o_timers o) (o_chains o) (o_insts o) (o_ctxs o) (o_user_rt o) (o_sched o) (o_hand o) (o_rec o) (o_add o) (o_motiv o) (o_queue o) (o_units o) (o_calls o) (o_snd o) (o_rcv o) (o_rsnd o) v (o_rt o).
Definition w_rt v (o : own) : own := Own (o_builder o) (o_timers o) (o_chains o) (o_insts o) (o_ctxs o) (o_user_rt o) (o_sched o) (o_hand o) (o_rec o) (o_add o) (o_motiv o) (o_queue o) (o_units o) (o_calls o) (o_snd o) (o_rcv o) (o_rsnd o) (o_bins o) v.

(** Cloning and dropping a sender of the event channel. *)
Definition more_snd (o : own) : own := w_snd (S (o_snd o)) o.
Definition less_snd (o : own) : own := w_snd (pred (o_snd o)) o.
Definition more_rt (k : nat) (o : own) : own := w_rt (o_rt o + k) o.
Definition less_rt (k : nat) (o : own) : own := w_rt (o_rt o - k) o.
(** Cloning and dropping an [Arc<RecyclingBins>]: the last drop drops its sender. *)
Definition more_bins (o : own) : own := w_bins (S (o_bins o)) o.
Definition less_bins (o : own) : own :=
  match o_bins o with
  | O => o
  | S O => less_snd (w_bins 0 o)
  | S n => w_bins n o
  end.
(** [send]/[try_send]: the message is queued unless there is no receiver. *)
Definition open (o : own) : bool := negb (o_rcv o =? 0)%nat.
Definition put (m : emsg) (o : own) : own := if open o then w_queue (o_queue o ++ [m]) o else o.
Definition call (m : emsg) (o : own) : own := w_calls (open o :: o_calls o) (put m o).

(** The state when [init_delay_timer] (entity.rs:279-307) has run and [build] (215-217) is about to drop the builder.
    Senders: builder, DelayTimer, RecyclingBins, Timer.  Receivers: builder, EventHandle.  Runtime: builder, the headers of
    DelayTimer, Timer and EventHandle, the two closures, and [n] of the user. *)
Definition built (n : nat) : own :=
  Own true 1 0 0 0 n true HNew false false true [] 0 [] 4 2 1 1 (6 + n).

Inductive olabel :=
| OBuilderDrop | OTimerClone | OTimerDrop | OSend (m : emsg) | OInsert
| OChainNext | OChainDrop | OInstClone | OInstDrop | OInstCancel | ORtClone | ORtDrop
| OStart | OCtxFinish | OCtxDrop | OSchedCheck | OSchedPanic
| OHandStart | OHandRecv (unit : bool) | OHandPanic
| OTimeout | OAddRecv | ORtGone.

(** The scheduler thread ends: Timer (sender, header) and the closure's runtime are dropped. *)
Definition sched_ends (o : own) : own := less_rt 2 (less_snd (w_sched false o)).
(** The event handler thread ends, as [how]: EventHandle (receiver, header, RecyclingBinWorker with its Arc and sender) and the
    closure's runtime are dropped. *)
Definition hand_ends (how : hstate) (o : own) : own :=
  less_rt 2 (less_bins (w_rsnd (pred (o_rsnd o)) (w_rcv (pred (o_rcv o)) (w_hand how o)))).

Definition ostep (k : ekind) (lb : olabel) (o : own) : option own :=
  match lb with
  | OBuilderDrop => if o_builder o then Some (less_rt 1 (w_rcv (pred (o_rcv o)) (less_snd (w_builder false o)))) else None
  (* The user has the DelayTimer when [build] has returned. *)
  | OTimerClone => if negb (o_builder o) && negb (o_timers o =? 0)%nat then Some (more_rt 1 (more_snd (w_timers (S (o_timers o)) o))) else None
  | OTimerDrop => if negb (o_builder o) && negb (o_timers o =? 0)%nat then Some (less_rt 1 (less_snd (w_timers (pred (o_timers o)) o))) else None
  (* [seed_timer_event] (entity.rs:387-389) *)
  | OSend m => if negb (o_builder o) && negb (o_timers o =? 0)%nat then Some (call m o) else None
  (* [insert_task] (entity.rs:336-347): the chain gets its sender first; if sending fails it is dropped. *)
  | OInsert => if negb (o_builder o) && negb (o_timers o =? 0)%nat then
      let o1 := more_snd o in
      Some (if open o1 then w_chains (S (o_chains o1)) (call MOther o1) else less_snd (call MOther o1)) else None
  (* [next*] (task_instance.rs:208-242), when there is an instance *)
  | OChainNext => if negb (o_chains o =? 0)%nat then Some (more_snd (w_insts (S (o_insts o)) o)) else None
  | OChainDrop => if negb (o_chains o =? 0)%nat then Some (less_snd (w_chains (pred (o_chains o)) o)) else None
  | OInstClone => if negb (o_insts o =? 0)%nat then Some (more_snd (w_insts (S (o_insts o)) o)) else None
  | OInstDrop => if negb (o_insts o =? 0)%nat then Some (less_snd (w_insts (pred (o_insts o)) o)) else None
  (* [cancel] of a running instance (task_instance.rs:183-192) *)
  | OInstCancel => if negb (o_insts o =? 0)%nat then Some (call MOther o) else None
  | ORtClone => if negb (o_user_rt o =? 0)%nat then Some (more_rt 1 (w_user_rt (S (o_user_rt o)) o)) else None
  | ORtDrop => if negb (o_user_rt o =? 0)%nat then Some (less_rt 1 (w_user_rt (pred (o_user_rt o)) o)) else None
  (* [maintain_task] (timer_core.rs:323-346): a context with a sender, then AppendTaskHandle *)
  | OStart => if o_sched o then Some (put MOther (more_snd (w_ctxs (S (o_ctxs o)) o))) else None
  (* [finish_task] (task.rs:518-528), then the context is dropped; or it is dropped by a panic or a cancel *)
  | OCtxFinish => if negb (o_ctxs o =? 0)%nat then Some (less_snd (w_ctxs (pred (o_ctxs o)) (put MOther o))) else None
  | OCtxDrop => if negb (o_ctxs o =? 0)%nat then Some (less_snd (w_ctxs (pred (o_ctxs o)) o)) else None
  (* [async_schedule] (timer_core.rs:203-205) *)
  | OSchedCheck => if o_sched o then Some (if o_motiv o then o else sched_ends o) else None
  | OSchedPanic => if o_sched o then Some (sched_ends o) else None
  (* [init_sub_workers] (event_handle.rs:124-166): both tasks get a clone of the Arc *)
  | OHandStart => match o_hand o with
      | HNew => Some (w_hand HRun (w_add true (w_rec true (more_bins (more_bins o)))))
      | _ => None end
  (* [handle_event] (168-200): [recv] waits while there is a sender.  [unit]: the event was an AppendTaskHandle with a deadline, whose
     unit is sent on (event_handle.rs:265-272). *)
  | OHandRecv unit => match o_hand o, o_queue o with
      | HRun, m :: q =>
          let o1 := w_queue q o in
          let o2 := if decide (m = MStop) then w_motiv false o1 else o1 in
          Some (if unit && negb (o_bins o2 =? 0)%nat then w_units (S (o_units o2)) o2 else o2)
      | HRun, [] => if (o_snd o =? 0)%nat then Some (hand_ends HRet o) else None
      | _, _ => None end
  | OHandPanic => match o_hand o with HNew | HRun => Some (hand_ends HPanic o) | _ => None end
  (* [recycle] (sweeper.rs:92-131) sends timeouts and loops for ever *)
  | OTimeout => if o_rec o then Some (put MOther o) else None
  (* [add_recycle_unit] (143-164) ends when its channel is closed and empty *)
  | OAddRecv => if o_add o then
      match o_units o with
      | S n => Some (w_units n o)
      | O => if (o_rsnd o =? 0)%nat then Some (less_bins (w_add false o)) else None
      end else None
  (* When the tokio runtime is dropped its tasks are; the tasks of smol's global executor stay. *)
  | ORtGone => match k with
      | Smol => None
      | Tokio => if (o_rt o =? 0)%nat && (o_rec o || o_add o) then
          let o1 := if o_rec o then less_bins (w_rec false o) else o in
          Some (if o_add o1 then less_bins (w_add false o1) else o1) else None
      end
  end.
Fixpoint orun (k : ekind) (ls : list olabel) (o : own) : option own :=
  match ls with
  | [] => Some o
  | lb :: ls' => match ostep k lb o with Some o' => orun k ls' o' | None => None end
  end.
Definition oreach (k : ekind) (n : nat) (o : own) : Prop := exists ls, orun k ls (built n) = Some o.

(** The counts are the numbers of owners. *)
Definition nb (b : bool) : nat := if b then 1 else 0.
Definition live (h : hstate) : nat := match h with HNew | HRun => 1 | _ => 0 end.
Record oinv (k : ekind) (o : own) : Prop := {
  oi_snd : o_snd o = nb (o_builder o) + o_timers o + o_chains o + o_insts o + o_ctxs o + nb (o_sched o) + nb (negb (o_bins o =? 0)%nat);
  oi_rcv : o_rcv o = nb (o_builder o) + live (o_hand o);
  oi_rsnd : o_rsnd o = live (o_hand o);
  oi_bins : o_bins o = live (o_hand o) + nb (o_rec o) + nb (o_add o);
  oi_rt : o_rt o = nb (o_builder o) + o_timers o + o_user_rt o + 2 * nb (o_sched o) + 2 * live (o_hand o);
  oi_new : o_hand o = HNew -> o_rec o = false /\ o_add o = false;
  oi_run : o_hand o = HRun -> o_rec o = true /\ o_add o = true;
  oi_ret : o_hand o <> HRet;
  oi_smol : k = Smol -> o_add o = true -> o_rec o = true
}.
Lemma oinv_built k n : oinv k (built n).
Proof. split; cbn; try lia; try done. Qed.
Lemma oinv_step k lb o o' : oinv k o -> ostep k lb o = Some o' -> oinv k o'.
Proof.
  intros [H1 H2 H3 H4 H5 H6 H7 H8 H9] H. destruct o as [b ti ch ins ctx ur sc h rc ad mo q un ca snd rcv rsnd bins rt].
  cbn [o_builder o_timers o_chains o_insts o_ctxs o_user_rt o_sched o_hand o_rec o_add o_motiv o_queue o_units o_calls o_snd o_rcv o_rsnd o_bins o_rt] in *.
  assert (Hh : h = HNew /\ rc = false /\ ad = false \/ h = HRun /\ rc = true /\ ad = true \/ h = HPanic).
  { destruct h; [left; naive_solver|right; left; naive_solver|done|by right; right]. } clear H6 H7 H8.
  destruct lb; cbn in H.
  all: destruct Hh as [(-> & -> & ->)|[(-> & -> & ->)| ->]]; cbn in H, H2, H3, H4, H5.
  all: rewrite ?H2, ?H4, ?H3 in H; cbn in H.
  all: repeat (case_match; try discriminate H).
  all: simplify_eq; repeat match goal with E : (_ && _) = true |- _ => apply andb_prop in E as [? ?] | E : negb _ = true |- _ => apply negb_true_iff in E | E : (_ =? _)%nat = _ |- _ => first [apply Nat.eqb_eq in E|apply Nat.eqb_neq in E] end.
  all: unfold call, put, open, sched_ends, hand_ends, less_rt, more_rt, less_bins, more_bins, less_snd, more_snd; cbn; repeat (case_match; cbn in *; try lia; try done).
  all: split; cbn; try done; try lia.
  - cbn in *. lia.
  - destruct ad; cbn in *; lia.
  - destruct ad; cbn in *; lia.
Qed.
Lemma orun_snoc k ls lb o o1 : orun k ls o = Some o1 -> orun k (ls ++ [lb]) o = ostep k lb o1.
Proof. revert o. induction ls as [|l ls IH]; intros o; cbn; [intros [= ->]; by destruct (ostep k lb o1)|]. destruct (ostep k l o); [apply IH|done]. Qed.
Lemma orun_split k ls lb o o' : orun k (ls ++ [lb]) o = Some o' -> exists o1, orun k ls o = Some o1 /\ ostep k lb o1 = Some o'.
Proof.
  revert o. induction ls as [|l ls IH]; intros o; cbn; [destruct (ostep k lb o) eqn:E; [intros [= ->]; eauto|done]|]. destruct (ostep k l o); [apply IH|done].
Qed.
Lemma orun_inv k ls o o' : oinv k o -> orun k ls o = Some o' -> oinv k o'.
Proof. revert o. induction ls as [|lb ls IH]; intros o Hi; cbn; [by intros [= <-]|]. destruct (ostep k lb o) eqn:E; [|done]. apply IH. by eapply oinv_step. Qed.
Lemma oinv_reach k n o : oreach k n o -> oinv k o.
Proof. intros [ls H]. eapply orun_inv; [apply oinv_built|exact H]. Qed.

(** What dropping an Arc and sending leave as they are. *)
Lemma lb_motiv o : o_motiv (less_bins o) = o_motiv o.
Proof. unfold less_bins. by destruct (o_bins o) as [|[|n]]. Qed.
Lemma lb_queue o : o_queue (less_bins o) = o_queue o.
Proof. unfold less_bins. by destruct (o_bins o) as [|[|n]]. Qed.
Lemma lb_sched o : o_sched (less_bins o) = o_sched o.
Proof. unfold less_bins. by destruct (o_bins o) as [|[|n]]. Qed.
Lemma lb_rec o : o_rec (less_bins o) = o_rec o.
Proof. unfold less_bins. by destruct (o_bins o) as [|[|n]]. Qed.
Lemma lb_hand o : o_hand (less_bins o) = o_hand o.
Proof. unfold less_bins. by destruct (o_bins o) as [|[|n]]. Qed.
Lemma lb_rt o : o_rt (less_bins o) = o_rt o.
Proof. unfold less_bins. by destruct (o_bins o) as [|[|n]]. Qed.
Lemma lb_add o : o_add (less_bins o) = o_add o.
Proof. unfold less_bins. by destruct (o_bins o) as [|[|n]]. Qed.
Lemma lb_calls o : o_calls (less_bins o) = o_calls o.
Proof. unfold less_bins. by destruct (o_bins o) as [|[|n]]. Qed.
Lemma put_motiv m o : o_motiv (put m o) = o_motiv o.
Proof. unfold put. by destruct (open o). Qed.
Lemma put_sched m o : o_sched (put m o) = o_sched o.
Proof. unfold put. by destruct (open o). Qed.
Lemma put_rec m o : o_rec (put m o) = o_rec o.
Proof. unfold put. by destruct (open o). Qed.
Lemma put_hand m o : o_hand (put m o) = o_hand o.
Proof. unfold put. by destruct (open o). Qed.
Lemma put_rt m o : o_rt (put m o) = o_rt o.
Proof. unfold put. by destruct (open o). Qed.
Lemma put_add m o : o_add (put m o) = o_add o.
Proof. unfold put. by destruct (open o). Qed.
Lemma put_queue m e o : m ∈ o_queue (put e o) -> m ∈ o_queue o \/ m = e.
Proof. unfold put. destruct (open o); [|tauto]. cbn. rewrite elem_of_app, elem_of_list_singleton. tauto. Qed.

(** Unless it panics, the scheduler lives until a stop event has been sent and handled. *)
Definition stopless (o : own) : Prop := o_motiv o = true /\ MStop ∉ o_queue o.
Ltac ostep_cases H :=
  unfold ostep, call, sched_ends, hand_ends, less_rt, more_rt, more_bins, less_snd, more_snd in H;
  repeat (case_match; try discriminate H); apply (f_equal (fun x => default (built 0) x)) in H; cbn [default from_option id] in H; subst.
Ltac oflds := cbn [o_builder o_timers o_chains o_insts o_ctxs o_user_rt o_sched o_hand o_rec o_add o_motiv o_queue o_units o_calls o_snd o_rcv o_rsnd o_bins o_rt
  w_builder w_timers w_chains w_insts w_ctxs w_user_rt w_sched w_hand w_rec w_add w_motiv w_queue w_units w_calls w_snd w_rcv w_rsnd w_bins w_rt] in *.
Ltac orest := repeat (progress (oflds; rewrite ?lb_motiv, ?lb_queue, ?lb_sched, ?lb_rec, ?lb_hand, ?lb_rt, ?lb_add, ?lb_calls, ?put_motiv, ?put_sched, ?put_rec, ?put_hand, ?put_rt, ?put_add)).
Lemma stopless_step k lb o o' : lb <> OSend MStop -> stopless o -> ostep k lb o = Some o' -> stopless o'.
Proof.
  intros Hl [H1 H2] H. unfold stopless. destruct lb; ostep_cases H; orest; try done.
  all: try (split; [done|]; intros [Hin|Hin]%put_queue; [exact (H2 Hin)|congruence]).
  all: try match goal with E : o_queue _ = _ |- _ => rewrite E in H2 end.
  all: try (exfalso; apply H2; apply elem_of_list_here).
  all: split; [done|]; intros Hin; apply H2; first [by apply elem_of_list_further|congruence].
Qed.
Lemma sched_step k lb o o' : lb <> OSchedPanic -> o_motiv o = true -> o_sched o = true -> ostep k lb o = Some o' -> o_sched o' = true.
Proof. intros Hl H1 H2 H. destruct lb; ostep_cases H; orest; try done; congruence. Qed.
Lemma rec_stays k lb o o' : (k = Smol \/ o_rt o <> 0) -> o_rec o = true -> ostep k lb o = Some o' -> o_rec o' = true.
Proof.
  intros Hk H1 H. destruct lb; ostep_cases H; orest; try done.
  all: exfalso; match goal with E : _ && _ = true |- _ => apply andb_prop in E as [E%Nat.eqb_eq _] end; destruct Hk as [?|?]; done.
Qed.
