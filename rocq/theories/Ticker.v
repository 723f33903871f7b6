(** The clock of the scheduler: /repo/src/timer/timer_core.rs:18-110 and the loop that waits for it, 187-190, 193-265.

    Time is counted in nanoseconds since the epoch, [timestamp()] (entity.rs:524-529) is the whole seconds.  The monotonic clock behind
    [Instant] and the system clock are taken to run alike (a system clock that is set differently is the business of System.v, in
    which the readings are arbitrary).  Of the libraries: [smol::Timer::at d] is ready as soon as the time is at least [d];
    [tokio::time::interval_at start p] has the deadlines start, start + p, start + 2p, ..., and [tick] is ready as soon as the time
    is at least the deadline it stands at; missed deadlines are made up one after the other (the default, MissedTickBehavior::Burst).
    How much later than that the runtime resumes the scheduler is in [wake]. *)
From Verif Require Import Base System.

Definition NS : N := 1000000000.
Definition second (time : N) : N := time / NS.

(** entity.rs:136-145 *)
Inductive runtime := Smol | Tokio.

(** timer_core.rs:79-84 *)
Record smol_clock := SmolClock { sm_inner : N; sm_period : N; sm_offset : N }.
(** timer_core.rs:62-65; the state of an Interval: the deadline it stands at and its period *)
Record tokio_clock := TokioClock { tk_deadline : N; tk_period : N }.
(** timer_core.rs:18-28 *)
Inductive clock := Sc (c : smol_clock) | Tc (c : tokio_clock).

(** timer_core.rs:87-95 *)
Definition smol_new (start period : N) : smol_clock :=
  let offset := start + period in SmolClock offset period offset.
(** timer_core.rs:97-101: the deadline of the timer that is awaited, and the clock left behind *)
Definition smol_tick (c : smol_clock) : N * smol_clock :=
  let offset := sm_offset c + sm_period c in (sm_inner c, SmolClock offset (sm_period c) offset).
(** timer_core.rs:68-71 *)
Definition tokio_new (start period : N) : tokio_clock := TokioClock start period.
(** timer_core.rs:73-75 *)
Definition tokio_tick (c : tokio_clock) : N * tokio_clock :=
  (tk_deadline c, TokioClock (tk_deadline c + tk_period c) (tk_period c)).
(** timer_core.rs:30-49 *)
Definition clock_new (k : runtime) (now : N) : clock :=
  match k with Smol => Sc (smol_new now NS) | Tokio => Tc (tokio_new now NS) end.
(** timer_core.rs:51-59 *)
Definition clock_tick (c : clock) : N * clock :=
  match c with
  | Sc c => let '(d, c') := smol_tick c in (d, Sc c')
  | Tc c => let '(d, c') := tokio_tick c in (d, Tc c')
  end.

(** What the environment decides about one iteration: how long it works before it waits for the tick, and how much later
    than it could the runtime resumes it. *)
Record beat := Beat { work : N; wake : N }.

(** The scheduler is created at [start] (timer_core.rs:171-181) and reads the time for iteration 0 (198) [d0] later. *)
Record ticking := Ticking { tg_kind : runtime; tg_start : N; tg_delay : N; tg_beat : nat -> beat }.

(** Time at which iteration [k] reads the clock (198 for the first, 263 for the others), and the clock then. *)
Fixpoint turn (g : ticking) (k : nat) : N * clock :=
  match k with
  | O => (tg_start g + tg_delay g, clock_new (tg_kind g) (tg_start g))
  | S k' =>
      let '(t, c) := turn g k' in
      let '(d, c') := clock_tick c in
      (N.max (t + work (tg_beat g k')) d + wake (tg_beat g k'), c')
  end.
Definition begins (g : ticking) (k : nat) : N := fst (turn g k).

(** The readings in a log of System.v are those of this clock. *)
Definition clocked (g : ticking) (lg : list obs) : Prop := forall k ts, OTick k ts ∈ lg -> ts = second (begins g (N.to_nat k)).

(** When iteration [k] should begin: with smol [k] seconds after the start.  Tokio's first tick comes at once, so there it is one second
    less from iteration 1 on. *)
Definition nominal (g : ticking) (k : nat) : N :=
  match tg_kind g with Smol => tg_start g + N.of_nat k * NS | Tokio => tg_start g + N.of_nat (k - 1) * NS end.
(** How much later than that it begins. *)
Definition late (g : ticking) (k : nat) : N := begins g k - nominal g k.

(** The deadline the clock stands at. *)
Definition deadline (c : clock) : N := match c with Sc c => sm_inner c | Tc c => tk_deadline c end.
Definition regular (c : clock) : Prop :=
  match c with Sc c => sm_period c = NS /\ sm_offset c = sm_inner c | Tc c => tk_period c = NS end.

Lemma clock_tick_eq c : regular c -> exists c', clock_tick c = (deadline c, c') /\ regular c' /\ deadline c' = deadline c + NS.
Proof.
  destruct c as [[i p o]|[d p]]; cbn; [intros [-> ->]|intros ->]; eexists; (split; [reflexivity|]); cbn; auto.
Qed.
Lemma turn_clock g k : regular (snd (turn g k)) /\ deadline (snd (turn g k)) = nominal g (S k).
Proof.
  induction k as [|k IH]; cbn [turn].
  - unfold nominal. destruct (tg_kind g); (split; [cbn; auto|]); cbn [snd clock_new deadline smol_new sm_inner tokio_new tk_deadline].
    + change (N.of_nat 1) with 1. by rewrite N.mul_1_l.
    + change (N.of_nat (1 - 1)) with 0. by rewrite N.mul_0_l, N.add_0_r.
  - destruct (turn g k) as [t c]. cbn in IH. destruct IH as [Hr Hd]. destruct (clock_tick_eq c Hr) as (c' & -> & Hr' & Hd'). cbn.
    split; [done|]. rewrite Hd', Hd. unfold nominal. destruct (tg_kind g); [lia|].
    replace (S (S k) - 1)%nat with (S k) by lia. replace (S k - 1)%nat with k by lia. lia.
Qed.
Lemma begins_0 g : begins g 0 = tg_start g + tg_delay g.
Proof. done. Qed.
Lemma begins_S g k : begins g (S k) = N.max (begins g k + work (tg_beat g k)) (nominal g (S k)) + wake (tg_beat g k).
Proof.
  destruct (turn_clock g k) as [Hr Hd]. unfold begins. cbn [turn]. destruct (turn g k) as [t c]. cbn in *.
  destruct (clock_tick_eq c Hr) as (c' & -> & _ & _). cbn. by rewrite Hd.
Qed.
Lemma begins_nominal g k : (0 < k)%nat -> nominal g k <= begins g k.
Proof. destruct k as [|k]; [lia|]. intros _. rewrite begins_S. lia. Qed.
Lemma nominal_S g k : (0 < k)%nat -> nominal g (S k) = nominal g k + NS.
Proof. intros H. unfold nominal. destruct (tg_kind g); [lia|]. replace (S k - 1)%nat with (S (k - 1)) by lia. lia. Qed.
Lemma nominal_0 g : nominal g 0 = tg_start g.
Proof. unfold nominal. destruct (tg_kind g); lia. Qed.
Lemma begins_ge g k : nominal g k <= begins g k.
Proof. destruct k; [rewrite nominal_0, begins_0; lia|apply begins_nominal; lia]. Qed.
Lemma begins_late g k : begins g k = nominal g k + late g k.
Proof. pose proof (begins_ge g k). unfold late. lia. Qed.
Lemma late_S g k : (0 < k)%nat -> late g (S k) = (late g k + work (tg_beat g k) - NS) + wake (tg_beat g k).
Proof.
  intros H. pose proof (begins_S g k) as E. rewrite (begins_late g (S k)), (begins_late g k), (nominal_S g k H) in E. lia.
Qed.
