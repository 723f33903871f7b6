(** The cache of cron expressions: /repo/src/timer/task.rs:16, 260-389.  A model
    of its own; one cache per thread (thread_local!). *)
From Verif Require Import Base.
From Verif Require Export Frequency.

(** [ScheduleIteratorTimeZone] (task.rs:261-271); a FixedOffset is its number of seconds. *)
Inductive zone := Utc | Local | FixedOffset (secs : Z).
Global Instance zone_eq_dec : EqDecision zone.
Proof. solve_decision. Defined.
(** [ScheduleIteratorTimeZoneQuery] (task.rs:273-277): the key. *)
Definition query : Type := zone * string.

(** The cron_clock crate.  [cr_parse] is Schedule::from_str ([None]: an error);
    [cr_next] is the date computation, seen as a function of schedule, time zone
    and instant.  Both arbitrary. *)
Record cron_crate := CronCrate { cr_sched : Type; cr_parse : string -> option cr_sched;
                                 cr_next : cr_sched -> zone -> Z -> option Z }.

(** [DelayTimerScheduleIteratorOwned] (task.rs:303-308): the variant, and the
    iterator in it. *)
Record owned := Owned { ow_variant : zone; ow_iter : cron_iter }.

(** [DelayTimerScheduleIteratorOwned::new] (task.rs:311-332); upcoming_owned
    starts from the current time [now]. *)
Definition owned_new (cr : cron_crate) (q : query) (now : Z) : option owned :=
  match cr_parse cr q.2 with
  | Some sc => Some (Owned q.1 (CronIter (cr_next cr sc q.1) now false))
  | None => None
  end.

(** [refresh_previous_datetime] (task.rs:334-345): the iterator's own method
    sets its previous_datetime to the current time and leaves its other fields. *)
Definition refreshed (now : Z) (c : cron_iter) : cron_iter := CronIter (ci_next c) now (ci_done c).
Definition refresh_previous_datetime (z : zone) (now : Z) (o : owned) : owned :=
  match ow_variant o with
  | Utc | Local => Owned (ow_variant o) (refreshed now (ow_iter o))
  | FixedOffset _ =>
      match z with
      | FixedOffset _ => Owned (ow_variant o) (refreshed now (ow_iter o))
      | _ => o
      end
  end.

(** [DelayTimerScheduleIteratorOwned::next] (task.rs:347-354). *)
Definition owned_next (o : owned) : option Z * owned :=
  let '(t, c) := cron_step (ow_iter o) in (t, Owned (ow_variant o) c).

(** The lru crate's LruCache: its entries, the one used last first.  [get]
    (LruCache::get) moves the entry to the front; [put] (LruCache::put) replaces
    the value of a known key, and drops the last entry to make room for a new one
    when the cache is full. *)
Definition lru := list (query * owned).
Definition CAPACITY : nat := 256.
Fixpoint lru_find (q : query) (c : lru) : option owned :=
  match c with
  | [] => None
  | (k, v) :: r => if decide (k = q) then Some v else lru_find q r
  end.
Fixpoint lru_remove (q : query) (c : lru) : lru :=
  match c with
  | [] => []
  | (k, v) :: r => if decide (k = q) then r else (k, v) :: lru_remove q r
  end.
Definition lru_get (q : query) (c : lru) : option (owned * lru) :=
  match lru_find q c with
  | Some v => Some (v, (q, v) :: lru_remove q c)
  | None => None
  end.
Definition lru_put (q : query) (v : owned) (c : lru) : lru :=
  match lru_find q c with
  | Some _ => (q, v) :: lru_remove q c
  | None => (q, v) :: (if Nat.eqb (length c) CAPACITY then take (pred (length c)) c else c)
  end.

(** str::trim_matches(' '). *)
Fixpoint trim_front (s : list Ascii.ascii) : list Ascii.ascii :=
  match s with
  | c :: r => if decide (c = Ascii.ascii_of_N 32) then trim_front r else s
  | [] => []
  end.
Definition trim_spaces (s : string) : string :=
  string_of_list_ascii (reverse (trim_front (reverse (trim_front (list_ascii_of_string s))))).

(** [analyze_cron_expression] (task.rs:356-388): the result, the new cache, and
    whether the expression was parsed.  The thread-local storage is there. *)
Definition analyze_cron_expression (cr : cron_crate) (z : zone) (e : string) (now : Z) (c : lru) : option owned * lru * bool :=
  let q := (z, trim_spaces e) in
  match lru_get q c with
  | Some (v, c') => (Some (refresh_previous_datetime z now v), c', false)
  | None =>
      match owned_new cr q now with
      | Some v => (Some v, lru_put q v c, true)
      | None => (None, c, true)
      end
  end.

(** One analysis: time zone, expression, current time.  [analyses]: the cache
    after a sequence of them, oldest first, from the empty cache a thread starts
    with. *)
Definition request : Type := zone * string * Z.
Fixpoint analyses (cr : cron_crate) (h : list request) (c : lru) : lru :=
  match h with
  | [] => c
  | (z, e, now) :: r => analyses cr r (analyze_cron_expression cr z e now c).1.2
  end.
