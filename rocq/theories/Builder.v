(** TaskBuilder: /repo/src/timer/task.rs:437-456 and 700-1030, with the memory of
    the strings it refers to. *)
From Verif Require Import Base.
From Verif Require Export Task Cron.

(** The three forms of FrequencyCronStr, FrequencySeconds and CandyFrequency. *)
Inductive form := Once | Repeated | CountDown (n : N).
(** [FrequencyUnify<'a>] (task.rs:141-144); a [&'a str] is an address. *)
Inductive bfreq := BCron (k : form) (str : N) | BSecs (k : form) (v : N).

(** [TaskBuilder] (task.rs:437-456). *)
Record builder := Builder {
  b_freq : bfreq;
  b_tid : N;
  b_maxrun : option N;
  b_maxpar : option N;
  b_candy : bool;        (* build_by_candy_str *)
  b_zone : zone
}.
(** [TaskBuilder::default] (derived, 435; FrequencySeconds::default, 182-186:
    once after a minute; the time zone's default is Local). *)
Definition new_builder : builder := Builder (BSecs Once ONE_MINUTE) 0 None None false Local.

Definition set_bfreq (f : bfreq) (b : builder) : builder := Builder f (b_tid b) (b_maxrun b) (b_maxpar b) (b_candy b) (b_zone b).
Definition set_candy (b : builder) : builder := Builder (b_freq b) (b_tid b) (b_maxrun b) (b_maxpar b) true (b_zone b).
(** [set_task_id] (755-758), [set_maximum_running_time] (762-765),
    [set_maximum_parallel_runnable_num] (769-775), [set_schedule_iterator_time_zone] (779-785). *)
Definition set_task_id (i : N) (b : builder) : builder := Builder (b_freq b) i (b_maxrun b) (b_maxpar b) (b_candy b) (b_zone b).
Definition set_maximum_running_time (m : N) (b : builder) : builder := Builder (b_freq b) (b_tid b) (Some m) (b_maxpar b) (b_candy b) (b_zone b).
Definition set_maximum_parallel_runnable_num (m : N) (b : builder) : builder := Builder (b_freq b) (b_tid b) (b_maxrun b) (Some m) (b_candy b) (b_zone b).
Definition set_schedule_iterator_time_zone (z : zone) (b : builder) : builder := Builder (b_freq b) (b_tid b) (b_maxrun b) (b_maxpar b) (b_candy b) z.

(** set_frequency_{once,repeated,count_down}_by_seconds (884-911) *)
Definition set_frequency_once_by_seconds (seconds : N) (b : builder) : res builder := Ret (set_bfreq (BSecs Once seconds) b).
Definition set_frequency_repeated_by_seconds (seconds : N) (b : builder) : res builder := Ret (set_bfreq (BSecs Repeated seconds) b).
Definition set_frequency_count_down_by_seconds (seconds count_down : N) (b : builder) : res builder :=
  Ret (set_bfreq (BSecs (CountDown count_down) seconds) b).
(** … by_minutes (918-949) *)
Definition set_frequency_once_by_minutes (pf : profile) (minutes : N) (b : builder) : res builder :=
  let! s := mul64 pf ONE_MINUTE minutes in Ret (set_bfreq (BSecs Once s) b).
Definition set_frequency_repeated_by_minutes (pf : profile) (minutes : N) (b : builder) : res builder :=
  let! s := mul64 pf ONE_MINUTE minutes in Ret (set_bfreq (BSecs Repeated s) b).
Definition set_frequency_count_down_by_minutes (pf : profile) (minutes count_down : N) (b : builder) : res builder :=
  let! s := mul64 pf ONE_MINUTE minutes in Ret (set_bfreq (BSecs (CountDown count_down) s) b).
(** … by_hours (956-982) *)
Definition set_frequency_once_by_hours (pf : profile) (hours : N) (b : builder) : res builder :=
  let! s := mul64 pf ONE_HOUR hours in Ret (set_bfreq (BSecs Once s) b).
Definition set_frequency_repeated_by_hours (pf : profile) (hours : N) (b : builder) : res builder :=
  let! s := mul64 pf ONE_HOUR hours in Ret (set_bfreq (BSecs Repeated s) b).
Definition set_frequency_count_down_by_hours (pf : profile) (hours count_down : N) (b : builder) : res builder :=
  let! s := mul64 pf ONE_HOUR hours in Ret (set_bfreq (BSecs (CountDown count_down) s) b).
(** … by_days (989-1015) *)
Definition set_frequency_once_by_days (pf : profile) (days : N) (b : builder) : res builder :=
  let! s := mul64 pf ONE_DAY days in Ret (set_bfreq (BSecs Once s) b).
Definition set_frequency_repeated_by_days (pf : profile) (days : N) (b : builder) : res builder :=
  let! s := mul64 pf ONE_DAY days in Ret (set_bfreq (BSecs Repeated s) b).
Definition set_frequency_count_down_by_days (pf : profile) (days count_down : N) (b : builder) : res builder :=
  let! s := mul64 pf ONE_DAY days in Ret (set_bfreq (BSecs (CountDown count_down) s) b).
(** [set_frequency_once_by_timestamp_seconds] (1022-1029), called in second [now]. *)
Definition set_frequency_once_by_timestamp_seconds (now ts : N) (b : builder) : builder :=
  set_bfreq (BSecs Once (default ONE_SECOND (checked_sub ts now))) b.
(** [set_frequency_{once,repeated,count_down}_by_cron_str] (855-876). *)
Definition set_frequency_by_cron_str (k : form) (str : N) (b : builder) : builder := set_bfreq (BCron k str) b.

(** The strings that are alive. *)
Definition strings := gmap N string.
(** Reading the frequency; [None]: the string is gone. *)
Definition read_freq (h : strings) (f : bfreq) : option freq_unify :=
  match f with
  | BSecs Once v => Some (FreqSecs (SecsOnce v))
  | BSecs Repeated v => Some (FreqSecs (SecsRepeated v))
  | BSecs (CountDown n) v => Some (FreqSecs (SecsCountDown n v))
  | BCron k l =>
      match h !! l with
      | None => None
      | Some e => Some (FreqCron (match k with Once => CronOnce e | Repeated => CronRepeated e | CountDown n => CronCountDown n e end))
      end
  end.
(** [spawn_async_routine], [spawn_routine] (788-825), called in second [now] with
    a routine [uid]; [None]: reads a string that is gone. *)
Definition spawn (pf : profile) (analyze : zone -> string -> option cron_iter) (now : N) (h : strings) (uid : N) (b : builder)
    : option (res (freq_error + task)) :=
  match read_freq h (b_freq b) with
  | None => None
  | Some f => Some (let! r := try_from pf (analyze (b_zone b)) now f in
                    Ret (match r with inl e => inl e | inr fi => inr (Task uid (b_tid b) fi (b_maxrun b) 0 true (b_maxpar b)) end))
  end.

(* ------------------------------------------------------------------ *)
(** ** The strings of a program that uses builders *)

(** What a safe program can do with builder variables and its own strings.  The
    strings it makes itself outlive its builders (the lifetime 'a); TaskBuilder is
    Copy.  The setters that do not concern the frequency are left out. *)
Inductive call :=
| CNew (x : N)                       (* let x = TaskBuilder::default() *)
| CCopy (x y : N)                    (* let y = x *)
| CStr (e : string)                  (* a string of the program *)
| CCron (x : N) (k : form) (l : N)   (* set_frequency (705-708), set_frequency_*_by_cron_str (855-876) *)
| CCandy (x : N) (k : form) (e : string)   (* set_frequency_by_candy (730-751) *)
| CSecs (x : N) (k : form) (v : N)   (* any set_frequency_*_by_seconds … timestamp *)
| CSpawn (x : N)
| CFree (x : N).                     (* free (836-849) *)

(** What happens to strings: made by the program, leaked by the builder, read,
    freed. *)
Inductive mev := MUser (l : N) | MLeak (l : N) | MRead (l : N) | MFree (l : N).
Record mem := Mem { m_vars : gmap N builder; m_user : gset N; m_next : N }.

Definition with_var (x : N) (m : mem) (f : builder -> option (mem * list mev)) : option (mem * list mev) :=
  match m_vars m !! x with Some b => f b | None => None end.
Definition set_var (x : N) (b : builder) (m : mem) : mem := Mem (<[x := b]> (m_vars m)) (m_user m) (m_next m).

(** One call; [None]: the program would not compile (no such variable, not a
    string of the program).  Addresses are not used again. *)
Definition do_call (c : call) (m : mem) : option (mem * list mev) :=
  match c with
  | CNew x => Some (set_var x new_builder m, [])
  | CCopy x y => with_var x m (fun b => Some (set_var y b m, []))
  | CStr e => Some (Mem (m_vars m) ({[m_next m]} ∪ m_user m) (m_next m + 1), [MUser (m_next m)])
  | CCron x k l => with_var x m (fun b => if decide (l ∈ m_user m) then Some (set_var x (set_frequency_by_cron_str k l b) m, []) else None)
  | CCandy x k e =>
      with_var x m (fun b =>
        let l := m_next m in
        let b := set_candy b in
        Some (Mem (<[x := set_bfreq (BCron k l) b]> (m_vars m)) (m_user m) (l + 1), [MLeak l]))
  | CSecs x k v => with_var x m (fun b => Some (set_var x (set_bfreq (BSecs k v) b) m, []))
  | CSpawn x => with_var x m (fun b => Some (m, match b_freq b with BCron _ l => [MRead l] | BSecs _ _ => [] end))
  | CFree x =>
      with_var x m (fun b =>
        Some (m, if b_candy b then match b_freq b with BCron _ l => [MFree l] | BSecs _ _ => [] end else []))
  end.
Fixpoint do_calls (cs : list call) (m : mem) : option (mem * list mev) :=
  match cs with
  | [] => Some (m, [])
  | c :: r => match do_call c m with
              | None => None
              | Some (m', l) => match do_calls r m' with None => None | Some (m'', l') => Some (m'', l ++ l') end
              end
  end.
Definition start : mem := Mem ∅ ∅ 0.
