(** Frequencies: the iterators that produce due times.
    Models /repo/src/timer/task.rs:140-258 and 391-432. *)
From Verif Require Import Base.
From Coq Require Export String.
Global Close Scope string_scope.
Notation length := Datatypes.length.

(** [SecondsState = StepBy<RangeFrom<u64>>] (/repo/src/prelude.rs:70).
    [ss_start] is the start of the RangeFrom, [ss_first] is StepBy's
    [first_take], [ss_step] is StepBy's stored step minus one. *)
Record sstate := SState { ss_start : N; ss_first : bool; ss_step : N }.

(** [(start..).step_by(step as usize)]; std's StepBy::new stores step - 1.
    [usize] is taken to be 64 bits wide. *)
Definition step_by (start step : N) : sstate :=
  {| ss_start := start; ss_first := true; ss_step := step - 1 |}.

(** StepBy::next over RangeFrom: [self.iter.nth(if first_take {0} else {step})],
    where RangeFrom::nth(k) returns start+k and leaves start+k+1. *)
Definition ss_next (pf : profile) (s : sstate) : res (N * sstate) :=
  let! x := add64 pf (ss_start s) (if ss_first s then 0 else ss_step s) in
  let! st := add64 pf x 1 in
  Ret (x, {| ss_start := st; ss_first := false; ss_step := ss_step s |}).

(** A cron iterator: [DelayTimerScheduleIteratorOwned] (task.rs:304-308), an
    iterator of the cron_clock crate.  [ci_next] stands for schedule and time
    zone: it maps an instant to the first date of the schedule after it.
    [ci_prev] is the iterator's previous_datetime, [ci_done] its is_done flag.
    Simplification: the date computation itself is an arbitrary function. *)
Record cron_iter := CronIter { ci_next : Z -> option Z; ci_prev : Z; ci_done : bool }.

(** [DelayTimerScheduleIteratorOwned::next] (task.rs:347-353). *)
Definition cron_step (c : cron_iter) : option Z * cron_iter :=
  if ci_done c then (None, c)
  else match ci_next c (ci_prev c) with
       | Some t => (Some t, {| ci_next := ci_next c; ci_prev := t; ci_done := false |})
       | None => (None, {| ci_next := ci_next c; ci_prev := ci_prev c; ci_done := true |})
       end.

(** [FrequencyInner] (task.rs:188-198). *)
Inductive freq :=
| CronExpressionRepeated (c : cron_iter)
| CronExpressionCountDown (n : N) (c : cron_iter)
| SecondsRepeated (s : sstate)
| SecondsCountDown (n : N) (s : sstate).

(** [FrequencyInner::next_alarm_timestamp] (task.rs:403-414). *)
Definition next_alarm_timestamp (pf : profile) (f : freq) : res (option Z * freq) :=
  match f with
  | CronExpressionCountDown n c =>
      let '(o, c') := cron_step c in Ret (o, CronExpressionCountDown n c')
  | CronExpressionRepeated c =>
      let '(o, c') := cron_step c in Ret (o, CronExpressionRepeated c')
  | SecondsRepeated s =>
      let! (x, s') := ss_next pf s in Ret (Some (as_i64 x), SecondsRepeated s')
  | SecondsCountDown n s =>
      let! (x, s') := ss_next pf s in Ret (Some (as_i64 x), SecondsCountDown n s')
  end.

(** [FrequencyInner::down_count] (task.rs:417-424). *)
Definition down_count (pf : profile) (f : freq) : res freq :=
  match f with
  | CronExpressionRepeated _ => Ret f
  | SecondsRepeated _ => Ret f
  | CronExpressionCountDown n c => let! n' := sub64 pf n 1 in Ret (CronExpressionCountDown n' c)
  | SecondsCountDown n s => let! n' := sub64 pf n 1 in Ret (SecondsCountDown n' s)
  end.

(** [FrequencyInner::is_down_over] (task.rs:426-431). *)
Definition is_down_over (f : freq) : bool :=
  match f with
  | CronExpressionCountDown 0 _ | SecondsCountDown 0 _ => true
  | _ => false
  end.

(** [FrequencyInner::residual_time] (task.rs:394-401). *)
Definition residual_time (f : freq) : N :=
  match f with
  | CronExpressionRepeated _ | SecondsRepeated _ => U64 - 1
  | CronExpressionCountDown n _ | SecondsCountDown n _ => n
  end.

(** [FrequencyCronStr] and [FrequencySeconds] (task.rs:154-172). *)
Inductive freq_cron := CronOnce (e : string) | CronRepeated (e : string) | CronCountDown (n : N) (e : string).
Inductive freq_secs := SecsOnce (v : N) | SecsRepeated (v : N) | SecsCountDown (n v : N).
(** [FrequencyUnify] (task.rs:141-144). *)
Inductive freq_unify := FreqCron (f : freq_cron) | FreqSecs (f : freq_secs).

(** [FrequencyAnalyzeError] (/repo/src/error.rs:45-57); DisAccess (thread
    local storage gone) cannot happen while the thread runs. *)
Inductive freq_error := DisParse | DisInitTime.

(** [FrequencyInner::try_from] (task.rs:200-258).  [analyze] is
    [analyze_cron_expression] for the builder's time zone at this moment, [now]
    the value of [timestamp()]. *)
Definition try_from (pf : profile) (analyze : string -> option cron_iter) (now : N)
    (f : freq_unify) : res (freq_error + freq) :=
  match f with
  | FreqCron (CronOnce e) =>
      Ret (match analyze e with
           | Some c => inr (CronExpressionCountDown 1 c) | None => inl DisParse end)
  | FreqCron (CronRepeated e) =>
      Ret (match analyze e with
           | Some c => inr (CronExpressionRepeated c) | None => inl DisParse end)
  | FreqCron (CronCountDown n e) =>
      Ret (match analyze e with
           | Some c => inr (CronExpressionCountDown n c) | None => inl DisParse end)
  | FreqSecs (SecsOnce v) =>
      if v =? 0 then Ret (inl DisInitTime)
      else let! start := add64 pf now v in Ret (inr (SecondsCountDown 1 (step_by start v)))
  | FreqSecs (SecsRepeated v) =>
      if v =? 0 then Ret (inl DisInitTime)
      else let! start := add64 pf now v in Ret (inr (SecondsRepeated (step_by start v)))
  | FreqSecs (SecsCountDown n v) =>
      if v =? 0 then Ret (inl DisInitTime)
      else let! start := add64 pf now v in Ret (inr (SecondsCountDown n (step_by start v)))
  end.
