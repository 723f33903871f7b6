(** Several DelayTimers in one process, and the channel of public events they share.
    /repo/src/utils/status_report.rs:10-46, /repo/src/entity.rs:295-308 and 473-517. *)
From Verif Require Import Base State System.

(** What the handler of a timer sent to the status channel, oldest first. *)
Definition publics (lg : list obs) : list pubev := omap (fun o => match o with OPublic p => Some p | _ => None end) (rev lg).

(** [f_queue] is the content of GLOBAL_STATUS_REPORTER, an unbounded channel that is created
    on first use and lives as long as the process (status_report.rs:10-12).  [f_timers]: the
    timers built so far, and whether with enable_status_report (entity.rs:481-484).  The source
    of an event in the queue is ghost, as is [f_got]: (reporter, event), oldest first. *)
Record fleet := Fleet {
  f_timers : gmap N (sys * bool);
  f_queue : list (N * pubev);
  f_got : list (N * (N * pubev))
}.
Definition no_fleet : fleet := Fleet ∅ [] [].

(** [FNew]: a DelayTimer is built.  [FStep]: a step of timer [i]; the public events its handler
    sends go to the global channel if the timer has a sender for it (event_handle.rs:169-191,
    entity.rs:230-231 and 486-490).  [FRead]: the StatusReporter of timer [j], or one of its clones, or
    get_public_event takes an event (status_report.rs:24-41, entity.rs:492-514); the receiver of a reporter
    is a clone of the global one (entity.rs:300). *)
Inductive flabel := FNew (i : N) (report : bool) (t0 t1 : N) | FStep (i : N) (lb : label) | FRead (j : N).
Definition fstep (pf : profile) (l : flabel) (f : fleet) : option fleet :=
  match l with
  | FNew i report t0 t1 =>
      match (f_timers f !! i : option (sys * bool)) with
      | Some _ => None
      | None => Some (Fleet (<[i := (init t0 t1, report)]> (f_timers f)) (f_queue f) (f_got f))
      end
  | FStep i lb =>
      match (f_timers f !! i : option (sys * bool)) with
      | None => None
      | Some (s, report) =>
          match step pf lb s with
          | None => None
          | Some s' =>
              let new := drop (length (publics (log s))) (publics (log s')) in
              Some (Fleet (<[i := (s', report)]> (f_timers f)) (f_queue f ++ (if report then pair i <$> new else [])) (f_got f))
          end
      end
  | FRead j =>
      match (f_timers f !! j : option (sys * bool)), f_queue f with
      | Some (_, true), e :: q => Some (Fleet (f_timers f) q (f_got f ++ [(j, e)]))
      | _, _ => None
      end
  end.
Fixpoint frun (pf : profile) (ls : list flabel) (f : fleet) : option fleet :=
  match ls with
  | [] => Some f
  | l :: r => match fstep pf l f with Some f' => frun pf r f' | None => None end
  end.
Definition fleet_reachable (pf : profile) (f : fleet) : Prop := exists ls, frun pf ls no_fleet = Some f.
