(** The sweeper with its clock: /repo/src/timer/runtime_trace/sweeper.rs:91-178.
    The system of System.v leaves open how long the sweeper sleeps; here its
    sleep has the length the code asks for.

    Time is counted in milliseconds; timestamp() is the whole seconds.  A round
    (93-131) and the arrival of a unit in the heap (144-165) take no time; what
    they take in the code, and what the executor adds, is covered by [lat], by
    which a round may be late. *)
From Verif Require Import Base System.

Record swst := Sw { sw_heap : list runit; sw_clock : N; sw_wake : N; sw_log : list (runit * N * N + runit * N) }.
(** Entries of the log, newest first: unit, time and planned end of the sleep when it
    arrived in the heap; unit and time when its timeout was sent. *)
Definition arrived (u : runit) (at_ wake : N) : runit * N * N + runit * N := inl (u, at_, wake).
Definition was_sent (u : runit) (at_ : N) : runit * N * N + runit * N := inr (u, at_).

(** The loop over 0..200 (sweeper.rs:104-127) with [k] turns left; [chs]: which of the
    units with the least deadline is popped.  Result: what is sent, in order,
    what is kept, and the [duration]. *)
Fixpoint sweep_round (now : N) (k : nat) (chs : list nat) (h : list runit) : option (list runit * list runit * option N) :=
  match k with
  | O => Some ([], h, None)
  | S k' =>
      match least_deadline h with
      | None => Some ([], h, None)
      | Some d =>
          if d <=? now then
            match chs with
            | ch :: chs' =>
                match h !! ch with
                | Some u =>
                    if u_deadline u =? d then
                      match sweep_round now k' chs' (delete ch h) with
                      | Some (us, h', dur) => Some (u :: us, h', dur)
                      | None => None
                      end
                    else None
                | None => None
                end
            | [] => None
            end
          else Some ([], h, Some (d - now))
      end
  end.

Inductive swlabel := WPush (u : runit) | WRound (chs : list nat) | WPass (dt : N).

(** [yield_for_while] (sweeper.rs:167-178): three seconds by default. *)
Definition sw_step (lat : N) (lb : swlabel) (s : swst) : option swst :=
  match lb with
  | WPush u => Some (Sw (u :: sw_heap s) (sw_clock s) (sw_wake s) (arrived u (sw_clock s) (sw_wake s) :: sw_log s))
  | WRound chs =>
      if sw_wake s <=? sw_clock s then
        match sweep_round (sw_clock s / 1000) 200 chs (sw_heap s) with
        | Some (us, h, dur) =>
            Some (Sw h (sw_clock s) (sw_clock s + 1000 * default 3 dur) (reverse ((fun u => was_sent u (sw_clock s)) <$> us) ++ sw_log s))
        | None => None
        end
      else None
  | WPass dt => if sw_clock s + dt <=? sw_wake s + lat then Some (Sw (sw_heap s) (sw_clock s + dt) (sw_wake s) (sw_log s)) else None
  end.
Fixpoint sw_run (lat : N) (ls : list swlabel) (s : swst) : option swst :=
  match ls with
  | [] => Some s
  | lb :: r => match sw_step lat lb s with Some s' => sw_run lat r s' | None => None end
  end.
Definition sw_init (c0 : N) : swst := Sw [] c0 c0 [].
Definition sw_reachable (lat c0 : N) (s : swst) : Prop := exists ls, sw_run lat ls (sw_init c0) = Some s.
