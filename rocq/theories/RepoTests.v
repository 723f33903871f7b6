(** The tests of the repository, played in the model.
    These are tests of the model, not proofs about it: they check that the model
    gives the results which the authors of the library assert of the code.
    /repo/src/timer/task.rs:1118-1357, /repo/tests/simulation.rs,
    /repo/src/timer/runtime_trace/sweeper.rs:181-237. *)
From Verif Require Import Base State System Spec Builder Sweeper Scen PropBuilder.

(** *** task.rs *)

(** [down_count_and_set_vaild] called [n] times: what it returns. *)
Fixpoint downs (n : nat) (t : task) : list bool :=
  match n with
  | O => []
  | S m => match down_count_and_set_valid Debug t with Ret t' => t_valid t' :: downs m t' | Panic => [] end
  end.
(** A schedule with a date in each second, one every second second, one every hour. *)
Definition cron_of (p : Z) : cron_iter := CronIter (fun t => Some ((t / p + 1) * p)%Z) 100 false.
Definition analyse (z : zone) (e : string) : option cron_iter :=
  if String.eqb e "* * * * * * *" then Some (cron_of 1)
  else if String.eqb e "0/2 * * * * * *" then Some (cron_of 2)
  else if String.eqb e "@hourly" then Some (cron_of 3600) else None.
Definition strings0 : strings := {[ 0 := "* * * * * * *"%string; 1 := "0/2 * * * * * *"%string; 2 := "@hourly"%string ]}.
Definition built (uid : N) (b : res builder) : option task :=
  match b with
  | Ret b' => match spawn Debug analyse 100 strings0 uid b' with Some (Ret (inr t)) => Some t | _ => None end
  | Panic => None
  end.
Definition by_cron (k : form) (l : N) (b : builder) : builder := set_bfreq (BCron k l) b.

(** test_task_valid, test_count_down. *)
Example test_task_valid :
  (downs 3 <$> built 1 (set_frequency_count_down_by_seconds 1 3 new_builder)) = Some [true; true; false] /\
  (downs 3 <$> built 1 (Ret (by_cron (CountDown 3) 0 new_builder))) = Some [true; true; false] /\
  (downs 1 <$> built 1 (set_frequency_once_by_seconds 10 new_builder)) = Some [false] /\
  (downs 10 <$> built 1 (set_frequency_count_down_by_hours Debug 10 10 new_builder)) =
    Some [true; true; true; true; true; true; true; true; true; false].
Proof. vm_compute. repeat split. Qed.

(** test_get_next_exec_timestamp_seconds, _minutes, _hours, _days. *)
Example test_get_next_exec_timestamp :
  (due_times Debug 99 <$> built 1 (set_frequency_count_down_by_seconds 777 3 new_builder)) = Some (Ret (advertised 100 777 99)) /\
  (due_times Debug 99 <$> built 1 (set_frequency_repeated_by_minutes Debug 777 new_builder)) = Some (Ret (advertised 100 (777 * 60) 99)) /\
  (due_times Debug 99 <$> built 1 (set_frequency_repeated_by_hours Debug 777 new_builder)) = Some (Ret (advertised 100 (777 * 3600) 99)) /\
  (due_times Debug 99 <$> built 1 (set_frequency_repeated_by_days Debug 777 new_builder)) = Some (Ret (advertised 100 (777 * 86400) 99)).
Proof. vm_compute. repeat split. Qed.

(** test_is_can_running, test_candy_cron. *)
Example test_is_can_running :
  (fun t => [is_can_running t; is_can_running (set_cylinder_line 1 t); fst (check_arrived (set_cylinder_line 1 t));
             is_can_running (snd (check_arrived (set_cylinder_line 1 t)))]) <$>
    [default (every 0 0 1 0) (built 1 (Ret (by_cron (CountDown 3) 0 new_builder)));
     default (every 0 0 1 0) (built 1 (set_frequency_count_down_by_seconds 1 1 new_builder))] =
  [[true; false; false; true]; [true; false; false; true]].
Proof. vm_compute. reflexivity. Qed.

(** *** simulation.rs *)

Definition launches (s : sys) : nat := length (filter (fun o => match o with OLaunch _ _ _ _ _ => true | _ => false end = true) (log s)).
Definition state_of (r : Z) (s : sys) : option N := h_state <$> hdrs s !! r.
(** A test is a list of acts with assertions in between. *)
Fixpoint asserts (l : list (list act * (sys -> bool))) (s : sys) : bool :=
  match l with
  | [] => true
  | (a, P) :: r => match play Debug a s with Some s' => P s' && asserts r s' | None => false end
  end.
Definition test (l : list (list act * (sys -> bool))) : bool := asserts l (init0 100 100). (* init0 = init: init0_eq in Scen.v *)
(** [next_with_wait]. *)
Definition next (c : N) : list act := [Do (LNextCheck c); Do (LNextRecv c)].
Definition got (c : N) (r : Z) (s : sys) : bool := inb (ONext c (NGot r)) (log s).
Definition ends (r : Z) : act := Do (LFinish r 0 None).

(** test_instance_state: cancelled by the user; completed. *)
Definition t_state : task := limited 3 (ntimes 1 1 4 1 100).
Example test_instance_state :
  test [([Do (LInsert t_state); Handle; Ticks 3; Handle] ++ next 1, fun s => got 1 0 s && is (state_of 0 s) (Some RUNNING));
        ([Do (LInstCancel 1 0); Do (LListen 1); Handle; Do (LReturn 1)], fun s => is (state_of 0 s) (Some CANCELLED));
        ([Ticks 1; Handle] ++ next 1, fun s => got 1 1 s && is (state_of 1 s) (Some RUNNING));
        ([ends 1; Handle], fun s => is (state_of 1 s) (Some COMPLETED))] = true.
Proof. vm_compute. reflexivity. Qed.

(** test_instance_timeout_state: one second allowed, the body needs three. *)
Example test_instance_timeout_state :
  test [([Do (LInsert (timed 1 t_state)); Handle; Ticks 3; Handle] ++ next 1, fun s => got 1 0 s && is (state_of 0 s) (Some RUNNING));
        ([Do LSweepRecv; Ticks 2; Do (LSweep 0 105); Do (LSweep 0 105); Handle], fun s => is (state_of 0 s) (Some TIMEOUT))] = true.
Proof. vm_compute. reflexivity. Qed.

(** go_works: three runs, one every second second. *)
Example go_works :
  match built 1 (Ret (by_cron (CountDown 3) 1 (set_task_id 1 new_builder))) with
  | Some t => test [([Do (LAdd t); Handle; Ticks 2], fun s => (launches s <=? 1)%nat); ([Ticks 2], fun s => (launches s <=? 2)%nat);
                    ([Ticks 2; Ticks 2; Ticks 2], fun s => (launches s =? 3)%nat)]
  | None => false
  end = true.
Proof. vm_compute. reflexivity. Qed.

(** test_advance: an hourly task is run by [advance_task] each time. *)
Example test_advance :
  match built 1 (Ret (by_cron (CountDown 3) 2 (set_task_id 1 new_builder))) with
  | Some t => test [([Do (LAdd t); Handle], fun s => (launches s =? 0)%nat);
                    ([Do (LAdvance 1); Handle; Ticks 2], fun s => (launches s =? 1)%nat);
                    ([Do (LAdvance 1); Handle; Ticks 2], fun s => (launches s =? 2)%nat)]
  | None => false
  end = true.
Proof. vm_compute. reflexivity. Qed.

(** test_maximum_parallel_runnable_num: never more than three at once (the test
    asserts: at most [i] after the [i]-th pause). *)
Definition mnum (s : sys) : option N := m_num <$> flags s !! 1.
Example test_maximum_parallel_runnable_num :
  match built 1 (Ret (by_cron (CountDown 4) 0 (set_maximum_parallel_runnable_num 3 (set_task_id 1 new_builder)))) with
  | Some t => test [([Do (LAdd t); Handle; Ticks 1; Handle], fun s => (launches s <=? 1)%nat);
                    ([Ticks 2; Handle], fun s => (launches s <=? 2)%nat);
                    ([Ticks 3; Handle], fun s => (launches s <=? 3)%nat);
                    ([Ticks 4; Handle], fun s => (launches s =? 3)%nat)]
  | None => false
  end = true.
Proof. vm_compute. reflexivity. Qed.

(** tests_countdown. *)
Example tests_countdown :
  match built 1 (set_frequency_count_down_by_seconds 2 3 (set_task_id 1 new_builder)) with
  | Some t => test [([Do (LAdd t); Handle; Ticks 18], fun s => (launches s =? 3)%nat)]
  | None => false
  end = true.
Proof. vm_compute. reflexivity. Qed.

(** *** sweeper.rs, test_task_valid: nine units with one deadline. *)
Example test_sweeper :
  let units := (fun i => RUnit 105 i (Z.of_N (i * i))) <$> [1; 2; 3; 4; 5; 6; 7; 8; 9] in
  sweep_round 102 200 [] units = Some ([], units, Some 3) /\
  sweep_round 106 200 [0; 0; 0; 0; 0; 0; 0; 0; 0]%nat units = Some (units, [], None).
Proof. vm_compute. split; reflexivity. Qed.
