(** When tasks run: C01, C02, C03, C38, C39, C43. *)
From Verif Require Import Tactics Inv Own Life Count Quiet Timing Arrival Phase Rearm Sched Interval Lost Clock Added Drift Scen.

(* ------------------------------------------------------------------ *)
(** ** C01 Re-arming is exact

    A task that was left alone ran (was started or skipped) in iteration [it], second [T], and that iteration is
    over.  Then it is done for good, or it has a next due time [E] and the next run comes
    exactly [E - T + 1] iterations later: not in an earlier one, and if it did
    not come yet the iteration in which it comes is not over. *)
Theorem C01_rearming_is_exact pf t0 t1 s t l1 o it T l2 :
  alone pf t0 t1 t s ->
  log s = l1 ++ o :: l2 -> runs_at (t_uid t) it T o -> it < iters s ->
  (first_run (t_uid t) l1 = None /\ over pf t s) \/
  exists E, OPark (t_uid t) (t_id t) it T E ∈ l1 /\
    (T <= E -> match first_run (t_uid t) l1 with
               | Some k => k = it + (E - T + 1)
               | None => iters s <= it + (E - T + 1)
               end).
Proof.
  intros (Hr & Hs & Hq & Hn) El R Hlt.
  destruct (run_again _ _ _ _ _ _ _ _ _ _ Hr Hs Hq Hn El R Hlt) as [?|(e & He & Hx)]; [by left|right].
  exists e. split; [done|]. intros HT. unfold until in Hx. apply N.leb_le in HT. rewrite HT in Hx.
  destruct (first_run _ l1); lia.
Qed.
Print Assumptions C01_rearming_is_exact.

(** The due time [E] is the next one of the task's own schedule, and the k-th run belongs to the k-th due time:
    between two consecutive runs exactly one due time is taken. *)
Theorem C01_consecutive_runs pf t0 t1 s t l1 o2 it2 ts2 m o1 it1 ts1 l2 :
  alone pf t0 t1 t s ->
  log s = l1 ++ o2 :: m ++ o1 :: l2 ->
  runs_at (t_uid t) it1 ts1 o1 -> runs_at (t_uid t) it2 ts2 o2 -> ~ has_run (t_uid t) m ->
  exists d E r, planned (t_uid t) l2 = d :: r /\ planned (t_uid t) (m ++ o1 :: l2) = E :: d :: r /\
    it2 = it1 + 1 + (if ts1 <=? E then E - ts1 else 1).
Proof. intros (Hr & Hs & Hq & Hn). exact (consecutive pf t0 t1 s t l1 o2 it2 ts2 m o1 it1 ts1 l2 Hr Hs Hq Hn). Qed.
Print Assumptions C01_consecutive_runs.

(** The due times are those of the frequency the task was submitted with. *)
Theorem C01_due_times pf t0 t1 s t : reachable pf t0 t1 s -> submitted t (log s) ->
  exists i', follows pf (iter_of (t_freq t)) (planned (t_uid t) (log s)) i'.
Proof. intros Hr Hs. destruct (f_sub _ _ (finv_reach _ _ _ _ Hr) t Hs) as (i' & Hf & _). eauto. Qed.
Print Assumptions C01_due_times.

(** Two tasks, one with an interval of more than a revolution; the handler handles the adds in different ticks. *)
Definition two : list act :=
  [Do (LAdd (every 1 11 4000 100)); Do (LAdd (every 2 12 70 100)); Handle; Ticks 8025].
Example C01_example : exists s, ideal Debug 100 100 100 (every 1 11 4000 100) s /\
  exists l1 l2, log s = l1 ++ OLaunch 1 11 57 4001 4101 :: l2 /\ 4001 < iters s /\
    OPark 1 11 4001 4101 8100 ∈ l1 /\ first_run 1 l1 = Some 8001.
Proof.
  destruct (scen_ideal Debug 100 100 100 two (every 1 11 4000 100)
    (fun s => (4001 <? iters s) && sees (OLaunch 1 11 57 4001 4101) (log s)
                (fun l1 _ => inb (OPark 1 11 4001 4101 8100) l1 && is (first_run 1 l1) (Some 8001)))) as (s & Hi & HP);
    [left; left|vm_compute; reflexivity|].
  facts HP. eauto 10.
Qed.

(* ------------------------------------------------------------------ *)
(** ** C02 The first run of an added task comes on time

    The handler read the second hand in iteration [k] and the time [g], the due time is [d]; the next
    iteration to be scanned after the insertion is [n].  The full property: *)
Definition C02_first_run_on_time : Prop := forall pf t0 t1 b t s l1 l2 i n sl c k g d x,
  ideal pf t0 t1 b t s -> log s = l1 ++ OAdded (t_uid t) i n sl c :: l2 ->
  plan_of (t_uid t) l2 = Some (t_id t, k, g, d) -> g <= d -> d + SLOTS < U64 -> k <= n <= k + 1 ->
  first_run (t_uid t) l1 = Some x -> x = k + (d - g + 1).

(** False: a task due 20 s later, added when the second hand is at 3590, runs 3600 ticks late. *)
Theorem C02_first_run_on_time_refuted : ~ C02_first_run_on_time.
Proof.
  intros H.
  destruct (scen_ideal Debug 100 100 100
    [Ticks 3590; Do (LAdd (every 1 11 20 3690)); Do (LTimer 0 0 0); Do (LTimer 0 0 0); Handle; Ticks 3800] (every 1 11 20 3690)
    (fun s => sees (OAdded 1 11 3590 11 1) (log s) (fun l1 l2 =>
       bool_decide (plan_of 1 l2 = Some (11, 3590, 3690, 3710)) && is (first_run 1 l1) (Some 7211)))) as (s & Hi & HP);
    [left; right; left|vm_compute; reflexivity|].
  facts HP. apply bool_decide_eq_true in HP0.
  pose proof (H _ _ _ _ _ _ _ _ _ _ _ _ _ _ _ _ Hi El HP0 ltac:(lia) ltac:(unfold SLOTS, U64; lia) ltac:(lia) HP). lia.
Qed.
Print Assumptions C02_first_run_on_time_refuted.

(** What holds: the first run comes [d - g + 1] ticks after the add was handled or exactly one revolution later, and
    the latter exactly if its slot lies behind the second hand.  (Missing for the full property: nothing more can
    be proved, see above.) *)
Theorem C02_first_run_on_time_partial pf t0 t1 s t l1 l2 i n sl c :
  alone pf t0 t1 t s ->
  log s = l1 ++ OAdded (t_uid t) i n sl c :: l2 ->
  exists k g d, plan_of (t_uid t) l2 = Some (t_id t, k, g, d) /\ k <= n /\
  (d + SLOTS < U64 -> g <= d -> n <= k + 1 ->
   let x0 := k + (d - g + 1) + (if k mod SLOTS + (n - k) <=? (d - g + k mod SLOTS + 1) mod SLOTS then 0 else SLOTS) in
   match first_run (t_uid t) l1 with
   | Some x => x = x0
   | None => iters s <= x0 \/ exists i, ODrop (t_uid t) i NoMark ∈ l1
   end).
Proof.
  intros (Hr & Hs & Hq & Hn) El. destruct (first_run_at _ _ _ _ _ _ _ _ _ _ _ Hr Hs Hq Hn El) as (k & g & d & Hp & Hk & Hx).
  exists k, g, d. split; [done|]. split; [done|]. intros Hd Hg Hnk x0.
  assert (arrival k n (add_distance d g (t_id t)) = x0) as <-.
  { unfold add_distance, checked_sub, x0. apply N.leb_le in Hg. rewrite Hg. rewrite arrival_exact by done. lia. }
  by apply Hx.
Qed.
Print Assumptions C02_first_run_on_time_partial.

(** Even when the handler stalls for any number of ticks the first run is not lost and not before its time. *)
Theorem C02_first_run_any_delay pf t0 t1 s t l1 l2 i n sl c x :
  alone pf t0 t1 t s ->
  log s = l1 ++ OAdded (t_uid t) i n sl c :: l2 -> first_run (t_uid t) l1 = Some x ->
  exists k g d, plan_of (t_uid t) l2 = Some (t_id t, k, g, d) /\ k <= n /\
  (d + SLOTS < U64 -> g <= d -> k + (d - g + 1) <= x /\ x mod SLOTS = (k + (d - g + 1)) mod SLOTS).
Proof.
  intros (Hr & Hs & Hq & Hn) El Hf. destruct (first_run_at _ _ _ _ _ _ _ _ _ _ _ Hr Hs Hq Hn El) as (k & g & d & Hp & Hk & Hx).
  exists k, g, d. split; [done|]. split; [done|]. intros Hd Hg. specialize (Hx Hd). rewrite Hf in Hx. rewrite Hx.
  unfold add_distance, checked_sub. apply N.leb_le in Hg. rewrite Hg.
  pose proof (arrival_ge k n (d - g) Hk). rewrite arrival_mod. split; [lia|]. f_equal. lia.
Qed.
Print Assumptions C02_first_run_any_delay.

Example C02_example : exists s, ideal Debug 100 100 100 (every 1 11 4000 100) s /\
  exists l1 l2, log s = l1 ++ OAdded 1 11 0 401 1 :: l2 /\ plan_of 1 l2 = Some (11, 0, 100, 4100) /\
  first_run 1 l1 = Some 4001.
Proof.
  destruct (scen_ideal Debug 100 100 100 two (every 1 11 4000 100)
    (fun s => sees (OAdded 1 11 0 401 1) (log s) (fun l1 l2 => bool_decide (plan_of 1 l2 = Some (11, 0, 100, 4100)) && is (first_run 1 l1) (Some 4001))))
    as (s & Hi & HP); [left; left|vm_compute; reflexivity|].
  facts HP. apply bool_decide_eq_true in HP0. eauto 10.
Qed.

(* ------------------------------------------------------------------ *)
(** ** C03 A task is never started before its due time

    [planned] of the log before the run starts with the due time the run belongs to.  Hypothesis about stalling: the
    time [g] the handler read is at most that of the iteration after the one in which it read the
    second hand. *)
Theorem C03_never_early pf t0 t1 b s t o it ts l1 l2 : ideal pf t0 t1 b t s ->
  (forall i k g d, OPlan (t_uid t) i k g d ∈ log s -> g <= b + k + 1 /\ d + SLOTS < U64) ->
  log s = l1 ++ o :: l2 -> runs_at (t_uid t) it ts o ->
  exists d r, planned (t_uid t) l2 = d :: r /\ d <= ts.
Proof. intros ((H1 & H2 & H3 & H4) & H5). exact (never_early pf t0 t1 b s t o it ts l1 l2 H1 H2 H3 H4 H5). Qed.
Print Assumptions C03_never_early.

Definition planb (t1 u : N) (lg : list obs) : bool :=
  forallb (fun o => match o with OPlan u' _ k g d => negb (u' =? u) || ((g <=? t1 + k + 1) && (d + SLOTS <? U64)) | _ => true end) lg.
Lemma planb_ok t1 u lg : planb t1 u lg = true -> forall i k g d, OPlan u i k g d ∈ lg -> g <= t1 + k + 1 /\ d + SLOTS < U64.
Proof.
  unfold planb. rewrite forallb_forall. intros H i k g d Hin. apply elem_of_list_In in Hin. specialize (H _ Hin). cbn in H.
  rewrite N.eqb_refl in H. cbn in H. apply andb_true_iff in H as [H1%N.leb_le H2%N.ltb_lt]. done.
Qed.
Example C03_example : exists s, ideal Debug 100 100 100 (every 1 11 4000 100) s /\
  (forall i k g d, OPlan 1 i k g d ∈ log s -> g <= 100 + k + 1 /\ d + SLOTS < U64) /\
  exists l1 l2, log s = l1 ++ OLaunch 1 11 57 4001 4101 :: l2 /\ planned 1 l2 = [4100].
Proof.
  destruct (scen_ideal Debug 100 100 100 two (every 1 11 4000 100)
    (fun s => planb 100 1 (log s) && sees (OLaunch 1 11 57 4001 4101) (log s) (fun _ l2 => bool_decide (planned 1 l2 = [4100]))))
    as (s & Hi & HP); [left; left|vm_compute; reflexivity|].
  facts HP. apply bool_decide_eq_true in HP. pose proof (planb_ok _ _ _ HP0). eauto 10.
Qed.

(** The hypothesis about stalling is needed: if the handler is suspended for 10 s between reading the second hand and
    reading the time, a task due 20 s after it was built starts 9 s early. *)
Theorem C03_early_if_handler_stalls : exists s, ideal Debug 100 100 100 (every 1 11 20 100) s /\
  exists l1 r l2, log s = l1 ++ OLaunch 1 11 r 11 111 :: l2 /\ planned 1 l2 = [120].
Proof.
  destruct (scen_ideal Debug 100 100 100
    [Do (LAdd (every 1 11 20 100)); Do LHandler; Ticks 10; Do (LTimer 0 0 0); Do (LTimer 0 0 0); Handle; Ticks 20] (every 1 11 20 100)
    (fun s => sees (OLaunch 1 11 0 11 111) (log s) (fun _ l2 => bool_decide (planned 1 l2 = [120]))))
    as (s & Hi & HP); [left; left|vm_compute; reflexivity|].
  facts HP. apply bool_decide_eq_true in HP. eauto 10.
Qed.
Print Assumptions C03_early_if_handler_stalls.

(* ------------------------------------------------------------------ *)
(** ** C38 A task added after its due time runs at once

    The full property, with "at once" = within 3 ticks: *)
Definition C38_overdue_runs_at_once : Prop := forall pf t0 t1 b t s l1 l2 i n sl c k g d x,
  ideal pf t0 t1 b t s -> log s = l1 ++ OAdded (t_uid t) i n sl c :: l2 ->
  plan_of (t_uid t) l2 = Some (t_id t, k, g, d) -> d < g -> n = k ->
  first_run (t_uid t) l1 = Some x -> x <= k + 3.

(** False: the delay is the task id modulo 3600. *)
Theorem C38_overdue_runs_at_once_refuted : ~ C38_overdue_runs_at_once.
Proof.
  intros H.
  destruct (scen_ideal Debug 200 200 200 [Do (LTimer 0 0 0); Do (LTimer 0 0 0); Do (LAdd (every 1 1999 20 100)); Handle; Ticks 2020] (every 1 1999 20 100)
    (fun s => sees (OAdded 1 1999 0 2000 0) (log s) (fun l1 l2 =>
       bool_decide (plan_of 1 l2 = Some (1999, 0, 200, 120)) && is (first_run 1 l1) (Some 2000)))) as (s & Hi & HP);
    [left; right; right; left|vm_compute; reflexivity|].
  facts HP. apply bool_decide_eq_true in HP0.
  pose proof (H _ _ _ _ _ _ _ _ _ _ _ _ _ _ _ _ Hi El HP0 ltac:(lia) ltac:(lia) HP). lia.
Qed.
Print Assumptions C38_overdue_runs_at_once_refuted.

(** What holds: it runs [task id mod 3600 + 1] ticks later (or a revolution after that, if the slot lies behind the hand). *)
Theorem C38_overdue_runs_at_once_partial pf t0 t1 s t l1 l2 i n sl c :
  alone pf t0 t1 t s ->
  log s = l1 ++ OAdded (t_uid t) i n sl c :: l2 ->
  exists k g d, plan_of (t_uid t) l2 = Some (t_id t, k, g, d) /\ k <= n /\
  (d < g -> d + SLOTS < U64 -> n <= k + 1 ->
   let x0 := k + (t_id t mod SLOTS + 1) + (if k mod SLOTS + (n - k) <=? (t_id t mod SLOTS + k mod SLOTS + 1) mod SLOTS then 0 else SLOTS) in
   match first_run (t_uid t) l1 with
   | Some x => x = x0
   | None => iters s <= x0 \/ exists i, ODrop (t_uid t) i NoMark ∈ l1
   end).
Proof.
  intros (Hr & Hs & Hq & Hn) El. destruct (first_run_at _ _ _ _ _ _ _ _ _ _ _ Hr Hs Hq Hn El) as (k & g & d & Hp & Hk & Hx).
  exists k, g, d. split; [done|]. split; [done|]. intros Hg Hd Hnk x0.
  assert (arrival k n (add_distance d g (t_id t)) = x0) as <-.
  { unfold add_distance, checked_sub, x0. apply N.leb_gt in Hg. rewrite Hg. rewrite arrival_exact by done. lia. }
  by apply Hx.
Qed.
Print Assumptions C38_overdue_runs_at_once_partial.

(* ------------------------------------------------------------------ *)
(** ** C39 Clock jumps never lose a task

    For any clock values: a task that ran is done for good, or it is put back on the wheel and runs again after
    the stated finite number of ticks; 2 if the next due time has passed. *)
Theorem C39_clock_jumps_lose_nothing pf t0 t1 s t l1 o it T l2 :
  alone pf t0 t1 t s ->
  log s = l1 ++ o :: l2 -> runs_at (t_uid t) it T o -> it < iters s ->
  over pf t s \/
  exists E, OPark (t_uid t) (t_id t) it T E ∈ l1 /\
    let next := it + (if T <=? E then E - T + 1 else 2) in
    match first_run (t_uid t) l1 with
    | Some k => k = next
    | None => iters s <= next
    end.
Proof.
  intros (Hr & Hs & Hq & Hn) El R Hlt.
  destruct (run_again _ _ _ _ _ _ _ _ _ _ Hr Hs Hq Hn El R Hlt) as [[_ ?]|(e & He & Hx)]; [by left|right].
  exists e. split; [done|]. unfold until in Hx. cbv zeta. destruct (T <=? e) eqn:E, (first_run _ l1); lia.
Qed.
Print Assumptions C39_clock_jumps_lose_nothing.

(** The clock jumps from 120 to 5000, and then back to 50. *)
Example C39_example : exists s, alone Debug 100 100 (every 1 11 20 100) s /\
  exists l1 r l2, log s = l1 ++ OLaunch 1 11 r 21 5000 :: l2 /\ 21 < iters s /\ OPark 1 11 21 5000 140 ∈ l1 /\ first_run 1 l1 = Some 23.
Proof.
  destruct (scen_alone Debug 100 100 [Do (LAdd (every 1 11 20 100)); Do (LTimer 0 0 0); Do (LTimer 0 0 0); Handle; Ticks 20; Tick 5000; Tick 50; Ticks 3] (every 1 11 20 100)
    (fun s => (21 <? iters s) && sees (OLaunch 1 11 0 21 5000) (log s)
      (fun l1 _ => inb (OPark 1 11 21 5000 140) l1 && is (first_run 1 l1) (Some 23)))) as (s & Ha & HP);
    [left; left|vm_compute; reflexivity|].
  facts HP. eauto 10.
Qed.

(* ------------------------------------------------------------------ *)
(** ** C43 Periodic tasks do not drift

    [o1] and [o2] are consecutive runs of a task repeated every [p] seconds.  The full property: *)
Definition C43_no_drift : Prop := forall pf t0 t1 b s t st p l1 o2 it2 ts2 m o1 it1 ts1 l2,
  ideal pf t0 t1 b t s -> interval (t_freq t) = Some (st, p) -> fits t st p (log s) ->
  log s = l1 ++ o2 :: m ++ o1 :: l2 -> runs_at (t_uid t) it1 ts1 o1 -> runs_at (t_uid t) it2 ts2 o2 -> ~ has_run (t_uid t) m ->
  ts2 = ts1 + p.

(** Exactly what happens: [d] is the due time of the first of the two runs. *)
Theorem C43_next_run pf t0 t1 b s t st p l1 o2 it2 ts2 m o1 it1 ts1 l2 :
  ideal pf t0 t1 b t s -> interval (t_freq t) = Some (st, p) -> fits t st p (log s) ->
  log s = l1 ++ o2 :: m ++ o1 :: l2 -> runs_at (t_uid t) it1 ts1 o1 -> runs_at (t_uid t) it2 ts2 o2 -> ~ has_run (t_uid t) m ->
  exists d r, planned (t_uid t) l2 = d :: r /\ planned (t_uid t) (m ++ o1 :: l2) = d + p :: d :: r /\
    ts2 = if ts1 <=? d + p then d + p + 1 else ts1 + 2.
Proof. intros ((H1 & H2 & H3 & H4) & H5). exact (next_after pf t0 t1 b s t st p l1 o2 it2 ts2 m o1 it1 ts1 l2 H1 H2 H3 H5). Qed.
Print Assumptions C43_next_run.

(** From a run on time (one second after its due time, which is the tick in which the scheduler looks) on, all later
    runs are on time, and consecutive ones exactly [p] seconds apart.  (Missing for the full property: runs that are late
    to begin with; see the refutation.) *)
Theorem C43_no_drift_partial pf t0 t1 b s t st p l1 o2 it2 ts2 m o1 it1 ts1 l2 d r :
  ideal pf t0 t1 b t s -> interval (t_freq t) = Some (st, p) -> fits t st p (log s) ->
  log s = l1 ++ o2 :: m ++ o1 :: l2 -> runs_at (t_uid t) it1 ts1 o1 -> runs_at (t_uid t) it2 ts2 o2 ->
  planned (t_uid t) l2 = d :: r -> ts1 = d + 1 ->
  (exists d2 r2, planned (t_uid t) (m ++ o1 :: l2) = d2 :: r2 /\ ts2 = d2 + 1) /\
  (~ has_run (t_uid t) m -> ts2 = ts1 + p).
Proof.
  intros Hid Hi Hf El R1 R2 Hp Ht. pose proof Hid as ((H1 & H2 & H3 & H4) & H5). split.
  - exact (on_time_for_ever pf t0 t1 b s t st p l1 o2 it2 ts2 m o1 it1 ts1 l2 d r H1 H2 H3 H5 Hi Hf El R1 R2 Hp Ht).
  - intros Hno. destruct (C43_next_run _ _ _ _ _ _ _ _ _ _ _ _ _ _ _ _ _ Hid Hi Hf El R1 R2 Hno) as (d' & r' & E1 & _ & E2).
    rewrite E1 in Hp. simplify_eq. pose proof (interval_pos _ _ _ Hi). destruct (d + 1 <=? d + p) eqn:E; lia.
Qed.
Print Assumptions C43_no_drift_partial.

(** The first run is on time if the add was handled within one second and its slot lies before the hand; it comes in the very second
    it is due if the time the handler read was already that of the next iteration. *)
Theorem C43_first_run pf t0 t1 b s t l1 i n sl c l2 x :
  ideal pf t0 t1 b t s -> log s = l1 ++ OAdded (t_uid t) i n sl c :: l2 -> first_run (t_uid t) l1 = Some x ->
  exists k g d r, plan_of (t_uid t) l2 = Some (t_id t, k, g, d) /\ planned (t_uid t) l2 = d :: r /\
    (d + SLOTS < U64 -> b + k <= g <= b + k + 1 -> g <= d -> k <= n <= k + 1 -> k mod SLOTS + (n - k) <= (d - g + k mod SLOTS + 1) mod SLOTS ->
     b + x = if g =? b + k then d + 1 else d).
Proof. intros ((H1 & H2 & H3 & H4) & H5). exact (first_on_time pf t0 t1 b s t l1 i n sl c l2 x H1 H2 H3 H4 H5). Qed.
Print Assumptions C43_first_run.

Definition intervalb (t : task) (st p : N) (s : sys) : bool :=
  bool_decide (interval (t_freq t) = Some (st, p)) && (st + N.of_nat (length (planned (t_uid t) (log s))) * p + SLOTS <? U64).
Lemma intervalb_ok t st p s : intervalb t st p s = true -> interval (t_freq t) = Some (st, p) /\ fits t st p (log s).
Proof. unfold intervalb. rewrite andb_true_iff, bool_decide_eq_true, N.ltb_lt. done. Qed.
Definition no_runb (u : N) (l : list obs) : bool := forallb (fun o => match run_it u o with Some _ => false | None => true end) l.
Lemma no_runb_ok u l : no_runb u l = true -> ~ has_run u l.
Proof.
  unfold no_runb. rewrite forallb_forall. intros H (o & Ho & Hr). apply elem_of_list_In in Ho. specialize (H _ Ho).
  destruct o; cbn in Hr, H; try done; by rewrite Hr, N.eqb_refl in H.
Qed.

Example C43_example : exists s, ideal Debug 100 100 100 (every 1 11 7 100) s /\
  interval (t_freq (every 1 11 7 100)) = Some (107, 7) /\ fits (every 1 11 7 100) 107 7 (log s) /\
  exists l1 m l2, log s = l1 ++ OLaunch 1 11 2 22 122 :: m ++ OLaunch 1 11 1 15 115 :: l2 /\ ~ has_run 1 m /\ planned 1 l2 = [114; 107].
Proof.
  destruct (scen_ideal Debug 100 100 100 [Do (LTimer 0 0 0); Do (LTimer 0 0 0); Do (LAdd (every 1 11 7 100)); Handle; Ticks 40] (every 1 11 7 100)
    (fun s => intervalb (every 1 11 7 100) 107 7 s && sees (OLaunch 1 11 2 22 122) (log s) (fun _ m => sees (OLaunch 1 11 1 15 115) m
       (fun m l2 => no_runb 1 m && bool_decide (planned 1 l2 = [114; 107]))))) as (s & Hi & HP);
    [left; right; right; left|vm_compute; reflexivity|].
  facts HP. apply intervalb_ok in HP0 as [? ?]. apply no_runb_ok in HP1. apply bool_decide_eq_true in HP.
  subst. exists s. split; [exact Hi|]. split; [done|]. split; [done|]. eauto 10.
Qed.

(** False in general: a task repeated every second whose add was handled just before the scheduler stored the new
    time starts 2 s late, and from then on every 2 seconds. *)
Theorem C43_no_drift_refuted : ~ C43_no_drift.
Proof.
  intros H.
  destruct (scen_ideal Debug 100 100 100 [Ticks 1; Do (LAdd (every 1 11 1 101)); Handle; Ticks 20] (every 1 11 1 101)
    (fun s => intervalb (every 1 11 1 101) 102 1 s && sees (OLaunch 1 11 4 12 112) (log s) (fun _ m => sees (OLaunch 1 11 3 10 110) m
       (fun m l2 => no_runb 1 m)))) as (s & Hi & HP);
    [left; right; left|vm_compute; reflexivity|].
  facts HP. apply intervalb_ok in HP0 as [Hint Hfit]. apply no_runb_ok in HP. rewrite El0 in El.
  pose proof (H _ _ _ _ _ _ _ _ _ _ _ _ _ _ _ _ _ Hi Hint Hfit El ltac:(done) ltac:(done) HP). lia.
Qed.
Print Assumptions C43_no_drift_refuted.

(** ... for ever: a task repeated every second that is 2 s late stays late. *)
Theorem C43_late_every_two_seconds pf t0 t1 b s t st l1 o2 it2 ts2 m o1 it1 ts1 l2 d r :
  ideal pf t0 t1 b t s -> interval (t_freq t) = Some (st, 1) -> fits t st 1 (log s) ->
  log s = l1 ++ o2 :: m ++ o1 :: l2 -> runs_at (t_uid t) it1 ts1 o1 -> runs_at (t_uid t) it2 ts2 o2 -> ~ has_run (t_uid t) m ->
  planned (t_uid t) l2 = d :: r -> d + 2 <= ts1 ->
  ts2 = ts1 + 2 /\ exists d2 r2, planned (t_uid t) (m ++ o1 :: l2) = d2 :: r2 /\ d2 + 2 <= ts2.
Proof.
  intros Hid Hi Hf El R1 R2 Hno Hp Ht.
  destruct (C43_next_run _ _ _ _ _ _ _ _ _ _ _ _ _ _ _ _ _ Hid Hi Hf El R1 R2 Hno) as (d' & r' & E1 & E3 & E2).
  rewrite E1 in Hp. simplify_eq. destruct (ts1 <=? d + 1) eqn:E; [lia|]. split; [done|].
  exists (d + 1), (d :: r). split; [done|lia].
Qed.
Print Assumptions C43_late_every_two_seconds.

(** A task with p >= 2 recovers: if it is at most [p] late the next run is on time, otherwise the delay
    shrinks by [p - 2]. *)
Theorem C43_recovers pf t0 t1 b s t st p l1 o2 it2 ts2 m o1 it1 ts1 l2 d r :
  ideal pf t0 t1 b t s -> interval (t_freq t) = Some (st, p) -> fits t st p (log s) ->
  log s = l1 ++ o2 :: m ++ o1 :: l2 -> runs_at (t_uid t) it1 ts1 o1 -> runs_at (t_uid t) it2 ts2 o2 -> ~ has_run (t_uid t) m ->
  planned (t_uid t) l2 = d :: r -> 2 <= p -> d <= ts1 ->
  exists d2 r2, planned (t_uid t) (m ++ o1 :: l2) = d2 :: r2 /\
    (ts1 <= d + p -> ts2 = d2 + 1) /\ (d + p < ts1 -> ts2 - d2 = ts1 - d - (p - 2)).
Proof.
  intros Hid Hi Hf El R1 R2 Hno Hp H2 Hd.
  destruct (C43_next_run _ _ _ _ _ _ _ _ _ _ _ _ _ _ _ _ _ Hid Hi Hf El R1 R2 Hno) as (d' & r' & E1 & E3 & E2).
  rewrite E1 in Hp. simplify_eq. exists (d + p), (d :: r). split; [done|]. destruct (ts1 <=? d + p) eqn:E; lia.
Qed.
Print Assumptions C43_recovers.
