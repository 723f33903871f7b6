(** Life of a task in the timer: C04, C05, C06, C41, C42, C49. *)
From Verif Require Import Tactics Inv Own Life Count Quiet Timing Arrival Phase Rearm Sched Interval Lost Clock Added Drift Panics Zero Scen.

Definition timer_dead (s : sys) : bool := match tpc s with TDead => true | _ => false end.
Definition handler_dead (s : sys) : bool := match hpc s with HDead => true | _ => false end.
Lemma timer_dead_ok s : timer_dead s = true -> tpc s = TDead.
Proof. unfold timer_dead. by destruct (tpc s). Qed.
Lemma handler_dead_ok s : handler_dead s = true -> hpc s = HDead.
Proof. unfold handler_dead. by destruct (hpc s). Qed.
Lemma timer_alive_ok s : negb (timer_dead s) = true -> tpc s <> TDead.
Proof. unfold timer_dead. by destruct (tpc s). Qed.
Lemma handler_alive_ok s : negb (handler_dead s) = true -> hpc s <> HDead.
Proof. unfold handler_dead. by destruct (hpc s). Qed.

(** A scenario without the hypothesis of being left alone. *)
Lemma scen_sub pf t0 t1 acts n lb t (P : sys -> bool) : acts !! n = Some (Do lb) -> lb = LAdd t \/ lb = LInsert t \/ lb = LUpdate t ->
  after pf t0 t1 acts P = true -> exists s, reachable pf t0 t1 s /\ submitted t (log s) /\ P s = true.
Proof.
  unfold after. rewrite init0_eq. destruct (play pf acts (init t0 t1)) as [s|] eqn:E; [|intros ? ? H; discriminate H]. intros Hin Hlb H. apply elem_of_list_lookup_2 in Hin.
  exists s. split; [exact (play_reach _ _ _ _ _ E)|]. split; [|exact H]. exact (play_submitted pf acts _ s _ t E Hin Hlb).
Qed.

(* ------------------------------------------------------------------ *)
(** ** C04 A countdown task is started at most n times *)
Theorem C04_at_most_n_starts pf t0 t1 s t n : reachable pf t0 t1 s -> submitted t (log s) ->
  count (t_freq t) = Some n -> 1 <= n -> starts (t_uid t) (log s) <= n.
Proof. intros Hr. exact (ci_le s (cnt_reach _ _ _ _ Hr) t n). Qed.
Print Assumptions C04_at_most_n_starts.

(** Advanced, cancelled, updated to another task and removed; started twice of three times. *)
Definition busy_acts : list act :=
  [Do (LTimer 0 0 0); Do (LTimer 0 0 0); Do (LAdd (ntimes 1 11 3 5 100)); Handle; Ticks 2; Do (LAdvance 11); Handle; Ticks 4; Do (LCancel 11 0); Handle; Ticks 8;
   Do (LUpdate (every 2 11 2 120)); Handle; Do (LRemove 11); Ticks 20; Handle].
Example C04_example : exists s, reachable Debug 100 100 s /\ submitted (ntimes 1 11 3 5 100) (log s) /\ starts 1 (log s) = 2.
Proof.
  destruct (scen_sub Debug 100 100 busy_acts 2 _ (ntimes 1 11 3 5 100) (fun s => starts 1 (log s) =? 2)
    eq_refl (or_introl eq_refl)) as (s & Hr & Hs & HP);
    [vm_compute; reflexivity|].
  facts HP. eauto.
Qed.

(* ------------------------------------------------------------------ *)
(** ** C05 A task is never lost before its countdown is used up

    The full property ([over]: countdown used up, or no further date): *)
Definition C05_never_lost : Prop := forall pf t0 t1 s t, alone pf t0 t1 t s -> tpc s <> TDead -> hpc s <> HDead ->
  (exists t', t' ∈ held s /\ t_uid t' = t_uid t) \/ over pf t s.

Lemma follows_inr pf st l c : follows pf (inr st) l (inl c) -> False.
Proof. intros H. apply follows_kind in H. destruct H as [_ H]. destruct H as [? ?]; [eauto|done]. Qed.

(** False: the handler puts the task on the wheel before it records the mark.  If the task is due in between, a task with a
    parallel limit is dropped. *)
Theorem C05_never_lost_refuted : ~ C05_never_lost.
Proof.
  intros H.
  destruct (scen_alone Debug 100 100 [Do (LAdd (limited 1 (every 1 11 1 100))); Do LHandler; Do LHandler; Do LHandler; Ticks 5; Handle] (limited 1 (every 1 11 1 100))
    (fun s => negb (timer_dead s) && negb (handler_dead s) && bool_decide (held s = []))) as (s & Ha & HP); [left; left|vm_compute; reflexivity|].
  apply andb_true_iff in HP as [HP HE]. apply andb_true_iff in HP as [HP1 HP2]. apply bool_decide_eq_true in HE.
  destruct (H _ _ _ _ _ Ha (timer_alive_ok _ HP1) (handler_alive_ok _ HP2)) as [(t' & Ht' & _)|[(n & Hn & _)|(l & c & c' & Hf & _)]].
  - rewrite HE in Ht'. by apply elem_of_nil in Ht'.
  - discriminate Hn.
  - exact (follows_inr _ _ _ _ Hf).
Qed.
Print Assumptions C05_never_lost_refuted.

(** What holds: that is the only way to lose a task, and it can only happen instead of its first run.  (Missing for the full
    property: the second case.) *)
Theorem C05_never_lost_partial pf t0 t1 s t : alone pf t0 t1 t s -> tpc s <> TDead -> hpc s <> HDead ->
  (exists t', t' ∈ held s /\ t_uid t' = t_uid t) \/
  (t_maxpar t <> None /\ exists l1 i l2, log s = l1 ++ ODrop (t_uid t) i NoMark :: l2 /\ ~ has_run (t_uid t) l2) \/
  over pf t s.
Proof.
  intros (Hr & Hs & Hq & Hn) Ht Hh. destruct (not_lost _ _ _ _ _ Hr Hs Hq Hn Ht Hh) as [?|[n H1 H2|i H1 H2|l c c' H1 H2]].
  - by left.
  - right; right. left. eauto.
  - right; left. split; [done|]. pose proof (mark_at_reach _ _ _ _ _ Hr (only_quiet _ _ (cnt_reach _ _ _ _ Hr) Hs Hq)) as Hm.
    apply elem_of_list_split in H1 as (l1 & l2 & E). exists l1, i, l2. split; [done|]. rewrite E in Hm. apply (each_split _ l1) in Hm.
    by apply Hm.
  - right; right. right. eauto.
Qed.
Print Assumptions C05_never_lost_partial.

(** Hence a repeated interval task without parallel limit is held for ever, and a countdown is used up exactly. *)
Theorem C05_repeated_task_stays pf t0 t1 s t st : alone pf t0 t1 t s -> tpc s <> TDead -> hpc s <> HDead ->
  iter_of (t_freq t) = inr st -> t_maxpar t = None ->
  (exists t', t' ∈ held s /\ t_uid t' = t_uid t) \/
  exists n, count (t_freq t) = Some n /\ (1 <= n -> starts (t_uid t) (log s) = n).
Proof. intros (Hr & Hs & Hq & Hn). exact (interval_not_lost pf t0 t1 s t st Hr Hs Hq Hn). Qed.
Print Assumptions C05_repeated_task_stays.

Example C05_example : exists s, alone Debug 100 100 (ntimes 1 11 3 5 100) s /\ tpc s <> TDead /\ hpc s <> HDead /\
  held s = [] /\ starts 1 (log s) = 3.
Proof.
  destruct (scen_alone Debug 100 100 [Do (LAdd (ntimes 1 11 3 5 100)); Handle; Ticks 40] (ntimes 1 11 3 5 100)
    (fun s => negb (timer_dead s) && negb (handler_dead s) && bool_decide (held s = []) && (starts 1 (log s) =? 3))) as (s & Ha & HP); [left; left|vm_compute; reflexivity|].
  apply andb_true_iff in HP as [HP HE]. apply andb_true_iff in HP as [HP HP3]. apply andb_true_iff in HP as [HP1 HP2].
  apply bool_decide_eq_true in HP3. facts HE. eauto 10 using timer_alive_ok, handler_alive_ok.
Qed.

(* ------------------------------------------------------------------ *)
(** ** C06 A countdown of zero runs zero times *)
Definition C06_zero_never_starts : Prop := forall pf t0 t1 s t, reachable pf t0 t1 s -> submitted t (log s) ->
  count (t_freq t) = Some 0 -> starts (t_uid t) (log s) = 0 /\ tpc s <> TDead.

(** False.  With overflow checks it is started once and the scheduler thread dies; without them it is started again and again. *)
Theorem C06_zero_kills_scheduler : exists s, reachable Debug 100 100 s /\ submitted (ntimes 1 11 0 5 100) (log s) /\
  starts 1 (log s) = 1 /\ tpc s = TDead.
Proof.
  assert (exists s, reachable Debug 100 100 s /\ submitted (ntimes 1 11 0 5 100) (log s) /\
    (starts 1 (log s) =? 1) && timer_dead s = true) as (s & Hr & Hs & HP).
  { refine (scen_sub Debug 100 100 [Do (LTimer 0 0 0); Do (LTimer 0 0 0); Do (LAdd (ntimes 1 11 0 5 100)); Handle; Ticks 6; Do (LTimer 0 0 0); Do (LTimer 0 0 0); Do (LTimer 0 0 0); Do (LTimer 0 0 0); Do (LTimer 0 0 0);
      Do (LTimer 0 0 0); Do (LTimer 0 0 0); Do (LTimer 0 0 0)] 2 (LAdd (ntimes 1 11 0 5 100)) (ntimes 1 11 0 5 100) _ eq_refl (or_introl eq_refl) _).
    vm_compute. reflexivity. }
  facts HP. eauto 10 using timer_dead_ok.
Qed.
Print Assumptions C06_zero_kills_scheduler.
Theorem C06_zero_repeats : exists s, reachable Release 100 100 s /\ submitted (ntimes 1 11 0 5 100) (log s) /\
  starts 1 (log s) = 8.
Proof.
  assert (exists s, reachable Release 100 100 s /\ submitted (ntimes 1 11 0 5 100) (log s) /\ (starts 1 (log s) =? 8) = true) as (s & Hr & Hs & HP).
  { refine (scen_sub Release 100 100 [Do (LAdd (ntimes 1 11 0 5 100)); Handle; Ticks 43] 0 (LAdd (ntimes 1 11 0 5 100)) (ntimes 1 11 0 5 100) _ eq_refl (or_introl eq_refl) _).
    vm_compute. reflexivity. }
  facts HP. eauto 10.
Qed.
Print Assumptions C06_zero_repeats.
Theorem C06_zero_never_starts_refuted : ~ C06_zero_never_starts.
Proof.
  intros H. destruct C06_zero_repeats as (s & Hr & Hs & E). destruct (H _ _ _ _ _ Hr Hs eq_refl) as [E2 _].
  cbn [t_uid ntimes] in E2. rewrite E in E2. discriminate E2.
Qed.
Print Assumptions C06_zero_never_starts_refuted.
(** What holds: at most one start with overflow checks, at most 2^64 without.  (Missing: everything the property asks for;
    these bounds are what the code does.) *)
Theorem C06_zero_never_starts_partial pf t0 t1 s t : reachable pf t0 t1 s -> submitted t (log s) -> count (t_freq t) = Some 0 ->
  starts (t_uid t) (log s) <= match pf with Debug => 1 | Release => U64 end.
Proof. exact (zero_reach pf t0 t1 s t). Qed.
Print Assumptions C06_zero_never_starts_partial.

(* ------------------------------------------------------------------ *)
(** ** C42 A submitted task is in one place

    No Task value occurs twice among those held (event queue, event handler, scheduler, slots), and each of them is one that
    was submitted, with its own id, limits and countdown. *)
Theorem C42_one_place pf t0 t1 s : reachable pf t0 t1 s ->
  NoDup (t_uid <$> held s) /\
  forall t, t ∈ held s -> exists t0, submitted t0 (log s) /\ t_uid t0 = t_uid t /\ t_id t0 = t_id t /\
    t_maxrun t0 = t_maxrun t /\ t_maxpar t0 = t_maxpar t /\
    forall n, count (t_freq t0) = Some n -> 1 <= n -> exists c, count (t_freq t) = Some c /\ 1 <= c /\ n <= starts (t_uid t) (log s) + c <= n + 1.
Proof.
  intros Hr. split; [exact (proj1 (own_reach _ _ _ _ Hr))|]. intros t Ht.
  destruct (ci_held _ (cnt_reach _ _ _ _ Hr) t Ht) as (a & H1 & H2 & H3 & H4 & H5 & _ & _ & H8). exists a.
  do 5 (split; [done|]). intros n Hn H1n. destruct (H8 n Hn H1n) as (_ & c & Hc & Hc1 & Hsum). exists c. split; [done|].
  split; [done|]. assert (pend (t_uid t) (tpc s) <= 1) by (unfold pend; repeat case_match; lia). lia.
Qed.
Print Assumptions C42_one_place.

(** One task queued, one in the handler's hands, one in the scheduler's hands, one on the wheel. *)
Example C42_example : exists s, reachable Debug 100 100 s /\ t_uid <$> held s = [4; 3; 1; 2].
Proof.
  destruct (after_reach Debug 100 100 [Do (LTimer 0 0 0); Do (LTimer 0 0 0); Do (LAdd (every 1 11 1 100)); Do (LAdd (every 2 12 9 100)); Handle; Ticks 2; Do (LAdd (every 3 13 9 100)); Do (LAdd (every 4 14 9 100));
    Do (LTimer 0 0 0); Do (LTimer 0 0 0); Do (LTimer 0 0 0); Do (LTimer 0 0 0); Do LHandler] (fun s => bool_decide (t_uid <$> held s = [4; 3; 1; 2])))
    as (s & Hr & HP); [vm_compute; reflexivity|]. apply bool_decide_eq_true in HP. eauto.
Qed.

(* ------------------------------------------------------------------ *)
(** ** C41 An id names at most one task *)
Definition C41_one_task_per_id : Prop := forall pf t0 t1 s, reachable pf t0 t1 s -> NoDup (t_id <$> wheel_tasks (wheel s)).

(** False: a second add_task with the same id puts a second task into another slot. *)
Theorem C41_one_task_per_id_refuted : ~ C41_one_task_per_id.
Proof.
  intros H.
  destruct (after_reach Debug 100 100 [Do (LAdd (every 1 11 5 100)); Do (LAdd (every 2 11 9 100)); Handle]
     (fun s => bool_decide (t_id <$> wheel_tasks (wheel s) = [11; 11]))) as (s & Hr & HP); [vm_compute; reflexivity|].
  apply bool_decide_eq_true in HP. specialize (H _ _ _ _ Hr). rewrite HP in H. apply NoDup_cons in H as [H _]. apply H. left.
Qed.
Print Assumptions C41_one_task_per_id_refuted.

Lemma NoDup_by {A B C} (f : A -> B) (g : A -> C) (l : list A) :
  NoDup (f <$> l) -> (forall x y, x ∈ l -> y ∈ l -> g x = g y -> f x = f y) -> NoDup (g <$> l).
Proof.
  induction l as [|x l IH]; cbn; intros Hn Hi; [constructor|]. apply NoDup_cons in Hn as [H1 H2]. constructor.
  - intros (y & E & Hy)%elem_of_list_fmap. apply H1. rewrite (Hi x y); [by apply elem_of_list_fmap_1|left|by right|done].
  - apply IH; [done|]. intros y z Hy Hz. apply Hi; by right.
Qed.

(** What holds: if the user submits each id once, all tasks held anywhere have different ids.  (Missing: ids that are submitted
    again; see the refutation.)  Moreover a slot never has two tasks with the same id. *)
Theorem C41_one_task_per_id_partial pf t0 t1 s : reachable pf t0 t1 s ->
  (forall t t', submitted t (log s) -> submitted t' (log s) -> t_id t = t_id t' -> t = t') ->
  NoDup (t_id <$> held s).
Proof.
  intros Hr Hid. apply (NoDup_by t_uid); [exact (proj1 (own_reach _ _ _ _ Hr))|]. intros x y Hx Hy E.
  destruct (ci_held _ (cnt_reach _ _ _ _ Hr) x Hx) as (a & A1 & A2 & A3 & _).
  destruct (ci_held _ (cnt_reach _ _ _ _ Hr) y Hy) as (b & B1 & B2 & B3 & _).
  assert (a = b) by (apply Hid; congruence). congruence.
Qed.
Print Assumptions C41_one_task_per_id_partial.
Theorem C41_one_task_per_id_and_slot pf t0 t1 s i m : reachable pf t0 t1 s -> wheel s !! i = Some m -> NoDup (t_id <$> slot_tasks m).
Proof.
  intros Hr Hm. pose proof (wf_key _ (wf_reach _ _ _ _ Hr) i m) as Hk.
  assert (t_id <$> slot_tasks m = (map_to_list m).*1) as ->; [|apply NoDup_fst_map_to_list].
  unfold slot_tasks. rewrite <- list_fmap_compose. apply list_fmap_ext. intros j [k t] Hj. cbn.
  apply (Hk k t Hm). apply elem_of_map_to_list. by apply elem_of_list_lookup_2 in Hj.
Qed.
Print Assumptions C41_one_task_per_id_and_slot.
Example C41_example : exists s, reachable Debug 100 100 s /\ t_id <$> held s = [12; 11].
Proof.
  destruct (after_reach Debug 100 100 [Do (LAdd (every 1 11 5 100)); Do (LAdd (every 2 12 9 100)); Do LHandler; Do LHandler; Do LHandler; Do LHandler]
     (fun s => bool_decide (t_id <$> held s = [12; 11]))) as (s & Hr & HP); [vm_compute; reflexivity|].
  apply bool_decide_eq_true in HP. eauto.
Qed.

(* ------------------------------------------------------------------ *)
(** ** C49 No task parameter can kill the scheduler *)
Definition C49_threads_survive : Prop := forall pf t0 t1 s, reachable pf t0 t1 s -> tpc s <> TDead /\ hpc s <> HDead.

(** False in four ways.  A countdown of 0 with overflow checks: C06_zero_kills_scheduler.  A maximum running time such that
    start second + maximum overflows, with overflow checks: *)
Theorem C49_maximum_running_time : exists s, reachable Debug 100 100 s /\ submitted (timed (U64 - 1) (every 1 11 5 100)) (log s) /\ tpc s = TDead.
Proof.
  assert (exists s, reachable Debug 100 100 s /\ submitted (timed (U64 - 1) (every 1 11 5 100)) (log s) /\ timer_dead s = true) as (s & Hr & Hs & HP).
  { refine (scen_sub Debug 100 100 [Do (LTimer 0 0 0); Do (LTimer 0 0 0); Do (LAdd (timed (U64 - 1) (every 1 11 5 100))); Handle; Ticks 6;
      Do (LTimer 0 0 0); Do (LTimer 0 0 0); Do (LTimer 0 0 0); Do (LTimer 0 0 0); Do (LTimer 0 0 0); Do (LTimer 0 0 0)]
      2 (LAdd (timed (U64 - 1) (every 1 11 5 100))) (timed (U64 - 1) (every 1 11 5 100)) _ eq_refl (or_introl eq_refl) _).
    vm_compute. reflexivity. }
  eauto using timer_dead_ok.
Qed.
Print Assumptions C49_maximum_running_time.
(** An interval near 2^64, with overflow checks: the event handler dies. *)
Theorem C49_interval : exists s, reachable Debug 100 100 s /\ submitted (every 1 11 (U64 - 101) 100) (log s) /\ hpc s = HDead.
Proof.
  assert (exists s, reachable Debug 100 100 s /\ submitted (every 1 11 (U64 - 101) 100) (log s) /\ handler_dead s = true) as (s & Hr & Hs & HP).
  { refine (scen_sub Debug 100 100 [Do (LAdd (every 1 11 (U64 - 101) 100)); Do LHandler; Do LHandler]
      0 (LAdd (every 1 11 (U64 - 101) 100)) (every 1 11 (U64 - 101) 100) _ eq_refl (or_introl eq_refl) _).
    vm_compute. reflexivity. }
  eauto using handler_dead_ok.
Qed.
Print Assumptions C49_interval.
(** A closure that panics before it returns its future, in every build. *)
Theorem C49_closure pf : exists s, reachable pf 100 100 s /\ tpc s = TDead.
Proof.
  assert (exists s, reachable pf 100 100 s /\ timer_dead s = true) as (s & Hr & HP).
  { apply (after_reach pf 100 100 [Do (LTimer 0 0 0); Do (LTimer 0 0 0); Do (LAdd (every 1 11 5 100)); Handle; Ticks 6;
      Do (LTimer 0 0 0); Do (LTimer 0 0 0); Do (LTimer 0 0 0); Do (LTimer 0 0 0); Do (LTimer 0 0 0); Do LRoutinePanic]).
    destruct pf; vm_compute; reflexivity. }
  eauto using timer_dead_ok.
Qed.
Print Assumptions C49_closure.
Theorem C49_threads_survive_refuted : ~ C49_threads_survive.
Proof. intros H. destruct (C49_closure Release) as (s & Hr & E). by destruct (H _ _ _ _ Hr). Qed.
Print Assumptions C49_threads_survive_refuted.

(** What holds: these are the only ways.  Without overflow checks and panicking closures both threads survive everything: *)
Theorem C49_threads_survive_partial t0 t1 s : reachable_with (fun lb => lb <> LRoutinePanic) Release t0 t1 s ->
  tpc s <> TDead /\ hpc s <> HDead.
Proof. exact (release_alive t0 t1 s). Qed.
Print Assumptions C49_threads_survive_partial.
(** With overflow checks they survive if the parameters of all tasks are [safe]. *)
Theorem C49_safe_parameters pf t0 t1 s : reachable_with (fun lb => lb <> LRoutinePanic) pf t0 t1 s ->
  (forall t, submitted t (log s) -> safe t (log s)) -> tpc s <> TDead /\ hpc s <> HDead.
Proof. exact (safe_alive pf t0 t1 s). Qed.
Print Assumptions C49_safe_parameters.

Definition safeb (t : task) (lg : list obs) : bool :=
  negb (bool_decide (count (t_freq t) = Some 0)) &&
  forallb (fun o => match o, t_maxrun t with OTick _ ts, Some m => m + ts <? U64 | _, _ => true end) lg &&
  match iter_of (t_freq t) with
  | inl _ => false
  | inr i => ss_first i && (ss_start i + N.of_nat (length (planned (t_uid t) lg)) * (ss_step i + 1) + SLOTS <? U64)
  end.
Lemma safeb_ok t lg : safeb t lg = true -> safe t lg.
Proof.
  unfold safeb. intros [[H1 H2]%andb_true_iff H3]%andb_true_iff. split; [by apply negb_true_iff, bool_decide_eq_false in H1|]. split.
  - intros m k ts Hm Hk. rewrite forallb_forall in H2. apply elem_of_list_In in Hk. specialize (H2 _ Hk). cbn in H2. rewrite Hm in H2. by apply N.ltb_lt.
  - destruct (iter_of (t_freq t)); [done|]. apply andb_true_iff in H3 as [H3 H4]. split; [done|]. by apply N.ltb_lt in H4.
Qed.
Definition all_safe (lg : list obs) : bool :=
  forallb (fun o => match o with OSend (EAdd t) | OSend (EInsert t) | OSend (EUpdate t) => safeb t lg | _ => true end) lg.
Lemma all_safe_ok lg : all_safe lg = true -> forall t, submitted t lg -> safe t lg.
Proof.
  unfold all_safe. rewrite forallb_forall. intros H t (e & He & Hs). apply elem_of_list_In in He. specialize (H _ He). cbn in H.
  apply safeb_ok. by destruct Hs as [->|[->| ->]].
Qed.
Definition mixed : list act :=
  [Do (LInsert (timed 5 (limited 1 (every 1 11 5 100)))); Do (LAdd (ntimes 2 12 3 4000 100)); Handle; Ticks 9; Do (LUpdate (every 3 11 2 110)); Handle; Do (LAdvance 12); Handle; Ticks 20; Handle].
Example C49_example : exists s, reachable_with (fun lb => lb <> LRoutinePanic) Debug 100 100 s /\
  (forall t, submitted t (log s) -> safe t (log s)) /\ starts 1 (log s) = 1 /\ starts 2 (log s) = 1 /\ starts 3 (log s) = 9.
Proof.
  assert (after Debug 100 100 mixed (fun s => all_safe (log s) && (starts 1 (log s) =? 1) && (starts 2 (log s) =? 1) && (starts 3 (log s) =? 9)) = true) as H by (vm_compute; reflexivity).
  unfold after in H. rewrite init0_eq in H. destruct (play Debug mixed (init 100 100)) as [s|] eqn:E; [|discriminate H].
  apply andb_true_iff in H as [H H3]. apply andb_true_iff in H as [H H2]. apply andb_true_iff in H as [H H1].
  exists s. split; [|facts H1; facts H2; facts H3; split; [exact (all_safe_ok _ H)|split; [exact H1|split; [exact H2|exact H3]]]].
  refine (play_reaches _ Debug mixed _ s _ _ E).
  - split; [intros ch r n X|intros X]; discriminate X.
  - intros lb Hlb. unfold mixed in Hlb. rewrite !elem_of_cons, elem_of_nil in Hlb. intros ->.
    repeat destruct Hlb as [X|Hlb]; try discriminate X. exact Hlb.
Qed.
