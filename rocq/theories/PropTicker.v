(** The clock of the scheduler: C75, C76. *)
From Verif Require Import Tactics Inv Own Life Count Quiet Timing Arrival Phase Rearm Sched Interval Lost Clock Added Drift Scen Ticker.

(* ------------------------------------------------------------------ *)
(** ** C75 The scheduler ticks once a second, without drift

    In an orderly course each iteration, once resumed at most [L] late, is done in time to wait for the next tick. *)
Definition orderly (g : ticking) (L : N) : Prop :=
  tg_delay g + work (tg_beat g 0) + wake (tg_beat g 0) <= L /\ forall k, wake (tg_beat g k) <= L /\ work (tg_beat g k) + L <= NS.
(** The full property: iteration [k] begins [k] seconds after the start, up to [L] later, whatever [k]. *)
Definition C75_once_a_second : Prop := forall g L k, orderly g L ->
  tg_start g + N.of_nat k * NS <= begins g k <= tg_start g + N.of_nat k * NS + L.

(** False with tokio, the default, whose first tick is ready at once: iteration 1 begins with iteration 0. *)
Theorem C75_once_a_second_refuted : ~ C75_once_a_second.
Proof.
  intros H. specialize (H (Ticking Tokio (100 * NS) 0 (fun _ => Beat 0 0)) 0 1%nat). destruct H as [H _].
  - split; [done|]. intros k. split; [done|]. vm_compute. discriminate.
  - revert H. vm_compute. intros H. by apply H.
Qed.
Print Assumptions C75_once_a_second_refuted.

(** What holds: no iteration begins early, in any course ... *)
Theorem C75_never_early g k : tg_start g + N.of_nat (match tg_kind g with Smol => k | Tokio => k - 1 end) * NS <= begins g k.
Proof. pose proof (begins_ge g k) as H. unfold nominal in H. by destruct (tg_kind g). Qed.
Print Assumptions C75_never_early.
(** ... and in an orderly course none begins more than [L] late, so nothing adds up.  With tokio all but the first iteration are a second
    ahead. *)
Theorem C75_once_a_second_partial g L k : orderly g L ->
  let n := match tg_kind g with Smol => k | Tokio => (k - 1)%nat end in
  tg_start g + N.of_nat n * NS <= begins g k <= tg_start g + N.of_nat n * NS + L.
Proof.
  intros [H0 H] n. split; [apply C75_never_early|]. assert (begins g k <= nominal g k + L) as Hx; [|unfold nominal, n in *; by destruct (tg_kind g)].
  clear n. induction k as [|[|k] IH].
  - rewrite begins_0, nominal_0. lia.
  - rewrite begins_S, begins_0. pose proof (H 0%nat) as [H1 H2]. assert (tg_start g <= nominal g 1) by (unfold nominal; destruct (tg_kind g); lia). lia.
  - rewrite begins_S. pose proof (H (S k)) as [H1 H2]. rewrite (nominal_S g (S k)) by lia. lia.
Qed.
Print Assumptions C75_once_a_second_partial.

(** In any course: an iteration that works longer than its second pushes the next one back by the excess, and one that works less makes
    up for the time it saves.  [late]: how much later than [C75_never_early] says. *)
Theorem C75_lateness g k : (0 < k)%nat ->
  begins g (S k) = begins g k + N.max (work (tg_beat g k)) (NS - late g k) + wake (tg_beat g k).
Proof. intros H. rewrite begins_S, (nominal_S g k H), (begins_late g k). lia. Qed.
Print Assumptions C75_lateness.
(** After a stall the ticks missed are made up, none is left out: if from iteration [j] on each needs at most [q] of its second and is resumed at
    most [L] late, the lateness falls by [NS - q] with every iteration until it is at most [L], where it stays. *)
Theorem C75_catches_up g j q L n : (0 < j)%nat -> q <= NS ->
  (forall k, (j <= k)%nat -> work (tg_beat g k) + wake (tg_beat g k) <= q /\ wake (tg_beat g k) <= L) ->
  late g (j + n) <= N.max (late g j - N.of_nat n * (NS - q)) L.
Proof.
  intros Hj Hq H. induction n as [|n IH].
  - rewrite Nat.add_0_r. lia.
  - rewrite Nat.add_succ_r, late_S by lia. destruct (H (j + n)%nat ltac:(lia)) as [H1 H2].
    replace (N.of_nat (S n) * (NS - q)) with (N.of_nat n * (NS - q) + (NS - q)) by lia. lia.
Qed.
Print Assumptions C75_catches_up.
Theorem C75_is_caught_up g j q L : (0 < j)%nat -> q < NS ->
  (forall k, (j <= k)%nat -> work (tg_beat g k) + wake (tg_beat g k) <= q /\ wake (tg_beat g k) <= L) ->
  exists n, forall m, (n <= m)%nat -> late g (j + m) <= L.
Proof.
  intros Hj Hq H. exists (N.to_nat (late g j)). intros m Hm. pose proof (C75_catches_up g j q L m Hj ltac:(lia) H) as Hc.
  assert (late g j <= N.of_nat m * (NS - q)) as Hx; [|lia].
  etransitivity; [|apply N.mul_le_mono_l; instantiate (1 := 1); lia]. lia.
Qed.
Print Assumptions C75_is_caught_up.
(** Whenever it is less than a second late, the number of the iteration is the number of seconds since the start. *)
Theorem C75_no_tick_lost g k : late g k < NS ->
  (begins g k - tg_start g) / NS = N.of_nat (match tg_kind g with Smol => k | Tokio => k - 1 end).
Proof.
  intros H. rewrite begins_late. unfold nominal. destruct (tg_kind g); symmetry; (apply (N.div_unique _ _ _ (late g k)); [exact H|]).
  - generalize (N.of_nat k). intros n. lia.
  - generalize (N.of_nat (k - 1)). intros n. lia.
Qed.
Print Assumptions C75_no_tick_lost.

(** So the clock readings of a whole system are steady, the assumption under which C03, C43 and others speak of seconds: if the start is not
    within [L] of the end of its second, iteration [k] reads second [b + k]. *)
Theorem C75_steady g L lg : orderly g L -> tg_start g mod NS + L < NS -> 0 < second (tg_start g) -> clocked g lg ->
  second (begins g 0) = second (tg_start g) /\
  steady (match tg_kind g with Smol => second (tg_start g) | Tokio => second (tg_start g) - 1 end) lg.
Proof.
  intros Ho Hm Hp Hc. unfold second in *.
  assert (forall k, begins g k / NS = tg_start g / NS + N.of_nat (match tg_kind g with Smol => k | Tokio => k - 1 end)) as Hx.
  { intros k. pose proof (C75_once_a_second_partial g L k Ho) as Hb. cbn zeta in Hb.
    set (n := N.of_nat (match tg_kind g with Smol => k | Tokio => (k - 1)%nat end)) in *.
    pose proof (N.div_mod' (tg_start g) NS) as Hd. set (a := tg_start g / NS) in *. set (r := tg_start g mod NS) in *. clearbody n a r. clear Ho Hc Hp.
    symmetry. apply (N.div_unique _ _ _ (begins g k - (a + n) * NS)); lia. }
  split.
  - rewrite Hx. destruct (tg_kind g); lia.
  - intros k ts Hin Hk. rewrite (Hc _ _ Hin). unfold second. rewrite Hx. destruct (tg_kind g); lia.
Qed.
Print Assumptions C75_steady.

Definition clockedb (g : ticking) (lg : list obs) : bool :=
  forallb (fun o => match o with OTick k ts => ts =? second (begins g (N.to_nat k)) | _ => true end) lg.
Lemma clockedb_ok g lg : clockedb g lg = true -> clocked g lg.
Proof.
  intros H k ts Hin. unfold clockedb in H. rewrite forallb_forall in H. apply elem_of_list_In in Hin. apply H in Hin. by apply N.eqb_eq in Hin.
Qed.
(** A timer on tokio, started at 100.25 s: every iteration works for 2 ms and is resumed 3 ms late.  Its task is on time. *)
Definition tokio_clock_100 : ticking := Ticking Tokio 100250000000 1000000 (fun _ => Beat 2000000 3000000).
Example C75_example : exists s, ideal Debug 100 100 99 (every 1 11 7 100) s /\ clocked tokio_clock_100 (log s) /\ orderly tokio_clock_100 6000000 /\
  tg_start tokio_clock_100 mod NS + 6000000 < NS /\ second (tg_start tokio_clock_100) = 100 /\ OTick 1 100 ∈ log s /\
  exists l1 m l2, log s = l1 ++ OLaunch 1 11 1 16 115 :: m ++ OLaunch 1 11 0 8 107 :: l2 /\ planned 1 (m ++ OLaunch 1 11 0 8 107 :: l2) = [114; 107].
Proof.
  destruct (scen_ideal Debug 100 100 99 [Do (LTimer 0 0 0); Do (LTimer 0 0 0); Do (LAdd (every 1 11 7 100)); Handle; Tick 100; Ticks 25] (every 1 11 7 100)
    (fun s => clockedb tokio_clock_100 (log s) && inb (OTick 1 100) (log s) && sees (OLaunch 1 11 1 16 115) (log s) (fun _ l => sees (OLaunch 1 11 0 8 107) l (fun _ _ => bool_decide (planned 1 l = [114; 107]))))) as (s & Hi & HP);
    [left; right; right; left|vm_compute; reflexivity|].
  facts HP. apply clockedb_ok in HP1. apply bool_decide_eq_true in HP. exists s. split; [exact Hi|]. split; [exact HP1|]. split.
  { split; [vm_compute; discriminate|]. intros k. split; vm_compute; discriminate. }
  split; [vm_compute; reflexivity|]. split; [vm_compute; reflexivity|]. split; [exact HP0|]. rewrite El0 in El, HP. exists l1, l0, l3. split; [exact El|exact HP].
Qed.
(** A stall: iteration 21 takes 10 s instead of none; the next ten iterations follow at once, and then the clock is on time again. *)
Definition stalled_clock (k : runtime) : ticking := Ticking k (100 * NS) 0 (fun i => if (i =? 21)%nat then Beat (10 * NS) 0 else Beat 0 0).
Example C75_stall_example : late (stalled_clock Smol) 21 = 0 /\ late (stalled_clock Smol) 22 = 9 * NS /\ late (stalled_clock Smol) 25 = 6 * NS /\
  begins (stalled_clock Smol) 31 = begins (stalled_clock Smol) 22 /\ late (stalled_clock Smol) 31 = 0 /\
  (forall k, (22 <= k)%nat -> work (tg_beat (stalled_clock Smol) k) + wake (tg_beat (stalled_clock Smol) k) <= 0 /\ wake (tg_beat (stalled_clock Smol) k) <= 0).
Proof.
  split_and!; [vm_compute; reflexivity..|]. intros k Hk. cbn. destruct (Nat.eqb_spec k 21); [lia|]. cbn. lia.
Qed.

(* ------------------------------------------------------------------ *)
(** ** C76 A scheduler that fell behind does not start tasks early

    The full property, for any course of the clock: a run of a task that was left alone does not come before its due time.  (Proviso as
    in C03: the handler read a time that is at most one second ahead of the iteration in which it read the second hand.) *)
Definition C76_never_early : Prop := forall pf t0 t1 g s t o it ts l1 l2, alone pf t0 t1 t s -> clocked g (log s) ->
  (forall i k now d, OPlan (t_uid t) i k now d ∈ log s -> now <= second (begins g (N.to_nat k)) + 1 /\ d + SLOTS < U64) ->
  log s = l1 ++ o :: l2 -> runs_at (t_uid t) it ts o ->
  exists d r, planned (t_uid t) l2 = d :: r /\ d <= ts.

Definition planb_at (g : ticking) (u : N) (lg : list obs) : bool :=
  forallb (fun o => match o with OPlan u' _ k now d => negb (u' =? u) || ((now <=? second (begins g (N.to_nat k)) + 1) && (d + SLOTS <? U64)) | _ => true end) lg.
Lemma planb_at_ok g u lg : planb_at g u lg = true ->
  forall i k now d, OPlan u i k now d ∈ lg -> now <= second (begins g (N.to_nat k)) + 1 /\ d + SLOTS < U64.
Proof.
  unfold planb_at. rewrite forallb_forall. intros H i k now d Hin. apply elem_of_list_In in Hin. specialize (H _ Hin). cbn -[begins] in H.
  rewrite N.eqb_refl in H. cbn -[begins] in H. apply andb_true_iff in H as [H1%N.leb_le H2%N.ltb_lt]. done.
Qed.
(** A task with a period of 60 s is due at 121 and 181.  The scheduler stalls for 10 s in iteration 21, so the first run comes at 131: 50 s before the
    next due time.  But the second hand has 9 s to make up, and when it has advanced by 51 slots it is only 173. *)
Lemma C76_state k : k = Smol -> exists s, alone Debug 100 100 (every 1 11 60 61) s /\ clocked (stalled_clock k) (log s) /\
  (forall i k' now d, OPlan 1 i k' now d ∈ log s -> now <= second (begins (stalled_clock k) (N.to_nat k')) + 1 /\ d + SLOTS < U64) /\
  exists l1 m l2, log s = l1 ++ OLaunch 1 11 1 73 173 :: m ++ OLaunch 1 11 0 22 131 :: l2 /\ ~ has_run 1 m /\
    planned 1 (m ++ OLaunch 1 11 0 22 131 :: l2) = [181; 121].
Proof.
  intros ->.
  destruct (scen_alone Debug 100 100 ([Do (LTimer 0 0 0); Do (LTimer 0 0 0); Do (LAdd (every 1 11 60 61)); Handle; Ticks 21] ++ replicate 10 (Tick 131) ++ [Ticks 45]) (every 1 11 60 61)
    (fun s => clockedb (stalled_clock Smol) (log s) && planb_at (stalled_clock Smol) 1 (log s) &&
      sees (OLaunch 1 11 1 73 173) (log s) (fun _ l => bool_decide (planned 1 l = [181; 121]) &&
        sees (OLaunch 1 11 0 22 131) l (fun m _ => forallb (fun o => match run_it 1 o with Some _ => false | None => true end) m)))) as (s & Ha & HP);
    [left; right; right; left|vm_compute; reflexivity|].
  facts HP. apply clockedb_ok in HP1. pose proof (planb_at_ok _ _ _ HP0) as Hpl. apply bool_decide_eq_true in HP2.
  exists s. split; [exact Ha|]. split; [exact HP1|]. split; [exact Hpl|]. rewrite El0 in El, HP2. exists l1, l0, l3. split; [exact El|]. split; [|exact HP2].
  intros (o & Ho & Hr). rewrite forallb_forall in HP. apply elem_of_list_In in Ho. specialize (HP _ Ho). destruct o; cbn in Hr, HP; try done; by rewrite Hr, N.eqb_refl in HP.
Qed.
Theorem C76_never_early_refuted : ~ C76_never_early.
Proof.
  intros H. destruct (C76_state Smol eq_refl) as (s & Ha & Hc & Hp & l1 & m & l2 & El & _ & Epl).
  destruct (H _ _ _ _ _ _ _ 73 173 _ _ Ha Hc Hp El) as (d & r & E & Hd); [cbn; done|].
  change (t_uid (every 1 11 60 61)) with 1 in E. rewrite Epl in E. injection E as <- _. lia.
Qed.
Print Assumptions C76_never_early_refuted.

(** What happens exactly, in every course, between two consecutive runs: [e] is the due time of the second.  It comes one second after it, less
    what the clock made up ([ts - it] is how far the readings are ahead of the iterations). *)
Theorem C76_exact pf t0 t1 s t l1 o2 it2 ts2 m o1 it1 ts1 l2 : alone pf t0 t1 t s ->
  log s = l1 ++ o2 :: m ++ o1 :: l2 -> runs_at (t_uid t) it1 ts1 o1 -> runs_at (t_uid t) it2 ts2 o2 -> ~ has_run (t_uid t) m ->
  exists d e r, planned (t_uid t) l2 = d :: r /\ planned (t_uid t) (m ++ o1 :: l2) = e :: d :: r /\
    (ts1 <= e -> (Z.of_N ts2 = Z.of_N e + 1 - ((Z.of_N ts1 - Z.of_N it1) - (Z.of_N ts2 - Z.of_N it2)))%Z) /\
    (e < ts1 -> it2 = it1 + 2).
Proof.
  intros (Hr & Hs & Hq & Hn) El R1 R2 Hnr.
  destruct (consecutive _ _ _ _ _ _ _ _ _ _ _ _ _ _ Hr Hs Hq Hn El R1 R2 Hnr) as (d & e & r & Er & Ep & HD).
  exists d, e, r. split; [done|]. split; [done|]. unfold until in HD. clear -HD. destruct (N.leb_spec ts1 e); split; intros; lia.
Qed.
Print Assumptions C76_exact.

Lemma begins_between g j k X : (0 < j <= k)%nat -> late g j <= late g k + X -> begins g j + N.of_nat (k - j) * NS <= begins g k + X.
Proof.
  intros Hj Hl. rewrite !begins_late. assert (nominal g k = nominal g j + N.of_nat (k - j) * NS) as ->; [|lia].
  clear Hl. destruct Hj as [H0 Hj]. induction Hj as [|k Hj IH]; [rewrite Nat.sub_diag; lia|]. rewrite nominal_S, IH by lia.
  replace (S k - j)%nat with (S (k - j)) by lia. lia.
Qed.
Lemma begins_mono g j k : (j <= k)%nat -> begins g j <= begins g k.
Proof. induction 1 as [|k Hj IH]; [lia|]. rewrite begins_S. lia. Qed.
Lemma second_mono a b : a <= b -> second a <= second b.
Proof. unfold second. intros H. apply N.div_le_mono; [done|exact H]. Qed.
Lemma second_add a n : second (a + n * NS) = second a + n.
Proof. unfold second. apply N.div_add. done. Qed.
(** So a task comes early by no more than the clock made up since its last run, less one second: not at all if that is no more than a second. *)
Theorem C76_never_early_partial pf t0 t1 g s t l1 o2 it2 ts2 m o1 it1 ts1 l2 X : alone pf t0 t1 t s -> clocked g (log s) ->
  log s = l1 ++ o2 :: m ++ o1 :: l2 -> runs_at (t_uid t) it1 ts1 o1 -> runs_at (t_uid t) it2 ts2 o2 -> ~ has_run (t_uid t) m ->
  0 < it1 -> late g (N.to_nat it1) <= late g (N.to_nat it2) + (X + 1) * NS ->
  exists e d r, planned (t_uid t) (m ++ o1 :: l2) = e :: d :: r /\ e <= ts2 + X.
Proof.
  intros (Hr & Hs & Hq & Hn) Hc El R1 R2 Hnr H0 Hl.
  destruct (consecutive _ _ _ _ _ _ _ _ _ _ _ _ _ _ Hr Hs Hq Hn El R1 R2 Hnr) as (d & e & r & Er & Ep & HD).
  exists e, d, r. split; [done|]. pose proof (clk_reach _ _ _ _ Hr) as Hck.
  assert (forall o it ts, o ∈ log s -> runs_at (t_uid t) it ts o -> ts = second (begins g (N.to_nat it))) as Hts.
  { intros o it ts Hin Hrun. apply Hc. apply (ck_entry _ _ Hck) in Hin. destruct o; cbn in *; try done; destruct Hrun as (-> & -> & ->); done. }
  assert (ts2 = second (begins g (N.to_nat it2))) as E2 by (eapply Hts; [|exact R2]; rewrite El; apply elem_of_app; right; left).
  assert (ts1 = second (begins g (N.to_nat it1))) as E1 by (eapply Hts; [|exact R1]; rewrite El; apply elem_of_app; right; right; apply elem_of_app; right; left).
  clear Hts Hck Hr Hs Hq Hn Hc El R1 R2 Hnr Er Ep. unfold until in HD. destruct (N.leb_spec ts1 e) as [He|He].
  - pose proof (begins_between g (N.to_nat it1) (N.to_nat it2) _ ltac:(lia) Hl) as Hb. apply second_mono in Hb. rewrite !second_add in Hb. lia.
  - pose proof (second_mono _ _ (begins_mono g (N.to_nat it1) (N.to_nat it2) ltac:(lia))). lia.
Qed.
Print Assumptions C76_never_early_partial.
(** ... and likewise its first run, counted from iteration [k], in which the handler read the second hand. *)
Theorem C76_first_run pf t0 t1 g s t l1 l2 i n sl c x X : alone pf t0 t1 t s -> clocked g (log s) ->
  log s = l1 ++ OAdded (t_uid t) i n sl c :: l2 -> first_run (t_uid t) l1 = Some x ->
  exists k now d, plan_of (t_uid t) l2 = Some (t_id t, k, now, d) /\
    (0 < k -> d + SLOTS < U64 -> now <= d -> now <= second (begins g (N.to_nat k)) + 1 ->
     late g (N.to_nat k) <= late g (N.to_nat x) + X * NS -> d <= second (begins g (N.to_nat x)) + X).
Proof.
  intros (Hr & Hs & Hq & Hn) Hc El Hx. destruct (first_run_at _ _ _ _ _ _ _ _ _ _ _ Hr Hs Hq Hn El) as (k & now & d & Hp & Hk & Hf).
  exists k, now, d. split; [done|]. intros H0 Hd Hnd Hnow Hl. specialize (Hf Hd). rewrite Hx in Hf. unfold add_distance, checked_sub in Hf.
  replace (now <=? d) with true in Hf by (symmetry; by apply N.leb_le). pose proof (arrival_ge k n (d - now) Hk) as Hge. rewrite <- Hf in Hge. clear Hf Hr Hs Hq Hn Hc El Hx Hp.
  pose proof (begins_between g (N.to_nat k) (N.to_nat x) _ ltac:(lia) Hl) as Hb. apply second_mono in Hb. rewrite !second_add in Hb. lia.
Qed.
Print Assumptions C76_first_run.
Example C76_example : exists s, alone Debug 100 100 (every 1 11 60 61) s /\ clocked (stalled_clock Smol) (log s) /\
  late (stalled_clock Smol) (N.to_nat 22) <= late (stalled_clock Smol) (N.to_nat 73) + (8 + 1) * NS /\
  exists l1 m l2, log s = l1 ++ OLaunch 1 11 1 73 173 :: m ++ OLaunch 1 11 0 22 131 :: l2 /\ ~ has_run 1 m /\
    planned 1 (m ++ OLaunch 1 11 0 22 131 :: l2) = [181; 121].
Proof.
  destruct (C76_state Smol eq_refl) as (s & Ha & Hc & _ & Hx). exists s. split; [exact Ha|]. split; [exact Hc|]. split; [vm_compute; discriminate|exact Hx].
Qed.
(** Added in iteration 22, when the clock is 9 s late, for 150: it comes at 142. *)
Example C76_first_example : exists s, alone Debug 100 100 (every 1 11 20 130) s /\ clocked (stalled_clock Smol) (log s) /\
  exists l1 l2, log s = l1 ++ OAdded 1 11 22 42 0 :: l2 /\ first_run 1 l1 = Some 42 /\ plan_of 1 l2 = Some (11, 22, 131, 150) /\
    late (stalled_clock Smol) (N.to_nat 22) <= late (stalled_clock Smol) (N.to_nat 42) + 9 * NS /\ second (begins (stalled_clock Smol) (N.to_nat 42)) = 142.
Proof.
  destruct (scen_alone Debug 100 100 ([Ticks 21] ++ [Tick 131; Do (LAdd (every 1 11 20 130)); Do (LTimer 0 0 0); Do (LTimer 0 0 0); Handle] ++ replicate 9 (Tick 131) ++ [Ticks 25]) (every 1 11 20 130)
    (fun s => clockedb (stalled_clock Smol) (log s) && sees (OAdded 1 11 22 42 0) (log s) (fun l1 l2 => is (first_run 1 l1) (Some 42) && bool_decide (plan_of 1 l2 = Some (11, 22, 131, 150))))) as (s & Ha & HP);
    [left; right; right; left|vm_compute; reflexivity|].
  facts HP. apply clockedb_ok in HP0. apply bool_decide_eq_true in HP. exists s. split; [exact Ha|]. split; [exact HP0|]. exists l1, l2.
  split; [exact El|]. split; [exact HP1|]. split; [exact HP|]. split; vm_compute; [discriminate|reflexivity].
Qed.
