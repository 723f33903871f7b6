(** C54 - C57: what eventually happens in fair executions. *)
From Verif Require Import Tactics Inv Own Life Count Quiet Timing Arrival Phase Rearm Sched Lost Added Frame Meanwhile Fifo Scen Inst Ended PropInst PropSched Origin Way PropSweep PropEnd Live LiveEnd.

(* ------------------------------------------------------------------ *)
(** ** C54 Every event is handled

    In an execution in which the event handler goes on whenever it can, there comes a state in which it has taken and is done
    with exactly the events that were sent up to now, unless it died. *)
Theorem C54_every_event_is_handled pf t0 t1 σ lb n : exec pf t0 t1 σ lb -> weakly_fair pf by_handler σ lb ->
  exists m, (n <= m)%nat /\ (hpc (σ m) = HDead \/ hpc (σ m) = HIdle /\ pops (log (σ m)) = sends (log (σ n))).
Proof.
  intros He Hf. destruct (handled _ _ _ _ _ He Hf _ n (queue (σ n)) [] ltac:(by rewrite app_nil_r) (le_n _)) as (m & Hm & Hx).
  exists m. split; [done|]. by rewrite <- (fifo_reach _ _ _ _ (exec_reach _ _ _ _ _ n He)) in Hx.
Qed.
Print Assumptions C54_every_event_is_handled.

(* ------------------------------------------------------------------ *)
(** ** C55 The clock hand keeps moving

    In an execution in which the event handler goes on whenever it can and the scheduler goes on if it can again and again, the
    number of ticks grows beyond every bound, unless the scheduler was stopped or died. *)
Theorem C55_keeps_ticking pf t0 t1 σ lb k n : exec pf t0 t1 σ lb -> weakly_fair pf by_handler σ lb -> strongly_fair pf by_scheduler σ lb ->
  exists m, (n <= m)%nat /\ (k <= iters (σ m) \/ tpc (σ m) = TStopped \/ tpc (σ m) = TDead).
Proof. intros He Hh Hs. exact (ticks_again _ _ _ _ _ He Hh Hs k n). Qed.
Print Assumptions C55_keeps_ticking.

(** That the scheduler goes on if it can go on all the time is not enough: it waits for the mark of its task while the event
    handler, asked to advance that task over and over, takes the mark again each time before the scheduler gets it. *)
Definition C55_weak_fairness_is_enough : Prop := forall pf t0 t1 σ lb k n, exec pf t0 t1 σ lb -> weakly_fair pf by_handler σ lb -> weakly_fair pf by_scheduler σ lb ->
  exists m, (n <= m)%nat /\ (k <= iters (σ m) \/ tpc (σ m) = TStopped \/ tpc (σ m) = TDead).

Inductive loop3 := Send | Take | Look.
Definition loop3_label (i : N) (w : loop3) : label := match w with Send => LAdvance i | Take | Look => LHandler end.
Definition loop3_next (w : loop3) : loop3 := match w with Send => Take | Take => Look | Look => Send end.
Fixpoint nth3 (pf : profile) (i : N) (s : sys) (n : nat) : sys * loop3 :=
  match n with
  | O => (s, Send)
  | S n => let '(s1, w) := nth3 pf i s n in (match step pf (loop3_label i w) s1 with Some s2 => s2 | None => s1 end, loop3_next w)
  end.
Record starve (i k : N) (s : sys) (w : loop3) : Prop := {
  sv_iters : iters s = k;
  sv_tpc : exists l ids sl upd, tpc s = TMark l ids i sl upd;
  sv_mark : exists m g, flags s !! i = Some m /\ wheel s !! m_slot m = Some g /\ g !! i = None /\ (w = Look -> hpc s = HAdv1 i (m_slot m));
  sv_hpc : w <> Look -> hpc s = HIdle;
  sv_queue : queue s = match w with Take => [EAdvance i] | _ => [] end
}.
Lemma starve_next pf i k s w : starve i k s w -> exists s', step pf (loop3_label i w) s = Some s' /\ starve i k s' (loop3_next w).
Proof.
  intros [H1 H2 (m & g & H3 & H4 & H5 & H6) H7 H8]. destruct w; cbn [loop3_label loop3_next step] in *.
  - eexists. split; [reflexivity|]. split; fsimpl; rewrite ?H8; auto. by exists m, g.
  - unfold handler_step. rewrite (H7 ltac:(done)), H8. cbn [dispatch]. fsimpl. rewrite H3. eexists. split; [reflexivity|]. split; fsimpl; auto; [exists m, g; auto|done].
  - unfold handler_step. rewrite (H6 eq_refl). rewrite H4. cbn [slot_remove_task]. unfold slot_remove_task. rewrite H5. eexists. split; [reflexivity|].
    split; fsimpl; auto. exists m, (delete i g). rewrite lookup_insert, lookup_delete. done.
Qed.
Lemma starves pf t0 t1 i k s : reachable pf t0 t1 s -> starve i k s Send -> exists σ lb, exec pf t0 t1 σ lb /\
  weakly_fair pf by_handler σ lb /\ weakly_fair pf by_scheduler σ lb /\ forall n, iters (σ n) = k /\ ~ off (tpc (σ n)).
Proof.
  intros Hr H0. set (x := nth3 pf i s). assert (forall n, starve i k (fst (x n)) (snd (x n))) as Hx.
  { induction n as [|n IH]; [exact H0|]. unfold x in *. cbn [nth3]. destruct (nth3 pf i s n) as [s1 w]. destruct (starve_next pf _ _ _ _ IH) as (s' & E & H). cbn [fst snd] in *. by rewrite E. }
  assert (forall n, snd (x (S n)) = loop3_next (snd (x n))) as Hnx. { intros n. unfold x. cbn [nth3]. by destruct (nth3 pf i s n). }
  exists (fun n => fst (x n)), (fun n => loop3_label i (snd (x n))). split; [split; [exact Hr|]|split; [|split]].
  - intros n. destruct (starve_next pf _ _ _ _ (Hx n)) as (s' & E & _). rewrite E. unfold x in *. cbn [nth3]. destruct (nth3 pf i s n) as [s1 w]. cbn [fst snd] in *. by rewrite E.
  - intros n. destruct (snd (x n)) eqn:E.
    + exists (S n). split; [lia|]. left. by rewrite Hnx, E.
    + exists n. split; [lia|]. left. by rewrite E.
    + exists n. split; [lia|]. left. by rewrite E.
  - assert (forall n, snd (x n) = Look -> ~ enabled pf by_scheduler (fst (x n))) as Hl.
    { intros n E (lb & Hlb & [s' Hs]). destruct lb; try done. destruct (Hx n) as [_ (l & ids & sl & upd & Ht) (m & g & _ & _ & _ & Hh) _ _]. cbn [step] in Hs. unfold timer_step in Hs.
      rewrite Ht in Hs. unfold mark_locked in Hs. rewrite (Hh E), N.eqb_refl in Hs. done. }
    intros n. destruct (snd (x n)) eqn:E.
    + exists (S (S n)). split; [lia|]. right. apply Hl. by rewrite !Hnx, E.
    + exists (S n). split; [lia|]. right. apply Hl. by rewrite !Hnx, E.
    + exists n. split; [lia|]. right. by apply Hl.
  - intros n. destruct (Hx n) as [? (l & ids & sl & upd & Ht) _ _ _]. split; [done|]. rewrite Ht. by intros [?|?].
Qed.
Theorem C55_weak_fairness_is_enough_refuted : ~ C55_weak_fairness_is_enough.
Proof.
  intros H. destruct (after_reach Debug 100 100 [Do (LAdd (every 1 11 1 100)); Handle; Ticks 2; Do (LTimer 0 0 0); Do (LTimer 0 0 0); Do (LTimer 0 0 0); Do (LTimer 0 0 0); Do (LTimer 0 7 0); Do (LTimer 0 0 0); Do (LTimer 0 0 0); Do (LTimer 0 0 0); Do LHandler; Do (LTimer 0 0 0)]
    (fun s => match tpc s, hpc s, queue s, flags s !! 11 with
      | TMark _ _ 11 _ _, HIdle, [], Some m => (iters s =? 2) && match wheel s !! m_slot m with Some g => match g !! 11 with None => true | _ => false end | None => false end
      | _, _, _, _ => false end)) as (s & Hr & HP); [vm_compute; reflexivity|].
  destruct (tpc s) as [| | | | | | | | |l ids tid sl upd| | |] eqn:Et; try discriminate HP.
  assert (tid = 11) as ->. { destruct (decide (tid = 11)) as [|Hne]; [done|]. exfalso. revert HP. repeat case_match; try done; congruence. }
  destruct (hpc s) eqn:Eh; try discriminate HP. destruct (queue s) eqn:Eq; [|discriminate HP]. destruct (flags s !! 11) as [m|] eqn:Em; [|discriminate HP].
  apply andb_true_iff in HP as [Hi HP]. apply N.eqb_eq in Hi. destruct (wheel s !! m_slot m) as [g|] eqn:Ew; [|discriminate HP]. destruct (g !! 11) eqn:Eg; [discriminate HP|].
  destruct (starves Debug 100 100 11 2 s Hr) as (σ & lb & He & H1 & H2 & H3).
  { split; [exact Hi|eauto 10|exists m, g; split; [exact Em|split; [exact Ew|split; [exact Eg|intros E; discriminate E]]]|auto|exact Eq]. }
  destruct (H _ _ _ _ _ 3 0%nat He H1 H2) as (n & _ & Hx). destruct (H3 n) as [E1 E2]. destruct Hx as [Hx|Hx]; [lia|]. exact (E2 Hx).
Qed.
Print Assumptions C55_weak_fairness_is_enough_refuted.

(** Once a stop was sent, the scheduler stops. *)
Lemma motiv_off pf t0 t1 σ lb m : exec pf t0 t1 σ lb -> OPop EStop ∈ log (σ m) -> forall k, (m <= k)%nat ->
  iters (σ k) = iters (σ m) \/ iters (σ k) = iters (σ m) + 1 /\ ((exists l, tpc (σ k) = TCheck l) \/ off (tpc (σ k))).
Proof.
  intros He Hp k Hk. induction Hk as [|k Hk IH]; [by left|]. pose proof (ex_step _ _ _ _ _ He k) as Hs.
  assert (motiv (σ k) = false) as Hm.
  { apply (sp_motiv _ (stop_reach _ _ _ _ (exec_reach _ _ _ _ _ k He))). destruct (exec_log _ _ _ _ _ m k He Hk) as [l ->]. apply elem_of_app. by right. }
  destruct (match lb k with LTimer _ _ _ | LRoutinePanic => true | _ => false end) eqn:El.
  - assert (forall l, tpc (σ k) = TCheck l -> tpc (σ (S k)) = TStopped /\ iters (σ (S k)) = iters (σ k)) as Hc.
    { intros l E. destruct (lb k); try done; cbn in Hs; unfold timer_step, routine_panic in Hs; rewrite E in Hs; [|done]. rewrite Hm in Hs. by injection Hs as <-. }
    destruct IH as [IH|[IH [[l E]|Ho]]].
    + destruct (lb k); try done; cbn [step] in Hs.
      * revert IH Hs. generalize (iters (σ m)). generalize (σ (S k)). generalize (σ k). clear. intros s s' i IH Hs. pc_inv Hs; fsimpl; auto. right. split; [lia|]. left. eauto.
      * unfold routine_panic in Hs. destruct (tpc (σ k)); try done. injection Hs as <-. by left.
    + destruct (Hc _ E) as [E1 E2]. right. split; [congruence|]. right. by left.
    + exfalso. destruct (lb k); try done; cbn in Hs; unfold timer_step, routine_panic in Hs; destruct Ho as [E|E]; by rewrite E in Hs.
  - destruct (pass_other _ (lb k) _ _ ltac:(intros ??? E; by rewrite E in El) Hs) as [_ E2].
    assert (tpc (σ (S k)) = tpc (σ k)) as E1. { revert El Hs. generalize (lb k). generalize (σ (S k)). generalize (σ k). clear. intros s s' lb El Hs. step_inv Hs; inst_shape; fsimpl; try done. }
    rewrite E1, E2. done.
Qed.
Theorem C55_stop_stops pf t0 t1 σ lb n : exec pf t0 t1 σ lb -> weakly_fair pf by_handler σ lb -> strongly_fair pf by_scheduler σ lb ->
  EStop ∈ sends (log (σ n)) -> exists m, (n <= m)%nat /\ (tpc (σ m) = TStopped \/ tpc (σ m) = TDead \/ hpc (σ m) = HDead).
Proof.
  intros He Hh Hs Hst. destruct (C54_every_event_is_handled _ _ _ _ _ n He Hh) as (m & Hm & [Hd|[_ Hp]]); [exists m; auto|].
  rewrite <- Hp in Hst. apply elem_pops in Hst. destruct (ticks_again _ _ _ _ _ He Hh Hs (iters (σ m) + 2) m) as (m' & Hm' & [Hi|Ho]).
  - exfalso. destruct (motiv_off _ _ _ _ _ _ He Hst m' Hm'); lia.
  - exists m'. split; [lia|]. destruct Ho; auto.
Qed.
Print Assumptions C55_stop_stops.

(* ------------------------------------------------------------------ *)
(** ** C56 A task that is left alone runs, and runs again

    From every state in which the task was submitted, there comes a later state in which it ran once more, or its work is
    over; or a due time came within an hour of the end of u64; or the scheduler was stopped, or one of the two threads died. *)
Theorem C56_runs_again pf t0 t1 σ lb t n : exec pf t0 t1 σ lb -> weakly_fair pf by_handler σ lb -> strongly_fair pf by_scheduler σ lb ->
  (forall k, quiet t (log (σ k))) -> submitted t (log (σ n)) ->
  exists m, (n <= m)%nat /\
    ((exists l, log (σ m) = l ++ log (σ n) /\ has_run (t_uid t) l) \/ finished pf t (σ m) \/
     (exists i it ts d, OPark (t_uid t) i it ts d ∈ log (σ m) /\ U64 <= d + SLOTS) \/
     tpc (σ m) = TStopped \/ tpc (σ m) = TDead \/ hpc (σ m) = HDead).
Proof.
  intros He Hh Hs Hq Hsub. destruct (runs_again _ _ _ _ _ t He Hh Hs Hq n Hsub) as (m & Hm & Hx). exists m. split; [done|].
  destruct Hx as [?|[?|[?|[[?|?]|?]]]]; auto 10.
Qed.
Print Assumptions C56_runs_again.

(** Only tasks with a parallel limit are skipped. *)
Lemma skip_limited pf t0 t1 s : reachable pf t0 t1 s -> forall u i it ts, OSkip u i it ts ∈ log s -> exists t, submitted t (log s) /\ t_uid t = u /\ t_maxpar t <> None.
Proof.
  revert s. apply (reach_ind pf t0 t1 (fun s => forall u i it ts, OSkip u i it ts ∈ log s -> exists t, submitted t (log s) /\ t_uid t = u /\ t_maxpar t <> None)).
  { change (log (init t0 t1)) with [OTick 0 t1]. intros u i it ts H. by apply elem_of_list_singleton in H. }
  intros lb s s' Hr IH Hs u i it ts Hin.
  assert (OSkip u i it ts ∈ log s \/ exists l ids t, tpc s = TMaint l ids t /\ t_uid t = u /\ t_maxpar t <> None) as [Hx|(l & ids & t & Ht & Hu & Hmp)].
  { clear IH. revert Hin. step_inv Hs; inst_shape; intros Hin; fsimpl_in Hin; auto.
    all: repeat match goal with H : _ ∈ _ :: _ |- _ => apply elem_of_cons in H as [H|H]; [try discriminate H|] end; auto.
    all: try (apply elem_of_app in Hin as [Hin|Hin]; auto; rewrite Forall_forall in Hlg; by destruct (Hlg _ Hin)).
    all: try (repeat case_match; repeat match goal with H : _ ∈ _ :: _ |- _ => apply elem_of_cons in H as [H|H]; [try discriminate H|] end; auto; fail).
    all: try (apply elem_of_app in Hin as [Hin|Hin]; [rewrite Forall_forall in Hlg; by destruct (Hlg _ Hin)|]; repeat match goal with H : _ ∈ _ :: _ |- _ => apply elem_of_cons in H as [H|H]; [try discriminate H|] end; by left).
    right. injection Hin as -> -> -> ->. eexists _, _, _. split; [done|]. split; [done|]. congruence. }
  - destruct (IH _ _ _ _ Hx) as (t & H1 & H2). exists t. split; [by eapply submitted_mono|done].
  - destruct (ci_held s (cnt_reach _ _ _ _ Hr) t) as (t' & H1 & H2 & _ & _ & H3 & _). { apply in_tpc. rewrite Ht. apply elem_of_list_here. }
    exists t'. split; [by eapply submitted_mono|]. split; congruence.
Qed.
(** A repeated interval task without parallel limit is started again. *)
Theorem C56_interval_task_starts_again pf t0 t1 σ lb t st n : exec pf t0 t1 σ lb -> weakly_fair pf by_handler σ lb -> strongly_fair pf by_scheduler σ lb ->
  t_freq t = SecondsRepeated st -> t_maxpar t = None -> (forall k, quiet t (log (σ k))) -> submitted t (log (σ n)) ->
  exists m, (n <= m)%nat /\
    (starts (t_uid t) (log (σ n)) < starts (t_uid t) (log (σ m)) \/
     (exists i it ts d, OPark (t_uid t) i it ts d ∈ log (σ m) /\ U64 <= d + SLOTS) \/
     tpc (σ m) = TStopped \/ tpc (σ m) = TDead \/ hpc (σ m) = HDead).
Proof.
  intros He Hh Hs Hf Hmp Hq Hsub. destruct (C56_runs_again _ _ _ _ _ _ _ He Hh Hs Hq Hsub) as (m & Hm & Hx). exists m. split; [done|].
  destruct Hx as [(l & E & o & Hin & Hr)|[Hx|?]]; [left| |auto].
  - rewrite E, starts_app. destruct o; cbn in Hr; try done; subst.
    + clear - Hin. assert (0 < starts (t_uid t) l); [|lia]. induction l as [|o l IH]; [by apply elem_of_nil in Hin|].
      apply elem_of_cons in Hin as [<-|Hin]; [cbn [starts]; rewrite N.eqb_refl; lia|]. specialize (IH Hin). destruct o; cbn [starts]; lia.
    + exfalso. pose proof (exec_reach _ _ _ _ _ m He) as Hr. destruct (skip_limited _ _ _ _ Hr (t_uid t) tid it ts) as (t' & H1 & H2 & H3). { rewrite E. apply elem_of_app. by left. }
      assert (t' = t); [|congruence]. apply (ci_uniq _ (cnt_reach _ _ _ _ Hr)); [done| |done]. destruct Hsub as (e & ? & ?). exists e. split; [|done]. rewrite E. apply elem_of_app. by right.
  - exfalso. destruct Hx as [c H1 _|i _ H1|l c c' H1 _]; [by rewrite Hf in H1|done|]. rewrite Hf in H1. apply follows_kind in H1. destruct H1 as [_ H1]. destruct H1 as [? ?]; [eauto|done].
Qed.
Print Assumptions C56_interval_task_starts_again.

(** Such executions: every finite execution can be continued to one, with any clock, in which users do nothing further. *)
Lemma internal_quiet pf lb s s' t : step pf lb s = Some s' -> match lb with LTimer _ _ _ | LSweep _ _ | LHandler | LSweepRecv => True | _ => False end ->
  quiet t (log s) -> quiet t (log s').
Proof.
  intros Hs Hl Hq e Hin Hn. assert (OSend e ∈ log s \/ ~ names (t_id t) e) as [Hx|Hx]; [|by apply Hq|done].
  clear Hq Hn. revert Hin. step_inv Hs; try (by destruct Hl); clear Hl; inst_shape; intros Hin; fsimpl_in Hin; auto.
  all: repeat match goal with H : _ ∈ _ :: _ |- _ => apply elem_of_cons in H as [H|H]; [try discriminate H|] end; auto.
  all: try (apply elem_of_app in Hin as [Hin|Hin]; [rewrite Forall_forall in Hlg; by destruct (Hlg _ Hin)|]; repeat match goal with H : _ ∈ _ :: _ |- _ => apply elem_of_cons in H as [H|H]; [try discriminate H|] end; by left).
  all: try (repeat case_match; repeat match goal with H : _ ∈ _ :: _ |- _ => apply elem_of_cons in H as [H|H]; [try discriminate H|] end; auto; fail).
  all: right; injection Hin as ->; cbn; auto.
Qed.
Theorem C56_fair_executions_exist pf t0 t1 clk s t : reachable pf t0 t1 s -> quiet t (log s) ->
  exists σ lb, σ 0%nat = s /\ exec pf t0 t1 σ lb /\ weakly_fair pf by_handler σ lb /\ strongly_fair pf by_scheduler σ lb /\ weakly_fair pf by_sweeper σ lb /\ receives σ lb /\
    (forall n, match lb n with LTimer _ _ now | LSweep _ now => now = clk n | LHandler | LSweepRecv => True | _ => False end) /\
    forall k, quiet t (log (σ k)).
Proof.
  intros Hr Hq. destruct (fair_exists pf t0 t1 clk s Hr) as (σ & lb & E & He & H1 & H2 & H4 & H5 & H3). exists σ, lb. split_and!; try done.
  induction k as [|k IH]; [by rewrite E|]. eapply internal_quiet; [apply (ex_step _ _ _ _ _ He k)| |done]. specialize (H3 k). destruct (lb k); done.
Qed.
Print Assumptions C56_fair_executions_exist.
Example C56_example : exists σ lb, exec Debug 100 100 σ lb /\ weakly_fair Debug by_handler σ lb /\ strongly_fair Debug by_scheduler σ lb /\
  (forall k, quiet (every 1 11 5 100) (log (σ k))) /\ submitted (every 1 11 5 100) (log (σ 0%nat)) /\ starts 1 (log (σ 0%nat)) = 2 /\ queue (σ 0%nat) <> [].
Proof.
  destruct (scen_alone Debug 100 100 [Do (LAdd (every 1 11 5 100)); Handle; Ticks 13] (every 1 11 5 100)
    (fun s => (starts 1 (log s) =? 2) && match queue s with [] => false | _ => true end)) as (s & (Hr & Hs & Hq & _) & HP); [left; left|vm_compute; reflexivity|].
  apply andb_true_iff in HP as [HP HQ]. apply N.eqb_eq in HP.
  destruct (C56_fair_executions_exist Debug 100 100 (fun n => 101 + N.of_nat n) s (every 1 11 5 100) Hr Hq) as (σ & lb & E & He & H1 & H2 & _ & _ & _ & H3).
  exists σ, lb. rewrite E. split; [exact He|]. split; [exact H1|]. split; [exact H2|]. split; [exact H3|]. split; [exact Hs|]. split; [exact HP|]. intros E'. rewrite E' in HQ. discriminate HQ.
Qed.
Example C55_stop_example : exists σ lb, exec Debug 100 100 σ lb /\ weakly_fair Debug by_handler σ lb /\ strongly_fair Debug by_scheduler σ lb /\
  EStop ∈ sends (log (σ 0%nat)) /\ motiv (σ 0%nat) = true.
Proof.
  destruct (after_reach Debug 100 100 [Do (LAdd (every 1 11 5 100)); Handle; Ticks 3; Do LStop]
    (fun s => existsb (fun e => match e with EStop => true | _ => false end) (sends (log s)) && motiv s)) as (s & Hr & HP); [vm_compute; reflexivity|].
  apply andb_true_iff in HP as [HP HQ]. apply existsb_exists in HP as (e & Hin & He'). destruct e; try discriminate He'. apply elem_of_list_In in Hin.
  destruct (fair_exists Debug 100 100 (fun n => 101 + N.of_nat n) s Hr) as (σ & lb & E & He & H1 & H2 & _).
  exists σ, lb. rewrite E. split; [exact He|]. split; [exact H1|]. split; [exact H2|]. split; [exact Hin|exact HQ].
Qed.

(* ------------------------------------------------------------------ *)
(** ** C57 A maximum running time ends every instance

    Every started instance of a task with a maximum running time ends, whatever its own code does - if the clock passes, the sweeper goes on
    and nobody waits for ever for a lock. Without overflow checks a deadline near 2^64 can wrap around and jump the queue of the sweeper. *)
Theorem C57_ends_or_wraps pf t0 t1 σ lb n u tid rec it ts t m : exec pf t0 t1 σ lb ->
  weakly_fair pf by_handler σ lb -> strongly_fair pf by_scheduler σ lb -> weakly_fair pf by_sweeper σ lb -> receives σ lb -> clock_passes lb ->
  OLaunch u tid rec it ts ∈ log (σ n) -> submitted t (log (σ n)) -> t_uid t = u -> t_maxrun t = Some m -> tpc (σ n) <> TDead ->
  exists k, (n <= k)%nat /\ (rec ∉ running tid (log (σ k)) \/ hpc (σ k) = HDead \/ wrapped pf (σ k)).
Proof.
  intros He H1 H2 H3 H4 H5 Hl Hs Hu Hm Hd. pose proof (way_reach _ _ _ _ _ _ _ _ _ _ _ (exec_reach _ _ _ _ _ n He) Hl Hs Hu Hm) as Hw.
  destruct (way_ends _ _ _ _ _ _ _ _ _ He H1 H2 H3 H4 H5 (fun d => clock_no_more _ _ _ _ _ d He H1 H2 H5) Hw Hd) as (k & Hk & [Hx|Hx]); exists k; (split; [done|]); [left|by right].
  apply (quit_ended _ _ _ _ _ _ (exec_reach _ _ _ _ _ k He) Hx).
Qed.
Print Assumptions C57_ends_or_wraps.
(** With overflow checks, or with sensible running times throughout. *)
Theorem C57_timed_instance_ends pf t0 t1 σ lb n u tid rec it ts t m : exec pf t0 t1 σ lb ->
  weakly_fair pf by_handler σ lb -> strongly_fair pf by_scheduler σ lb -> weakly_fair pf by_sweeper σ lb -> receives σ lb -> clock_passes lb -> no_wrap pf σ ->
  OLaunch u tid rec it ts ∈ log (σ n) -> submitted t (log (σ n)) -> t_uid t = u -> t_maxrun t = Some m -> tpc (σ n) <> TDead ->
  exists k, (n <= k)%nat /\ (rec ∉ running tid (log (σ k)) \/ hpc (σ k) = HDead).
Proof.
  intros He H1 H2 H3 H4 H5 H6 Hl Hs Hu Hm Hd. destruct (C57_ends_or_wraps _ _ _ _ _ _ _ _ _ _ _ _ _ He H1 H2 H3 H4 H5 Hl Hs Hu Hm Hd) as (k & Hk & [Hx|[Hx|Hx]]); [exists k; auto..|].
  by destruct (no_wrap_wrapped _ _ _ H6 Hx).
Qed.
Print Assumptions C57_timed_instance_ends.
(** Without the condition on the clock: the sweeper sends the timeout of every unit, unless units with earlier deadlines are registered over and over. *)
Theorem C57_every_unit_is_swept pf t0 t1 σ lb n u : exec pf t0 t1 σ lb -> weakly_fair pf by_sweeper σ lb -> receives σ lb -> clock_passes lb -> no_more σ (u_deadline u) ->
  u ∈ recq (σ n) \/ u ∈ heap (σ n) -> exists k, (n <= k)%nat /\ timeout_of u ∈ queue (σ k).
Proof.
  intros He Hw Hr Hc (n0 & Hno) Hu. assert (no_more_until (fun _ => False) σ (u_deadline u)) as Hno' by (exists n0; auto).
  assert (exists k, (n <= k)%nat /\ u ∈ heap (σ k)) as (k & Hk & Hx) by (destruct Hu as [Hu|Hu]; [exact (received _ _ _ _ _ _ _ He Hr Hu)|eauto]).
  destruct (swept_out _ _ _ _ _ _ _ _ He Hw Hc Hno' Hx) as (m & ? & [?|[]]). exists m. split; [lia|done].
Qed.
Print Assumptions C57_every_unit_is_swept.
Example C57_example : exists σ lb, exec Debug 100 100 σ lb /\
  weakly_fair Debug by_handler σ lb /\ strongly_fair Debug by_scheduler σ lb /\ weakly_fair Debug by_sweeper σ lb /\ receives σ lb /\ clock_passes lb /\ no_wrap Debug σ /\
  OLaunch 1 11 0 6 106 ∈ log (σ 0%nat) /\ submitted (timed 3 (every 1 11 5 100)) (log (σ 0%nat)) /\ tpc (σ 0%nat) <> TDead /\ 0%Z ∈ running 11 (log (σ 0%nat)) /\
  insts (σ 0%nat) !! 0%Z = Some (Inst 11 1 true IPanicked).
Proof.
  destruct (scen_alone Debug 100 100 [Do (LAdd (timed 3 (every 1 11 5 100))); Handle; Ticks 7; Handle; Do (LPanic 0)] (timed 3 (every 1 11 5 100)) (fun s => panicked s && existsb (same (OLaunch 1 11 0 6 106)) (log s)))
    as (s & (Hr & Hs & Hq & _) & HP); [left; left|vm_compute; reflexivity|].
  apply andb_true_iff in HP as [HP HL]. apply panicked_is in HP as (P1 & (l & P2) & _ & P3 & _). apply (inb_ok (OLaunch 1 11 0 6 106)) in HL.
  destruct (fair_exists Debug 100 100 (fun n => N.of_nat n) s Hr) as (σ & lb & E & He & H1 & H2 & H3 & H4 & H5).
  exists σ, lb. rewrite E. split; [exact He|]. split; [exact H1|]. split; [exact H2|]. split; [exact H3|]. split; [exact H4|].
  split. { intros d. exists (N.to_nat d). intros m Hm. specialize (H5 m). destruct (lb m); try exact I; subst now; lia. }
  split; [left; reflexivity|]. split; [exact HL|]. split; [exact Hs|]. split; [rewrite P2; discriminate|]. split; [rewrite P3; left|exact P1].
Qed.
