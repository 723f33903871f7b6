(** Infinite executions and fairness: what eventually happens. *)
From Verif Require Import Tactics Inv Own Life Count Quiet Timing Arrival Phase Rearm Sched Lost Added Frame Meanwhile Fifo Scen Inst Ended PropInst PropSched Kept.

(** An infinite execution: [σ n] is the state before step [n], which is [lb n]. *)
Record exec (pf : profile) (t0 t1 : N) (σ : nat -> sys) (lb : nat -> label) : Prop := {
  ex_start : reachable pf t0 t1 (σ 0%nat);
  ex_step : forall n, step pf (lb n) (σ n) = Some (σ (S n))
}.
Definition infinitely_often (P : nat -> Prop) : Prop := forall n, exists m, (n <= m)%nat /\ P m.
Definition by_handler (lb : label) : Prop := match lb with LHandler => True | _ => False end.
Definition by_scheduler (lb : label) : Prop := match lb with LTimer _ _ _ => True | _ => False end.
Definition by_sweeper (lb : label) : Prop := match lb with LSweep _ _ => True | _ => False end.
Definition by_receiver (lb : label) : Prop := match lb with LSweepRecv => True | _ => False end.
(** Some step of the thread [P] is possible. *)
Definition enabled (pf : profile) (P : label -> Prop) (s : sys) : Prop := exists lb, P lb /\ is_Some (step pf lb s).
(** A thread that can go on all the time takes a step some time. *)
Definition weakly_fair (pf : profile) (P : label -> Prop) (σ : nat -> sys) (lb : nat -> label) : Prop :=
  infinitely_often (fun m => P (lb m) \/ ~ enabled pf P (σ m)).
(** A thread that can go on again and again takes a step some time: it takes a step, or from some point on it never can. *)
Definition strongly_fair (pf : profile) (P : label -> Prop) (σ : nat -> sys) (lb : nat -> label) : Prop :=
  infinitely_often (fun m => P (lb m) \/ forall k, (m <= k)%nat -> ~ enabled pf P (σ k)).

(** The sweeper's receiver, which shares a lock with the sweeper's rounds, gets its turn: it never leaves a unit waiting for ever. *)
Definition receives (σ : nat -> sys) (lb : nat -> label) : Prop :=
  infinitely_often (fun m => by_receiver (lb m) \/ recq (σ m) = []).

Lemma exec_reach pf t0 t1 σ lb n : exec pf t0 t1 σ lb -> reachable pf t0 t1 (σ n).
Proof. intros [H1 H2]. induction n as [|n IH]; [done|]. exact (reach_step _ _ _ _ _ _ IH (H2 n)). Qed.
Lemma exec_log pf t0 t1 σ lb n m : exec pf t0 t1 σ lb -> (n <= m)%nat -> exists l, log (σ m) = l ++ log (σ n).
Proof.
  intros He H. induction H as [|m H (l & IH)]; [by exists []|]. destruct (step_log _ _ _ _ (ex_step _ _ _ _ _ He m)) as [l' E].
  exists (l' ++ l). by rewrite E, IH, app_assoc.
Qed.
Lemma exec_iters pf t0 t1 σ lb n m : exec pf t0 t1 σ lb -> (n <= m)%nat -> iters (σ n) <= iters (σ m).
Proof. intros He H. induction H as [|m H IH]; [done|]. pose proof (iters_step _ _ _ _ (ex_step _ _ _ _ _ He m)). lia. Qed.

(* ------------------------------------------------------------------ *)
(** * The event handler *)

(** Steps until the event handler is done with the present event, at most. *)
Definition busy (p : handler_pc) : nat :=
  match p with
  | HIdle => 0 | HAdd1 _ _ _ _ => 3 | HAdd2 _ _ _ => 2 | HAdd3 _ _ _ => 1 | HUpd _ _ => 1
  | HAdv1 _ _ => 3 | HAdv2 _ => 2 | HAdv3 _ _ => 1 | HRem1 _ _ => 2 | HRem2 _ _ => 1 | HDead => 0
  end.
Lemma handler_enabled pf s : enabled pf by_handler s <-> hpc s <> HDead /\ (hpc s = HIdle -> queue s <> []).
Proof.
  split.
  - intros (lb & Hl & [s' Hs]). destruct lb; try done. cbn [step] in Hs. unfold handler_step in Hs. destruct (hpc s); try done. destruct (queue s); done.
  - intros [H1 H2]. exists LHandler. split; [done|]. cbn [step]. unfold handler_step. destruct (hpc s) eqn:E; try done.
    { destruct (queue s); [by destruct H2|done]. } all: repeat case_match; done.
Qed.
Lemma other_queue pf lb s s' : step pf lb s = Some s' -> not_handler lb ->
  hpc s' = hpc s /\ pops (log s') = pops (log s) /\ exists q, queue s' = queue s ++ q.
Proof.
  intros Hs Hn. step_inv Hs; try (by destruct Hn); clear Hn; fsimpl; split_and!; try done; eauto.
  all: try (by exists []; rewrite app_nil_r). all: repeat case_match; try done; try (by exists []; rewrite app_nil_r).
Qed.
Lemma handler_busy pf s s' : step pf LHandler s = Some s' -> hpc s' <> HDead ->
  (exists e q, hpc s = HIdle /\ queue s = e :: q /\ queue s' = q /\ (busy (hpc s') <= 3)%nat /\ pops (log s') = e :: pops (log s)) \/
  (hpc s <> HIdle /\ queue s' = queue s /\ (busy (hpc s') < busy (hpc s))%nat /\ pops (log s') = pops (log s)).
Proof.
  intros Hs Hd. cbn [step] in Hs. pc_inv Hs; inst_shape; fsimpl; fsimpl_in Hd; try done.
  all: try (left; eexists _, _; split; [done|]; split; [done|]; split; [done|]; split; [cbn; lia|]).
  all: try (right; split; [done|]; split; [try done; repeat case_match; done|]; split; [cbn; lia|]).
  all: rewrite ?pops_app, ?pops_inst by done; cbn [app pops]; try done.
  all: repeat case_match; done.
Qed.

Lemma dead_dec p : {p = HDead} + {p <> HDead}.
Proof. destruct p; auto; by right. Qed.
(** The events [q1] at the head of the queue get handled, one after the other. *)
Lemma handled pf t0 t1 σ lb : exec pf t0 t1 σ lb -> weakly_fair pf by_handler σ lb ->
  forall k n q1 q2, queue (σ n) = q1 ++ q2 -> (4 * length q1 + busy (hpc (σ n)) <= k)%nat ->
  exists m, (n <= m)%nat /\ (hpc (σ m) = HDead \/ hpc (σ m) = HIdle /\ pops (log (σ m)) = reverse q1 ++ pops (log (σ n))).
Proof.
  intros He Hf. induction k as [k IH] using lt_wf_ind. intros n q1 q2 Eq Hk.
  destruct (dead_dec (hpc (σ n))) as [Hd|Hd]; [exists n; auto|].
  assert ({hpc (σ n) = HIdle /\ q1 = nil} + {~ (hpc (σ n) = HIdle /\ q1 = nil)}) as [[E1 E2]|Hne].
  { destruct (hpc (σ n)); try (right; intros [? ?]; done). destruct q1; [by left|right; intros [? ?]; done]. }
  { exists n. subst. split; [lia|]. by right. }
  assert (forall n q2, queue (σ n) = q1 ++ q2 -> (4 * length q1 + busy (hpc (σ n)) <= k)%nat -> ~ (hpc (σ n) = HIdle /\ q1 = nil) -> lb n = LHandler ->
    exists m, (n <= m)%nat /\ (hpc (σ m) = HDead \/ hpc (σ m) = HIdle /\ pops (log (σ m)) = reverse q1 ++ pops (log (σ n)))) as Hgo.
  { clear n q2 Eq Hk Hd Hne. intros n q2 Eq Hk Hne El. pose proof (ex_step _ _ _ _ _ He n) as Hs. rewrite El in Hs.
    destruct (dead_dec (hpc (σ (S n)))) as [Hd|Hd]; [exists (S n); split; [lia|auto]|].
    destruct (handler_busy _ _ _ Hs Hd) as [(e & q & H1 & H2 & H3 & H4 & H5)|(H1 & H2 & H3 & H4)].
    - destruct q1 as [|e' q1]; [by destruct Hne|]. rewrite H2 in Eq. injection Eq as <- Eq. rewrite H1 in Hk. cbn [busy length] in Hk.
      destruct (IH (4 * length q1 + busy (hpc (σ (S n))))%nat ltac:(lia) (S n) q1 q2) as (m' & G1 & [G2|[G2 G3]]); [congruence|lia|exists m'; split; [lia|auto]|].
      exists m'. split; [lia|]. right. split; [done|]. rewrite G3, H5, reverse_cons, <- app_assoc. done.
    - destruct (IH (4 * length q1 + busy (hpc (σ (S n))))%nat ltac:(lia) (S n) q1 q2) as (m' & G1 & [G2|[G2 G3]]); [congruence|lia|exists m'; split; [lia|auto]|].
      exists m'. split; [lia|]. right. split; [done|]. by rewrite G3, H4. }
  destruct (Hf n) as (m & Hm & Hx). remember (m - n)%nat as d eqn:Ed. revert n q2 Eq Hk Hd Hne Hm Ed. induction d as [|d IHd]; intros n q2 Eq Hk Hd Hne Hm Ed.
  - assert (n = m) as -> by lia. destruct Hx as [Hl|Hno]; [apply (Hgo m q2); try done; by destruct (lb m)|].
    exfalso. apply Hno, handler_enabled. split; [done|]. intros E E'. apply Hne. split; [done|]. rewrite E' in Eq. by destruct q1.
  - pose proof (ex_step _ _ _ _ _ He n) as Hs. destruct (match lb n with LHandler => true | _ => false end) eqn:Eb.
    + apply (Hgo n q2); try done. by destruct (lb n).
    + assert (not_handler (lb n)) as Hnh by (by destruct (lb n)). destruct (other_queue _ _ _ _ Hs Hnh) as (H1 & H2 & q & H3).
      rewrite <- H1 in Hk, Hne, Hd. destruct (IHd (S n) (q2 ++ q)) as (m' & G1 & G2); [rewrite H3, Eq; by rewrite app_assoc|done|done|done|lia|lia|].
      exists m'. split; [lia|]. by rewrite H2 in G2.
Qed.

(* ------------------------------------------------------------------ *)
(** * The scheduler *)

Lemma timer_enabled pf t0 t1 s : reachable pf t0 t1 s -> tpc s <> TStopped -> tpc s <> TDead ->
  (forall l ids i sl upd, tpc s = TMark l ids i sl upd -> mark_locked s i = false) -> enabled pf by_scheduler s.
Proof.
  intros Hr H1 H2 H3. destruct (C32_never_stuck _ _ _ _ Hr H1 H2) as [(ch & rec & H)|(l & ids & i & sl & upd & E1 & E2 & _)].
  - exists (LTimer ch rec 0). split; [done|apply H].
  - by rewrite (H3 _ _ _ _ _ E1) in E2.
Qed.
Lemma idle_unlocked s i : hpc s = HIdle -> mark_locked s i = false.
Proof. intros E. unfold mark_locked. by rewrite E. Qed.
Lemma dead_unlocked s i : hpc s = HDead -> mark_locked s i = false.
Proof. intros E. unfold mark_locked. by rewrite E. Qed.
(** While the event handler holds a mark it goes on, and then gives it back. *)
Lemma unlocked pf t0 t1 σ lb : exec pf t0 t1 σ lb -> weakly_fair pf by_handler σ lb ->
  forall n, exists m, (n <= m)%nat /\ (hpc (σ m) = HIdle \/ hpc (σ m) = HDead).
Proof.
  intros He Hf n. remember (busy (hpc (σ n))) as k eqn:Ek. revert n Ek. induction k as [k IH] using lt_wf_ind. intros n Ek.
  assert ({hpc (σ n) = HIdle \/ hpc (σ n) = HDead} + {hpc (σ n) <> HIdle /\ hpc (σ n) <> HDead}) as [?|Hne].
  { destruct (hpc (σ n)); auto; right; split; done. }
  { exists n. split; [lia|done]. }
  assert (forall m, (n <= m)%nat -> hpc (σ m) = hpc (σ n) -> lb m = LHandler -> exists m', (n <= m')%nat /\ (hpc (σ m') = HIdle \/ hpc (σ m') = HDead)) as Hgo.
  { intros m Hm Em El. pose proof (ex_step _ _ _ _ _ He m) as Hs. rewrite El in Hs.
    assert ({hpc (σ (S m)) = HDead} + {hpc (σ (S m)) <> HDead}) as [?|Hd]. { destruct (hpc (σ (S m))); auto; right; done. }
    { exists (S m). split; [lia|by right]. }
    destruct (handler_busy _ _ _ Hs Hd) as [(e & q & H1 & _)|(_ & _ & H3 & _)]; [destruct Hne; congruence|].
    destruct (IH (busy (hpc (σ (S m)))) ltac:(rewrite Em in H3; lia) (S m) eq_refl) as (m' & ? & ?). exists m'. split; [lia|done]. }
  destruct (Hf n) as (m & Hm & Hx).
  assert (forall d, (n + d <= m)%nat -> hpc (σ (n + d)%nat) = hpc (σ n) \/ exists m', (n <= m')%nat /\ (hpc (σ m') = HIdle \/ hpc (σ m') = HDead)) as Hall.
  { induction d as [|d IHd]; intros Hd; [left; by rewrite Nat.add_0_r|]. destruct (IHd ltac:(lia)) as [E|?]; [|by right].
    pose proof (ex_step _ _ _ _ _ He (n + d)%nat) as Hs. destruct (match lb (n + d)%nat with LHandler => true | _ => false end) eqn:Eb.
    - right. apply (Hgo (n + d)%nat); [lia|done|]. by destruct (lb (n + d)%nat).
    - left. rewrite <- E, Nat.add_succ_r. by apply (other_queue _ _ _ _ Hs); destruct (lb (n + d)%nat). }
  destruct (Hall (m - n)%nat ltac:(lia)) as [E|?]; [|done]. replace (n + (m - n))%nat with m in E by lia.
  destruct Hx as [Hl|Hno]; [apply (Hgo m); [done|done|by destruct (lb m)]|].
  exfalso. apply Hno, handler_enabled. rewrite E. split; [apply Hne|]. intros ?. by destruct Hne.
Qed.

(** The scheduler returned or died. *)
Definition off (p : timer_pc) : Prop := p = TStopped \/ p = TDead.
Lemma off_dec p : {off p} + {p <> TStopped /\ p <> TDead}.
Proof. unfold off. destruct p; auto; right; split; done. Qed.
Lemma goes_on pf t0 t1 σ lb : exec pf t0 t1 σ lb -> weakly_fair pf by_handler σ lb -> strongly_fair pf by_scheduler σ lb ->
  forall n, exists m, (n <= m)%nat /\ (by_scheduler (lb m) \/ off (tpc (σ m))).
Proof.
  intros He Hh Hs n. destruct (Hs n) as (m & Hm & [Hx|Hx]); [exists m; auto|].
  destruct (unlocked _ _ _ _ _ He Hh m) as (k & Hk & Hu). exists k. split; [lia|]. right.
  destruct (off_dec (tpc (σ k))) as [?|[H1 H2]]; [done|]. exfalso. apply (Hx k Hk).
  eapply timer_enabled; [by eapply exec_reach|done..|]. intros. destruct Hu; [by apply idle_unlocked|by apply dead_unlocked].
Qed.
Lemma ticks_once pf t0 t1 σ lb : exec pf t0 t1 σ lb -> weakly_fair pf by_handler σ lb -> strongly_fair pf by_scheduler σ lb ->
  forall n, exists m, (n <= m)%nat /\ (iters (σ n) < iters (σ m) \/ off (tpc (σ m))).
Proof.
  intros He Hh Hs n. remember (tpc (σ n)) as p eqn:Ep. revert n Ep. induction (ahead_acc p) as [p _ IH]. intros n ->.
  destruct (goes_on _ _ _ _ _ He Hh Hs n) as (m & Hm & Hx). remember (m - n)%nat as d eqn:Ed. revert n IH Hm Ed. induction d as [|d IHd]; intros n IH Hm Ed.
  - assert (n = m) as -> by lia. destruct Hx as [Hx|?]; [|exists m; auto]. pose proof (ex_step _ _ _ _ _ He m) as Hst. destruct (lb m) eqn:El; try done.
    destruct (pass_step _ _ _ _ _ _ (wf_reach _ _ _ _ (exec_reach _ _ _ _ _ m He)) Hst) as [Ha|Hi]; [|exists (S m); split; [lia|auto]].
    destruct (IH _ Ha (S m) eq_refl) as (m' & ? & [?|?]); (exists m'; split; [lia|]); [left|by right].
    pose proof (iters_step _ _ _ _ Hst). lia.
  - pose proof (ex_step _ _ _ _ _ He n) as Hst. assert (iters (σ n) < iters (σ (S n)) \/ tpc (σ (S n)) = tpc (σ n) \/ ahead (tpc (σ (S n))) (tpc (σ n))) as [?|[E|Ha]].
    { destruct (match lb n with LTimer _ _ _ => true | _ => false end) eqn:Eb.
      - destruct (lb n) eqn:El; try done. destruct (pass_step _ _ _ _ _ _ (wf_reach _ _ _ _ (exec_reach _ _ _ _ _ n He)) Hst); auto.
      - destruct (pass_other _ (lb n) _ _ ltac:(intros ??? E; by rewrite E in Eb) Hst) as [[?|?] _]; auto. }
    + exists (S n). split; [lia|auto].
    + destruct (IHd (S n)) as (m' & ? & [?|?]); [by rewrite E|lia|lia| |]; (exists m'; split; [lia|]); [left|by right].
      pose proof (iters_step _ _ _ _ Hst). lia.
    + destruct (IH _ Ha (S n) eq_refl) as (m' & ? & [?|?]); (exists m'; split; [lia|]); [left|by right].
      pose proof (iters_step _ _ _ _ Hst). lia.
Qed.
Lemma ticks_again pf t0 t1 σ lb : exec pf t0 t1 σ lb -> weakly_fair pf by_handler σ lb -> strongly_fair pf by_scheduler σ lb ->
  forall k n, exists m, (n <= m)%nat /\ (k <= iters (σ m) \/ off (tpc (σ m))).
Proof.
  intros He Hh Hs k. induction k as [|k IH] using N.peano_ind; intros n; [exists n; split; [lia|left; lia]|].
  destruct (IH n) as (m & Hm & [H|H]); [|exists m; auto]. destruct (ticks_once _ _ _ _ _ He Hh Hs m) as (m' & Hm' & [?|?]); (exists m'; split; [lia|]); [left; lia|auto].
Qed.

(* ------------------------------------------------------------------ *)
(** * A task runs, and runs again *)

(** A task that is gone. *)
Lemma gone_finished pf t0 t1 s t : reachable pf t0 t1 s -> submitted t (log s) -> phase (t_uid t) (log s) = Gone -> finished pf t s.
Proof.
  intros Hr Hs Hg. destruct (phase_gone _ _ Hg) as [(i & Hi)|(i & w & Hi)].
  - destruct (over_end _ _ _ _ _ i NoDate Hr Hs eq_refl (or_introl Hi)) as [(n & H1 & H2)|(l & c & c' & H1 & H2)]; [by eapply fin_count|by eapply fin_dates].
  - destruct w.
    + apply (fin_mark _ _ _ i); [done|]. pose proof (gone_at_reach _ _ _ _ _ Hr Hs) as Hx. apply elem_of_list_split in Hi as (l1 & l2 & E).
      rewrite E in Hx. apply (each_split _ l1) in Hx. by apply Hx.
    + destruct (over_end _ _ _ _ _ i NoDate Hr Hs eq_refl (or_intror Hi)) as [(n & H1 & H2)|(l & c & c' & H1 & H2)]; [by eapply fin_count|by eapply fin_dates].
Qed.

Lemma first_run_has u l k : first_run u l = Some k -> has_run u l.
Proof.
  induction l as [|o l IH]; [done|]. cbn [first_run]. destruct (first_run u l) as [x|].
  - intros [= ->]. destruct (IH eq_refl) as (o' & ? & ?). exists o'. split; [by right|done].
  - intros H. exists o. split; [apply elem_of_list_here|]. destruct o; cbn in *; try done; case_match; try done; by apply N.eqb_eq.
Qed.

Lemma near_dec u lg : {near u lg} + {exists i it ts d, OPark u i it ts d ∈ lg /\ U64 <= d + SLOTS}.
Proof.
  induction lg as [|o lg IH]. { left. intros i it ts d H. by apply elem_of_nil in H. }
  destruct IH as [IH|IH]. 2: { right. destruct IH as (i & it & ts & d & H1 & H2). exists i, it, ts, d. split; [by right|done]. }
  destruct o; try (left; intros i' it' ts' d' [H|H]%elem_of_cons; [discriminate H|by eapply IH]).
  destruct (decide (uid = u /\ U64 <= due + SLOTS)) as [[-> H]|H].
  - right. eexists _, _, _, _. split; [apply elem_of_list_here|done].
  - left. intros i' it' ts' d' [Hx|Hx]%elem_of_cons; [|by eapply IH]. injection Hx as -> -> -> -> ->. destruct (N.lt_ge_cases (due + SLOTS) U64); [done|]. by destruct H.
Qed.

Definition near_end (u : N) (lg : list obs) : Prop := exists i it ts d, OPark u i it ts d ∈ lg /\ U64 <= d + SLOTS.

(** What may become of a task that was submitted, from the state [s] on, at a later state [s']. *)
Definition next_thing (pf : profile) (t : task) (s s' : sys) : Prop :=
  (exists l, log s' = l ++ log s /\ has_run (t_uid t) l) \/ finished pf t s' \/ near_end (t_uid t) (log s') \/ off (tpc s') \/ hpc s' = HDead.
Lemma next_thing_later pf t t0 t1 σ lb n n' m : exec pf t0 t1 σ lb -> (n <= n')%nat -> next_thing pf t (σ n') (σ m) -> next_thing pf t (σ n) (σ m).
Proof.
  intros He Hn [(l & E & H)|H]; [left|by right]. destruct (exec_log _ _ _ _ _ n n' He Hn) as [l' E']. exists (l ++ l'). split; [by rewrite E, E', app_assoc|].
  destruct H as (o & ? & ?). exists o. split; [|done]. apply elem_of_app. by left.
Qed.

Lemma runs_again pf t0 t1 σ lb t : exec pf t0 t1 σ lb -> weakly_fair pf by_handler σ lb -> strongly_fair pf by_scheduler σ lb ->
  (forall n, quiet t (log (σ n))) -> forall n, submitted t (log (σ n)) -> exists m, (n <= m)%nat /\ next_thing pf t (σ n) (σ m).
Proof.
  intros He Hh Hs Hq.
  assert (forall n m, (n <= m)%nat -> submitted t (log (σ n)) -> submitted t (log (σ m))) as Hsub.
  { intros n m Hm (e & H1 & H2). destruct (exec_log _ _ _ _ _ n m He Hm) as [l E]. exists e. split; [|done]. rewrite E. apply elem_of_app. by right. }
  (* a waiting task *)
  assert (forall n D, submitted t (log (σ n)) -> phase (t_uid t) (log (σ n)) = Wait D -> exists m, (n <= m)%nat /\ next_thing pf t (σ n) (σ m)) as Hwait.
  { intros n D Hsn Hw. destruct (ticks_again _ _ _ _ _ He Hh Hs (D + 1) n) as (m & Hm & [Hi|Ho]); [|exists m; split; [done|]; right; right; right; by left].
    exists m. split; [done|]. destruct (near_dec (t_uid t) (log (σ m))) as [Hn|Hn]; [|by right; right; left].
    pose proof (exec_reach _ _ _ _ _ m He) as Hr. pose proof (Hsub n m Hm Hsn) as Hsm.
    pose proof (only_quiet _ _ (cnt_reach _ _ _ _ Hr) Hsm (Hq m)) as Hon.
    pose proof (ok_at_reach _ _ _ _ _ Hr Hsm (Hq m) Hn) as Hok. pose proof (tinv_only _ _ _ _ _ Hr Hon Hn) as Hti.
    destruct (exec_log _ _ _ _ _ n m He Hm) as [l E]. rewrite E in Hok. pose proof (next_run_or_drop _ _ _ l Hok Hw) as Hx.
    destruct (first_run _ l) as [k|] eqn:Ef; [left; exists l; split; [done|by eapply first_run_has]|].
    rewrite <- E in Hx. destruct Hx as [Hx|[Hx _]].
    - assert (iters (σ m) <= D); [|lia]. apply (ti_le _ _ _ Hti). rewrite expect_phase. by rewrite Hx.
    - right; left. by apply (gone_finished _ _ _ _ _ Hr Hsm). }
  (* a task that just ran *)
  assert (forall n it ts, submitted t (log (σ n)) -> phase (t_uid t) (log (σ n)) = Busy it ts -> exists m, (n <= m)%nat /\ next_thing pf t (σ n) (σ m)) as Hbusy.
  { intros n it ts Hsn Hb. destruct (ticks_again _ _ _ _ _ He Hh Hs (it + 1) n) as (m & Hm & [Hi|Ho]); [|exists m; split; [done|]; right; right; right; by left].
    destruct (near_dec (t_uid t) (log (σ m))) as [Hn|Hn]; [|exists m; split; [done|]; by right; right; left].
    pose proof (exec_reach _ _ _ _ _ m He) as Hr. pose proof (Hsub n m Hm Hsn) as Hsm.
    pose proof (only_quiet _ _ (cnt_reach _ _ _ _ Hr) Hsm (Hq m)) as Hon. pose proof (pinv_only _ _ _ _ _ Hr Hon Hn) as Hp.
    destruct (phase (t_uid t) (log (σ m))) as [|D|it' ts'|] eqn:E.
    - exfalso. destruct (exec_log _ _ _ _ _ n m He Hm) as [l El]. rewrite El in E. assert (phase (t_uid t) (log (σ n)) <> New) as Hne by congruence. clear - E Hne.
      induction l as [|o l IH]; [done|]. destruct o; cbn [app phase] in E; auto; case_match; try done; auto.
    - destruct (Hwait m D Hsm E) as (m' & ? & Hx). exists m'. split; [lia|]. by eapply next_thing_later.
    - pose proof (p_iter _ _ Hp _ _ E) as ->. exists m. split; [done|]. left. destruct (exec_log _ _ _ _ _ n m He Hm) as [l El]. exists l. split; [done|].
      pose proof (ok_at_reach _ _ _ _ _ Hr Hsm (Hq m) Hn) as Hok. rewrite El in E, Hok.  assert (it <> iters (σ m)) as Hit by lia. clear - Hb E Hit.
      induction l as [|o l IH]; [cbn in E; congruence|]. 
      assert (phase (t_uid t) (l ++ log (σ n)) = Busy (iters (σ m)) ts' -> has_run (t_uid t) (o :: l)) as Hx.
      { intros Hx. destruct (IH Hx) as (o' & ? & ?). exists o'. split; [by right|done]. }
      destruct o; cbn [app phase] in E; auto; case_match; try done; auto.
      all: eexists; split; [apply elem_of_list_here|]; cbn; by apply N.eqb_eq.
    - exists m. split; [done|]. right; left. by apply (gone_finished _ _ _ _ _ Hr Hsm). }
  intros n Hsn. pose proof (exec_reach _ _ _ _ _ n He) as Hrn.
  destruct (handled _ _ _ _ _ He Hh _ n (queue (σ n)) [] ltac:(by rewrite app_nil_r) (le_n _)) as (m & Hm & [Hd|[Hi Hp]]); [exists m; split; [done|]; by right; right; right; right|].
  rewrite <- (fifo_reach _ _ _ _ Hrn) in Hp. pose proof (Hsub n m Hm Hsn) as Hsm. pose proof (exec_reach _ _ _ _ _ m He) as Hr.
  destruct (near_dec (t_uid t) (log (σ m))) as [Hn|Hn]; [|exists m; split; [done|]; by right; right; left].
  pose proof (only_quiet _ _ (cnt_reach _ _ _ _ Hr) Hsm (Hq m)) as Hon. pose proof (pinv_only _ _ _ _ _ Hr Hon Hn) as Hpi.
  assert (exists m', (m <= m')%nat /\ next_thing pf t (σ m) (σ m')) as (m' & ? & Hx); [|exists m'; split; [lia|by eapply next_thing_later]].
  destruct (phase (t_uid t) (log (σ m))) as [|D|it ts|] eqn:E; [|by eapply Hwait|by eapply Hbusy|].
  - exfalso. destruct (p_sub _ _ Hpi Hsm E) as [?|(t' & Hin & Hid)]; [congruence|]. unfold coming in Hin. rewrite Hi in Hin. cbn [hpc_task] in Hin. rewrite app_nil_r in Hin.
    apply (taken_task _ _ _ _ t t' Hr); [|done|].
    + destruct Hsn as (e & H1 & H2). exists e. split; [done|]. rewrite Hp. by apply elem_sends.
    + apply (only_sole _ _ (cnt_reach _ _ _ _ Hr) Hon); [|done]. unfold held. apply elem_of_app. by left.
  - exists m. split; [done|]. right; left. by apply (gone_finished _ _ _ _ _ Hr Hsm).
Qed.

(* ------------------------------------------------------------------ *)
(** * Fair executions exist: every execution can be continued to a fair one *)

Lemma least_in h d : least_deadline h = Some d -> exists ch u, list_find (fun u => u_deadline u = d) h = Some (ch, u).
Proof.
  intros H. assert (Exists (fun u => u_deadline u = d) h) as Hx.
  { revert d H. induction h as [|u h IH]; intros d H; [done|]. cbn in H. destruct (least_deadline h) as [d'|].
    - injection H as <-. destruct (N.min_spec (u_deadline u) d') as [[_ E]|[_ E]]; rewrite E; [by left|right; by apply IH].
    - injection H as <-. by left. }
  apply Exists_exists in Hx as (u & H1 & H2). destruct (list_find_elem_of (fun u => u_deadline u = d) h u H1 H2) as [[ch u'] E]. eauto.
Qed.

(** A step of the sweeper that is possible. *)
Definition sweep_label (now : N) (s : sys) : label :=
  match least_deadline (heap s) with
  | Some d => match list_find (fun u => u_deadline u = d) (heap s) with Some (ch, _) => LSweep ch now | None => LSweep 0 now end
  | None => LSweep 0 now
  end.
Lemma sweep_label_ok pf now s : is_Some (step pf (sweep_label now s) s) /\ ~ by_handler (sweep_label now s) /\ ~ by_scheduler (sweep_label now s).
Proof.
  unfold sweep_label. destruct (least_deadline (heap s)) as [d|] eqn:E.
  - destruct (least_in _ _ E) as (ch & u & Ef). rewrite Ef. split; [|split; cbn; auto]. apply list_find_Some in Ef as (H1 & H2 & _).
    cbn [step]. unfold sweep_step. rewrite E, H1. apply N.eqb_eq in H2. rewrite H2. repeat case_match; done.
  - split; [|split; cbn; auto]. cbn [step]. unfold sweep_step. rewrite E. repeat case_match; done.
Qed.
Definition round_left (p : sweeper_pc) : nat := match p with SSleep => 0 | SRound _ k => S (N.to_nat k) end.
Lemma sweep_left pf ch now s s' : step pf (LSweep ch now) s = Some s' -> spc s <> SSleep -> (round_left (spc s') < round_left (spc s))%nat.
Proof.
  intros Hs Hne. cbn [step] in Hs. unfold sweep_step in Hs. destruct (spc s) as [|nw k]; [done|]. cbn [round_left].
  destruct (k =? 0) eqn:Ek; [injection Hs as <-; cbn; lia|]. destruct (least_deadline (heap s)) as [d|]; [|injection Hs as <-; cbn; lia].
  destruct (d <=? nw); [|injection Hs as <-; cbn; lia]. destruct (heap s !! ch) as [u|]; [|done]. destruct (u_deadline u =? d); [|done].
  injection Hs as <-. fsimpl. cbn [round_left]. apply N.eqb_neq in Ek. lia.
Qed.
Definition timer_label (now : N) (s : sys) : label := LTimer 0 (fresh (dom (insts s))) now.
Lemma timer_label_ok pf now s : tpc s <> TStopped -> tpc s <> TDead ->
  (forall l ids i sl upd, tpc s = TMark l ids i sl upd -> mark_locked s i = false) -> is_Some (step pf (timer_label now s) s).
Proof.
  intros H1 H2 H3. unfold timer_label. cbn [step]. unfold timer_step. destruct (tpc s) eqn:Et; try done.
  all: try (repeat case_match; done).
  - rewrite decide_True; [repeat case_match; done|]. apply not_elem_of_dom. apply is_fresh.
  - rewrite (H3 _ _ _ _ _ eq_refl). case_match; done.
Qed.
Definition waits_for_mark (s : sys) : bool := match tpc s with TMark _ _ i _ _ => mark_locked s i | _ => false end.

(** A scheduler of the threads: scheduler (event handler if the scheduler waits for it), event handler, sweeper, its receiver (sweeper if the receiver
    waits for it), a user (the sweeper if what the user wants to do is not possible), and so on. *)
Inductive turn := ForScheduler | ForHandler | ForSweeper | ForReceiver | ForUser.
Definition can (pf : profile) (lb : label) (s : sys) : bool := match step pf lb s with Some _ => true | None => false end.
Definition choose (pf : profile) (now : N) (usr : sys -> label) (x : sys * turn) : label * turn :=
  let '(s, w) := x in
  match w with
  | ForScheduler =>
      if can pf (timer_label now s) s then (timer_label now s, ForHandler)
      else if waits_for_mark s && can pf LHandler s then (LHandler, ForScheduler)
      else if can pf LHandler s then (LHandler, ForSweeper) else (sweep_label now s, ForSweeper)
  | ForHandler => if can pf LHandler s then (LHandler, ForSweeper) else (sweep_label now s, ForSweeper)
  | ForSweeper => (sweep_label now s, ForReceiver)
  | ForReceiver => if can pf LSweepRecv s then (LSweepRecv, ForUser)
                   else (sweep_label now s, match recq s with [] => ForUser | _ => ForReceiver end)
  | ForUser => (if can pf (usr s) s then usr s else sweep_label now s, ForScheduler)
  end.
Definition turn_next (pf : profile) (now : N) (usr : sys -> label) (x : sys * turn) : sys * turn :=
  (match step pf (fst (choose pf now usr x)) (fst x) with Some s' => s' | None => fst x end, snd (choose pf now usr x)).
Fixpoint nth_turn (pf : profile) (clk : nat -> N) (usr : nat -> sys -> label) (s : sys) (n : nat) : sys * turn :=
  match n with O => (s, ForScheduler) | S n => turn_next pf (clk n) (usr n) (nth_turn pf clk usr s n) end.
Lemma choose_ok pf now usr x : step pf (fst (choose pf now usr x)) (fst x) = Some (fst (turn_next pf now usr x)).
Proof.
  unfold turn_next. assert (is_Some (step pf (fst (choose pf now usr x)) (fst x))) as [s' E]; [|by rewrite E]. destruct x as [s w]. cbn [fst choose].
  pose proof (proj1 (sweep_label_ok pf now s)) as Hsw. unfold can. destruct w.
  - destruct (step pf (timer_label now s) s) as [s1|] eqn:E1; cbn [fst]; [by rewrite E1|]. destruct (step pf LHandler s) as [s2|] eqn:E2; destruct (waits_for_mark s); cbn [andb fst]; try (by rewrite E2); exact Hsw.
  - destruct (step pf LHandler s) as [s2|] eqn:E2; cbn [fst]; [by rewrite E2|exact Hsw].
  - exact Hsw.
  - destruct (step pf LSweepRecv s) as [s2|] eqn:E2; cbn [fst]; [by rewrite E2|exact Hsw].
  - cbn [fst]. destruct (step pf (usr s) s) as [s2|] eqn:E2; [by rewrite E2|exact Hsw].
Qed.
Lemma can_handler pf s : can pf LHandler s = false -> ~ enabled pf by_handler s.
Proof. unfold can. intros E (lb & Hl & [s' Hs]). destruct lb; try done. by rewrite Hs in E. Qed.
Lemma sweep_label_is now s : exists ch, sweep_label now s = LSweep ch now.
Proof. unfold sweep_label. destruct (least_deadline _); [|eauto]. destruct (list_find _ _) as [[? ?]|]; eauto. Qed.

Lemma off_step pf lb s s' : step pf lb s = Some s' -> off (tpc s) -> off (tpc s').
Proof. unfold off. intros Hs Ho. step_inv Hs; inst_shape; fsimpl; auto; destruct Ho; congruence. Qed.
Lemma off_disabled pf s : off (tpc s) -> ~ enabled pf by_scheduler s.
Proof. intros Ho (lb & Hl & [s' Hs]). destruct lb; try done. cbn [step] in Hs. unfold timer_step in Hs. destruct Ho as [E|E]; by rewrite E in Hs. Qed.

(** From every reachable state on there is a fair execution in which nothing happens but the steps of the threads and those a user wants,
    for every sequence of clock values and every user.  The user gets a turn again and again. *)
Theorem fair_user_exists pf t0 t1 clk usr s : reachable pf t0 t1 s ->
  exists σ lb, σ 0%nat = s /\ exec pf t0 t1 σ lb /\ weakly_fair pf by_handler σ lb /\ strongly_fair pf by_scheduler σ lb /\ weakly_fair pf by_sweeper σ lb /\ receives σ lb /\
    infinitely_often (fun m => lb m = usr m (σ m) \/ step pf (usr m (σ m)) (σ m) = None) /\
    forall n, lb n = usr n (σ n) \/ match lb n with LTimer _ _ now | LSweep _ now => now = clk n | LHandler | LSweepRecv => True | _ => False end.
Proof.
  intros Hr. set (x := nth_turn pf clk usr s). set (σ n := fst (x n)). set (lb n := fst (choose pf (clk n) (usr n) (x n))).
  assert (forall n, x (S n) = turn_next pf (clk n) (usr n) (x n)) as Hx by reflexivity.
  assert (exec pf t0 t1 σ lb) as He. { split; [exact Hr|]. intros n. unfold σ, lb. exact (choose_ok pf (clk n) (usr n) (x n)). }
  assert (forall n, snd (x (S n)) = snd (choose pf (clk n) (usr n) (x n))) as Hnx by reflexivity.
  assert (forall n, snd (x n) = ForHandler -> snd (x (S n)) = ForSweeper) as N1.
  { intros n E. rewrite Hnx. destruct (x n) as [s1 w]. cbn in E. subst w. cbn. by destruct (can pf LHandler s1). }
  assert (forall n, snd (x n) = ForSweeper -> by_sweeper (lb n) /\ snd (x (S n)) = ForReceiver) as N2.
  { intros n E. rewrite Hnx. unfold lb. destruct (x n) as [s1 w]. cbn in E. subst w. cbn. destruct (sweep_label_is (clk n) s1) as [ch ->]. done. }
  (* the receiver's turn *)
  assert (forall n, snd (x n) = ForReceiver -> exists m, (n <= m)%nat /\ (by_receiver (lb m) \/ recq (σ m) = []) /\ snd (x (S m)) = ForUser) as N3.
  { intros n. remember (round_left (spc (σ n))) as k eqn:Ek. revert n Ek. induction k as [k IH] using lt_wf_ind. intros n Ek Ew. pose proof (ex_step _ _ _ _ _ He n) as Hst. pose proof (Hnx n) as En.
    unfold lb in *. unfold σ in Ek. destruct (x n) as [s1 w] eqn:Ex. cbn in Ew. subst w. cbn in En, Ek. unfold can in En.
    assert (σ n = s1) as Es by (unfold σ; by rewrite Ex).
    destruct (step pf LSweepRecv s1) as [s2|] eqn:E2.
    { exists n. split; [lia|]. split; [|done]. left. rewrite Ex. cbn. unfold can. by rewrite E2. }
    destruct (recq s1) as [|v q] eqn:Eq.
    { exists n. split; [lia|]. split; [right; congruence|done]. }
    assert (spc s1 <> SSleep) as Hsp. { intros E. cbn [step] in E2. unfold sweep_recv in E2. rewrite E, Eq in E2. done. }
    cbn in Hst. unfold can in Hst. rewrite E2 in Hst. cbn in Hst. destruct (sweep_label_is (clk n) s1) as [ch Ec]. rewrite Ec, Es in Hst. pose proof (sweep_left _ _ _ _ _ Hst Hsp) as Hlt.
    destruct (IH _ ltac:(subst k; exact Hlt) (S n) eq_refl En) as (m & ? & ?). exists m. split; [lia|done]. }
  (* the user's turn *)
  assert (forall n, snd (x n) = ForUser -> (lb n = usr n (σ n) \/ step pf (usr n (σ n)) (σ n) = None) /\ snd (x (S n)) = ForScheduler) as N5.
  { intros n E. rewrite Hnx. unfold lb, σ. destruct (x n) as [s1 w]. cbn in E. subst w. cbn. unfold can. destruct (step pf (usr n s1) s1) eqn:Es; auto. }
  (* the scheduler's turn *)
  assert (forall n, snd (x n) = ForScheduler -> exists m, (n <= m)%nat /\ snd (x m) = ForScheduler /\ (by_scheduler (lb m) /\ snd (x (S m)) = ForHandler \/ off (tpc (σ m)) /\ snd (x (S m)) = ForSweeper)) as N4.
  { intros n. remember (busy (hpc (σ n))) as k eqn:Ek. revert n Ek. induction k as [k IH] using lt_wf_ind. intros n Ek Ew. destruct (x n) as [s1 w] eqn:En. cbn in Ew. subst w. assert (σ n = s1) as Es by (unfold σ; by rewrite En).
    destruct (can pf (timer_label (clk n) s1) s1) eqn:Et.
    { exists n. split; [lia|]. rewrite Hnx. unfold lb. rewrite En. cbn. rewrite Et. split; [done|]. left. done. }
    destruct (off_dec (tpc s1)) as [Ho|[Hno1 Hno2]].
    { exists n. split; [lia|]. rewrite Hnx. unfold lb. rewrite En, Es. cbn. rewrite Et. split; [done|]. right. split; [done|].
      assert (waits_for_mark s1 = false) as ->. { unfold waits_for_mark. by destruct Ho as [E|E]; rewrite E. } cbn. by destruct (can pf LHandler s1). }
    assert (waits_for_mark s1 = true) as Hw.
    { unfold waits_for_mark. destruct (tpc s1) eqn:Ep; try (exfalso; revert Et; unfold can; destruct (timer_label_ok pf (clk n) s1) as [? E]; [congruence|congruence|intros; congruence|by rewrite E]).
      destruct (mark_locked s1 tid) eqn:El; [done|]. exfalso. revert Et. unfold can. destruct (timer_label_ok pf (clk n) s1) as [? E]; [congruence|congruence| |by rewrite E].
      intros. rewrite Ep in *. congruence. }
    assert (hpc s1 <> HIdle /\ hpc s1 <> HDead) as [Hi Hd]. { unfold waits_for_mark, mark_locked in Hw. destruct (tpc s1); try done. destruct (hpc s1); done. }
    assert (can pf LHandler s1 = true) as Hc. { destruct (can pf LHandler s1) eqn:E; [done|]. exfalso. apply can_handler in E. apply E, handler_enabled. done. }
    assert (x (S n) = (σ (S n), ForScheduler)) as Ex. { unfold σ. rewrite Hx, En. unfold turn_next. cbn. rewrite Et, Hw, Hc. done. }
    pose proof (ex_step _ _ _ _ _ He n) as Hst. assert (lb n = LHandler) as El. { unfold lb. rewrite En. cbn. rewrite Et, Hw, Hc. done. } rewrite El, Es in Hst.
    destruct (dead_dec (hpc (σ (S n)))) as [Hd'|Hd'].
    - (* the handler dies: the mark is free *)
      exists (S n). split; [lia|]. rewrite (Hnx (S n)). unfold lb. rewrite Ex. split; [done|]. left. unfold choose. assert (can pf (timer_label (clk (S n)) (σ (S n))) (σ (S n)) = true) as ->; [|done].
      unfold can. destruct (handler_tpc _ _ _ Hst) as [Etp _]. destruct (timer_label_ok pf (clk (S n)) (σ (S n))) as [? E]; [congruence|congruence|intros; by apply dead_unlocked|by rewrite E].
    - destruct (handler_busy _ _ _ Hst Hd') as [(e & q & H1 & _)|(_ & _ & H3 & _)]; [done|]. rewrite Es in Ek.
      destruct (IH (busy (hpc (σ (S n)))) ltac:(lia) (S n) eq_refl ltac:(by rewrite Ex)) as (m & ? & ?). exists m. split; [lia|done]. }
  assert (forall n, exists m, (n <= m)%nat /\ snd (x m) = ForScheduler) as Hsch.
  { assert (forall n, snd (x n) = ForReceiver -> exists m, (n <= m)%nat /\ snd (x m) = ForScheduler) as H3. { intros n E. destruct (N3 n E) as (m & ? & _ & E'). exists (S (S m)). split; [lia|by apply N5]. }
    assert (forall n, snd (x n) = ForSweeper -> exists m, (n <= m)%nat /\ snd (x m) = ForScheduler) as H2. { intros n E. destruct (H3 (S n)) as (m & ? & ?); [by apply N2|]. exists m. split; [lia|done]. }
    intros n. destruct (snd (x n)) eqn:E; [exists n; auto| |by apply H2|by apply H3|exists (S n); split; [lia|by apply N5]]. destruct (H2 (S n) (N1 n E)) as (m & ? & ?). exists m. split; [lia|done]. }
  assert (forall n, exists m, (n <= m)%nat /\ snd (x m) = ForSweeper) as Hsw.
  { intros n. destruct (Hsch n) as (m & Hm & E). destruct (N4 m E) as (m' & ? & _ & [[_ H]|[_ H]]); [exists (S (S m')); split; [lia|by apply N1]|exists (S m'); split; [lia|done]]. }
  exists σ, lb. split; [done|]. split; [done|]. split; [|split; [|split; [|split; [|split]]]].
  - intros n. destruct (Hsch n) as (k & Hk & Ew). destruct (x k) as [s2 w] eqn:Ek. cbn in Ew. subst w.
    destruct (can pf (timer_label (clk k) s2) s2) eqn:Et.
    + exists (S k). split; [lia|]. assert (exists s3, x (S k) = (s3, ForHandler)) as [s3 E3]. { rewrite Hx, Ek. unfold turn_next. cbn. rewrite Et. eauto. }
      unfold lb, σ. rewrite E3. cbn. destruct (can pf LHandler s3) eqn:Ec; [by left|right; by apply can_handler].
    + exists k. split; [lia|]. unfold lb, σ. rewrite Ek. cbn. rewrite Et. destruct (can pf LHandler s2) eqn:Ec; [left|right; by apply can_handler]. by destruct (waits_for_mark s2).
  - intros n. destruct (Hsch n) as (m & Hm & E). destruct (N4 m E) as (m' & ? & _ & [[H _]|[H _]]); exists m'; (split; [lia|]); [by left|right].
    intros j Hj. apply off_disabled. induction Hj as [|j Hj IHj]; [done|]. eapply off_step; [apply (ex_step _ _ _ _ _ He j)|done].
  - intros n. destruct (Hsw n) as (m & Hm & E). exists m. split; [done|]. left. by apply N2.
  - intros n. destruct (Hsw n) as (m & Hm & E). destruct (N3 (S m)) as (m' & ? & H & _); [by apply N2|]. exists m'. split; [lia|done].
  - intros n. destruct (Hsw n) as (m & Hm & E). destruct (N3 (S m)) as (m' & ? & _ & E'); [by apply N2|]. exists (S m'). split; [lia|by apply N5].
  - intros n. unfold lb, σ. destruct (x n) as [s1 w]. cbn. destruct (sweep_label_is (clk n) s1) as [ch Hw]. rewrite Hw.
    destruct w; [right; destruct (can pf _ s1); [done|]; destruct (waits_for_mark s1 && can pf LHandler s1); [done|]|right|by right|right; by destruct (can pf LSweepRecv s1)|destruct (can pf (usr n s1) s1); [by left|by right]].
    all: by destruct (can pf LHandler s1).
Qed.
(** In particular one in which users do nothing. *)
Theorem fair_exists pf t0 t1 clk s : reachable pf t0 t1 s ->
  exists σ lb, σ 0%nat = s /\ exec pf t0 t1 σ lb /\ weakly_fair pf by_handler σ lb /\ strongly_fair pf by_scheduler σ lb /\ weakly_fair pf by_sweeper σ lb /\ receives σ lb /\
    forall n, match lb n with LTimer _ _ now | LSweep _ now => now = clk n | LHandler | LSweepRecv => True | _ => False end.
Proof.
  intros Hr. destruct (fair_user_exists pf t0 t1 clk (fun n => sweep_label (clk n)) s Hr) as (σ & lb & E & He & H1 & H2 & H3 & H4 & _ & H5). exists σ, lb. split_and!; try done.
  intros n. destruct (H5 n) as [->|?]; [|done]. by destruct (sweep_label_is (clk n) (σ n)) as [ch ->].
Qed.
