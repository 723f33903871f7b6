(** Tasks that run for ever: those that are left alone (C56), and those that a removal missed (C65). *)
From Verif Require Import Tactics Inv Own Life Count Quiet Timing Cases Frame Fifo Scen Arrival Meanwhile Kept Live LiveEnd PropSched PropRemove PropLive PropCalm PropChain PropEnding PropNext Sched Lost Stay.

Lemma submitted_later pf t0 t1 σ lb n m t : exec pf t0 t1 σ lb -> (n <= m)%nat -> submitted t (log (σ n)) -> submitted t (log (σ m)).
Proof. intros He Hm (e & H1 & H2). destruct (exec_log _ _ _ _ _ n m He Hm) as [l E]. exists e. split; [|done]. rewrite E. apply elem_of_app. by right. Qed.
Lemma repeated_goes_on pf t0 t1 s t st i : reachable pf t0 t1 s -> submitted t (log s) -> t_freq t = SecondsRepeated st -> ~ ended i (t_uid t) s.
Proof.
  intros Hr Hsub Hf Hx. destruct (over_end _ _ _ _ _ i NoDate Hr Hsub eq_refl Hx) as [(n & Hn & _)|(l & c & c' & Hn & _)]; rewrite Hf in Hn; [discriminate Hn|]. apply follows_kind in Hn as [_ Hn]. by destruct Hn as [? ?]; [eauto|].
Qed.
(** A task that is left alone is run again and again until it ends. *)
Lemma left_alone pf t0 t1 σ lb t n : exec pf t0 t1 σ lb -> weakly_fair pf by_handler σ lb -> strongly_fair pf by_scheduler σ lb ->
  (forall k, quiet t (log (σ k))) -> submitted t (log (σ n)) ->
  forall a, exists m, (n <= m)%nat /\ (a <= turns (t_uid t) (log (σ m)) \/ ended (t_id t) (t_uid t) (σ m) \/ unmarked (t_id t) (t_uid t) (σ m) \/ tpc (σ m) = TStopped \/ tpc (σ m) = TDead \/ hpc (σ m) = HDead).
Proof.
  intros He Hh Hs Hq Hsub a.
  destruct (handled _ _ _ _ _ He Hh _ n (queue (σ n)) [] ltac:(by rewrite app_nil_r) (le_n _)) as (m & Hm & [Hd|[Hi Hp]]); [exists m; split; [done|]; by right; right; right; right; right|].
  rewrite <- (fifo_reach _ _ _ _ (exec_reach _ _ _ _ _ n He)) in Hp. pose proof (exec_reach _ _ _ _ _ m He) as Hr.
  destruct (quiet_placed _ _ _ _ _ Hr (submitted_later _ _ _ _ _ _ _ _ He Hm Hsub) (Hq m)) as [Hx|[Hx|[[Hx|Hx]|[Hx|Hx]]]]; [| |exists m; auto 10..].
  { exfalso. destruct Hx as (x & (E1 & E2) & Hx). rewrite Hi in Hx. refine (taken_task _ _ _ _ t x Hr _ _ E2).
    - destruct Hsub as (e & H1 & H2). exists e. split; [done|]. rewrite Hp. by apply elem_sends.
    - apply elem_of_list_bind. destruct Hx as [Hx|[Hx|[(c & h & k & Hx)|(c & sl & Hx)]]]; try discriminate Hx; (eexists; split; [|exact Hx]); apply elem_of_list_here. }
  destruct (turns_for_ever _ _ _ _ _ (t_id t) (t_uid t) m He Hh Hs) with (a := a) as (k & Hk & Hy); [| |done|].
  - intros k Hk Hy. destruct (placed_with _ _ _ Hy) as (x & Hx1 & E1 & E2). by eapply quiet_untouched; [exact (exec_reach _ _ _ _ _ k He)|..].
  - intros x Hx1 Hi1. refine (quiet_held _ _ _ (cnt_reach _ _ _ _ Hr) (Hq m) _ Hi1). unfold Spec.held. rewrite !elem_of_app. tauto.
  - exists k. split; [lia|]. destruct Hy as [?|[[?|?]|[?|?]]]; auto 10.
Qed.
(** ** C56 again: a repeated interval task that is left alone is started any number of times - also beyond 2^64, where its due times wrap *)
Theorem C56_starts_for_ever pf t0 t1 σ lb t st n : exec pf t0 t1 σ lb -> weakly_fair pf by_handler σ lb -> strongly_fair pf by_scheduler σ lb ->
  t_freq t = SecondsRepeated st -> t_maxpar t = None -> (forall k, quiet t (log (σ k))) -> submitted t (log (σ n)) ->
  forall a, exists m, (n <= m)%nat /\ (a <= starts (t_uid t) (log (σ m)) \/ tpc (σ m) = TStopped \/ tpc (σ m) = TDead \/ hpc (σ m) = HDead).
Proof.
  intros He Hh Hs Hf Hmp Hq Hsub a. destruct (left_alone _ _ _ _ _ t n He Hh Hs Hq Hsub a) as (m & Hm & Hx). exists m. split; [done|].
  pose proof (exec_reach _ _ _ _ _ m He) as Hr. pose proof (submitted_later _ _ _ _ _ _ _ _ He Hm Hsub) as Hsm. destruct (unlimited _ _ _ _ _ Hr Hsm Hmp) as [E Hu]. rewrite E in Hx.
  destruct Hx as [?|[Hx|[Hx|?]]]; [auto|by destruct (repeated_goes_on _ _ _ _ _ _ _ Hr Hsm Hf Hx)|by destruct (Hu _ Hx)|auto].
Qed.
Print Assumptions C56_starts_for_ever.
Theorem C56_calm_starts_for_ever t0 t1 σ lb t st n : calm_exec t0 t1 σ lb -> weakly_fair Release by_handler σ lb -> strongly_fair Release by_scheduler σ lb ->
  t_freq t = SecondsRepeated st -> t_maxpar t = None -> (forall k, quiet t (log (σ k))) -> submitted t (log (σ n)) ->
  forall a, exists m, (n <= m)%nat /\ a <= starts (t_uid t) (log (σ m)).
Proof.
  intros Hc Hh Hs Hf Hmp Hq Hsub a. destruct (C56_starts_for_ever _ _ _ _ _ _ _ n (calm_is_exec _ _ _ _ Hc) Hh Hs Hf Hmp Hq Hsub a) as (m & Hm & Hx).
  exists m. split; [done|]. destruct (calm_going _ _ _ (calm_reach _ _ _ _ m Hc)) as (? & ? & ?). naive_solver.
Qed.
Print Assumptions C56_calm_starts_for_ever.
(** Non-vacuous: [calm_example] (PropCalm.v) is such an execution. *)

(* ------------------------------------------------------------------ *)
(** ** C65 A task that was removed is not started for ever *)

(** The event handler has nothing to do with the id [i], has no mark for it, and no call that would add a task with this id is waiting. *)
Definition orphaned (i : N) (s : sys) : Prop :=
  markless i s /\ match hpc s with HUpd t _ | HAdv2 t | HAdv3 t _ => t_id t <> i | HAdv1 j _ | HRem1 j _ => j <> i | _ => True end.
Lemma orphaned_untouched i s : orphaned i s -> handler_on (hpc s) <> Some i.
Proof. intros ((_ & _ & H1) & H2). destruct (hpc s); cbn [handler_on]; congruence. Qed.
Lemma orphaned_step pf t0 t1 lb s s' i : reachable pf t0 t1 s -> step pf lb s = Some s' -> adds_other i lb -> orphaned i s -> orphaned i s'.
Proof.
  intros Hr Hs Hlb [Hm Hh]. split; [by eapply markless_step|]. destruct Hm as (Hf & _ & _). pose proof (wf_reach _ _ _ _ Hr) as Hwf.
  revert Hh. step_inv Hs; inst_shape; fsimpl; intros Hh; try done; try congruence.
  all: try (match goal with H : flags _ !! _ = Some _ |- _ => fsimpl_in H; intros <-; congruence end).
  cbn [t_id clear_cylinder_line set_cylinder_line]. by rewrite (wf_key s Hwf _ _ _ _ Heqo Heqo0).
Qed.
Lemma orphaned_later pf t0 t1 σ lb i n : exec pf t0 t1 σ lb -> orphaned i (σ n) -> (forall k, (n <= k)%nat -> adds_other i (lb k)) -> forall k, (n <= k)%nat -> orphaned i (σ k).
Proof.
  intros He Ho Ha k Hk. induction Hk as [|k Hk IH]; [done|]. eapply orphaned_step; [exact (exec_reach _ _ _ _ _ k He)|apply (ex_step _ _ _ _ _ He)|by apply Ha|exact IH].
Qed.
Lemma with_placed pf t0 t1 s i u x : reachable pf t0 t1 s -> with_scheduler s x -> steady i u x -> placed i u s.
Proof.
  intros Hr [Hx|Hx] Ht.
  - unfold placed, due_in, started_in. destruct (tpc s) eqn:E; cbn [tpc_task] in Hx; try (by apply elem_of_nil in Hx); apply elem_of_list_singleton in Hx as ->; [left|left|right..]; eexists; [right|right|..]; eexists _, _, _; (split; [|split; [exact Ht|reflexivity]]); eauto.
  - apply elem_of_wheel_tasks in Hx as (sl & m & k & Hm & Hk). left. eexists. left. exists sl, x. split; [|split; [exact Ht|reflexivity]]. exists m. split; [done|].
    pose proof (wf_key s (wf_reach _ _ _ _ Hr) _ _ _ _ Hm Hk) as Ek. destruct Ht as [Ei _]. by rewrite <- Ei, Ek.
Qed.
(** Whatever the users do - remove, update or advance the id, cancel its instances, add other tasks -, a repeated task that the scheduler still has is started any
    number of times. *)
Theorem C65_no_call_ends_it t0 t1 σ lb t st x n : calm_exec t0 t1 σ lb -> weakly_fair Release by_handler σ lb -> strongly_fair Release by_scheduler σ lb ->
  t_freq t = SecondsRepeated st -> t_maxpar t = None -> submitted t (log (σ n)) ->
  orphaned (t_id t) (σ n) -> (forall k, (n <= k)%nat -> adds_other (t_id t) (lb k)) ->
  with_scheduler (σ n) x -> t_uid x = t_uid t -> (forall y, with_scheduler (σ n) y -> t_id y = t_id t -> t_uid y = t_uid t) ->
  forall a, exists m, (n <= m)%nat /\ a <= starts (t_uid t) (log (σ m)).
Proof.
  intros Hc Hh Hs Hf Hmp Hsub Ho Ha Hx Hu Hy a. pose proof (calm_is_exec _ _ _ _ Hc) as He. pose proof (exec_reach _ _ _ _ _ n He) as Hr.
  assert (steady (t_id t) (t_uid t) x) as Ht.
  { destruct (ci_held _ (cnt_reach _ _ _ _ Hr) x) as (y & Hy1 & E1 & E2 & _). { unfold Spec.held. rewrite !elem_of_app. destruct Hx; tauto. }
    assert (y = t) as -> by (apply (ci_uniq _ (cnt_reach _ _ _ _ Hr)); [done|done|congruence]). split_and!; congruence. }
  destruct (starts_for_ever _ _ _ _ _ t n He Hh Hs Hsub Hmp) with (a := a) as (m & Hm & Hz).
  - intros k Hk _. apply orphaned_untouched. by eapply orphaned_later.
  - exact Hy.
  - eapply with_placed; [exact Hr|done..].
  - exists m. split; [done|]. destruct (calm_going _ _ _ (calm_reach _ _ _ _ m Hc)) as (? & ? & ?). destruct Hz as [?|[Hz|[?|?]]]; try done.
    destruct (repeated_goes_on _ _ _ _ _ _ _ (exec_reach _ _ _ _ _ m He) (submitted_later _ _ _ _ _ _ _ _ He Hm Hsub) Hf Hz).
Qed.
Print Assumptions C65_no_call_ends_it.

(** What the scheduler does not have any more is not started. *)
Lemma not_started pf t0 t1 σ lb t n : exec pf t0 t1 σ lb -> submitted t (log (σ n)) -> orphaned (t_id t) (σ n) -> (forall k, (n <= k)%nat -> adds_other (t_id t) (lb k)) ->
  (forall x, with_scheduler (σ n) x -> t_uid x <> t_uid t) -> forall m, (n <= m)%nat -> starts (t_uid t) (log (σ m)) = starts (t_uid t) (log (σ n)).
Proof.
  intros He Hsub Ho Ha Hx.
  assert (forall m x, (n <= m)%nat -> with_scheduler (σ m) x -> t_uid x = t_uid t -> t_id x = t_id t) as Hid.
  { intros m x Hm Hx1 Hu. destruct (ci_held _ (cnt_reach _ _ _ _ (exec_reach _ _ _ _ _ m He)) x) as (y & Hy & E1 & E2 & _). { unfold Spec.held. rewrite !elem_of_app. destruct Hx1; tauto. }
    rewrite <- E2. f_equal. apply (ci_uniq _ (cnt_reach _ _ _ _ (exec_reach _ _ _ _ _ m He))); [done| |congruence].
    destruct Hsub as (e & H1 & H2). destruct (exec_log _ _ _ _ _ n m He Hm) as [l E]. exists e. split; [|done]. rewrite E. apply elem_of_app. by right. }
  assert (forall m, (n <= m)%nat -> (forall x, with_scheduler (σ m) x -> t_uid x <> t_uid t) /\ starts (t_uid t) (log (σ m)) = starts (t_uid t) (log (σ n))) as Hm; [|intros m ?; by apply Hm].
  intros m Hm. induction Hm as [|m Hm [IH1 IH2]]; [done|]. pose proof (ex_step _ _ _ _ _ He m) as Hst. split.
  - intros x Hx1 Hu. pose proof (Hid (S m) x ltac:(lia) Hx1 Hu) as Hi.
    destruct (came_from _ _ _ _ _ _ Hst (fun _ => orphaned_untouched _ _ (orphaned_later _ _ _ _ _ _ _ He Ho Ha m Hm)) Hx1 Hi) as (y & Hy & E1 & E2). apply (IH1 y Hy). congruence.
  - rewrite <- IH2. destruct (starts_step _ _ _ _ Hst) as [(l & ids & x & r & Hp & _ & _ & -> & _)|[-> _]]; [|done]. cbn [starts].
    destruct (t_uid x =? t_uid t) eqn:E; [|done]. apply N.eqb_eq in E. exfalso. apply (IH1 x); [left; rewrite Hp; apply elem_of_list_here|done].
Qed.
(** A task that [remove_task] finds in the slot it looks into is never started again, whatever is called from then on. *)
Theorem C65_found_is_final pf t0 t1 s i sl t s' : reachable pf t0 t1 s -> hpc s = HRem1 i sl -> sits s i sl t -> step pf LHandler s = Some s' ->
  forall ls s2, run pf ls s' = Some s2 -> starts (t_uid t) (log s2) = starts (t_uid t) (log s).
Proof.
  intros Hr Hh (g & Hg & Ht) Hs ls s2 Hrun. pose proof Hs as Hst. cbn [step] in Hst. unfold handler_step in Hst. rewrite Hh, Hg in Hst. unfold slot_remove_task in Hst. cbn [snd] in Hst.
  assert (hpc s' = HRem2 i true /\ wheel s' = <[sl := delete i g]> (wheel s) /\ queue s' = queue s /\ tpc s' = tpc s /\ used s' = used s /\ log s' = log s) as (E1 & E2 & E3 & E4 & E5 & E6) by (injection Hst as <-; done).
  assert (nowhere (t_uid t) s') as Hno.
  { apply (uid_dropped s); [exact (own_reach _ _ _ _ Hr)|apply (sits_held s i sl); exists g; done|done|].
    rewrite !uids_eq, E1, E2, E3, E4, Hh. cbn [hpc_task fmap list_fmap app]. rewrite <- (uids_wheel_remove _ _ _ _ _ Hg Ht). rewrite !app_assoc. symmetry. apply Permutation_middle. }
  destruct (nowhere_run _ _ _ _ _ Hno Hrun) as [_ ->]. by rewrite E6.
Qed.
Print Assumptions C65_found_is_final.
Example C65_found_example : exists s s' t, reachable Debug 100 100 s /\ hpc s = HRem1 11 10 /\ sits s 11 10 t /\ step Debug LHandler s = Some s' /\ starts (t_uid t) (log s) = 2.
Proof.
  destruct (after_reach Debug 100 100 [Do (LAdd (every 1 11 3 100)); Handle; Ticks 8; Handle; Do (LRemove 11); Do LHandler]
    (fun s => match hpc s, wheel s !! 10 with HRem1 11 10, Some g => match g !! 11 with Some t => (t_uid t =? 1) && (starts 1 (log s) =? 2) | None => false end | _, _ => false end)) as (s & Hr & HP); [vm_compute; reflexivity|].
  destruct (hpc s) as [| | | | | | | |i sl| |] eqn:Eh; try discriminate HP. assert (i = 11 /\ sl = 10) as [-> ->] by (clear -HP; repeat (case_match; try discriminate HP); done).
  destruct (wheel s !! 10) as [g|] eqn:Eg; [|discriminate HP]. destruct (g !! 11) as [t|] eqn:Et; [|discriminate HP]. apply andb_prop in HP as [H1 H2]. apply N.eqb_eq in H1, H2.
  exists s. eexists. exists t. split; [exact Hr|]. clear Hr. split; [exact Eh|]. split; [exists g; split; [exact Eg|exact Et]|].
  split; [cbn [step]; unfold handler_step; rewrite Eh, Eg; reflexivity|]. rewrite H1. exact H2.
Qed.
(** Exactly: once the mark of a removed task is gone, the task is started finitely often if and only if neither the wheel nor the scheduler has it any more. *)
Theorem C65_exactly t0 t1 σ lb t st n : calm_exec t0 t1 σ lb -> weakly_fair Release by_handler σ lb -> strongly_fair Release by_scheduler σ lb ->
  t_freq t = SecondsRepeated st -> t_maxpar t = None -> submitted t (log (σ n)) -> (forall t', submitted t' (log (σ n)) -> t_id t' = t_id t -> t' = t) ->
  orphaned (t_id t) (σ n) -> (forall k, (n <= k)%nat -> adds_other (t_id t) (lb k)) ->
  (exists b, forall m, starts (t_uid t) (log (σ m)) <= b) <-> forall x, with_scheduler (σ n) x -> t_uid x <> t_uid t.
Proof.
  intros Hc Hh Hs Hf Hmp Hsub Hone Ho Ha. pose proof (calm_is_exec _ _ _ _ Hc) as He. pose proof (exec_reach _ _ _ _ _ n He) as Hr.
  assert (forall x, with_scheduler (σ n) x -> x ∈ Spec.held (σ n)) as Hin. { intros x Hx. unfold Spec.held. rewrite !elem_of_app. destruct Hx; tauto. }
  split.
  - intros [b Hb] x Hx Hu.
    destruct (C65_no_call_ends_it _ _ _ _ t st x n Hc Hh Hs Hf Hmp Hsub Ho Ha Hx Hu) with (a := b + 1) as (m & _ & Hm); [|specialize (Hb m); lia].
    intros y Hy Hi. destruct (ci_held _ (cnt_reach _ _ _ _ Hr) y (Hin y Hy)) as (z & Hz & E1 & E2 & _). rewrite <- E1. f_equal. apply Hone; [done|congruence].
  - intros Hx. exists (starts (t_uid t) (log (σ n))). intros m. destruct (Nat.le_ge_cases n m) as [Hm|Hm]; [|by eapply starts_le].
    rewrite (not_started _ _ _ _ _ _ n He Hsub Ho Ha Hx m Hm). done.
Qed.
Print Assumptions C65_exactly.
(** The state after a removal is such a state, if no task with this id is added afterwards. *)
Theorem C65_removal_orphans pf s s' i ok : step pf LHandler s = Some s' -> hpc s = HRem2 i ok -> (forall e t, e ∈ queue s -> adds t e -> t_id t <> i) -> orphaned i s'.
Proof.
  intros Hs Hh Hq. cbn [step] in Hs. unfold handler_step in Hs. rewrite Hh in Hs. injection Hs as <-.
  split; [split_and!|].
  - rewrite (proj1 (proj2 (complete_hpc _ _))). inst_shape. fsimpl. apply lookup_delete.
  - rewrite (proj1 (proj2 (proj2 (complete_hpc _ _)))). inst_shape. fsimpl. apply Forall_forall. intros e He t. by apply Hq.
  - by rewrite (proj1 (complete_hpc _ _)).
  - by rewrite (proj1 (complete_hpc _ _)).
Qed.
Print Assumptions C65_removal_orphans.

(** ** The full statement is false *)
(** A repeated interval task whose removal was handled after it had been added, and whose id is not used again, is started finitely often. *)
Definition C65_removed_ends : Prop := forall t0 t1 σ lb t st n, calm_exec t0 t1 σ lb -> weakly_fair Release by_handler σ lb -> strongly_fair Release by_scheduler σ lb ->
  t_freq t = SecondsRepeated st -> t_maxpar t = None -> submitted t (log (σ n)) -> (forall t', submitted t' (log (σ n)) -> t_id t' = t_id t -> t' = t) ->
  (exists l1 l2, log (σ n) = l1 ++ OPop (ERemove (t_id t)) :: l2 /\ OPop (EInsert t) ∈ l2) -> hpc (σ n) = HIdle ->
  (forall k, (n <= k)%nat -> adds_other (t_id t) (lb k)) ->
  exists b, forall m, starts (t_uid t) (log (σ m)) <= b.
Definition soleb (t : task) (lg : list obs) : bool :=
  forallb (fun o => match o with OSend (EAdd t') | OSend (EInsert t') | OSend (EUpdate t') => negb (t_id t' =? t_id t) || (t_uid t' =? t_uid t) | _ => true end) lg.
Lemma soleb_ok pf t0 t1 s t : reachable pf t0 t1 s -> submitted t (log s) -> soleb t (log s) = true -> forall t', submitted t' (log s) -> t_id t' = t_id t -> t' = t.
Proof.
  intros Hr Hs H t' Ht Hi. apply (ci_uniq s (cnt_reach _ _ _ _ Hr)); [done..|]. destruct Ht as (e & He & Hsub). unfold soleb in H. rewrite forallb_forall in H.
  apply elem_of_list_In in He. specialize (H _ He). apply N.eqb_eq in Hi. destruct Hsub as [->|[->| ->]]; rewrite Hi in H; by apply N.eqb_eq.
Qed.
(** The task is due, the scheduler takes it off the wheel; the removal is handled; then the user calls remove_task again and again. *)
Definition race_acts : list act := [Do (LInsert (every 1 11 3 100)); Handle; Ticks 4; Do (LTimer 0 0 104); Do (LTimer 0 0 104); Do (LTimer 0 0 104); Do (LTimer 0 0 104); Do (LRemove 11); Handle].
Example C65_example : exists σ lb x, calm_exec 100 100 σ lb /\ weakly_fair Release by_handler σ lb /\ strongly_fair Release by_scheduler σ lb /\
  submitted (every 1 11 3 100) (log (σ 0%nat)) /\ (forall t', submitted t' (log (σ 0%nat)) -> t_id t' = 11 -> t' = every 1 11 3 100) /\
  (exists l1 l2, log (σ 0%nat) = l1 ++ OPop (ERemove 11) :: l2 /\ OPop (EInsert (every 1 11 3 100)) ∈ l2) /\ hpc (σ 0%nat) = HIdle /\
  orphaned 11 (σ 0%nat) /\ (forall k, adds_other 11 (lb k)) /\ with_scheduler (σ 0%nat) x /\ t_uid x = 1 /\ infinitely_often (fun k => lb k = LRemove 11).
Proof.
  set (t := every 1 11 3 100).
  destruct (calm_scen 100 100 race_acts (fun s => sees (OPop (ERemove 11)) (log s) (fun _ l2 => popb 1 l2) && soleb t (log s) &&
    match hpc s, queue s, flags s !! 11, tpc s with HIdle, [], None, TMaint _ _ x => t_uid x =? 1 | _, _, _, _ => false end)) as (s & Hcr & Hr & HP & Hs); [calm_acts race_acts|vm_compute; reflexivity|].
  specialize (Hs t ltac:(left)). apply andb_true_iff in HP as [HP H3]. apply andb_true_iff in HP as [H1 H2].
  apply sees_ok in H1 as (l1 & l2 & E & H1). apply (popb_ok _ _ _ _ t (l1 ++ [OPop (ERemove 11)]) _ Hr Hs) in H1; [|by rewrite <- app_assoc].
  destruct (hpc s) eqn:Eh; try discriminate H3. destruct (queue s) as [|? ?] eqn:Eq; [|discriminate H3]. destruct (flags s !! 11) eqn:Ef; [discriminate H3|].
  destruct (tpc s) as [| | | |l ids x| | | | | | | |] eqn:Et; try discriminate H3. apply N.eqb_eq in H3.
  destruct (fair_user_exists Release 100 100 (fun n => 104 + N.of_nat n) (fun _ _ => LRemove 11) s Hr) as (σ & lb & E0 & He & F1 & F2 & _ & _ & F3 & F4). exists σ, lb, x.
  split. { split; [by rewrite E0|apply He|]. intros n. destruct (F4 n) as [->|Hx]; [split; discriminate|]. split; intros Ex; rewrite Ex in Hx; exact Hx. }
  split; [done|]. split; [done|]. rewrite E0. split; [done|]. split; [exact (soleb_ok _ _ _ _ _ Hr Hs H2)|]. split; [by exists l1, l2|]. split; [done|].
  split. { split; [|by rewrite Eh]. split; [done|]. rewrite Eq, Eh. split; [constructor|done]. }
  split. { intros k t'. destruct (F4 k) as [->|Hx]; [intros [?|?]; discriminate|]. intros [Ex|Ex]; rewrite Ex in Hx; destruct Hx. }
  split; [left; rewrite Et; apply elem_of_list_here|]. split; [done|]. intros n. destruct (F3 n) as (m & Hm & [Hx|Hx]); exists m; (split; [done|]); [done|].
  exfalso. cbn [step] in Hx. discriminate Hx.
Qed.
Theorem C65_removed_ends_refuted : ~ C65_removed_ends.
Proof.
  intros H. destruct C65_example as (σ & lb & x & H1 & H2 & H3 & H4 & H5 & H6 & H7 & H8 & H9 & H10 & H11 & _). set (t := every 1 11 3 100) in *.
  pose proof (H 100 100 σ lb t (step_by (100 + 3) 3) 0%nat H1 H2 H3 eq_refl eq_refl H4 H5 H6 H7 (fun k _ => H9 k)) as Hb.
  exact (proj1 (C65_exactly 100 100 σ lb t (step_by (100 + 3) 3) 0%nat H1 H2 H3 eq_refl eq_refl H4 H5 H8 (fun k _ => H9 k)) Hb x H10 H11).
Qed.
Print Assumptions C65_removed_ends_refuted.
