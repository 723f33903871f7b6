(** Running instances: C12, C13, C14, C15, C16, C18, C28, C30. *)
From Verif Require Import Tactics Inv Own Life Count Quiet Arrival Cases Inst Ended Origin Fifo Scen.

(* ------------------------------------------------------------------ *)
(** ** C13 The final state of an instance is final *)
Lemma told_len s rec : rec_inv s -> stat_inv s -> (length (told rec (log s)) <= 1)%nat.
Proof.
  intros Hr Hst. destruct (decide (rec ∈ (trace_recs (trace s)).*2)) as [Hin|H1].
  { apply elem_of_list_fmap in Hin as ([tid r] & -> & Hin). cbn. destruct (st_trace s Hst _ _ Hin) as (_ & -> & _). cbn; lia. }
  destruct (decide (rec ∈ (quits (log s)).*2)) as [Hin|H2].
  - apply elem_of_list_fmap in Hin as ([tid r] & -> & Hin). cbn. destruct (st_quit s Hst _ _ Hin) as (p & _ & Hf & _).
    destruct Hf as [(_ & [->| ->])|[(? & ? & _ & [->| ->])|(_ & [->| ->])]]; cbn; lia.
  - destruct (st_none s Hst _ H1 H2) as (_ & -> & _). cbn; lia.
Qed.
Lemma hdr_told s rec h : rec_inv s -> stat_inv s -> hdrs s !! rec = Some h -> h_state h = default RUNNING (head (told rec (log s))).
Proof.
  intros Hr Hst Hh. destruct (decide (rec ∈ (trace_recs (trace s)).*2)) as [Hin|H1].
  { apply elem_of_list_fmap in Hin as ([tid r] & -> & Hin). cbn in *. destruct (st_trace s Hst _ _ Hin) as (_ & -> & Hx). by apply Hx. }
  destruct (decide (rec ∈ (quits (log s)).*2)) as [Hin|H2].
  - apply elem_of_list_fmap in Hin as ([tid r] & -> & Hin). cbn in *. destruct (st_quit s Hst _ _ Hin) as (p & _ & _ & Hx). by apply Hx.
  - destruct (st_none s Hst _ H1 H2) as (_ & _ & Hx). congruence.
Qed.
Lemma hdr_step pf lb s s' rec h : hpub_ok s -> step pf lb s = Some s' -> hdrs s !! rec = Some h -> is_Some (hdrs s' !! rec).
Proof.
  intros Hok Hs Hh. destruct (step_kinds _ _ _ _ Hok Hs) as [e q fin tid r st _ Hq He Hx|tid hb q _ Hq Hx|lg Et Eh El Ha].
  - apply (ended_effect _ _ _ _ _ _ _ _ He) in Hx as (_ & [(Hn & ->)|(tr & n & p & _ & _ & _ & Hnt & _)]); [fsimpl; by rewrite Hh|].
    destruct Hnt as [[_ ->]|[_ ->]]; [by rewrite Hh|]. destruct (decide (rec = r)) as [->|]; [rewrite lookup_alter, Hh|rewrite lookup_alter_ne, Hh by done]; done.
  - apply appended_effect in Hx as (_ & _ & _ & _ & [->|(m & cid & l & _ & _ & ->)]); [by rewrite Hh|].
    destruct (decide (rec = hb_rec hb)) as [->|]; [by rewrite lookup_insert|by rewrite lookup_insert_ne, Hh].
  - by rewrite Eh, Hh.
Qed.
Lemma reach_run pf t0 t1 s ls s' : reachable pf t0 t1 s -> run pf ls s = Some s' -> reachable pf t0 t1 s'.
Proof.
  intros [l Hl] H. exists (l ++ ls). revert Hl. generalize (init t0 t1) as s0. induction l as [|lb l IH]; intros s0 Hl; cbn in *.
  - by simplify_eq.
  - destruct (step pf lb s0); [by apply IH|done].
Qed.
Lemma hdr_run pf t0 t1 s ls s' rec h : reachable pf t0 t1 s -> run pf ls s = Some s' -> hdrs s !! rec = Some h -> is_Some (hdrs s' !! rec).
Proof.
  revert s h. induction ls as [|lb ls IH]; intros s h Hr H Hh; cbn [run] in H; [simplify_eq; by rewrite Hh|].
  destruct (step pf lb s) as [s1|] eqn:E; [|done]. destruct (hdr_step _ _ _ _ _ _ (hpub_reach _ _ _ _ Hr) E Hh) as [h1 Hh1].
  refine (IH s1 h1 _ H Hh1). apply (reach_run pf t0 t1 s [lb]); [done|]. cbn. by rewrite E.
Qed.

Theorem C13_final_state_is_final pf t0 t1 s ls s' rec h : reachable pf t0 t1 s -> run pf ls s = Some s' -> hdrs s !! rec = Some h ->
  exists h', hdrs s' !! rec = Some h' /\ h_state h' ∈ [RUNNING; COMPLETED; CANCELLED; TIMEOUT] /\
    (h_state h <> RUNNING -> h_state h' = h_state h).
Proof.
  intros Hr Hrun Hh. destruct (hdr_run _ _ _ _ _ _ _ _ Hr Hrun Hh) as [h' Hh']. exists h'. split; [done|].
  pose proof (reach_run _ _ _ _ _ _ Hr Hrun) as Hr'.
  pose proof (rec_reach _ _ _ _ Hr) as Hi. pose proof (stat_reach _ _ _ _ Hr) as Hst. pose proof (rec_reach _ _ _ _ Hr') as Hi'. pose proof (stat_reach _ _ _ _ Hr') as Hst'.
  rewrite (hdr_told _ _ _ Hi' Hst' Hh'), (hdr_told _ _ _ Hi Hst Hh). split.
  - destruct (decide (rec ∈ (quits (log s')).*2)) as [Hin|H2].
    + apply elem_of_list_fmap in Hin as ([tid r] & -> & Hin). cbn. destruct (st_quit s' Hst' _ _ Hin) as (p & _ & Hf & _).
      destruct Hf as [(_ & [->| ->])|[(? & ? & _ & [->| ->])|(_ & [->| ->])]]; cbn; repeat (first [left|right]).
    + destruct (decide (rec ∈ (trace_recs (trace s')).*2)) as [Hin|H1].
      * apply elem_of_list_fmap in Hin as ([tid r] & -> & Hin). cbn. destruct (st_trace s' Hst' _ _ Hin) as (_ & -> & _). left.
      * destruct (st_none s' Hst' _ H1 H2) as (_ & _ & Hx). congruence.
  - pose proof (told_len _ rec Hi' Hst') as Hlen. destruct (run_log _ _ _ _ Hrun) as [l El]. rewrite El, told_app in Hlen |- *. rewrite app_length in Hlen.
    destruct (told rec (log s)) as [|st r]; [done|]. intros _. destruct (told rec l); [done|]. cbn in Hlen. lia.
Qed.
Print Assumptions C13_final_state_is_final.

(** The final state is that of the event that ended the instance. *)
Theorem C13_final_state_has_a_cause pf t0 t1 s rec h : reachable pf t0 t1 s -> hdrs s !! rec = Some h -> h_state h <> RUNNING ->
  exists e fin tid l1 l2, log s = l1 ++ OQuit tid rec :: OPop e :: l2 /\ ending e fin tid rec (h_state h).
Proof.
  intros Hr Hh Hne. pose proof (hdr_told _ _ _ (rec_reach _ _ _ _ Hr) (stat_reach _ _ _ _ Hr) Hh) as E.
  destruct (told rec (log s)) as [|st r] eqn:Et; [done|]. cbn in E. rewrite E.
  assert (ONotify rec st ∈ log s) as Hin.
  { clear -Et. revert r Et. induction (log s) as [|o l IH]; intros r Et; [done|]. destruct o; cbn in Et; try (right; by eapply IH).
    case_decide; [simplify_eq; left|right; by eapply IH]. }
  apply elem_of_list_split in Hin as (l1 & l2 & El). pose proof (or_each _ _ (orig_reach _ _ _ _ Hr)) as Ho. rewrite El in Ho.
  apply each_split in Ho as (e & fin & tid & r' & -> & He). exists e, fin, tid, (l1 ++ [ONotify rec st]), r'. rewrite El, <- app_assoc. done.
Qed.
Print Assumptions C13_final_state_has_a_cause.

(** Three instances of one task: 0 finishes, 1 is cancelled, 2 is timed out; then late events for all of them. *)
Definition three_acts : list act :=
  [Do (LTimer 0 0 0); Do (LTimer 0 0 0); Do (LInsert (timed 5 (every 1 11 3 100))); Handle; Ticks 12; Handle;
   Do (LFinish 0 105 (Some 7)); Handle; Do (LCancel 11 1); Handle; Do LSweepRecv; Do LSweepRecv; Do LSweepRecv;
   Do (LSweep 0 0); Do (LSweep 0 0);
   Do (LSweep 0 200); Do (LSweep 2 0); Do (LSweep 1 0); Do (LSweep 0 0); Handle; Do (LCancel 11 0); Do (LFinish 2 120 None); Do (LFinish 1 120 None); Handle].
Definition state_of (s : sys) (rec : Z) : option N := h_state <$> hdrs s !! rec.
Lemma three_end : exists s, reachable Debug 100 100 s /\
  bool_decide (state_of s 0 = Some COMPLETED) && bool_decide (state_of s 1 = Some CANCELLED) && bool_decide (state_of s 2 = Some TIMEOUT) &&
  bool_decide (quits (log s) = [(11, 2%Z); (11, 1%Z); (11, 0%Z)]) && bool_decide (shown 0 (log s) = [PFinish 11 0 105 (Some 7); PRunning 11 0]) &&
  bool_decide (shown 1 (log s) = [PRunning 11 1]) && bool_decide (shown 2 (log s) = [PTimeout 11 2; PRunning 11 2]) &&
  inb (OSweep 11 2 115 200) (log s) && inb (OPublic (PTimeout 11 2)) (log s) = true.
Proof. apply (after_reach Debug 100 100 three_acts). vm_compute. reflexivity. Qed.
Example C13_example : exists s, reachable Debug 100 100 s /\ state_of s 0 = Some COMPLETED /\ state_of s 1 = Some CANCELLED /\ state_of s 2 = Some TIMEOUT.
Proof. destruct three_end as (s & Hr & H). rewrite !andb_true_iff, !bool_decide_eq_true in H. destruct_and!. eauto. Qed.

(* ------------------------------------------------------------------ *)
(** ** C14 Status events of an instance form a protocol *)
Theorem C14_protocol pf t0 t1 s rec : reachable pf t0 t1 s ->
  shown rec (log s) = [] \/
  exists tid u it ts, OLaunch u tid rec it ts ∈ log s /\
    (shown rec (log s) = [PRunning tid rec] \/ (exists time out, shown rec (log s) = [PFinish tid rec time out; PRunning tid rec]) \/
     shown rec (log s) = [PTimeout tid rec; PRunning tid rec]).
Proof.
  intros Hr. pose proof (stat_reach _ _ _ _ Hr) as Hst. pose proof (rec_reach _ _ _ _ Hr) as Hi.
  assert (forall tid, (tid, rec) ∈ places s -> exists u it ts, OLaunch u tid rec it ts ∈ log s) as Hl.
  { intros tid Hin. destruct (ri_at s Hi _ _ Hin) as (i & Hx & <-). exists (i_uid i). apply (ri_inst s Hi). by rewrite Hx. }
  destruct (decide (rec ∈ (trace_recs (trace s)).*2)) as [Hin|H1].
  { apply elem_of_list_fmap in Hin as ([tid r] & -> & Hin). cbn in *. right. exists tid. destruct (Hl tid) as (u & it & ts & ?).
    { unfold places. rewrite !elem_of_app. auto. }
    exists u, it, ts. split; [done|]. left. by apply (st_trace s Hst). }
  destruct (decide (rec ∈ (quits (log s)).*2)) as [Hin|H2].
  - apply elem_of_list_fmap in Hin as ([tid r] & -> & Hin). cbn in *. right. exists tid. destruct (Hl tid) as (u & it & ts & ?).
    { unfold places. rewrite !elem_of_app. auto. }
    exists u, it, ts. split; [done|]. destruct (st_quit s Hst _ _ Hin) as (p & -> & Hf & _).
    destruct Hf as [(-> & _)|[(time & out & -> & _)|(-> & _)]]; cbn; eauto.
  - left. by apply (st_none s Hst).
Qed.
Print Assumptions C14_protocol.
Example C14_example : exists s, reachable Debug 100 100 s /\ shown 0 (log s) = [PFinish 11 0 105 (Some 7); PRunning 11 0] /\
  shown 1 (log s) = [PRunning 11 1] /\ shown 2 (log s) = [PTimeout 11 2; PRunning 11 2].
Proof. destruct three_end as (s & Hr & H). rewrite !andb_true_iff, !bool_decide_eq_true in H. destruct_and!. eauto. Qed.

(* ------------------------------------------------------------------ *)
(** ** C15 Every running handle is told to quit at most once *)
Theorem C15_quit_at_most_once pf t0 t1 s : reachable pf t0 t1 s -> NoDup (quits (log s)).*2.
Proof. intros Hr. apply quits_nodup. by eapply rec_reach. Qed.
Print Assumptions C15_quit_at_most_once.

(** ... by the first ending event taken after the instance was registered. *)
Theorem C15_quit_by_first_event pf t0 t1 s l1 l2 tid rec : reachable pf t0 t1 s -> log s = l1 ++ OQuit tid rec :: l2 ->
  exists e fin st l3 l4 hb u it ts, l2 = OPop e :: l3 ++ OPop (EAppend tid hb) :: l4 /\ ending e fin tid rec st /\ hb_rec hb = rec /\
    OLaunch u tid rec it ts ∈ l4 /\ forall e' fin' st', ending e' fin' tid rec st' -> OPop e' ∉ l3.
Proof.
  intros Hr El. pose proof (or_each _ _ (orig_reach _ _ _ _ Hr)) as Ho. rewrite El in Ho.
  pose proof (each_split _ _ _ _ Ho) as (e & fin & st & r' & -> & He & hb & l3 & l4 & -> & Hrec & Hn).
  change (l1 ++ OQuit tid rec :: OPop e :: l3 ++ OPop (EAppend tid hb) :: l4) with (l1 ++ [OQuit tid rec; OPop e] ++ l3 ++ OPop (EAppend tid hb) :: l4) in Ho.
  rewrite !app_assoc in Ho. apply each_split in Ho as (u & it & ts & Hl). rewrite Hrec in Hl. exists e, fin, st, l3, l4, hb, u, it, ts. done.
Qed.
Print Assumptions C15_quit_by_first_event.
Example C15_example : exists s, reachable Debug 100 100 s /\ quits (log s) = [(11, 2%Z); (11, 1%Z); (11, 0%Z)].
Proof. destruct three_end as (s & Hr & H). rewrite !andb_true_iff, !bool_decide_eq_true in H. destruct_and!. eauto. Qed.

(* ------------------------------------------------------------------ *)
(** ** C16 No instance is timed out early, or without a limit *)
(** The instance [rec] of [tid] was timed out: reported as such, or its state says so. *)
Definition timed_out (s : sys) (tid : N) (rec : Z) : Prop :=
  OPublic (PTimeout tid rec) ∈ log s \/ exists h, hdrs s !! rec = Some h /\ h_tid h = tid /\ h_state h = TIMEOUT.
Lemma timed_out_sweep pf t0 t1 s tid rec : reachable pf t0 t1 s -> timed_out s tid rec ->
  exists d now, OSweep tid rec d now ∈ log s /\ d <= now /\ justified pf (log s) tid rec d.
Proof.
  intros Hr Ht. pose proof (or_each _ _ (orig_reach _ _ _ _ Hr)) as Ho.
  assert (OPop (ETimeout tid rec) ∈ log s) as Hp.
  { destruct Ht as [Hp|(h & Hh & Et & Es)].
    - apply elem_of_list_split in Hp as (l1 & l2 & El). rewrite El in Ho |- *. apply each_split in Ho as (n & r & -> & _). set_solver.
    - destruct (C13_final_state_has_a_cause _ _ _ _ _ _ Hr Hh) as (e & fin & tid' & l1 & l2 & El & He); [by rewrite Es|].
      assert (tid' = tid) as ->.
      { destruct (st_quit s (stat_reach _ _ _ _ Hr) tid' rec) as (_ & _ & _ & Hx); [|destruct (Hx _ Hh); congruence].
        apply elem_quits. rewrite El. set_solver. }
      rewrite Es in He. inversion He; subst. rewrite El. set_solver. }
  apply elem_of_list_split in Hp as (l1 & l2 & El). pose proof Ho as Ho'. rewrite El in Ho'. apply each_split in Ho' as (d & now & Hs).
  assert (OSweep tid rec d now ∈ log s) as Hs' by (rewrite El; set_solver). clear l1 l2 El Hs.
  pose proof Hs' as (l1 & l2 & El)%elem_of_list_split. rewrite El in Ho. apply each_split in Ho as (Hj & Hd). exists d, now. split; [done|]. split; [done|].
  rewrite El. eapply justified_mono; [|exact Hj]. set_solver.
Qed.

Definition C16_not_early : Prop := forall pf t0 t1 s tid rec, reachable pf t0 t1 s -> timed_out s tid rec ->
  exists u it ts t m d now, OLaunch u tid rec it ts ∈ log s /\ submitted t (log s) /\ t_uid t = u /\ t_maxrun t = Some m /\
    OSweep tid rec d now ∈ log s /\ ts + m <= now.
(** Without overflow checks the deadline start + m wraps around: m = 2^64-1 times out at once. *)
Theorem C16_not_early_refuted : ~ C16_not_early.
Proof.
  intros H. destruct (after_reach Release 100 100
    [Do (LAdd (timed (U64 - 1) (every 1 11 3 100))); Handle; Ticks 5; Handle; Do LSweepRecv; Do (LSweep 0 105); Do (LSweep 0 0); Handle]
    (fun s => inb (OPublic (PTimeout 11 0)) (log s) &&
       forallb (fun o => match o with
         | OSend (EAdd t) => bool_decide (t_maxrun t = Some (U64 - 1))
         | OSend (EInsert _) | OSend (EUpdate _) => false
         | OSweep _ _ _ now => now =? 105 | _ => true end) (log s))) as (s & Hr & HP); [vm_compute; reflexivity|].
  apply andb_true_iff in HP as [HP HF]. apply inb_ok in HP. rewrite forallb_forall in HF.
  destruct (H _ _ _ _ _ _ Hr (or_introl HP)) as (u & it & ts & t & m & d & now & _ & (e & He & Hs) & _ & Hm & Hsw & Hle).
  apply elem_of_list_In in He, Hsw. apply HF in He, Hsw. cbn in Hsw. apply N.eqb_eq in Hsw as ->.
  destruct Hs as [-> |[-> | ->]]; [|discriminate He..]. apply bool_decide_eq_true in He. rewrite Hm in He. injection He as ->.
  unfold U64 in Hle. lia.
Qed.
Print Assumptions C16_not_early_refuted.
(** What holds: that is the only exception.  (Missing for the full property: max running times of the order of 2^64 seconds in
    builds without overflow checks.) *)
Theorem C16_not_early_partial pf t0 t1 s tid rec : reachable pf t0 t1 s -> timed_out s tid rec ->
  exists u it ts t m d now, OLaunch u tid rec it ts ∈ log s /\ submitted t (log s) /\ t_uid t = u /\ t_id t = tid /\ t_maxrun t = Some m /\
    OSweep tid rec d now ∈ log s /\ (pf = Debug \/ ts + m < U64 -> ts + m <= now).
Proof.
  intros Hr Ht. destruct (timed_out_sweep _ _ _ _ _ _ Hr Ht) as (d & now & Hs & Hd & (u & it & ts & t & m & H1 & H2 & H3 & H4 & H5 & H6)).
  exists u, it, ts, t, m, d, now. do 6 (split; [done|]). intros Hx. unfold add64 in H6. case_match; [simplify_eq; lia|].
  destruct pf; [done|]. destruct Hx as [?|Hx]; [done|]. lia.
Qed.
Print Assumptions C16_not_early_partial.
Example C16_example : exists s, reachable Debug 100 100 s /\ timed_out s 11 2 /\ OSweep 11 2 115 200 ∈ log s.
Proof.
  destruct three_end as (s & Hr & H). apply andb_true_iff in H as [H H1]. apply andb_true_iff in H as [_ H2]. apply inb_ok in H1, H2.
  exists s. split; [done|]. split; [by left|done].
Qed.

(* ------------------------------------------------------------------ *)
(** ** C18 Late events for an ended instance are harmless

    The event is taken out of the queue and that is all. *)
Theorem C18_late_events_harmless pf t0 t1 s tid' tid rec e fin st q : reachable pf t0 t1 s -> OQuit tid' rec ∈ log s ->
  hpc s = HIdle -> queue s = e :: q -> ending e fin tid rec st -> step pf LHandler s = Some (emit (OPop e) (set_queue q s)).
Proof.
  intros Hr Hq Hh Eq He.
  assert ((tid, rec) ∉ trace_recs (trace s)) as Hn.
  { intros Hin. apply elem_quits in Hq. pose proof (ri_nodup s (rec_reach _ _ _ _ Hr)) as Hnd. unfold places in Hnd.
    rewrite !fmap_app in Hnd. apply NoDup_app in Hnd as (_ & _ & Hnd). apply NoDup_app in Hnd as (_ & _ & Hnd). apply NoDup_app in Hnd as (_ & Hnd & _).
    apply (Hnd rec); [by apply (elem_of_list_fmap_1 snd) in Hin|by apply (elem_of_list_fmap_1 snd) in Hq]. }
  apply quit_none in Hn. pose proof (hpub_reach _ _ _ _ Hr) as Hp. unfold hpub_ok in Hp. rewrite Hh in Hp.
  cbn [step]. unfold handler_step. rewrite Hh, Eq. f_equal.
  destruct He; cbn [dispatch]; unfold cancel_task, finish_task; fsimpl; rewrite Hn; unfold complete, emit; cbn [public_of]; destruct s; cbn in *; by subst.
Qed.
Print Assumptions C18_late_events_harmless.
(** All three instances have ended, and an event for each of them is in the queue. *)
Example C18_example : exists s, reachable Debug 100 100 s /\ (forall r, r ∈ [0; 1; 2]%Z -> OQuit 11 r ∈ log s) /\ hpc s = HIdle /\
  queue s = [ECancel 11 0; EFinish 11 2 120 None; EFinish 11 1 120 None].
Proof.
  destruct (after_reach Debug 100 100 (removelast three_acts) (fun s => inb (OQuit 11 0) (log s) && inb (OQuit 11 1) (log s) && inb (OQuit 11 2) (log s) &&
     match hpc s, queue s with HIdle, [ECancel 11 0; EFinish 11 2 120 None; EFinish 11 1 120 None] => true | _, _ => false end)) as (s & Hr & HP); [vm_compute; reflexivity|].
  apply andb_true_iff in HP as [HP HE]. facts HP. exists s. split; [done|]. split; [|repeat case_match; done].
  intros r Hx. rewrite !elem_of_cons, elem_of_nil in Hx. destruct Hx as [->|[->|[->|[]]]]; done.
Qed.

(* ------------------------------------------------------------------ *)
(** ** C12 Cancelling hits exactly the addressed instance *)
Theorem C12_cancel_is_exact pf t0 t1 s tid rec q s' : reachable pf t0 t1 s -> hpc s = HIdle -> queue s = ECancel tid rec :: q ->
  step pf LHandler s = Some s' ->
  hpc s' = HIdle /\ queue s' = q /\ wheel s' = wheel s /\ tpc s' = tpc s /\ insts s' = insts s /\ recq s' = recq s /\ heap s' = heap s /\
  hand s' = hand s /\ gtime s' = gtime s /\ motiv s' = motiv s /\
  (forall i, i <> tid -> flags s' !! i = flags s !! i) /\
  (forall i r, (i, r) <> (tid, rec) -> (handle_of s' i r <-> handle_of s i r)) /\
  (forall r, r <> rec -> hdrs s' !! r = hdrs s !! r /\ shown r (log s') = shown r (log s)) /\
  (forall w x, waiters s !! w = Some x -> w_rec x <> rec -> waiters s' !! w = Some x) /\
  (handle_of s tid rec -> quits (log s') = (tid, rec) :: quits (log s) /\ ~ handle_of s' tid rec) /\
  (~ handle_of s tid rec -> s' = emit (OPop (ECancel tid rec)) (set_queue q s)).
Proof.
  intros Hr Hh Eq Hs. pose proof (hpub_reach _ _ _ _ Hr) as Hp. unfold hpub_ok in Hp. rewrite Hh in Hp.
  pose proof (rec_reach _ _ _ _ Hr) as Hri.
  cbn [step] in Hs. unfold handler_step in Hs. rewrite Hh, Eq in Hs. injection Hs as <-. cbn [dispatch public_of]. unfold handle_of.
  assert (forall tr, quit_one_task_handler tid rec (trace s) = Some tr -> 
    (forall i r, (i, r) <> (tid, rec) -> (i, r) ∈ trace_recs tr <-> (i, r) ∈ trace_recs (trace s)) /\ (tid, rec) ∉ trace_recs tr /\ (tid, rec) ∈ trace_recs (trace s)) as Htr.
  { intros tr Htr. pose proof (quit_recs _ _ _ _ Htr) as Hpm. split; [|split; [|rewrite Hpm; left]].
    - intros i r Hne. rewrite Hpm, elem_of_cons. naive_solver.
    - intros Hin. pose proof (ri_nodup s Hri) as Hnd. unfold places in Hnd. rewrite !fmap_app in Hnd.
      apply NoDup_app in Hnd as (_ & _ & Hnd). apply NoDup_app in Hnd as (_ & _ & Hnd). apply NoDup_app in Hnd as (Hnd & _ & _).
      rewrite Hpm in Hnd. cbn in Hnd. apply NoDup_cons in Hnd as [Hnd _]. apply Hnd. by apply (elem_of_list_fmap_1 snd) in Hin. }
  setoid_rewrite <- elem_trace_recs.
  assert (forall w x, waiters s !! w = Some x -> w_rec x <> rec -> (wake rec <$> waiters s) !! w = Some x) as Hw.
  { intros w x Hx Hne. rewrite lookup_fmap, Hx. cbn. unfold wake. by rewrite decide_False. }
  inst_cases; isimpl; rewrite ?Hp.
  - apply quit_none in H. split_and!; try done. intros _. destruct s; cbn in *; by subst.
  - destruct (Htr _ H) as (G1 & G2 & G3). split_and!; try done.
  - destruct (Htr _ H) as (G1 & G2 & G3). split_and!; try done. intros; by rewrite lookup_insert_ne.
  - destruct (Htr _ H) as (G1 & G2 & G3). split_and!; try done. intros; by rewrite lookup_insert_ne.
  - destruct (Htr _ H) as (G1 & G2 & G3). split_and!; try done. intros; by rewrite lookup_insert_ne.
  - destruct (Htr _ H) as (G1 & G2 & G3). split_and!; try done.
    + intros; by rewrite lookup_insert_ne.
    + intros r Hne. by rewrite lookup_alter_ne.
Qed.
Print Assumptions C12_cancel_is_exact.
(** Two running instances; one of them is cancelled. *)
Example C12_example : exists s, reachable Debug 100 100 s /\ hpc s = HIdle /\ queue s = [ECancel 11 1] /\ handle_of s 11 1 /\ handle_of s 11 0.
Proof.
  destruct (after_reach Debug 100 100 [Do (LAdd (every 1 11 3 100)); Handle; Ticks 9; Handle; Do (LCancel 11 1)]
    (fun s => match hpc s, queue s, trace s !! 11 with HIdle, [ECancel 11 1], Some [HBox _ 0 _ _; HBox _ 1 _ _] => true | _, _, _ => false end)) as (s & Hr & HP); [vm_compute; reflexivity|].
  exists s. split; [done|]. unfold handle_of. repeat case_match; try done. subst. split; [done|]. split; [done|].
  split; (eexists; split; [done|]); cbn; set_solver.
Qed.

(* ------------------------------------------------------------------ *)
(** ** C28 Only events that took effect are reported *)
Theorem C28_reported_event_was_handled pf t0 t1 s l1 l2 p : reachable pf t0 t1 s -> log s = l1 ++ OPublic p :: l2 ->
  exists e l l3, l2 = l ++ OPop e :: l3 /\ reports e p /\ (forall e', OPop e' ∉ l).
Proof.
  intros Hr El. pose proof (or_each _ _ (orig_reach _ _ _ _ Hr)) as Ho. rewrite El in Ho. apply each_split in Ho. destruct p; cbn in Ho.
  - destruct Ho as (l & l3 & -> & Hn). exists (ERemove tid), l, l3. split; [done|]. split; [constructor|done].
  - destruct Ho as (hb & r & -> & <-). exists (EAppend tid hb), [], r. split; [done|]. split; [constructor|]. intros e' Hx%elem_of_nil. done.
  - destruct Ho as (n & r & -> & Hn). exists (EFinish tid rec time out), (n ++ [OQuit tid rec]), r. split; [by rewrite <- app_assoc|]. split; [constructor|].
    intros e'. destruct Hn as [->| ->]; set_solver.
  - destruct Ho as (n & r & -> & Hn). exists (ETimeout tid rec), (n ++ [OQuit tid rec]), r. split; [by rewrite <- app_assoc|]. split; [constructor|].
    intros e'. destruct Hn as [->| ->]; set_solver.
Qed.
Print Assumptions C28_reported_event_was_handled.

Definition rem_mark (s : sys) : Prop :=
  match hpc s with HRem1 tid _ => is_Some (flags s !! tid) | HRem2 tid ok => ok = true -> is_Some (flags s !! tid) | _ => True end.
Lemma rem_mark_step pf lb s s' : rem_mark s -> step pf lb s = Some s' -> rem_mark s'.
Proof.
  unfold rem_mark. intros H Hs. step_inv Hs; inst_shape; fsimpl; try done.
  all: try (by rewrite Heqo).
  all: destruct (hpc s) eqn:Eh; try done; (rewrite lookup_insert_is_Some'; by auto).
Qed.
Lemma rem_mark_reach pf t0 t1 s : reachable pf t0 t1 s -> rem_mark s.
Proof. apply reach_ind; [exact I|]. eauto using rem_mark_step. Qed.

(** What a reported event did. *)
Definition did (p : pubev) (s s' : sys) : Prop :=
  match p with
  | PRemove tid => is_Some (flags s !! tid) /\ flags s' !! tid = None
  | PRunning tid rec => ~ handle_of s tid rec /\ handle_of s' tid rec
  | PFinish tid rec _ _ | PTimeout tid rec => handle_of s tid rec /\ ~ handle_of s' tid rec /\ OQuit tid rec ∈ log s'
  end.
Fixpoint removals (lg : list obs) : list N :=
  match lg with [] => [] | OPublic (PRemove tid) :: r => tid :: removals r | _ :: r => removals r end.
Lemma removals_app l1 l2 : removals (l1 ++ l2) = removals l1 ++ removals l2.
Proof. induction l1 as [|o l1 IH]; [done|]. cbn. repeat case_match; cbn; congruence. Qed.
Lemma elem_removals tid lg : OPublic (PRemove tid) ∈ lg <-> tid ∈ removals lg.
Proof. induction lg as [|o l IH]; cbn; [set_solver|]. rewrite elem_of_cons, IH. repeat case_match; rewrite ?elem_of_cons; naive_solver. Qed.
Lemma remove_reported pf lb s s' lg tid : hpub_ok s -> step pf lb s = Some s' -> log s' = lg ++ log s -> Forall aside_obs lg -> OPublic (PRemove tid) ∈ lg ->
  hpc s = HRem2 tid true /\ flags s' = delete tid (flags s).
Proof.
  intros Hok Hs El Ha Hin. assert (removals (log s') = removals lg ++ removals (log s)) as Er by (by rewrite El, removals_app).
  unfold hpub_ok in Hok. apply elem_removals in Hin.
  assert (removals (log s') = removals (log s) -> hpc s = HRem2 tid true /\ flags s' = delete tid (flags s)) as Hno.
  { rewrite Er. intros Hx. apply (app_inv_tail _ _ []) in Hx. rewrite Hx in Hin. by apply elem_of_nil in Hin. }
  revert El Er Hno. step_inv Hs; inst_shape; fsimpl; intros El Er Hno.
  all: try (by apply Hno).
  all: try (by apply (log_last _ _ _ _ El) in Ha).
  all: try (rewrite Hok in *; by apply Hno).
  rewrite Hok in *. destruct ok; [|by apply Hno]. cbn [removals] in Er. apply (app_inv_tail _ [_]) in Er. rewrite <- Er in Hin.
  apply elem_of_list_singleton in Hin as <-. done.
Qed.
Theorem C28_reported_event_had_effect pf t0 t1 s lb s' p : reachable pf t0 t1 s -> step pf lb s = Some s' ->
  (exists l, log s' = l ++ log s /\ OPublic p ∈ l) -> did p s s'.
Proof.
  intros Hr Hs (l & El & Hin). pose proof (hpub_reach _ _ _ _ Hr) as Hok. pose proof (rec_reach _ _ _ _ Hr) as Hri.
  pose proof (rec_step _ _ _ _ Hri Hs) as Hri'.
  destruct (step_kinds _ _ _ _ Hok Hs) as [e q fin tid rec st Hh Hq He Hx|tid hb q Hh Hq Hx|lg Et Eh El' Ha].
  - apply (ended_effect _ _ _ _ _ _ _ _ He) in Hx as (Eq & [(Hn & ->)|(tr & n & pp & Hn & Et & El2 & Hnt & Hpb)]).
    { fsimpl_in El. change (OPop e :: log s) with ([OPop e] ++ log s) in El. apply app_inv_tail in El as <-. apply elem_of_list_singleton in Hin. done. }
    assert (p ∈ option_list (public_of e)) as Hpe.
    { rewrite El2 in El. change (OQuit tid rec :: OPop e :: log s) with ([OQuit tid rec; OPop e] ++ log s) in El. rewrite !app_assoc in El. apply app_inv_tail in El as <-.
      rewrite !elem_of_app in Hin. destruct Hin as [[Hin|Hin]|Hin].
      - destruct Hpb as [[-> _]|(p0 & -> & ->)]; [by apply elem_of_nil in Hin|]. apply elem_of_list_singleton in Hin. simplify_eq. left.
      - destruct Hnt as [[-> _]|[-> _]]; [by apply elem_of_nil in Hin|]. apply elem_of_list_singleton in Hin. done.
      - rewrite !elem_of_cons, elem_of_nil in Hin. naive_solver. }
    assert (handle_of s tid rec /\ ~ handle_of s' tid rec /\ OQuit tid rec ∈ log s') as (H1 & H2 & H3).
    { unfold handle_of. rewrite <- !elem_trace_recs. rewrite (quit_recs _ _ _ _ Hn). split; [left|]. split.
      - rewrite Et. intros Hy. pose proof (ri_nodup s Hri) as Hnd. unfold places in Hnd. rewrite !fmap_app in Hnd.
        apply NoDup_app in Hnd as (_ & _ & Hnd). apply NoDup_app in Hnd as (_ & _ & Hnd). apply NoDup_app in Hnd as (Hnd & _ & _).
        rewrite (quit_recs _ _ _ _ Hn) in Hnd. cbn in Hnd. apply NoDup_cons in Hnd as [Hnd _]. apply Hnd. by apply (elem_of_list_fmap_1 snd) in Hy.
      - rewrite El2, !elem_of_app. right; right. left. }
    destruct He; cbn in Hpe; [by apply elem_of_nil in Hpe|apply elem_of_list_singleton in Hpe as ->; done..].
  - assert (hb_tid hb = tid) as Etid by (apply (st_hb s (stat_reach _ _ _ _ Hr)); rewrite Hq; left).
    apply appended_effect in Hx as (Eq & Et & Erq & El2 & Ehd).
    rewrite El2 in El. change (OPublic (PRunning (hb_tid hb) (hb_rec hb)) :: OPop (EAppend tid hb) :: log s) with ([OPublic (PRunning (hb_tid hb) (hb_rec hb)); OPop (EAppend tid hb)] ++ log s) in El.
    apply app_inv_tail in El as <-. rewrite !elem_of_cons, elem_of_nil in Hin. destruct Hin as [Hin|[?|[]]]; [|done]. simplify_eq. cbn [did]. unfold handle_of. rewrite <- !elem_trace_recs, Et, trace_insert_recs. split; [|left].
    intros Hy. pose proof (ri_nodup s Hri) as Hnd. unfold places in Hnd. rewrite Hq in Hnd. cbn [mbind list_bind ev_rec app] in Hnd.
    rewrite !fmap_app in Hnd. apply NoDup_app in Hnd as (_ & _ & Hnd). cbn in Hnd. apply NoDup_cons in Hnd as [Hnd _]. apply Hnd.
    apply (elem_of_list_fmap_1 snd) in Hy. cbn in Hy. rewrite !fmap_app, !elem_of_app. auto.
  - rewrite El' in El. apply app_inv_tail in El as <-. pose proof (proj1 (Forall_forall _ _) Ha _ Hin) as Hap. destruct p; try done. clear Hap Eh Et.
    destruct (remove_reported _ _ _ _ _ _ Hok Hs El' Ha Hin) as [E1 E2]. pose proof (rem_mark_reach _ _ _ _ Hr) as Hm. unfold rem_mark in Hm. rewrite E1 in Hm.
    split; [by apply Hm|]. rewrite E2. apply lookup_delete.
Qed.
Print Assumptions C28_reported_event_had_effect.
Example C28_example : exists s, reachable Debug 100 100 s /\ OPublic (PRemove 11) ∈ log s /\ OPublic (PRunning 11 0) ∈ log s /\
  OPublic (PFinish 11 0 105 (Some 7)) ∈ log s /\ OPublic (PTimeout 11 2) ∈ log s.
Proof.
  destruct (after_reach Debug 100 100 (three_acts ++ [Do (LRemove 11); Handle]) (fun s => inb (OPublic (PRemove 11)) (log s) && inb (OPublic (PRunning 11 0)) (log s) &&
     inb (OPublic (PFinish 11 0 105 (Some 7))) (log s) && inb (OPublic (PTimeout 11 2)) (log s))) as (s & Hr & HP); [vm_compute; reflexivity|].
  facts HP. eauto 10.
Qed.

(* ------------------------------------------------------------------ *)
(** ** C30 API calls take effect in the order they are made

    The events handled so far, then those in the queue, are the events sent, in this order. *)
Theorem C30_first_in_first_out pf t0 t1 s : reachable pf t0 t1 s -> reverse (sends (log s)) = reverse (pops (log s)) ++ queue s.
Proof. intros Hr. by rewrite (fifo_reach _ _ _ _ Hr), reverse_app, reverse_involutive. Qed.
Print Assumptions C30_first_in_first_out.
