(** Instances that never report their end: panics and time-outs. *)
From Verif Require Import Tactics Inv Own Life Count Arrival Cases Inst Ended Origin Account.

(** A finish event comes from an instance that ended. *)
Definition fate (rec : Z) (s : sys) : option ifate := i_fate <$> insts s !! rec.
Lemma fate_step pf lb s s' rec f : step pf lb s = Some s' -> fate rec s = Some f -> f <> IRunning -> (forall l ids x r, tpc s = TSpawn l ids x r -> insts s !! r = None) -> fate rec s' = Some f.
Proof.
  intros Hs Hf Hn Hsp. unfold fate in *. revert Hf. step_inv Hs; inst_shape; fsimpl; try done.
  all: intros E; match goal with |- context [<[?k := _]> (insts ?s)] => destruct (decide (k = rec)) as [->|Hne]; [|by rewrite lookup_insert_ne] | |- context [alter _ ?k (insts ?s)] => destruct (decide (k = rec)) as [->|Hne]; [|by rewrite lookup_alter_ne] end.
  1-2: by rewrite (Hsp _ _ _ _ eq_refl) in E.
  1-3: rewrite lookup_alter; by destruct (insts _ !! rec).
  all: match goal with H : insts _ !! _ = Some _ |- _ => rewrite H in E; cbn in E; congruence end.
Qed.
Lemma finish_step pf lb s s' tid rec time out : step pf lb s = Some s' -> EFinish tid rec time out ∈ queue s' -> EFinish tid rec time out ∈ queue s \/ fate rec s' = Some IEnded.
Proof.
  intros Hs. unfold fate. step_inv Hs; inst_shape; fsimpl; try (by left).
  all: try (intros H; left; by right).
  all: rewrite elem_of_app, elem_of_list_singleton; intros [?|E]; [by left|]; try discriminate E; injection E as -> -> -> ->; right; by rewrite lookup_insert.
Qed.
Lemma finish_reach pf t0 t1 s tid rec time out : reachable pf t0 t1 s -> EFinish tid rec time out ∈ queue s -> fate rec s = Some IEnded.
Proof.
  revert s. apply (reach_ind pf t0 t1 (fun s => EFinish tid rec time out ∈ queue s -> fate rec s = Some IEnded)).
  - intros H. by apply elem_of_nil in H.
  - intros lb s s' Hr IH Hs H. destruct (finish_step _ _ _ _ _ _ _ _ Hs H) as [H1|H1]; [|done].
    apply (fate_step _ _ _ _ _ _ Hs (IH H1)); [done|]. exact (ri_spawn s (rec_reach _ _ _ _ Hr)).
Qed.
(** Events leave the channel only at its head. *)
Lemma event_stays pf lb s s' e : step pf lb s = Some s' -> e ∈ queue s -> e ∈ queue s' \/ (lb = LHandler /\ hpc s = HIdle /\ exists q, queue s = e :: q).
Proof.
  intros Hs. step_inv Hs; inst_shape; fsimpl; try (by left).
  all: try (intros H; left; apply elem_of_app; by left).
  all: intros [->|H]%elem_of_cons; [right; eauto|by left].
Qed.
Lemma cancel_step pf lb s s' tid rec : step pf lb s = Some s' -> ECancel tid rec ∈ queue s' -> ECancel tid rec ∈ queue s \/ lb = LCancel tid rec \/ exists w, lb = LInstCancel w rec.
Proof.
  intros Hs. step_inv Hs; inst_shape; fsimpl; try (by left).
  all: try (intros H; left; by right).
  all: rewrite elem_of_app, elem_of_list_singleton; intros [?|E]; [by left|]; try discriminate E; injection E as -> ->; right; eauto.
Qed.
(** The user does not cancel the instance [rec]. *)
Definition no_cancel (rec : Z) (lb : label) : Prop := (forall tid, lb <> LCancel tid rec) /\ (forall w, lb <> LInstCancel w rec).
(** An instance that panicked, of a task without a maximum running time, that nobody cancels. *)
Record hopeless (tid : N) (rec : Z) (s : sys) : Prop := {
  hl_fate : fate rec s = Some IPanicked;
  hl_cancel : ECancel tid rec ∉ queue s;
  hl_task : exists u it ts t, OLaunch u tid rec it ts ∈ log s /\ submitted t (log s) /\ t_uid t = u /\ t_maxrun t = None;
  hl_run : rec ∈ running tid (log s)
}.
Lemma hopeless_step pf t0 t1 lb s s' tid rec : reachable pf t0 t1 s -> hopeless tid rec s -> no_cancel rec lb -> step pf lb s = Some s' -> hopeless tid rec s'.
Proof.
  intros Hr [Hf Hc Ht Hrun] [Hn1 Hn2] Hs. pose proof Ht as (u & it & ts & t & T1 & T2 & T3 & T4). destruct (step_log _ _ _ _ Hs) as [lg El]. split.
  - apply (fate_step _ _ _ _ _ _ Hs Hf); [done|]. exact (ri_spawn s (rec_reach _ _ _ _ Hr)).
  - intros H. destruct (cancel_step _ _ _ _ _ _ Hs H) as [?|[E|[w E]]]; [done|by apply (Hn1 tid)|by apply (Hn2 w)].
  - exists u, it, ts, t. split; [rewrite El, elem_of_app; auto|]. split; [by eapply submitted_mono|done].
  - destruct (run_kinds _ _ _ _ Hs) as [l ids x r E1 E0 E2|e q fin j r st tr _ E1 E2 E3 E4 E5|E].
    + rewrite E2. case_match; [by right|done].
    + rewrite E5. destruct (j =? tid) eqn:Ej; [|done]. apply N.eqb_eq in Ej. subst j. apply elem_of_list_filter. split; [|done]. intros <-.
      destruct E3.
      * apply Hc. rewrite E2. left.
      * destruct (un_timeout pf s (unit_reach _ _ _ _ Hr) tid rec) as (d & now & Hsw); [rewrite E2; left|].
        apply elem_of_list_split in Hsw as (l1 & l2 & Hsw). pose proof (or_each _ _ (orig_reach _ _ _ _ Hr)) as Ho. rewrite Hsw in Ho. apply each_split in Ho as [Hj _].
        apply (justified_mono _ _ (log s)) in Hj; [|intros o Hin; rewrite Hsw; apply elem_of_app; right; by right].
        destruct Hj as (u' & it' & ts' & t' & m & J1 & J2 & J3 & _ & J5 & _).
        pose proof (ri_launch s (rec_reach _ _ _ _ Hr) _ _ _ _ _ T1) as L1. pose proof (ri_launch s (rec_reach _ _ _ _ Hr) _ _ _ _ _ J1) as L2. rewrite L1 in L2. injection L2 as L2.
        assert (t' = t) as -> by (apply (ci_uniq s (cnt_reach _ _ _ _ Hr)); [done|done|congruence]). congruence.
      * assert (fate rec s = Some IEnded) by (eapply finish_reach; [exact Hr|]; rewrite E2; left). congruence.
    + by rewrite E.
Qed.

(** ** A timed instance is always on its way to its end *)
Inductive on_way (tid : N) (rec : Z) (s : sys) : Prop :=
| way_dead : tpc s = TDead -> on_way tid rec s
| way_send l ids t d : tpc s = TSend l ids t rec (Some d) -> t_id t = tid -> on_way tid rec s
| way_queue hb d : EAppend tid hb ∈ queue s -> hb_rec hb = rec -> hb_end hb = Some d -> on_way tid rec s
| way_unit u : u ∈ recq s \/ u ∈ heap s -> u_tid u = tid -> u_rec u = rec -> (tid, rec) ∈ trace_recs (trace s) -> on_way tid rec s
| way_event : ETimeout tid rec ∈ queue s -> (tid, rec) ∈ trace_recs (trace s) -> on_way tid rec s
| way_end : OQuit tid rec ∈ log s -> on_way tid rec s.
Lemma trace_step pf lb s s' tid rec : hpub_ok s -> step pf lb s = Some s' -> (tid, rec) ∈ trace_recs (trace s) -> (tid, rec) ∈ trace_recs (trace s') \/ OQuit tid rec ∈ log s'.
Proof.
  intros Hok Hs Hin. destruct (step_kinds _ _ _ _ Hok Hs) as [e q fin j r st Hh Hq He Hx|j hb q Hh Hq Hx|lg Et Eh El Ha].
  - apply (ended_effect _ _ _ _ _ _ _ _ He) in Hx as (_ & [(_ & ->)|(tr & n & p & Hn & Et & El & _)]); [by left|].
    rewrite (quit_recs _ _ _ _ Hn), elem_of_cons in Hin. destruct Hin as [[= <- <-]|Hin]; [right|left; by rewrite Et].
    rewrite El, !elem_of_app. right; right. left.
  - apply appended_effect in Hx as (_ & -> & _). left. rewrite trace_insert_recs. by right.
  - left. by rewrite Et.
Qed.
Lemma unit_stays pf lb s s' u : step pf lb s = Some s' -> u ∈ recq s \/ u ∈ heap s -> (u ∈ recq s' \/ u ∈ heap s') \/ ETimeout (u_tid u) (u_rec u) ∈ queue s'.
Proof.
  intros Hs. step_inv Hs; inst_cases; isimpl; fsimpl; try (by left).
  all: intros Hu.
  1-4: left; destruct Hu; [left; apply elem_of_app; by left|by right].
  - destruct Hu as [[->|Hu]%elem_of_cons|Hu]; left; [right; left|by left|right; by right].
  - destruct Hu as [Hu|Hu]; [left; by left|]. rewrite (delete_Permutation _ _ _ Heqo0), elem_of_cons in Hu.
    destruct Hu as [->|Hu]; [right; apply elem_of_app; right; left|left; by right].
Qed.
Lemma timed_send pf lb s s' l ids t rec d : step pf lb s = Some s' -> tpc s = TSend l ids t rec (Some d) -> tpc s' = tpc s \/ exists hb, EAppend (t_id t) hb ∈ queue s' /\ hb_rec hb = rec /\ hb_end hb = Some d.
Proof.
  intros Hs Et. step_inv Hs; inst_shape; fsimpl; auto; simplify_eq; try congruence.
  right. eexists. split; [apply elem_of_app; right; left|done].
Qed.
Lemma dead_step pf lb s s' : step pf lb s = Some s' -> tpc s = TDead -> tpc s' = TDead.
Proof. intros Hs Et. step_inv Hs; inst_shape; fsimpl; auto; congruence. Qed.
Lemma spawn_next pf lb s s' l ids x r e : step pf lb s = Some s' -> tpc s = TSpawn l ids x r -> tpc s' = TSend l ids x r e -> get_maximum_running_time pf x (l_ts l) = Ret e.
Proof. intros Hs Et. step_inv Hs; inst_shape; fsimpl; intros; simplify_eq; congruence. Qed.
Lemma new_launch pf lb s s' u tid rec it ts : step pf lb s = Some s' -> OLaunch u tid rec it ts ∈ log s' -> OLaunch u tid rec it ts ∈ log s \/
  exists l ids x, tpc s = TSpawn l ids x rec /\ t_uid x = u /\ t_id x = tid /\ (tpc s' = TDead \/ exists e, tpc s' = TSend l ids x rec e /\ get_maximum_running_time pf x (l_ts l) = Ret e).
Proof.
  intros Hs Hin. destruct (insts_step _ _ _ _ Hs) as [(l & ids & t & r & g & E1 & _ & E2 & _)|[E _]].
  - pose proof Hin as Hin2. rewrite E2, elem_of_cons in Hin. destruct Hin as [[= -> -> -> -> ->]|Hin]; [|by left].
    right. exists l, ids, t. do 3 (split; [done|]).
    destruct (starts_step _ _ _ _ Hs) as [(l1 & ids1 & t1 & r1 & F1 & _ & _ & _ & F2)|[F _]].
    + rewrite E1 in F1. injection F1 as <- <- <- <-. destruct F2 as [F2|[e F2]]; [by left|right]. exists e. split; [done|]. by eapply spawn_next.
    + specialize (F (t_uid t)). rewrite E2 in F. cbn [starts] in F. rewrite N.eqb_refl in F. lia.
  - left. apply elem_launches. rewrite <- E. by apply elem_launches.
Qed.
Lemma way_step pf lb s s' tid rec : hpub_ok s -> (forall j hb, EAppend j hb ∈ queue s -> hb_tid hb = j) -> on_way tid rec s -> step pf lb s = Some s' -> on_way tid rec s'.
Proof.
  intros Hok Hhb Hw Hs. destruct (step_log _ _ _ _ Hs) as [lg El].
  destruct Hw as [Hw|l ids t d H1 H2|hb d H1 H2 H3|u H1 H2 H3 H4|H1 H2|H1].
  - apply way_dead. by eapply dead_step.
  - destruct (timed_send _ _ _ _ _ _ _ _ _ Hs H1) as [E|(hb & E1 & E2 & E3)].
    + eapply way_send; [rewrite E; exact H1|done].
    + eapply way_queue; [rewrite <- H2; exact E1|done|exact E3].
  - destruct (event_stays _ _ _ _ _ Hs H1) as [E|(-> & Hh & q & Hq)]; [by eapply way_queue|].
    cbn [step] in Hs. unfold handler_step in Hs. rewrite Hh, Hq in Hs. cbn [dispatch] in Hs.
    change (Some (maintain_task_status tid hb (popped (EAppend tid hb) q s)) = Some s') in Hs. injection Hs as <-.
    assert (appended tid hb (popped (EAppend tid hb) q s) (maintain_task_status tid hb (popped (EAppend tid hb) q s))) as Hx by apply append_cases.
    apply appended_effect in Hx as (_ & Et & Er & _).
    apply (way_unit _ _ _ (RUnit d (hb_tid hb) (hb_rec hb))).
    + left. rewrite Er. unfold unit_of. rewrite H3. apply elem_of_app. right. left.
    + cbn. by apply Hhb.
    + done.
    + rewrite Et, trace_insert_recs, H2. left.
  - destruct (trace_step _ _ _ _ _ _ Hok Hs H4) as [Ht|Ht]; [|by apply way_end].
    destruct (unit_stays _ _ _ _ _ Hs H1) as [E|E]; [by eapply way_unit|]. apply way_event; [|done]. by rewrite <- H2, <- H3.
  - destruct (trace_step _ _ _ _ _ _ Hok Hs H2) as [Ht|Ht]; [|by apply way_end].
    destruct (event_stays _ _ _ _ _ Hs H1) as [E|(-> & Hh & q & Hq)]; [by apply way_event|]. 
    cbn [step] in Hs. unfold handler_step in Hs. rewrite Hh, Hq in Hs. cbn [dispatch] in Hs. change (Some (cancel_task false tid rec TIMEOUT (popped (ETimeout tid rec) q s)) = Some s') in Hs. injection Hs as <-.
    assert (ended false tid rec TIMEOUT (popped (ETimeout tid rec) q s) (cancel_task false tid rec TIMEOUT (popped (ETimeout tid rec) q s))) as Hx by apply cancel_cases.
    apply (ended_effect _ _ _ _ _ _ _ _ (ending_timeout tid rec)) in Hx as (_ & [(Hn & _)|(tr & n & p & Hn & Et & El2 & _)]).
    + exfalso. by eapply quit_none.
    + apply way_end. rewrite El2, !elem_of_app. right; right. left.
  - apply way_end. rewrite El. apply elem_of_app. by right.
Qed.
Lemma starts_in u tid rec it ts lg : OLaunch u tid rec it ts ∈ lg -> 1 <= starts u lg.
Proof.
  induction lg as [|o lg IH]; [by intros ?%elem_of_nil|]. intros [<-|H]%elem_of_cons.
  - cbn [starts]. rewrite N.eqb_refl. lia.
  - specialize (IH H). destruct o; cbn [starts]; lia.
Qed.
Lemma way_reach pf t0 t1 s u tid rec it ts t m : reachable pf t0 t1 s -> OLaunch u tid rec it ts ∈ log s ->
  submitted t (log s) -> t_uid t = u -> t_maxrun t = Some m -> on_way tid rec s.
Proof.
  intros Hr Hin Hsub Hu Hm. revert s Hr Hin Hsub.
  apply (reach_ind pf t0 t1 (fun s => OLaunch u tid rec it ts ∈ log s -> submitted t (log s) -> on_way tid rec s)).
  - change (log (init t0 t1)) with [OTick 0 t1]. intros H. apply elem_of_list_singleton in H. discriminate H.
  - intros lb s s' Hr IH Hs Hin Hsub.
    destruct (new_launch _ _ _ _ _ _ _ _ _ Hs Hin) as [H|(l & ids & x & H1 & H2 & H3 & H4)].
    + apply (way_step pf lb s s'); [by eapply hpub_reach|apply st_hb; by eapply stat_reach| |done]. apply IH; [done|].
      destruct (submitted_step _ _ _ _ _ Hs Hsub) as [?|[[_ Hn] _]]; [done|exfalso].
      apply starts_in in H. rewrite (ci_start s (cnt_reach _ _ _ _ Hr)) in H; [lia|]. subst u. naive_solver.
    + destruct H4 as [H4|(e & H4 & H5)]; [by apply way_dead|].
      destruct (ci_held s (cnt_reach _ _ _ _ Hr) x) as (t' & Ht1 & Ht2 & Ht3 & Ht4 & _); [apply elem_held; left; rewrite H1; left|].
      assert (t' = t) as ->. { apply (ci_uniq s' (cnt_reach _ _ _ _ (reach_step _ _ _ _ _ _ Hr Hs))); [by eapply submitted_mono|done|congruence]. }
      unfold get_maximum_running_time in H5. rewrite <- Ht4, Hm in H5. destruct (add64 pf m (l_ts l)) as [d|]; cbn in H5; [|discriminate H5]. injection H5 as <-.
      by eapply way_send.
Qed.
