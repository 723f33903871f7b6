(** Where the entries of the log about instances come from. *)
From Verif Require Import Tactics Inv Own Life Count Cases Inst Ended Arrival.

(** The unit (deadline [d]) of the instance [rec] belongs to a start of a task with a maximum running time. *)
Definition justified (pf : profile) (lg : list obs) (tid : N) (rec : Z) (d : N) : Prop :=
  exists u it ts t m, OLaunch u tid rec it ts ∈ lg /\ submitted t lg /\ t_uid t = u /\ t_id t = tid /\ t_maxrun t = Some m /\ add64 pf m ts = Ret d.

Lemma justified_mono pf lg lg' tid rec d : (forall o, o ∈ lg -> o ∈ lg') -> justified pf lg tid rec d -> justified pf lg' tid rec d.
Proof.
  intros H (u & it & ts & t & m & H1 & (e & H2 & H3) & H4). exists u, it, ts, t, m. split; [auto|].
  split; [exists e; auto|]. auto.
Qed.

Record unit_inv (pf : profile) (s : sys) : Prop := {
  un_send : forall l ids t r d, tpc s = TSend l ids t r (Some d) -> justified pf (log s) (t_id t) r d;
  un_queue : forall tid hb d, EAppend tid hb ∈ queue s -> hb_end hb = Some d -> justified pf (log s) tid (hb_rec hb) d;
  un_recq : forall u, u ∈ recq s \/ u ∈ heap s -> justified pf (log s) (u_tid u) (u_rec u) (u_deadline u);
  un_timeout : forall tid rec, ETimeout tid rec ∈ queue s -> exists d now, OSweep tid rec d now ∈ log s
}.

Lemma unit_step pf lb s s' : cnt_inv s -> (forall tid hb, EAppend tid hb ∈ queue s -> hb_tid hb = tid) ->
  unit_inv pf s -> step pf lb s = Some s' -> unit_inv pf s'.
Proof.
  intros Hc Hhb [H1 H2 H3 H4] Hs. destruct (step_log _ _ _ _ Hs) as [lg El].
  assert (forall o, o ∈ log s -> o ∈ log s') as Hmono by (intros o Ho; rewrite El; apply elem_of_app; auto).
  split.
  - assert (forall l ids t r d, tpc s' = TSend l ids t r (Some d) -> tpc s' = tpc s \/ exists m, tpc s = TSpawn l ids t r /\ t_maxrun t = Some m /\ add64 pf m (l_ts l) = Ret d /\
      OLaunch (t_uid t) (t_id t) r (iters s) (l_ts l) ∈ log s') as Hx.
    { clear -Hs. step_inv Hs; inst_shape; fsimpl; auto; try discriminate. intros l0 ids0 t0 r0 d0 E. simplify_eq. right.
      unfold get_maximum_running_time in Heqr. destruct (t_maxrun t0) as [m|]; [|done]. unfold res_bind in Heqr. destruct (add64 pf m (l_ts l0)) eqn:E; simplify_eq.
      eexists. split; [done|]. split; [done|]. split; [done|]. left. }
    intros l ids t r d Ht. destruct (Hx _ _ _ _ _ Ht) as [E|(m & Et & Em & Ea & Hl)].
    + rewrite E in Ht. eapply justified_mono; eauto.
    + destruct (ci_held s Hc t) as (t0 & Ht0 & Eu & Hx0).
      { unfold held. rewrite Et. set_solver. }
      destruct Hx0 as (Eid & Emr & _). exists (t_uid t), (iters s), (l_ts l), t0, m. split; [done|]. split; [by eapply submitted_mono|].
      rewrite Emr. auto.
  - assert (forall tid hb, EAppend tid hb ∈ queue s' -> EAppend tid hb ∈ queue s \/ exists l ids t r e, tpc s = TSend l ids t r e /\ tid = t_id t /\ hb = HBox tid r (l_ts l) e) as Hx.
    { clear -Hs. intros tid hb. step_inv Hs; inst_shape; fsimpl; auto; rewrite ?elem_of_app, ?elem_of_list_singleton.
      all: try (intros [Hx|Hx]; [by left|by simplify_eq]).
      all: try (intros Hx; left; by right).
      intros [Hx|Hx]; [by left|]. simplify_eq. right. eauto 10. }
    intros tid hb d Hin Hd. destruct (Hx _ _ Hin) as [Hin'|(l & ids & t & r & e & Et & -> & ->)].
    + eapply justified_mono; eauto.
    + cbn in *. simplify_eq. eapply justified_mono; [exact Hmono|]. by eapply H1.
  - assert (forall u, u ∈ recq s' \/ u ∈ heap s' -> (u ∈ recq s \/ u ∈ heap s) \/ exists tid hb d, EAppend tid hb ∈ queue s /\ hb_end hb = Some d /\ u = RUnit d (hb_tid hb) (hb_rec hb)) as Hx.
    { clear -Hs. intros u. step_inv Hs.
      all: try (inst_cases; isimpl; by left).
      - inst_cases; isimpl; rewrite elem_of_app; unfold unit_of; (destruct (hb_end hb) as [d|] eqn:E; [|set_solver]);
          intros [[Hx|Hx]|Hx]; auto; apply elem_of_list_singleton in Hx; right; exists tid, hb, d; (split; [left|done]).
      - fsimpl. rewrite !elem_of_cons. naive_solver.
      - fsimpl. intros [Hx|Hx]; auto. left; right. rewrite elem_of_list_lookup in Hx. destruct Hx as [j Hx]. destruct (decide (j < ch)%nat); [rewrite lookup_delete_lt in Hx by done|rewrite lookup_delete_ge in Hx by lia]; by eapply elem_of_list_lookup_2. }
    intros u Hu. destruct (Hx _ Hu) as [Hu'|(tid & hb & d & Hin & Hd & ->)].
    + eapply justified_mono; eauto.
    + cbn. eapply justified_mono; [exact Hmono|]. rewrite (Hhb _ _ Hin). by eapply H2.
  - assert (forall tid rec, ETimeout tid rec ∈ queue s' -> ETimeout tid rec ∈ queue s \/ exists d now, OSweep tid rec d now ∈ log s') as Hx.
    { clear -Hs. intros tid rec. step_inv Hs; inst_shape; fsimpl; auto; rewrite ?elem_of_app, ?elem_of_list_singleton.
      all: try (intros [Hx|Hx]; [by left|by simplify_eq]).
      all: try (intros Hx; left; by right).
      intros [Hx|Hx]; [by left|]. simplify_eq. right. eexists _, _. left. }
    intros tid rec Hin. destruct (Hx _ _ Hin) as [Hin'|Hy]; [|done]. destruct (H4 _ _ Hin') as (d & now & ?). eauto.
Qed.
Lemma unit_init pf n t0 t1 : unit_inv pf (init_n n t0 t1).
Proof.
  split.
  - intros l ids t r d Hx. discriminate Hx.
  - intros tid hb d Hx. apply elem_of_nil in Hx. destruct Hx.
  - intros u [Hx|Hx]; apply elem_of_nil in Hx; destruct Hx.
  - intros tid rec Hx. apply elem_of_nil in Hx. destruct Hx.
Qed.
Lemma unit_reach pf t0 t1 s : reachable pf t0 t1 s -> unit_inv pf s.
Proof. apply reach_ind; [exact (unit_init pf _ t0 t1)|]. intros. eapply unit_step; eauto using cnt_reach. apply st_hb. by eapply stat_reach. Qed.

(** The instance [rec] was registered, and no ending event for it was taken since. *)
Definition registered_in (tid : N) (rec : Z) (lg : list obs) : Prop :=
  exists hb l1 l2, lg = l1 ++ OPop (EAppend tid hb) :: l2 /\ hb_rec hb = rec /\ forall e fin st, ending e fin tid rec st -> OPop e ∉ l1.
Lemma registered_more tid rec lg l : registered_in tid rec l -> (forall e fin st, ending e fin tid rec st -> OPop e ∉ lg) -> registered_in tid rec (lg ++ l).
Proof.
  intros (hb & l1 & l2 & -> & Hr & H) Hn. exists hb, (lg ++ l1), l2. split; [by rewrite app_assoc|]. split; [done|].
  intros e fin st He. rewrite elem_of_app. intros [Hx|Hx]; [by eapply Hn|by eapply H].
Qed.
Lemma ending_inj e fin tid rec st fin' tid' rec' st' : ending e fin tid rec st -> ending e fin' tid' rec' st' -> tid' = tid /\ rec' = rec.
Proof. by destruct 1; inversion 1; subst. Qed.

(** Every entry of the log has its cause before it. *)
Definition origin (pf : profile) (o : obs) (r : list obs) : Prop :=
  match o with
  | OSweep tid rec d now => justified pf r tid rec d /\ d <= now
  | OPop (ETimeout tid rec) => exists d now, OSweep tid rec d now ∈ r
  | OPop (EAppend tid hb) => exists u it ts, OLaunch u tid (hb_rec hb) it ts ∈ r
  | OQuit tid rec => exists e fin st r', r = OPop e :: r' /\ ending e fin tid rec st /\ registered_in tid rec r' 
  | ONotify rec st => exists e fin tid r', r = OQuit tid rec :: OPop e :: r' /\ ending e fin tid rec st
  | OPublic (PRunning tid rec) => exists hb r', r = OPop (EAppend tid hb) :: r' /\ hb_rec hb = rec
  | OPublic (PFinish tid rec time out) => exists n r', r = n ++ OQuit tid rec :: OPop (EFinish tid rec time out) :: r' /\
      (n = [] \/ n = [ONotify rec COMPLETED])
  | OPublic (PTimeout tid rec) => exists n r', r = n ++ OQuit tid rec :: OPop (ETimeout tid rec) :: r' /\
      (n = [] \/ n = [ONotify rec TIMEOUT])
  | OPublic (PRemove tid) => exists l1 l2, r = l1 ++ OPop (ERemove tid) :: l2 /\ forall e, OPop e ∉ l1
  | _ => True
  end.
Definition removing (p : handler_pc) : option N := match p with HRem1 tid _ | HRem2 tid _ => Some tid | _ => None end.
Record orig_inv (pf : profile) (s : sys) : Prop := {
  or_each : each (origin pf) (log s);
  or_trace : forall tid rec, (tid, rec) ∈ trace_recs (trace s) -> registered_in tid rec (log s);
  or_rem : forall tid, removing (hpc s) = Some tid -> exists l1 l2, log s = l1 ++ OPop (ERemove tid) :: l2 /\ forall e, OPop e ∉ l1
}.

Lemma log_last {P : obs -> Prop} lg0 (o : obs) lg l : lg0 ++ o :: l = lg ++ l -> Forall P lg -> P o.
Proof.
  intros E HP. change (o :: l) with ([o] ++ l) in E. rewrite app_assoc in E. apply app_inv_tail in E as <-.
  apply Forall_app in HP as [_ HP]. by apply Forall_cons in HP as [? _].
Qed.

(** The removal in progress: no event was taken since. *)
Definition last_pop (e : event) (lg : list obs) : Prop := exists l1 l2, lg = l1 ++ OPop e :: l2 /\ forall e', OPop e' ∉ l1.
Lemma last_pop_more e lg l : last_pop e l -> (forall e', OPop e' ∉ lg) -> last_pop e (lg ++ l).
Proof.
  intros (l1 & l2 & -> & H) Hn. exists (lg ++ l1), l2. split; [by rewrite app_assoc|]. intros e'. rewrite elem_of_app. intros [Hx|Hx]; [by eapply Hn|by eapply H].
Qed.
Lemma rem_step pf lb s s' : step pf lb s = Some s' -> (forall tid, removing (hpc s) = Some tid -> last_pop (ERemove tid) (log s)) ->
  forall tid, removing (hpc s') = Some tid -> last_pop (ERemove tid) (log s').
Proof.
  intros Hs H tid Ht. revert Ht. step_inv Hs; inst_shape; fsimpl; intros Ht; try discriminate Ht; try (by apply H); cbn [removing] in *.
  all: try (simplify_eq; exists [], (log s); split; [done|intros ? Hx%elem_of_nil; done]).
  all: try (apply (last_pop_more _ [_]); [by apply H|]; intros ? Hx%elem_of_list_singleton; discriminate Hx).
  all: try (apply (last_pop_more _ [_; _]); [by apply H|]; intros ? Hx; rewrite !elem_of_cons in Hx; destruct Hx as [Hx|[Hx|Hx%elem_of_nil]]; [discriminate Hx|discriminate Hx|done]).
Qed.

Lemma aside_origin pf lb s s' lg : hpub_ok s -> unit_inv pf s -> orig_inv pf s -> step pf lb s = Some s' ->
  trace s' = trace s -> log s' = lg ++ log s -> Forall aside_obs lg -> orig_inv pf s'.
Proof.
  intros Hok Hu [H1 H2 H3] Hs Et El Ha. split.
  - clear Et. revert El. pose proof (un_recq pf s Hu) as Hun. unfold hpub_ok in Hok.
    step_inv Hs; inst_shape; fsimpl; intros El; try done.
    all: try (by apply (log_last _ _ _ _ El) in Ha).
    all: rewrite ?Hok; try done.
    + destruct ok; [|done]. split; [|done]. by apply H3.
    + split; [|done]. split; [|lia].
      eapply justified_mono; [|apply Hun; right; by eapply elem_of_list_lookup_2]. intros o Ho. by right.
  - intros tid rec. rewrite Et. intros Hx. rewrite El. apply registered_more; [by apply H2|].
    intros e fin st He Hin. rewrite Forall_forall in Ha. specialize (Ha _ Hin). by destruct He.
  - exact (rem_step _ _ _ _ Hs H3).
Qed.

Lemma orig_step pf lb s s' : hpub_ok s -> rec_inv s -> stat_inv s -> unit_inv pf s -> orig_inv pf s -> step pf lb s = Some s' -> orig_inv pf s'.
Proof.
  intros Hok Hr Hst Hu Ho Hs. destruct (step_kinds _ _ _ _ Hok Hs) as [e q fin tid rec st Hh Hq He Hx|tid hb q Hh Hq Hx|lg Et Eh El Ha].
  3: by eapply aside_origin.
  - destruct Ho as [H1 H2 H3]. split; [..|exact (rem_step _ _ _ _ Hs H3)].
    + assert (each (origin pf) (OPop e :: log s)) as H1'.
      { split; [|done]. destruct He; cbn; try done. apply (un_timeout pf s Hu). rewrite Hq. left. }
      apply (ended_effect _ _ _ _ _ _ _ _ He) in Hx as (Eq & [(Hn & ->)|(tr & n & p & Hn & Et & El & Hnt & Hpb)]); [done|].
      rewrite El. assert (each (origin pf) (n ++ OQuit tid rec :: OPop e :: log s)) as H1''.
      { assert (each (origin pf) (OQuit tid rec :: OPop e :: log s)) as Hy.
        { split; [|done]. cbn. exists e, fin, st, (log s). split; [done|]. split; [done|]. apply H2. rewrite (quit_recs _ _ _ _ Hn). left. }
        destruct Hnt as [[-> _]|[-> _]]; [done|]. split; [|done]. cbn. eauto 10. }
      destruct Hpb as [[-> _]|(p0 & Hp0 & ->)]; [done|]. split; [|done].
      destruct He; cbn in Hp0; simplify_eq; cbn [origin]; exists n, (log s); (split; [done|]); destruct Hnt as [[-> _]|[-> _]]; auto.
    + apply (ended_effect _ _ _ _ _ _ _ _ He) in Hx as (Eq & [(Hn & ->)|(tr & n & p & Hn & Et & El & Hnt & Hpb)]); intros tid' r; fsimpl.
      * intros Hin. apply (registered_more _ _ [OPop e]); [by apply H2|]. intros e' fin' st' He' Hx%elem_of_list_singleton. simplify_eq.
        destruct (ending_inj _ _ _ _ _ _ _ _ _ He He') as [-> ->]. by apply quit_none in Hn.
      * rewrite Et. intros Hin. rewrite El, !app_assoc. change (OQuit tid rec :: OPop e :: log s) with ([OQuit tid rec; OPop e] ++ log s).
        rewrite app_assoc. apply registered_more; [apply H2; rewrite (quit_recs _ _ _ _ Hn); by right|].
        intros e' fin' st' He' Hx. assert (OPop e' ∈ [OQuit tid rec; OPop e]) as Hy.
        { rewrite !elem_of_app in Hx. destruct Hx as [[Hx|Hx]|Hx]; [..|done].
          - destruct Hpb as [[-> _]|(p0 & _ & ->)]; [by apply elem_of_nil in Hx|by apply elem_of_list_singleton in Hx].
          - destruct Hnt as [[-> _]|[-> _]]; [by apply elem_of_nil in Hx|by apply elem_of_list_singleton in Hx]. }
        rewrite !elem_of_cons, elem_of_nil in Hy. destruct Hy as [Hy|[Hy|[]]]; [done|]. simplify_eq.
        destruct (ending_inj _ _ _ _ _ _ _ _ _ He He') as [-> ->].
        pose proof (ri_nodup s Hr) as Hnd. unfold places in Hnd. rewrite !fmap_app in Hnd.
        apply NoDup_app in Hnd as (_ & _ & Hnd). apply NoDup_app in Hnd as (_ & _ & Hnd). apply NoDup_app in Hnd as (Hnd & _ & _).
        rewrite (quit_recs _ _ _ _ Hn) in Hnd. cbn in Hnd. apply NoDup_cons in Hnd as [Hnd _]. apply Hnd. by apply (elem_of_list_fmap_1 snd) in Hin.
  - destruct Ho as [H1 H2 H3]. split; [..|exact (rem_step _ _ _ _ Hs H3)].
    + assert (hb_tid hb = tid) as Etid by (apply (st_hb s Hst); rewrite Hq; left).
      apply appended_effect in Hx as (Eq & Et & Erq & El & Ehd). rewrite El. split; [cbn; rewrite Etid; eauto|]. split; [|done].
      cbn. destruct (ri_at s Hr tid (hb_rec hb)) as (i & Hi & <-).
      { unfold places. rewrite Hq. cbn [mbind list_bind ev_rec]. set_solver. }
      exists (i_uid i). eapply (ri_inst s Hr). by rewrite Hi.
    + apply appended_effect in Hx as (Eq & Et & Erq & El & Ehd). intros tid' r. rewrite Et, trace_insert_recs, elem_of_cons, El.
      intros [E|Hin].
      * simplify_eq. exists hb, [OPublic (PRunning (hb_tid hb) (hb_rec hb))], (log s). split; [done|]. split; [done|].
        intros e fin st He Hx%elem_of_list_singleton. done.
      * apply (registered_more _ _ [OPublic (PRunning (hb_tid hb) (hb_rec hb)); OPop (EAppend tid hb)]); [by apply H2|].
        intros e fin st He Hx. rewrite !elem_of_cons, elem_of_nil in Hx. destruct Hx as [Hx|[Hx|[]]]; [done|]. simplify_eq. inversion He.
Qed.
Lemma orig_init pf n t0 t1 : orig_inv pf (init_n n t0 t1).
Proof.
  split.
  - split; exact I.
  - intros tid rec Hx. change (trace_recs (trace (init_n n t0 t1))) with (@nil (N * Z)) in Hx. apply elem_of_nil in Hx. destruct Hx.
  - intros tid Hx. discriminate Hx.
Qed.
Lemma orig_reach pf t0 t1 s : reachable pf t0 t1 s -> orig_inv pf s.
Proof. apply reach_ind; [exact (orig_init pf _ t0 t1)|]. intros lb s1 s2 Hr Ho Hs. exact (orig_step _ _ _ _ (hpub_reach _ _ _ _ Hr) (rec_reach _ _ _ _ Hr) (stat_reach _ _ _ _ Hr) (unit_reach _ _ _ _ Hr) Ho Hs). Qed.
