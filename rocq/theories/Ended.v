(** What happens to an instance: registered, then told to quit at most once, with the status events and states that go with it. *)
From Verif Require Import Tactics Inv Own Cases Inst.

Definition popped (e : event) (q : list event) (s : sys) : sys := emit (OPop e) (set_hpub (public_of e) (set_queue q s)).

Definition aside_obs (o : obs) : Prop :=
  match o with OQuit _ _ | ONotify _ _ => False | OPublic (PRemove _) => True | OPublic _ => False
  | OPop (ECancel _ _) | OPop (ETimeout _ _) | OPop (EFinish _ _ _ _) | OPop (EAppend _ _) => False
  | _ => True
  end.

(** A step is about an instance, or leaves trace and instance states alone. *)
Inductive step_kind (s s' : sys) : Prop :=
| kind_ended e q fin tid rec st : hpc s = HIdle -> queue s = e :: q -> ending e fin tid rec st ->
    ended fin tid rec st (popped e q s) s' -> step_kind s s'
| kind_appended tid hb q : hpc s = HIdle -> queue s = EAppend tid hb :: q ->
    appended tid hb (popped (EAppend tid hb) q s) s' -> step_kind s s'
| kind_aside lg : trace s' = trace s -> hdrs s' = hdrs s -> log s' = lg ++ log s -> Forall aside_obs lg -> step_kind s s'.

Definition hpub_ok (s : sys) : Prop :=
  match hpc s with
  | HIdle | HDead | HAdd1 _ _ _ _ | HAdd2 _ _ _ | HAdd3 _ _ _ | HUpd _ _ | HAdv1 _ _ | HAdv2 _ | HAdv3 _ _ => hpub s = None
  | HRem1 tid _ | HRem2 tid _ => hpub s = Some (PRemove tid)
  end.
Lemma hpub_step pf lb s s' : hpub_ok s -> step pf lb s = Some s' -> hpub_ok s'.
Proof.
  intros H Hs. unfold hpub_ok in *. step_inv Hs; inst_shape; fsimpl; try done.
  all: try (by rewrite ?Heqh in H).
Qed.
Lemma hpub_reach pf t0 t1 s : reachable pf t0 t1 s -> hpub_ok s.
Proof. apply reach_ind; [exact eq_refl|]. eauto using hpub_step. Qed.

Lemma step_kinds pf lb s s' : hpub_ok s -> step pf lb s = Some s' -> step_kind s s'.
Proof.
  intros Hok H. unfold hpub_ok in Hok. step_inv H.
  all: try (eapply kind_ended; [eassumption|eassumption|constructor|first [apply cancel_cases|apply finish_cases]]).
  all: try (eapply kind_appended; [eassumption|eassumption|apply append_cases]).
  all: fsimpl_all; try rewrite Hok.
  all: try (eapply (kind_aside _ _ []); [reflexivity|reflexivity|reflexivity|repeat constructor]).
  all: try (eapply (kind_aside _ _ [_]); [reflexivity|reflexivity|reflexivity|repeat constructor]).
  all: try (eapply (kind_aside _ _ [_; _]); [reflexivity|reflexivity|reflexivity|repeat constructor]).
  all: try (eapply (kind_aside _ _ []); [reflexivity|reflexivity|rewrite complete_log; fsimpl; rewrite Hok; reflexivity|repeat constructor]).
  all: try (eapply (kind_aside _ _ [_]); [reflexivity|reflexivity|rewrite complete_log; fsimpl; rewrite Hok; reflexivity|repeat constructor]).
  destruct ok.
  all: try (eapply (kind_aside _ _ []); [reflexivity|reflexivity|rewrite complete_log; fsimpl; rewrite Hok; reflexivity|repeat constructor]).
  all: try (eapply (kind_aside _ _ [_]); [reflexivity|reflexivity|rewrite complete_log; fsimpl; rewrite Hok; reflexivity|repeat constructor]).
Qed.

Lemma shown_app rec l1 l2 : shown rec (l1 ++ l2) = shown rec l1 ++ shown rec l2.
Proof. induction l1 as [|o l1 IH]; [done|]. cbn. repeat case_match; cbn; congruence. Qed.
Lemma told_app rec l1 l2 : told rec (l1 ++ l2) = told rec l1 ++ told rec l2.
Proof. induction l1 as [|o l1 IH]; [done|]. cbn. repeat case_match; cbn; congruence. Qed.
Lemma aside_shown rec lg : Forall aside_obs lg -> shown rec lg = [].
Proof. induction 1 as [|o lg Ho _ IH]; [done|]. destruct o; cbn; try done. by destruct p. Qed.
Lemma aside_told rec lg : Forall aside_obs lg -> told rec lg = [].
Proof. induction 1 as [|o lg Ho _ IH]; [done|]. by destruct o. Qed.
Lemma aside_quits lg : Forall aside_obs lg -> quits lg = [].
Proof. induction 1 as [|o lg Ho _ IH]; [done|]. by destruct o. Qed.

(** The effect of an ending event in terms of log, trace and instance states. *)
Definition set_h_state (st : N) (h : hdr) : hdr := Hdr st (h_tid h) (h_chain h).
Lemma ended_effect e q fin tid rec st s s' : ending e fin tid rec st -> ended fin tid rec st (popped e q s) s' ->
  queue s' = q /\
  ((quit_one_task_handler tid rec (trace s) = None /\ s' = set_hpc HIdle (set_hpub None (emit (OPop e) (set_queue q s)))) \/
   exists tr n p, quit_one_task_handler tid rec (trace s) = Some tr /\ trace s' = tr /\
     log s' = p ++ n ++ OQuit tid rec :: OPop e :: log s /\
     ((n = [] /\ hdrs s' = hdrs s) \/ (n = [ONotify rec st] /\ hdrs s' = alter (set_h_state st) rec (hdrs s))) /\
     ((p = [] /\ (n = [] \/ public_of e = None)) \/ exists p0, public_of e = Some p0 /\ p = [OPublic p0])).
Proof.
  intros He H. destruct H; change (flags (popped e q s)) with (flags s) in *; change (trace (popped e q s)) with (trace s) in *.
  all: split; [unfold popped; isimpl; reflexivity|].
  - left. split; [done|]. unfold complete, popped. fsimpl. destruct (public_of e); destruct s; reflexivity.
  - right. exists tr, [], (pub_entries fin (public_of e)). split; [done|]. split; [done|]. split; [rewrite complete_log; reflexivity|].
    split; [by left|]. destruct fin, (public_of e); cbn; eauto.
  - right. exists tr, [], (pub_entries true (public_of e)). split; [done|]. split; [done|]. split; [rewrite complete_log; reflexivity|].
    split; [by left|]. destruct (public_of e); cbn; eauto.
  - right. exists tr, [], (pub_entries false (public_of e)). split; [done|]. split; [done|]. split; [rewrite complete_log; reflexivity|].
    split; [by left|]. destruct (public_of e); cbn; eauto.
  - right. exists tr, [], (pub_entries false (public_of e)). split; [done|]. split; [done|]. split; [rewrite complete_log; reflexivity|].
    split; [by left|]. destruct (public_of e); cbn; eauto.
  - right. exists tr, [ONotify rec st], (pub_entries true (public_of e)). split; [done|]. split; [done|]. split; [rewrite complete_log; reflexivity|].
    split; [by right|]. destruct (public_of e); cbn; eauto.
Qed.
Lemma appended_effect tid hb q s s' : appended tid hb (popped (EAppend tid hb) q s) s' ->
  queue s' = q /\ trace s' = trace_insert tid hb (trace s) /\ recq s' = recq s ++ unit_of hb /\
  log s' = OPublic (PRunning (hb_tid hb) (hb_rec hb)) :: OPop (EAppend tid hb) :: log s /\
  (hdrs s' = hdrs s \/ exists m cid l, flags s !! tid = Some m /\ m_chain m = Some (cid, l) /\ hdrs s' = <[hb_rec hb := Hdr RUNNING tid cid]> (hdrs s)).
Proof.
  intros H. destruct H; change (flags (popped (EAppend tid hb) q s)) with (flags s) in *.
  all: split; [unfold popped; isimpl; reflexivity|].
  all: split; [unfold popped; isimpl; reflexivity|].
  all: split; [unfold popped; isimpl; reflexivity|].
  all: split; [unfold registered; rewrite complete_log; reflexivity|].
  all: try (left; unfold popped; isimpl; reflexivity).
  right. eexists _, _, _. split; [eassumption|]. split; [eassumption|]. reflexivity.
Qed.

(** What is known of an instance, by the place where it is. *)
Definition final_of (tid : N) (rec : Z) (p : list pubev) (n : list N) : Prop :=
  (p = [] /\ (n = [] \/ n = [CANCELLED])) \/
  (exists time out, p = [PFinish tid rec time out] /\ (n = [] \/ n = [COMPLETED])) \/
  (p = [PTimeout tid rec] /\ (n = [] \/ n = [TIMEOUT])).
Record stat_inv (s : sys) : Prop := {
  st_none : forall rec, rec ∉ (trace_recs (trace s)).*2 -> rec ∉ (quits (log s)).*2 ->
    shown rec (log s) = [] /\ told rec (log s) = [] /\ hdrs s !! rec = None;
  st_trace : forall tid rec, (tid, rec) ∈ trace_recs (trace s) ->
    shown rec (log s) = [PRunning tid rec] /\ told rec (log s) = [] /\
    (forall h, hdrs s !! rec = Some h -> h_state h = RUNNING /\ h_tid h = tid);
  st_quit : forall tid rec, (tid, rec) ∈ quits (log s) ->
    exists p, shown rec (log s) = p ++ [PRunning tid rec] /\ final_of tid rec p (told rec (log s)) /\
    (forall h, hdrs s !! rec = Some h -> h_state h = default RUNNING (head (told rec (log s))) /\ h_tid h = tid);
  st_hb : forall tid hb, EAppend tid hb ∈ queue s -> hb_tid hb = tid
}.

Lemma hb_step pf lb s s' : (forall tid hb, EAppend tid hb ∈ queue s -> hb_tid hb = tid) -> step pf lb s = Some s' ->
  forall tid hb, EAppend tid hb ∈ queue s' -> hb_tid hb = tid.
Proof.
  intros H Hs tid1 hb1. step_inv Hs; inst_shape; fsimpl; auto.
  all: rewrite ?elem_of_app, ?elem_of_list_singleton.
  all: try (intros [Hx|Hx]; [by apply H|by simplify_eq]).
  all: intros Hx; apply H; by right.
Qed.

Lemma stat_step pf lb s s' : hpub_ok s -> rec_inv s -> stat_inv s -> step pf lb s = Some s' -> stat_inv s'.
Proof.
  intros Hok Hr [Hno Htr Hqu Hhb] Hs.
  pose proof (hb_step _ _ _ _ Hhb Hs) as Hhb'.
  assert (forall r tid tid', (tid, r) ∈ trace_recs (trace s) -> (tid', r) ∈ quits (log s) -> False) as Hdis.
  { intros r tid tid' H1 H2. pose proof (ri_nodup s Hr) as Hn. unfold places in Hn. rewrite !fmap_app in Hn.
    apply NoDup_app in Hn as (_ & _ & Hn). apply NoDup_app in Hn as (_ & _ & Hn). apply NoDup_app in Hn as (_ & Hn & _).
    apply (Hn r); [by apply (elem_of_list_fmap_1 snd) in H1|by apply (elem_of_list_fmap_1 snd) in H2]. }
  destruct (step_kinds _ _ _ _ Hok Hs) as [e q fin tid rec st Hh Hq He Hx|tid hb q Hh Hq Hx|lg Et Eh El Ha].
  - apply (ended_effect _ _ _ _ _ _ _ _ He) in Hx as (Eq & [(Hn & ->)|(tr & n & p & Hn & Et & El & Hnt & Hpb)]).
    + split; fsimpl; auto.
    + assert ((tid, rec) ∈ trace_recs (trace s)) as Hin by (rewrite (quit_recs _ _ _ _ Hn); left).
      destruct (Htr _ _ Hin) as (Hsh & Htl & Hhd).
      assert (forall r, r <> rec -> shown r (log s') = shown r (log s)) as Esh.
      { intros r Hne. rewrite El, !shown_app. cbn [shown]. destruct Hnt as [[-> _]|[-> _]]; cbn [shown app];
          (destruct Hpb as [[-> _]|(p0 & Hp0 & ->)]; [done|]); destruct He; cbn in Hp0; simplify_eq; cbn [shown]; by rewrite decide_False. }
      assert (forall r, r <> rec -> told r (log s') = told r (log s)) as Etl.
      { intros r Hne. rewrite El, !told_app. cbn [told]. destruct Hnt as [[-> _]|[-> _]]; cbn [told app]; rewrite ?decide_False by done;
          (destruct Hpb as [[-> _]|(p0 & Hp0 & ->)]; done). }
      assert (forall r, r <> rec -> hdrs s' !! r = hdrs s !! r) as Ehd.
      { intros r Hne. destruct Hnt as [[_ ->]|[_ ->]]; [done|]. by rewrite lookup_alter_ne. }
      assert (quits (log s') = (tid, rec) :: quits (log s)) as Eqt.
      { rewrite El, !quits_app. cbn [quits]. destruct Hnt as [[-> _]|[-> _]]; destruct Hpb as [[-> _]|(p0 & Hp0 & ->)]; done. }
      assert (forall x, x ∈ trace_recs (trace s) <-> x = (tid, rec) \/ x ∈ trace_recs (trace s')) as Ein.
      { intros x. by rewrite (quit_recs _ _ _ _ Hn), Et, elem_of_cons. }
      assert (forall r, r <> rec -> r ∈ (trace_recs (trace s)).*2 -> r ∈ (trace_recs (trace s')).*2) as Ein2.
      { intros r Hne. rewrite !elem_of_list_fmap. intros ([k x] & -> & Hx). apply Ein in Hx as [Hx|Hx]; [by simplify_eq|eauto]. }
      split; [..|done].
      * intros r H1 H2. rewrite Eqt in H2. cbn in H2. apply not_elem_of_cons in H2 as [Hne H2].
        rewrite Esh, Etl, Ehd by done. apply Hno; [|done]. intros H3. by apply H1, Ein2.
      * intros tid' r Hx. assert (r <> rec) as Hne.
        { intros ->. pose proof (ri_nodup s Hr) as Hnd. unfold places in Hnd. rewrite !fmap_app in Hnd.
          apply NoDup_app in Hnd as (_ & _ & Hnd). apply NoDup_app in Hnd as (_ & _ & Hnd). apply NoDup_app in Hnd as (Hnd & _ & _).
          rewrite (quit_recs _ _ _ _ Hn) in Hnd. cbn in Hnd. apply NoDup_cons in Hnd as [Hnd _]. apply Hnd. rewrite Et in Hx. by apply (elem_of_list_fmap_1 snd) in Hx. }
        rewrite Esh, Etl, Ehd by done. apply Htr, Ein. by right.
      * intros tid' r. rewrite Eqt, elem_of_cons. intros [E|Hx].
        { simplify_eq.
          assert (told rec (log s') = told rec n) as Etl'.
          { rewrite El, !told_app. cbn [told]. rewrite Htl, app_nil_r. destruct Hpb as [[-> _]|(p0 & Hp0 & ->)]; done. }
          assert (shown rec (log s') = shown rec p ++ [PRunning tid rec]) as Esh'.
          { rewrite El, !shown_app. cbn [shown]. rewrite Hsh. f_equal. destruct Hnt as [[-> _]|[-> _]]; done. }
          exists (shown rec p). split; [done|]. rewrite Etl'. split.
          - unfold final_of. destruct Hnt as [[-> _]|[-> _]]; cbn [told]; rewrite ?decide_True by done;
              (destruct Hpb as [[-> Hpb]|(p0 & Hp0 & ->)]; [cbn [shown]|]); destruct He; cbn in *; simplify_eq; cbn [shown]; rewrite ?decide_True by done; naive_solver.
          - intros h Hh'. destruct Hnt as [[-> Eh']|[-> Eh']]; cbn [told head default]; rewrite Eh' in Hh'.
            + by apply Hhd.
            + rewrite decide_True by done. rewrite lookup_alter in Hh'. apply fmap_Some in Hh' as (h0 & Hh0 & ->).
              split; [done|]. exact (proj2 (Hhd _ Hh0)). }
        { assert (r <> rec) as Hne by (intros ->; by eapply Hdis). rewrite Esh, Etl, Ehd by done. by apply Hqu. }
  - apply appended_effect in Hx as (Eq & Et & Erq & El & Ehd). symmetry in Et.
    assert (hb_tid hb = tid) as Etid by (apply Hhb; rewrite Hq; left).
    set (rec := hb_rec hb) in *.
    assert (rec ∉ (trace_recs (trace s)).*2 /\ rec ∉ (quits (log s)).*2) as [Hn1 Hn2].
    { pose proof (ri_nodup s Hr) as Hn. unfold places in Hn. rewrite !fmap_app in Hn.
      apply NoDup_app in Hn as (_ & _ & Hn). apply NoDup_app in Hn as (_ & Hn & _).
      assert (rec ∉ ((trace_recs (trace s)).*2 ++ (quits (log s)).*2)) as Hx.
      { apply Hn. rewrite Hq. cbn. left. }
      by rewrite not_elem_of_app in Hx. }
    destruct (Hno _ Hn1 Hn2) as (Hsh & Htl & Hhd).
    assert (forall r, r <> rec -> hdrs s' !! r = hdrs s !! r) as Ehd'.
    { intros r Hne. destruct Ehd as [->|(m & cid & l & _ & _ & ->)]; [done|]. by rewrite lookup_insert_ne. }
    symmetry in Et.
    assert (forall r, r <> rec -> shown r (log s') = shown r (log s)) as Esh.
    { intros r Hne. rewrite El. cbn [shown]. by rewrite decide_False. }
    assert (forall r, told r (log s') = told r (log s)) as Etl by (intros r; by rewrite El).
    assert (quits (log s') = quits (log s)) as Eqt by (by rewrite El).
    split; [..|done].
    + intros r. rewrite Et, trace_insert_recs, Eqt. cbn. rewrite not_elem_of_cons. intros [Hne H1] H2.
      rewrite Esh, Etl, Ehd' by done. auto.
    + intros tid' r. rewrite Et, trace_insert_recs, elem_of_cons. fold rec. intros [E|Hx].
      * simplify_eq. rewrite Etl. split; [|split; [done|]].
        { rewrite El. cbn [shown]. fold rec. rewrite decide_True by done. by rewrite Hsh. }
        intros h Hh'. destruct Ehd as [E|(m & cid & l & _ & _ & E)]; rewrite E in Hh'; [congruence|].
        rewrite lookup_insert in Hh'. by simplify_eq.
      * assert (r <> rec) as Hne. { intros ->. apply Hn1. by apply (elem_of_list_fmap_1 snd) in Hx. }
        rewrite Esh, Etl, Ehd' by done. auto.
    + intros tid' r. rewrite Eqt. intros Hx.
      assert (r <> rec) as Hne. { intros ->. apply Hn2. by apply (elem_of_list_fmap_1 snd) in Hx. }
      rewrite Esh, Etl, Ehd' by done. auto.
  - assert (forall r, shown r (log s') = shown r (log s)) as Esh by (intros r; rewrite El, shown_app, aside_shown; done).
    assert (forall r, told r (log s') = told r (log s)) as Etl by (intros r; rewrite El, told_app, aside_told; done).
    assert (quits (log s') = quits (log s)) as Eqt by (rewrite El, quits_app, aside_quits; done).
    split; [..|done].
    + intros r. rewrite Et, Eh, Eqt, Esh, Etl. auto.
    + intros tid r. rewrite Et, Eh, Esh, Etl. auto.
    + intros tid r. rewrite Eh, Eqt, Esh, Etl. auto.
Qed.
Lemma stat_init n t0 t1 : stat_inv (init_n n t0 t1).
Proof.
  split.
  - intros rec _ _. split; [exact eq_refl|]. split; [exact eq_refl|]. apply lookup_empty.
  - intros tid rec Hx. change (trace_recs (trace (init_n n t0 t1))) with (@nil (N * Z)) in Hx. apply elem_of_nil in Hx. destruct Hx.
  - intros tid rec Hx. change (quits (log (init_n n t0 t1))) with (@nil (N * Z)) in Hx. apply elem_of_nil in Hx. destruct Hx.
  - intros tid hb Hx. change (queue (init_n n t0 t1)) with (@nil event) in Hx. apply elem_of_nil in Hx. destruct Hx.
Qed.
Lemma stat_reach pf t0 t1 s : reachable pf t0 t1 s -> stat_inv s.
Proof. apply reach_ind; [exact (stat_init _ t0 t1)|]. eauto using stat_step, hpub_reach, rec_reach. Qed.
