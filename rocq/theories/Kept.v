(** A task whose id is added once and never removed keeps its mark, whatever else is done to it. *)
From Verif Require Import Tactics Inv Own Life Count Quiet Scen Inst Ended Fifo Account Chain.

(** A Task value is sent once. *)
Lemma sends_nodup pf t0 t1 s : reachable pf t0 t1 s -> NoDup (t_uid <$> (sends (log s) ≫= ev_task)).
Proof.
  revert s. apply (reach_ind pf t0 t1 (fun s => NoDup (t_uid <$> (sends (log s) ≫= ev_task)))); [exact (NoDup_nil_2)|].
  intros lb s s' Hr IH Hs. assert (sends (log s') = sends (log s) \/ exists e, sends (log s') = e :: sends (log s) /\ (ev_task e = [] \/ exists x, ev_task e = [x] /\ t_uid x ∉ used s)) as [->|(e & -> & Hf)]; [|done|].
  { clear IH. step_inv Hs; inst_shape; fsimpl; rewrite ?sends_app; rewrite ?sends_inst by done; cbn [app sends]; try (by left).
    all: try (left; rewrite ?complete_log; fsimpl; destruct (hpub s); try destruct ok; done).
    all: try (rewrite (sends_inst lg) by done; by left).
    all: right; eexists; (split; [reflexivity|]); try (by left).
    all: right; eexists; (split; [reflexivity|]).
    all: match goal with H : _ && negb (bool_decide _) = true |- _ => apply andb_true_iff in H as [_ Hu] end.
    all: destruct (bool_decide _) eqn:Eb in Hu; [done|]; by apply bool_decide_eq_false in Eb. }
  cbn [mbind list_bind]. destruct Hf as [->|(x & -> & Hx)]; [done|]. cbn [app fmap list_fmap]. apply NoDup_cons. split; [|done].
  intros Hin. apply elem_of_list_fmap in Hin as (y & Ey & Hy). apply elem_of_list_bind in Hy as (e' & H1 & H2). apply Hx.
  rewrite Ey. apply (ci_used s (cnt_reach _ _ _ _ Hr)). exists e'. split; [by apply elem_sends|].
  destruct e'; cbn in H1; try (by apply elem_of_nil in H1); apply elem_of_list_singleton in H1 as ->; unfold submits; auto.
Qed.
Lemma submits_task t e : submits t e -> ev_task e = [t].
Proof. by intros [->|[->| ->]]. Qed.
Lemma taken_task pf t0 t1 s t t' : reachable pf t0 t1 s -> (exists e, submits t e /\ e ∈ pops (log s)) ->
  t' ∈ (queue s ≫= ev_task) -> t_uid t' <> t_uid t.
Proof.
  intros Hr (e & Hsub & Hp) Hin E. pose proof (sends_nodup _ _ _ _ Hr) as Hnd. rewrite (fifo_reach _ _ _ _ Hr) in Hnd.
  rewrite bind_app, fmap_app in Hnd. apply NoDup_app in Hnd as (_ & Hnd & _). apply (Hnd (t_uid t')).
  - apply elem_of_list_fmap. exists t'. split; [done|]. apply elem_of_list_bind in Hin as (e' & H1 & H2). apply elem_of_list_bind. exists e'. split; [done|]. by apply elem_of_reverse.
  - rewrite E. apply elem_of_list_fmap. exists t. split; [done|]. apply elem_of_list_bind. exists e. split; [|done].
    rewrite (submits_task _ _ Hsub). apply elem_of_list_here.
Qed.

(** The calls that make or unmake the mark of an id: the adds and the removals. *)
Definition marks_id (i : N) (e : event) : Prop := match e with EAdd t | EInsert t => t_id t = i | ERemove j => j = i | _ => False end.
(** The id of [t] is added by the call that submits [t], by no other, and it is never removed. The task may be updated and
    advanced, and its instances cancelled. *)
Definition kept (t : task) (lg : list obs) : Prop := forall e, OSend e ∈ lg -> marks_id (t_id t) e -> e = EAdd t \/ e = EInsert t.
Lemma quiet_kept t lg : quiet t lg -> kept t lg.
Proof. intros Hq e He Hm. apply Hq; [done|]. by destruct e. Qed.
Lemma kept_anti pf lb s s' t : step pf lb s = Some s' -> kept t (log s') -> kept t (log s).
Proof. intros Hs Hq e He. apply Hq. destruct (step_log _ _ _ _ Hs) as [l ->]. apply elem_of_app; auto. Qed.
Lemma kept_run pf ls s s' t : run pf ls s = Some s' -> kept t (log s') -> kept t (log s).
Proof. intros Hrun Hq e He. destruct (run_log _ _ _ _ Hrun) as [l E]. apply Hq. rewrite E. apply elem_of_app. by right. Qed.

Definition keptb (t : task) (lg : list obs) : bool :=
  forallb (fun o => match o with
    | OSend (EAdd t') | OSend (EInsert t') => negb (t_id t' =? t_id t) || (t_uid t' =? t_uid t)
    | OSend (ERemove i) => negb (i =? t_id t)
    | _ => true end) lg.
Lemma keptb_ok pf t0 t1 s t : reachable pf t0 t1 s -> submitted t (log s) -> keptb t (log s) = true -> kept t (log s).
Proof.
  intros Hr Hs Hq e He Hn. unfold keptb in Hq. rewrite forallb_forall in Hq. pose proof (Hq _ (proj1 (elem_of_list_In _ _) He)) as H.
  assert (forall t', submits t' e -> t_uid t' = t_uid t -> t' = t) as Hu by (intros t' Ht' E; eapply (ci_uniq s (cnt_reach _ _ _ _ Hr)); [by exists e|exact Hs|exact E]).
  unfold submits in Hu. destruct e; cbn in Hn, H; try done; rewrite Hn, N.eqb_refl in H; cbn in H; try done; apply N.eqb_eq in H.
  - left. f_equal. apply Hu; auto.
  - right. f_equal. apply Hu; auto.
Qed.
Lemma scen_kept pf t0 t1 acts t (P : sys -> bool) : Do (LAdd t) ∈ acts \/ Do (LInsert t) ∈ acts -> after pf t0 t1 acts (fun s => keptb t (log s) && P s) = true ->
  exists s, reachable pf t0 t1 s /\ submitted t (log s) /\ kept t (log s) /\ P s = true.
Proof.
  unfold after. rewrite init0_eq. destruct (play pf acts (init t0 t1)) as [s|] eqn:E; [|intros ? H; discriminate H]. intros Hin H.
  apply andb_true_iff in H as [H HP]. exists s. pose proof (play_reach _ _ _ _ _ E) as Hr.
  assert (submitted t (log s)) as Hs by (destruct Hin as [Hin|Hin]; refine (play_submitted pf acts _ s _ t E Hin _); auto).
  split; [exact Hr|]. split; [exact Hs|]. split; [exact (keptb_ok _ _ _ _ _ Hr Hs H)|exact HP].
Qed.

(** ** The one addition *)
Definition adding (p : handler_pc) : option N := match p with HAdd1 t _ _ _ | HAdd2 t _ _ => Some (t_id t) | HAdd3 i _ _ => Some i | _ => None end.
Lemma adding_step pf lb s s' i : step pf lb s = Some s' -> adding (hpc s') = Some i -> (adding (hpc s) = Some i /\ hpc s <> HIdle) \/ (hpc s = HIdle /\ exists t q, (queue s = EInsert t :: q \/ queue s = EAdd t :: q) /\ t_id t = i).
Proof.
  intros Hs. step_inv Hs; inst_shape; fsimpl; cbn [adding]; intros E; try discriminate E; try (left; split; [assumption|congruence]).
  all: try (left; split; [exact E|congruence]).
  all: try (right; split; [done|]; injection E as <-; eauto).
  all: try (left; split; [exact E|]; intros Ez; rewrite Ez in E; discriminate E).
  left. split; [|done]. cbn [t_id set_cylinder_line] in E. by rewrite (proj1 (next_exec_id _ _ _ _ Heqr)) in E.
Qed.
Lemma hpc_same pf lb s s' : step pf lb s = Some s' -> lb <> LHandler -> hpc s' = hpc s.
Proof. intros Hs. step_inv Hs; inst_shape; fsimpl; intros Hl; done. Qed.
Definition adds (t : task) (e : event) : Prop := e = EAdd t \/ e = EInsert t.
(** What has a mark, or is about to get one, was taken from the channel. *)
Lemma kept_popped pf t0 t1 s t : reachable pf t0 t1 s -> kept t (log s) -> flags s !! t_id t <> None \/ adding (hpc s) = Some (t_id t) -> exists e, adds t e /\ OPop e ∈ log s.
Proof.
  revert s. apply (reach_ind pf t0 t1 (fun s => kept t (log s) -> flags s !! t_id t <> None \/ adding (hpc s) = Some (t_id t) -> exists e, adds t e /\ OPop e ∈ log s)).
  - intros _ [H|H]; [|change (hpc (init t0 t1)) with HIdle in H; discriminate H]. change (flags (init t0 t1)) with (∅ : gmap N mark) in H. by rewrite lookup_empty in H.
  - intros lb s s' Hr IH Hs Hq' Hm. pose proof (kept_anti _ _ _ _ _ Hs Hq') as Hq. specialize (IH Hq).
    assert ((flags s !! t_id t <> None \/ adding (hpc s) = Some (t_id t)) -> exists e, adds t e /\ OPop e ∈ log s') as Hold.
    { intros Hx. destruct (IH Hx) as (e & He & Hp). exists e. split; [done|]. destruct (step_log _ _ _ _ Hs) as [l ->]. apply elem_of_app. by right. }
    destruct Hm as [Hm|Hm].
    + apply Hold. destruct (num_kinds _ _ _ _ (t_id t) Hs) as [K|l ids sl m1 m2 K1 K2 K3 K4 K5|c sl m1 K1 K2 K3 K4|ok K1 K2|e q fin rec st tr m1 m2 K1 K2 K3 K4 K5 K6 K7 K8].
      * left. destruct (flags s !! t_id t), (flags s' !! t_id t); done.
      * left. congruence.
      * right. by rewrite K1.
      * done.
      * left. congruence.
    + destruct (adding_step _ _ _ _ _ Hs Hm) as [[H1 H2]|(H1 & t' & q & H2 & H3)]; [auto|].
      assert (forall e, e ∈ queue s -> marks_id (t_id t) e -> adds t e) as Hz by (intros e He; apply Hq; by apply (proj1 (src_reach _ _ _ _ Hr))).
      assert (exists e, queue s = e :: q /\ marks_id (t_id t) e) as (e & Eq & He) by (destruct H2 as [->| ->]; eexists; (split; [reflexivity|exact H3])).
      exists e. split; [apply Hz; [rewrite Eq; left|done]|]. 
      assert (lb = LHandler \/ lb <> LHandler) as [->|Hl] by (destruct lb; first [by left|by right]); [|rewrite (hpc_same _ _ _ _ Hs Hl), H1 in Hm; discriminate Hm].
      cbn [step] in Hs. unfold handler_step in Hs. rewrite H1, Eq in Hs. injection Hs as <-. destruct e; try done; try (fsimpl; left). destruct H2; congruence.
Qed.
(** There is no second one. *)
Lemma kept_once pf t0 t1 s t e : reachable pf t0 t1 s -> kept t (log s) -> e ∈ queue s -> adds t e -> flags s !! t_id t = None /\ adding (hpc s) <> Some (t_id t).
Proof.
  intros Hr Hq Hin He. assert (~ (flags s !! t_id t <> None \/ adding (hpc s) = Some (t_id t))) as Hn.
  { intros H. destruct (kept_popped _ _ _ _ _ Hr Hq H) as (e' & He' & Hp). apply (taken_task _ _ _ _ t t Hr); [|..|done].
    - exists e'. split; [|by apply elem_pops]. destruct He' as [->| ->]; unfold submits; auto.
    - apply elem_of_list_bind. exists e. split; [|done]. destruct He as [->| ->]; left. }
  split; [destruct (flags s !! t_id t); [destruct Hn; by left|done]|]. intros H. apply Hn. by right.
Qed.
Lemma kept_fresh pf t0 t1 s t : reachable pf t0 t1 s -> kept t (log s) -> adding (hpc s) = Some (t_id t) -> flags s !! t_id t = None.
Proof.
  revert s. apply (reach_ind pf t0 t1 (fun s => kept t (log s) -> adding (hpc s) = Some (t_id t) -> flags s !! t_id t = None)).
  - intros _ H. change (hpc (init t0 t1)) with HIdle in H. discriminate H.
  - intros lb s s' Hr IH Hs Hq' Hm. pose proof (kept_anti _ _ _ _ _ Hs Hq') as Hq.
    assert (flags s !! t_id t = None) as Hn.
    { destruct (adding_step _ _ _ _ _ Hs Hm) as [[H1 H2]|(H1 & t' & q & H2 & H3)]; [auto|].
      assert (exists e, queue s = e :: q /\ marks_id (t_id t) e) as (e & Eq & He) by (destruct H2 as [->| ->]; eexists; (split; [reflexivity|exact H3])).
      assert (e ∈ queue s) as Hin by (rewrite Eq; left). apply (kept_once _ _ _ _ _ e Hr Hq Hin). apply Hq; [|done]. by apply (proj1 (src_reach _ _ _ _ Hr)). }
    destruct (num_kinds _ _ _ _ (t_id t) Hs) as [K|l ids sl m1 m2 K1 K2 K3 K4 K5|c sl m1 K1 K2 K3 K4|ok K1 K2|e q fin rec st tr m1 m2 K1 K2 K3 K4 K5 K6 K7 K8]; try congruence.
    + rewrite Hn in K. destruct (flags s' !! t_id t); done.
    + rewrite K2 in Hm. discriminate Hm.
Qed.

(** ** The mark stays *)
Lemma kept_noremove pf t0 t1 s t ok : reachable pf t0 t1 s -> kept t (log s) -> hpc s <> HRem2 (t_id t) ok.
Proof. intros Hr Hq E. destruct (src_reach _ _ _ _ Hr) as [_ Hh]. rewrite E in Hh. cbn in Hh. destruct (Hq _ Hh eq_refl); discriminate. Qed.
Lemma kept_flag pf t0 t1 lb s s' t : reachable pf t0 t1 s -> kept t (log s) -> step pf lb s = Some s' -> flags s !! t_id t <> None -> flags s' !! t_id t <> None.
Proof.
  intros Hr Hq Hs Hf. destruct (num_kinds _ _ _ _ (t_id t) Hs) as [K|l ids sl m1 m2 K1 K2 K3 K4 K5|c sl m1 K1 K2 K3 K4|ok K1 K2|e q fin rec st tr m1 m2 K1 K2 K3 K4 K5 K6 K7 K8]; try congruence.
  - destruct (flags s !! t_id t), (flags s' !! t_id t); done.
  - by destruct (kept_noremove _ _ _ _ _ ok Hr Hq).
Qed.
Definition touches (i : N) (p : handler_pc) : Prop := match p with HUpd t _ | HAdv2 t | HAdv3 t _ => t_id t = i | HAdv1 j _ => j = i | _ => False end.
Lemma touches_step pf lb s s' i : wf s -> step pf lb s = Some s' -> touches i (hpc s') -> touches i (hpc s) \/ flags s !! i <> None.
Proof.
  intros Hwf Hs. step_inv Hs; inst_shape; fsimpl; cbn [touches]; try done; try (by intros ?; left).
  1, 2: intros <-; right; fsimpl_in Heqo; congruence.
  intros <-. left. cbn [t_id clear_cylinder_line set_cylinder_line]. symmetry. exact (wf_key s Hwf _ _ _ _ Heqo Heqo0).
Qed.
Lemma kept_touched pf t0 t1 s t : reachable pf t0 t1 s -> kept t (log s) -> touches (t_id t) (hpc s) -> flags s !! t_id t <> None.
Proof.
  revert s. apply (reach_ind pf t0 t1 (fun s => kept t (log s) -> touches (t_id t) (hpc s) -> flags s !! t_id t <> None)).
  - intros _ H. change (hpc (init t0 t1)) with HIdle in H. destruct H.
  - intros lb s s' Hr IH Hs Hq' Ht. pose proof (kept_anti _ _ _ _ _ Hs Hq') as Hq. apply (kept_flag _ _ _ _ _ _ _ Hr Hq Hs). destruct (touches_step _ _ _ _ _ (wf_reach _ _ _ _ Hr) Hs Ht); auto.
Qed.
Definition here (i : N) (s : sys) : Prop := exists t, t ∈ wheel_tasks (wheel s) ++ tpc_task (tpc s) /\ t_id t = i.
Definition marked (i : N) (s : sys) : Prop := flags s !! i <> None \/ exists c sl, hpc s = HAdd3 i c sl.
Lemma here_wheel i s t : t ∈ wheel_tasks (wheel s) -> t_id t = i -> here i s.
Proof. intros. exists t. rewrite elem_of_app. auto. Qed.
Lemma here_tpc i s t : t ∈ tpc_task (tpc s) -> t_id t = i -> here i s.
Proof. intros. exists t. rewrite elem_of_app. auto. Qed.
Lemma here_step pf lb s s' i : step pf lb s = Some s' -> here i s' -> here i s \/ touches i (hpc s) \/ exists c sl, hpc s' = HAdd3 i c sl.
Proof.
  intros Hs (t' & Hin & Hi). apply elem_of_app in Hin as [Hin|Hin].
  - revert Hin. step_inv Hs; inst_shape; fsimpl.
    all: try (by intros Hin; left; eapply here_wheel).
    all: try match goal with Hx : slot_arrival_time_tasks ?g = (_, ?g1) |- _ =>
           assert (g1 = snd (slot_arrival_time_tasks g)) by (by rewrite Hx); subst g1; clear Hx end.
    all: rewrite ?slot_update_eq; intros [Hin|Hin]%elem_wheel_insert; [|by left; eapply here_wheel].
    all: first [apply elem_slot_add in Hin as [->|Hin] | apply elem_slot_delete in Hin | apply elem_slot_arrival in Hin as (t0 & Hin & ->)];
      try (left; eapply here_wheel; [eapply elem_slot_wheel; [|exact Hin]; eassumption|done]; fail).
    + left. eapply here_wheel; [eapply elem_slot_wheel; [|exact Hin]; eassumption|]. by destruct (core_arrived t0) as (_ & ? & _).
    + left. eapply here_tpc; [rewrite Heqt; left|]. cbn [t_id set_cylinder_line]. by rewrite (proj1 (next_exec_id _ _ _ _ Heqr)).
    + right; right. eauto.
    + right; left. cbn [touches]. done.
    + right; left. cbn [touches]. done.
  - revert Hin. step_inv Hs; inst_shape; fsimpl.
    all: try (by intros Hin; left; eapply here_tpc).
    all: cbn [tpc_task]; rewrite ?elem_of_nil, ?elem_of_list_singleton; try done; intros ->.
    all: try (left; apply here_tpc with t; [by rewrite Heqt; left|done]; fail).
    + left. eapply here_wheel; [apply elem_of_wheel_tasks; eauto|done].
    + left. apply here_tpc with t; [by rewrite Heqt; left|]. by destruct (down_count_same _ _ _ Heqr) as (_ & -> & _).
Qed.
Lemma launch_here pf lb s s' u i r it ts : step pf lb s = Some s' -> OLaunch u i r it ts ∈ log s' -> OLaunch u i r it ts ∈ log s \/ here i s.
Proof.
  intros Hs. step_inv Hs; inst_shape; fsimpl; rewrite ?elem_of_cons.
  all: try (by intros; left).
  all: try (intros [Hx|Hx]; [discriminate Hx|by left]).
  all: try (intros [Hx|[Hx|Hx]]; [discriminate Hx|discriminate Hx|by left]).
  all: try (intros [Hx|Hx]; [injection Hx as -> -> -> -> ->; right; eapply here_tpc; [rewrite Heqt; left|done]|by left]).
  all: try (rewrite elem_of_app, elem_of_cons; intros [Hx|[Hx|Hx]]; [rewrite Forall_forall in Hlg; by apply Hlg in Hx|discriminate Hx|by left]).
  all: try (destruct (hpub s); rewrite ?elem_of_cons; intros [Hx|Hx]; [discriminate Hx|by left]).
  all: repeat case_match; subst; rewrite ?elem_of_cons; try (by intros; left); try (intros [Hx|Hx]; [discriminate Hx|by left]).
Qed.
Lemma marked_step pf lb s s' i : step pf lb s = Some s' -> (forall ok, hpc s <> HRem2 i ok) -> marked i s -> marked i s'.
Proof.
  intros Hs Hn [Hf|(c & sl & Hh)].
  - left. destruct (num_kinds _ _ _ _ i Hs) as [K|l ids sl m1 m2 K1 K2 K3 K4 K5|c sl m1 K1 K2 K3 K4|ok K1 K2|e q fin rec st tr m1 m2 K1 K2 K3 K4 K5 K6 K7 K8]; try congruence.
    destruct (flags s !! i), (flags s' !! i); done.
  - assert (lb = LHandler \/ lb <> LHandler) as [->|Hl] by (destruct lb; first [by left|by right]).
    + left. cbn [step] in Hs. unfold handler_step in Hs. rewrite Hh in Hs. injection Hs as <-. unfold complete, drop_mark, abandon_opt. repeat case_match; fsimpl; rewrite lookup_insert; done.
    + right. exists c, sl. by rewrite (hpc_same _ _ _ _ Hs Hl).
Qed.
Lemma init_not_here n t0 t1 i : ~ here i (init_n n t0 t1).
Proof.
  intros (t' & H & _). pose proof (init_uids n t0 t1) as E. unfold uids, held in E.
  assert (t_uid t' ∈ @nil N) as Hx; [rewrite <- E; apply elem_of_list_fmap_1; rewrite !elem_of_app in *; tauto|]. by apply elem_of_nil in Hx.
Qed.
Lemma kept_marked pf t0 t1 s t : reachable pf t0 t1 s -> kept t (log s) ->
  (here (t_id t) s -> marked (t_id t) s) /\ (forall u r it ts, OLaunch u (t_id t) r it ts ∈ log s -> marked (t_id t) s).
Proof.
  revert s. apply (reach_ind pf t0 t1 (fun s => kept t (log s) -> (here (t_id t) s -> marked (t_id t) s) /\ (forall u r it ts, OLaunch u (t_id t) r it ts ∈ log s -> marked (t_id t) s))).
  - intros _. split.
    + intros H. destruct (init_not_here _ _ _ _ H).
    + intros u r it ts H. change (log (init t0 t1)) with [OTick 0 t1] in H. apply elem_of_list_singleton in H. discriminate H.
  - intros lb s s' Hr IH Hs Hq'. pose proof (kept_anti _ _ _ _ _ Hs Hq') as Hq. destruct (IH Hq) as [IH1 IH2].
    assert (marked (t_id t) s -> marked (t_id t) s') as Hm by (apply (marked_step pf lb); [done|]; intros ok; by eapply kept_noremove).
    split.
    + intros H. destruct (here_step _ _ _ _ _ Hs H) as [?|[Ht|?]]; [auto| |by right]. apply Hm. left. by eapply kept_touched.
    + intros u r it ts H. destruct (launch_here _ _ _ _ _ _ _ _ _ Hs H) as [?|?]; eauto.
Qed.
(** An instance that was registered belongs to a task that has a mark. *)
Lemma kept_started pf t0 t1 s t r : reachable pf t0 t1 s -> kept t (log s) -> hpc s = HIdle -> r ∈ started (t_id t) (log s) -> flags s !! t_id t <> None.
Proof.
  intros Hr Hq Hh Hin. apply elem_started in Hin as (u & it & ts & Hl). destruct (proj2 (kept_marked _ _ _ _ _ Hr Hq) _ _ _ _ Hl) as [?|(c & sl & E)]; [done|congruence].
Qed.
Lemma kept_taken pf t0 t1 s t r : reachable pf t0 t1 s -> kept t (log s) -> r ∈ taken (t_id t) (log s) -> flags s !! t_id t <> None.
Proof.
  revert s. apply (reach_ind pf t0 t1 (fun s => kept t (log s) -> r ∈ taken (t_id t) (log s) -> flags s !! t_id t <> None)).
  - intros _ H. change (log (init t0 t1)) with [OTick 0 t1] in H. by apply elem_of_nil in H.
  - intros lb s s' Hr IH Hs Hq' Hin. pose proof (kept_anti _ _ _ _ _ Hs Hq') as Hq. apply (kept_flag _ _ _ _ _ _ _ Hr Hq Hs).
    destruct (taken_step _ _ _ _ (t_id t) Hs) as [E|(hb & q & _ & Hh & Eq & E)]; rewrite E in Hin; [auto|]. apply elem_of_app in Hin as [Hin|Hin]; [auto|].
    apply (kept_started _ _ _ _ _ (hb_rec hb) Hr Hq Hh). destruct (flow_reach _ _ _ _ (t_id t) Hr) as (l0 & -> & _). rewrite Eq. cbn [mbind list_bind app_of].
    rewrite N.eqb_refl, !elem_of_app. right; left. left. left.
Qed.
Lemma trace_taken pf t0 t1 s i rec : reachable pf t0 t1 s -> (i, rec) ∈ trace_recs (trace s) -> rec ∈ taken i (log s).
Proof.
  revert s. apply (reach_ind pf t0 t1 (fun s => (i, rec) ∈ trace_recs (trace s) -> rec ∈ taken i (log s))).
  - intros H. change (trace (init t0 t1)) with (∅ : gmap N (list hbox)) in H. unfold trace_recs in H. rewrite map_to_list_empty in H. by apply elem_of_nil in H.
  - intros lb s s' Hr IH Hs Hin. assert (forall x, x ∈ taken i (log s) -> x ∈ taken i (log s')) as Hmono.
    { intros x Hx. destruct (taken_step _ _ _ _ i Hs) as [->|(hb & q & _ & _ & _ & ->)]; [done|apply elem_of_app; by left]. }
    destruct (step_kinds _ _ _ _ (hpub_reach _ _ _ _ Hr) Hs) as [e q fin tid r st Hh Eq He Hx|tid hb q Hh Eq Hx|lg E1 _ _ _].
    + destruct (ended_effect _ _ _ _ _ _ _ _ He Hx) as (_ & [[_ ->]|(tr & n & p & Hn & Htr & _)]); apply Hmono, IH; [exact Hin|]. rewrite Htr in Hin. rewrite (quit_recs _ _ _ _ Hn). by right.
    + destruct (appended_effect _ _ _ _ _ Hx) as (_ & E & _ & El & _). rewrite E, trace_insert_recs, elem_of_cons in Hin. destruct Hin as [[= -> ->]|Hin]; [|by apply Hmono, IH].
      rewrite El. cbn [taken app_of]. rewrite N.eqb_refl. apply elem_of_app. right. left.
    + rewrite E1 in Hin. by apply Hmono, IH.
Qed.

(** ** The chain *)
Lemma listed_kept pf t0 t1 s t : reachable pf t0 t1 s -> kept t (log s) ->
  forall m cid l rec, flags s !! t_id t = Some m -> m_chain m = Some (cid, l) -> (t_id t, rec) ∈ trace_recs (trace s) -> rec ∈ l.
Proof.
  revert s. apply (reach_ind pf t0 t1 (fun s => kept t (log s) -> forall m cid l rec, flags s !! t_id t = Some m -> m_chain m = Some (cid, l) -> (t_id t, rec) ∈ trace_recs (trace s) -> rec ∈ l)).
  - intros _ m cid l rec H. change (flags (init t0 t1)) with (∅ : gmap N mark) in H. rewrite lookup_empty in H. discriminate H.
  - intros lb s s' Hr IH Hs Hq m cid l rec Hm Hc Hin. pose proof (kept_anti _ _ _ _ _ Hs Hq) as Hq0. specialize (IH Hq0).
    destruct (list_kinds _ _ _ _ (t_id t) Hs) as [K1 K2|K|c sl K1 K2|hb m0 m' cid0 l0 K1 K2 K3 K4 K5|rec0 z m0 m' cid0 l0 l' K1 K2 K3 K4 K5 K6].
    + rewrite Hm in K1. destruct (flags s !! t_id t) as [m0|]; [|discriminate K1]. injection K1 as K1. apply (IH m0 cid l rec); [done|congruence|auto].
    + rewrite (K _ Hm) in Hc. discriminate Hc.
    + exfalso. rewrite K2 in Hin. apply (trace_taken _ _ _ _ _ _ Hr) in Hin. apply (kept_taken _ _ _ _ _ _ Hr Hq0) in Hin. destruct Hin. apply (kept_fresh _ _ _ _ _ Hr Hq0). by rewrite K1.
    + rewrite Hm in K3. injection K3 as <-. rewrite Hc in K4. injection K4 as -> ->. rewrite K5, trace_insert_recs, elem_of_cons in Hin. rewrite elem_of_app, elem_of_list_singleton.
      destruct Hin as [[=]|Hin]; [by right|left; eauto].
    + rewrite Hm in K5. injection K5 as <-. rewrite Hc in K6. injection K6 as -> ->.
      pose proof (IH _ _ _ _ K2 K3 (quit_sub _ _ _ _ _ K1 Hin)) as Hl. apply take_rec_perm in K4 as [Hp Hz]. unfold id in Hz. subst z.
      rewrite Hp, elem_of_cons in Hl. destruct Hl as [->|Hl]; [|done]. exfalso.
      pose proof (ri_nodup s (rec_reach _ _ _ _ Hr)) as Hn. unfold places in Hn. rewrite !fmap_app in Hn.
      apply NoDup_app in Hn as (_ & _ & Hn). apply NoDup_app in Hn as (_ & _ & Hn). apply NoDup_app in Hn as (Hn & _ & _).
      rewrite (quit_recs _ _ _ _ K1) in Hn. cbn in Hn. apply NoDup_cons in Hn as [Hn _]. apply Hn. apply elem_of_list_fmap. by exists (t_id t, rec0).
Qed.
(** The id is added by that insertion only: all that the event handler took over went into the chain. *)
Lemma chain_exact pf t0 t1 s t ch : reachable pf t0 t1 s -> OSend (EInsert t) ∈ log s -> kept t (log s) -> chains s !! t_uid t = Some ch -> c_state ch = LIVING ->
  c_got ch ++ c_buf ch = taken (t_id t) (log s).
Proof.
  intros Hr. revert s Hr ch. apply (reach_ind pf t0 t1 (fun s => forall ch, OSend (EInsert t) ∈ log s -> kept t (log s) -> chains s !! t_uid t = Some ch -> c_state ch = LIVING -> c_got ch ++ c_buf ch = taken (t_id t) (log s))).
  - intros ch _ _ H. change (chains (init t0 t1)) with (∅ : gmap N chain) in H. rewrite lookup_empty in H. discriminate H.
  - intros lb s s' Hr IH Hs ch Hin Hq Hc Hl. pose proof (reach_step _ _ _ _ _ _ Hr Hs) as Hr'.
    pose proof (kept_anti _ _ _ _ _ Hs Hq) as Hq0. pose proof (cnt_reach _ _ _ _ Hr) as Hcnt.
    assert (submitted t (log s')) as Hsub' by (eexists; split; [exact Hin|right; by left]).
    assert (t_uid t ∉ used s -> taken (t_id t) (log s) = []) as Hfresh.
    { intros Hu. destruct (taken (t_id t) (log s)) as [|r l] eqn:E; [done|]. exfalso. assert (r ∈ taken (t_id t) (log s)) as Hx by (rewrite E; left).
      destruct (kept_popped _ _ _ _ _ Hr Hq0 (or_introl (kept_taken _ _ _ _ _ _ Hr Hq0 Hx))) as (e & He & Hp). apply Hu, (ci_used s Hcnt). exists e.
      split; [|destruct He as [->| ->]; unfold submits; auto]. apply elem_sends. rewrite (fifo_reach _ _ _ _ Hr). apply elem_of_app. right. by apply elem_pops. }
    destruct (chain_kinds _ _ _ _ (t_uid t) Hs) as [K1 K2 _|x y K1 K2 K3 K4 K5 K6 _|x y j hb q m l K1 K2 -> K5 K6 K7 K8 K10 K9 K3 K4 _|x y r K1 K2 K0 K9 K3 K4 _|t' -> K1 K2 K3 K4]; try congruence.
    4: { assert (ch = Chain LIVING [] [] 0) as -> by congruence. cbn. pose proof (Hfresh K2) as E1.
      destruct (taken_step _ _ _ _ (t_id t) Hs) as [->|(hb & q & E & _)]; [by rewrite E1|discriminate E]. }
    all: assert (ch = y) as -> by congruence.
    all: assert (c_state x = LIVING) as Hx by (first [congruence|destruct K5 as [K5|[K5|K5]]; [congruence|rewrite K5 in Hl; discriminate Hl|rewrite K5 in Hl; discriminate Hl]]).
    all: assert (OSend (EInsert t) ∈ log s) as Hin0.
    1, 3, 5: destruct (ch_used s (chain_reach _ _ _ _ Hr) _ _ K1) as (i0 & t' & G1 & G2 & G3); assert (t' = t) as ->; [|exact G1];
      apply (ci_uniq s' (cnt_reach _ _ _ _ Hr')); [|done|done]; apply (submitted_mono _ _ _ _ _ Hs); (eexists; split; [exact G1|right; by left]).
    all: pose proof (IH x Hin0 Hq0 K1 Hx) as HI.
    + destruct (taken_step _ _ _ _ (t_id t) Hs) as [->|(hb & q & -> & E1 & E2 & E3)]; [by rewrite K3, K4|]. exfalso.
      destruct (ch_live s (chain_reach _ _ _ _ Hr) _ _ (t_id t) K1 Hx) as [(t' & L1 & L2)|[L|[L|L]]].
      * by exists t.
      * assert (flags s !! t_id t <> None) as Hf.
        { apply (kept_started _ _ _ _ _ (hb_rec hb) Hr Hq0 E1). destruct (flow_reach _ _ _ _ (t_id t) Hr) as (l0 & -> & _). rewrite E2. cbn [mbind list_bind app_of]. rewrite N.eqb_refl, !elem_of_app. right; left. left. left. }
        apply Hf. assert (t' = t) as -> by (apply (ci_uniq s Hcnt); [|by eexists; split; [exact Hin0|right; by left]|done]; eexists; split; [apply (proj1 (src_reach _ _ _ _ Hr)); exact L1|right; by left]).
        apply (kept_once _ _ _ _ _ _ Hr Hq0 L1). by right.
      * rewrite E1 in L. discriminate L.
      * destruct (push_exact _ _ _ _ _ _ _ _ Hs E1 E2 L K1) as (y' & F1 & F2 & F3); [rewrite Hx; discriminate|]. rewrite K2 in F1. injection F1 as <-. rewrite K4 in F3.
        apply (f_equal length) in F3. rewrite app_length in F3. cbn [length] in F3. lia.
      * rewrite E1 in L. discriminate L.
    + assert (t_id t = j) as <-.
      { destruct (ch_mark s (chain_reach _ _ _ _ Hr) j (t_uid t)) as (t' & G1 & G2 & G3); [by exists m, l|]. assert (t' = t) as ->; [|done].
        apply (ci_uniq s Hcnt); [|by eexists; split; [exact Hin0|right; by left]|done]. eexists. split; [exact G1|right; by left]. }
      rewrite (taken_app _ _ _ _ _ _ Hs K5 K6), K3, K4, app_assoc. by rewrite HI.
    + rewrite K3, <- app_assoc. cbn [app]. rewrite <- K4. destruct (taken_step _ _ _ _ (t_id t) Hs) as [->|(hb & q & E & _)]; [done|]. destruct K0; congruence.
Qed.
