(** Skipped runs, removal: C09, C11. *)
From Verif Require Import Tactics Inv Own Life Count Quiet Timing Arrival Cases Inst Ended Frame Lost Scen PropInst PropSched.

(* ------------------------------------------------------------------ *)
(** ** C09 A run skipped because of the parallel limit costs nothing but that run *)
(** The parallel limit of [t] is reached. *)
Definition at_limit (s : sys) (t : task) : Prop := exists mx m, t_maxpar t = Some mx /\ flags s !! t_id t = Some m /\ mx <= m_num m.
Definition not_timer (lb : label) : Prop := match lb with LTimer _ _ _ => False | _ => True end.
Definition num_of (s : sys) (i : N) : option N := m_num <$> flags s !! i.

Definition ids_inv (s : sys) : Prop := NoDup (ids_of (tpc s)) /\ forall t, t ∈ tpc_task (tpc s) -> t_id t ∉ ids_of (tpc s).
Lemma ids_step pf lb s s' : wf s -> ids_inv s -> step pf lb s = Some s' -> ids_inv s'.
Proof.
  intros Hwf [H1 H2] Hs. unfold ids_inv. step_inv Hs; inst_shape; fsimpl; cbn [ids_of tpc_task] in *; try done.
  all: try (split; [done|]; intros t' Ht'%elem_of_list_singleton; subst; apply H2; left).
  all: try (split; [done|]; intros ? Hx%elem_of_nil; done).
  all: try (split; [constructor|]; intros ? Hx%elem_of_nil; done).
  - split; [|intros ? Hx%elem_of_nil; done]. replace l0 with (fst (slot_arrival_time_tasks g)) by (by rewrite Heqp). apply arrival_nodup. intros. by eapply (wf_key s Hwf).
  - pose proof (delete_Permutation _ _ _ Heqo) as Hp. rewrite Hp in H1. apply NoDup_cons in H1 as [Hn H1]. split; [done|]. intros t' ->%elem_of_list_singleton.
    by rewrite (wf_key s Hwf _ _ _ _ Heqo0 Heqo1).
  - split; [|intros ? Hx%elem_of_nil; done]. rewrite (delete_Permutation _ _ _ Heqo) in H1. by apply NoDup_cons in H1 as [Hn H1].
  - split; [|intros ? Hx%elem_of_nil; done]. rewrite (delete_Permutation _ _ _ Heqo) in H1. by apply NoDup_cons in H1 as [Hn H1].
  - split; [done|]. intros t' ->%elem_of_list_singleton. specialize (H2 t ltac:(left)).
    unfold down_count_and_set_valid, res_bind in *. repeat case_match; simplify_eq; done.
Qed.
Lemma ids_reach pf t0 t1 s : reachable pf t0 t1 s -> ids_inv s.
Proof.
  apply reach_ind; [|intros; eapply ids_step; [by eapply wf_reach|done..]].
  split; change (tpc (init t0 t1)) with (TCheck {| l_ts := t1; l_hand := 0; l_next := 1 |}); [constructor|intros ? Hx%elem_of_nil; destruct Hx].
Qed.

(** The next due time: that of the iterator; the countdown stays. *)
Lemma next_exec_iter pf t d t' : get_next_exec_timestamp pf t = Ret (Some d, t') ->
  exists z, iter_next pf (iter_of (t_freq t)) = Ret (Some z, iter_of (t_freq t')) /\ d = as_u64 z /\ count (t_freq t') = count (t_freq t).
Proof.
  unfold get_next_exec_timestamp, next_alarm_timestamp, res_bind. destruct (t_freq t) as [c|n c|x|n x]; cbn [iter_of iter_next count]; intros H.
  - destruct (cron_step c) as [[z|] c']; simplify_eq. eauto.
  - destruct (cron_step c) as [[z|] c']; simplify_eq. eauto.
  - unfold res_bind in *. destruct (ss_next pf x) as [[y x']|]; simplify_eq. cbn. eauto.
  - unfold res_bind in *. destruct (ss_next pf x) as [[y x']|]; simplify_eq. cbn. eauto.
Qed.
Lemma not_timer_step pf lb s s' : not_timer lb -> step pf lb s = Some s' -> tpc s' = TDead \/
  tpc s' = tpc s /\ iters s' = iters s /\ hand s' = hand s /\ launches (log s') = launches (log s).
Proof.
  intros Hlb Hs. step_inv Hs; inst_shape; fsimpl; try done.
  all: try (by left). all: right; split_and!; try done. all: try (by repeat case_match).
  all: rewrite launches_app; by rewrite (launches_inst _ Hlg).
Qed.
Lemma dead_step pf lb s s' : tpc s = TDead -> step pf lb s = Some s' -> tpc s' = TDead.
Proof. intros Ht Hs. step_inv Hs; inst_shape; fsimpl; done. Qed.
Lemma not_timer_run pf ls s s' : Forall not_timer ls -> run pf ls s = Some s' -> tpc s' = TDead \/
  tpc s' = tpc s /\ iters s' = iters s /\ hand s' = hand s /\ launches (log s') = launches (log s).
Proof.
  intros Hls. revert s. induction Hls as [|lb ls Hlb Hls IH]; intros s H; cbn [run] in H; [simplify_eq; by right|].
  destruct (step pf lb s) as [s1|] eqn:Hs; [|done]. destruct (not_timer_step _ _ _ _ Hlb Hs) as [Hd|(E1 & E2 & E3 & E4)].
  - left. clear -Hd H. revert s1 Hd H. induction ls as [|lb ls IH]; intros s1 Hd H; cbn [run] in H; [by simplify_eq|].
    destruct (step pf lb s1) as [s2|] eqn:Hs; [|done]. eapply IH; [|done]. by eapply dead_step.
  - destruct (IH _ H) as [?|(? & ? & ? & ?)]; [by left|]. right. split_and!; congruence.
Qed.

(** The scheduler has taken [t], whose limit is reached.  Its next step ([s1]) logs the skip and changes nothing else.  Its second step
    ([s3], with any steps of other threads in between) puts the task back for the next due time, with the same countdown -
    unless computing that time panics, or the schedule has no further date. *)
Theorem C09_skip pf t0 t1 s l ids t ch rec now s1 ls s2 ch' rec' now' s3 : reachable pf t0 t1 s -> tpc s = TMaint l ids t -> at_limit s t ->
  step pf (LTimer ch rec now) s = Some s1 -> Forall not_timer ls -> run pf ls s1 = Some s2 -> step pf (LTimer ch' rec' now') s2 = Some s3 ->
  wheel s1 = wheel s /\ flags s1 = flags s /\ queue s1 = queue s /\ insts s1 = insts s /\ log s1 = OSkip (t_uid t) (t_id t) (iters s) (l_ts l) :: log s /\
  launches (log s3) = launches (log s) /\ insts s3 = insts s2 /\ flags s3 = flags s2 /\ queue s3 = queue s2 /\
  (tpc s3 = TDead \/
   (exists i, iter_next pf (iter_of (t_freq t)) = Ret (None, i)) \/
   (exists z t' sl, iter_next pf (iter_of (t_freq t)) = Ret (Some z, iter_of (t_freq t')) /\ count (t_freq t') = count (t_freq t) /\
      t_uid t' = t_uid t /\ t_id t' = t_id t /\ t_maxpar t' = t_maxpar t /\ t_maxrun t' = t_maxrun t /\
      sits s3 (t_id t) sl t' /\ tpc s3 = TMark l ids (t_id t) sl false /\
      (as_u64 z + SLOTS < U64 -> when_at s3 (t_id t) sl t' = iters s + 1 + until (l_ts l) (as_u64 z)))).
Proof.
  intros Hr Ht (mx & m & Hmx & Hm & Hle) Hs1 Hls Hrun Hs3.
  assert (s1 = set_tpc (TPark l ids t false) (emit (OSkip (t_uid t) (t_id t) (iters s) (l_ts l)) s)) as E1.
  { cbn in Hs1. unfold timer_step in Hs1. rewrite Ht, Hmx, Hm in Hs1. destruct (decide _); [|done]. apply N.leb_le in Hle. rewrite Hle in Hs1. by simplify_eq. }
  assert (reachable pf t0 t1 s2) as Hr2 by (eapply reach_run; [|done]; by eapply reach_step).
  assert (tpc s1 = TPark l ids t false /\ iters s1 = iters s /\ launches (log s1) = launches (log s)) as (T1 & I1 & L1) by (by rewrite E1).
  do 5 (split; [by rewrite E1|]). clear E1.
  destruct (not_timer_run _ _ _ _ Hls Hrun) as [Hd|(T2 & I2 & H2 & L2)].
  { cbn in Hs3. unfold timer_step in Hs3. by rewrite Hd in Hs3. }
  rewrite T1 in T2. pose proof (wf_reach _ _ _ _ Hr2) as Hwf. pose proof (ids_reach _ _ _ _ Hr2) as [_ Hids]. rewrite T2 in Hids. cbn in Hids.
  specialize (Hids t ltac:(left)).
  assert (launches (log s3) = launches (log s2) /\ insts s3 = insts s2 /\ flags s3 = flags s2 /\ queue s3 = queue s2) as (L3 & -> & -> & ->).
  { cbn [step] in Hs3. unfold timer_step in Hs3. rewrite T2 in Hs3. repeat (case_match; simplify_eq; try done). }
  split; [congruence|]. do 3 (split; [done|]).
  cbn [step] in Hs3. unfold timer_step in Hs3. rewrite T2 in Hs3. destruct (get_next_exec_timestamp pf t) as [[[d|] t']|] eqn:En; simplify_eq.
  2: { right; left. apply next_none in En as [i Hi]. eauto. }
  2: { by left. }
  destruct (add64 pf (park_distance d (l_ts l)) (l_next l)) as [sum|] eqn:Es; simplify_eq; [|by left].
  destruct (wf_loop s2 Hwf l) as [Hl1 Hl2]; [by rewrite T2|].
  destruct (wheel s2 !! (sum mod SLOTS)) as [g|] eqn:Ew.
  2: { exfalso. destruct (proj2 (wf_wheel s2 Hwf (sum mod SLOTS))) as [x Hx]; [apply slots_lt|]. congruence. }
  simplify_eq. right; right. destruct (next_exec_iter _ _ _ _ En) as (z & Hz & -> & Hc). destruct (next_exec_id _ _ _ _ En) as (X1 & X2 & X3 & X4 & X5 & X6).
  eexists z, (set_cylinder_line _ t'), (sum mod SLOTS). split; [exact Hz|]. split; [done|]. do 4 (split; [done|]). fsimpl.
  split; [|split; [done|]].
  - eexists. rewrite lookup_insert. split; [done|]. unfold slot_add_task. rewrite <- X1. apply lookup_insert.
  - intros Hfit. unfold when_at, next_scan. fsimpl. cbn [ids_of]. rewrite decide_False by naive_solver. cbn [t_cyl set_cylinder_line].
    assert (sum = park_distance (as_u64 z) (l_ts l) + l_next l) as ->.
    { unfold add64 in Es. assert (park_distance (as_u64 z) (l_ts l) + l_next l < U64); [|case_match; [by simplify_eq|lia]].
      rewrite Hl2. pose proof (slots_lt (hand s2 + 1)). unfold park_distance, checked_sub. unfold SLOTS, U64 in *. destruct (l_ts l <=? as_u64 z); lia. }
    rewrite Hl2, (wf_hand s2 Hwf). replace ((iters s2 mod SLOTS + 1) mod SLOTS) with ((iters s2 mod SLOTS + 1) mod SLOTS) by done.
    rewrite due_park, I2, I1. unfold until, park_distance, checked_sub. destruct (l_ts l <=? as_u64 z); lia.
Qed.
Print Assumptions C09_skip.
(** The third step of the scheduler records the new slot; the parallel count of no task changes. *)
Theorem C09_count_unchanged pf s l ids i sl ch rec now s' : tpc s = TMark l ids i sl false -> step pf (LTimer ch rec now) s = Some s' ->
  (forall j, num_of s' j = num_of s j) /\ wheel s' = wheel s /\ insts s' = insts s /\ log s' = log s /\ tpc s' = TLoop l ids.
Proof.
  intros Ht Hs. cbn in Hs. unfold timer_step in Hs. rewrite Ht in Hs. destruct (mark_locked s i); [done|].
  destruct (flags s !! i) as [m|] eqn:E; simplify_eq; [|done]. split_and!; try done. intros j. unfold num_of. fsimpl.
  destruct (decide (j = i)) as [->|]; [by rewrite lookup_insert, E|by rewrite lookup_insert_ne].
Qed.
Print Assumptions C09_count_unchanged.
(** Runs are skipped for no other reason. *)
Fixpoint skips (lg : list obs) : list (N * N) :=
  match lg with [] => [] | OSkip u i _ _ :: r => (u, i) :: skips r | _ :: r => skips r end.
Lemma skips_app l1 l2 : skips (l1 ++ l2) = skips l1 ++ skips l2.
Proof. induction l1 as [|[] l1 IH]; cbn; congruence. Qed.
Lemma skips_inst lg : Forall inst_obs lg -> skips lg = [].
Proof. by induction 1 as [|[] lg Hx H IH]. Qed.
Theorem C09_only_at_limit pf lb s s' : step pf lb s = Some s' -> skips (log s') = skips (log s) \/
  exists l ids t, tpc s = TMaint l ids t /\ at_limit s t /\ skips (log s') = (t_uid t, t_id t) :: skips (log s).
Proof.
  intros Hs. unfold at_limit. step_inv Hs; inst_shape; fsimpl; rewrite ?skips_app, ?skips_inst by done; try (by left).
  all: try (left; by repeat case_match).
  right. do 3 eexists. split; [done|]. split; [|done]. do 2 eexists. split; [done|]. split; [done|]. by apply N.leb_le.
Qed.
Print Assumptions C09_only_at_limit.
(** A countdown of 3 with limit 1, due while the first instance is still running. *)
Example C09_example : exists s l ids t, reachable Debug 100 100 s /\ tpc s = TMaint l ids t /\ at_limit s t /\ count (t_freq t) = Some 2 /\
  num_of s 11 = Some 1.
Proof.
  destruct (after_reach Debug 100 100 [Do (LAdd (limited 1 (ntimes 1 11 3 2 100))); Handle; Ticks 5; Handle; Do (LTimer 0 0 0); Do (LTimer 0 0 0); Do (LTimer 0 0 0); Do (LTimer 0 0 0)]
    (fun s => match tpc s, flags s !! 11 with
      | TMaint l ids (Task 1 11 (SecondsCountDown 2 _) _ _ _ (Some 1)), Some m => m_num m =? 1 | _, _ => false end)) as (s & Hr & HP); [vm_compute; reflexivity|].
  destruct (tpc s) as [| | | |l ids [u i f mr cy v mp]| | | | | | | |] eqn:Et; try done. destruct (flags s !! 11) as [m|] eqn:Em; [|repeat case_match; done].
  exists s, l, ids. assert (i = 11 /\ mp = Some 1 /\ count f = Some 2 /\ m_num m = 1) as (-> & -> & Hc & Hn).
  { repeat (case_match; try done). apply N.eqb_eq in HP. done. }
  eexists. split; [done|]. split; [done|]. split; [|split; [done|]].
  - exists 1, m. split; [done|]. split; [done|]. lia.
  - unfold num_of. rewrite Em. cbn. by rewrite Hn.
Qed.

(* ------------------------------------------------------------------ *)
(** ** C11 Removing a task touches nothing else *)
(** The event handler is at work on remove_task(i). *)
Definition removing (i : N) (s : sys) : Prop :=
  (hpc s = HIdle /\ exists q, queue s = ERemove i :: q) \/ (exists sl, hpc s = HRem1 i sl) \/ (exists ok, hpc s = HRem2 i ok).
Theorem C11_others_untouched pf t0 t1 s s' i : reachable pf t0 t1 s -> removing i s -> step pf LHandler s = Some s' ->
  (forall j sl t, j <> i -> (sits s' j sl t <-> sits s j sl t)) /\
  (forall j, j <> i -> flags s' !! j = flags s !! j) /\
  (forall c, chains s' !! c <> chains s !! c -> exists m l, flags s !! i = Some m /\ m_chain m = Some (c, l)) /\
  insts s' = insts s /\ trace s' = trace s /\ hdrs s' = hdrs s /\ waiters s' = waiters s /\ recq s' = recq s /\ heap s' = heap s /\
  tpc s' = tpc s /\ hand s' = hand s /\ gtime s' = gtime s /\ motiv s' = motiv s /\
  queue s' = match hpc s with HIdle => tail (queue s) | _ => queue s end.
Proof.
  intros Hr Hrem Hs. cbn [step] in Hs. unfold handler_step in Hs.
  destruct Hrem as [(Eh & q & Eq)|[(sl & Eh)|(ok & Eh)]].
  - rewrite Eh, Eq in Hs. cbn [dispatch] in Hs. fsimpl_in Hs. rewrite Eh, Eq.
    destruct (flags s !! i) as [m|] eqn:Em; simplify_eq; fsimpl; split_and!; done.
  - rewrite Eh in Hs. rewrite Eh. destruct (wheel s !! sl) as [g|] eqn:Ew; simplify_eq; fsimpl; split_and!; try done.
    intros j sl' t Hne. unfold on. destruct (decide (sl' = sl)) as [->|].
    + rewrite lookup_insert, Ew. cbn. split; intros (m & ? & Hm); simplify_eq; eexists; (split; [done|]); [by rewrite lookup_delete_ne in Hm|by rewrite lookup_delete_ne].
    + by rewrite lookup_insert_ne.
  - rewrite Eh in Hs. rewrite Eh. simplify_eq; fsimpl. split_and!; try done.
    + intros j Hne. by rewrite lookup_delete_ne.
    + intros c. destruct (flags s !! i) as [m|]; cbn; [|done]. destruct (m_chain m) as [[c' l]|] eqn:Ec; cbn; [|done].
      intros Hc. destruct (decide (c = c')) as [->|]; [eauto|]. by rewrite lookup_alter_ne in Hc.
Qed.
Print Assumptions C11_others_untouched.
(** ... and no waiting task with another id changes its iteration. *)
Theorem C11_times_unchanged pf t0 t1 s s' i j sl t : reachable pf t0 t1 s -> removing i s -> step pf LHandler s = Some s' -> j <> i ->
  sits s j sl t -> sits s' j sl t /\ when_at s' j sl t = when_at s j sl t.
Proof.
  intros Hr Hrem Hs Hne Hon. destruct (C11_others_untouched _ _ _ _ _ _ Hr Hrem Hs) as (H1 & _ & _ & _ & _ & _ & _ & _ & _ & Ht & Hh & _).
  split; [by apply H1|]. apply when_frame; try done. destruct (C32_hand_moves_by_one _ _ _ _ Hs) as [(_ & ? & _)|(Hx & Hi & _)]; [done|].
  exfalso. clear -Hs Hi. cbn [step] in Hs. revert Hi. pc_inv Hs; inst_shape; fsimpl; lia.
Qed.
Print Assumptions C11_times_unchanged.

(** An unknown id: the event is taken, and when the handler is done nothing has changed but what other threads did meanwhile.
    In particular nothing is reported. *)
Lemma no_mark_step pf lb s s' i : not_handler lb -> step pf lb s = Some s' -> flags s !! i = None -> flags s' !! i = None.
Proof.
  intros Hlb Hs Hn. step_inv Hs; fsimpl; try done. all: rewrite lookup_insert_ne; [done|congruence].
Qed.
Lemma handler_idle pf lb s s' : not_handler lb -> step pf lb s = Some s' -> hpc s' = hpc s /\ hpub s' = hpub s.
Proof. intros Hlb Hs. step_inv Hs; fsimpl; done. Qed.
Lemma not_handler_run pf ls s s' : Forall not_handler ls -> run pf ls s = Some s' -> hpc s' = hpc s /\ hpub s' = hpub s /\
  forall i, flags s !! i = None -> flags s' !! i = None.
Proof.
  intros Hls. revert s. induction Hls as [|lb ls Hlb Hls IH]; intros s H; cbn [run] in H; [by simplify_eq|].
  destruct (step pf lb s) as [s1|] eqn:Hs; [|done]. destruct (handler_idle _ _ _ _ Hlb Hs) as [<- <-]. destruct (IH _ H) as (? & ? & ?).
  split_and!; try done. intros i Hi. eauto using no_mark_step.
Qed.
Theorem C11_unknown_id pf t0 t1 s i q s1 ls s2 s3 : reachable pf t0 t1 s -> hpc s = HIdle -> queue s = ERemove i :: q -> flags s !! i = None ->
  step pf LHandler s = Some s1 -> Forall not_handler ls -> run pf ls s1 = Some s2 -> step pf LHandler s2 = Some s3 ->
  (exists p pub, s1 = set_hpc p (set_hpub pub (emit (OPop (ERemove i)) (set_queue q s)))) /\ s3 = set_hpc HIdle (set_hpub None s2).
Proof.
  intros Hr Hh Hq Hn Hs1 Hls Hrun Hs3. cbn [step] in Hs1. unfold handler_step in Hs1. rewrite Hh, Hq in Hs1. cbn [dispatch public_of] in Hs1. fsimpl_in Hs1. rewrite Hn in Hs1.
  assert (Es1 := Hs1). injection Es1 as Es1.
  destruct (not_handler_run _ _ _ _ Hls Hrun) as (E1 & E2 & E3). split.
  - eexists _, _. rewrite <- Es1. destruct s; reflexivity.
  - specialize (E3 i). rewrite <- Es1 in E1, E2, E3. fsimpl_in E1. fsimpl_in E2. fsimpl_in E3. specialize (E3 Hn).
    cbn [step] in Hs3. unfold handler_step in Hs3. rewrite E1 in Hs3. injection Hs3 as <-. unfold complete, drop_mark, abandon_opt. fsimpl. rewrite E2, E3.
    assert (delete i (flags s2) = flags s2) as Hdel by (by apply delete_notin). destruct s2; cbn in *. subst. by rewrite Hdel.
Qed.
Print Assumptions C11_unknown_id.
(** Two tasks waiting and running instances; one of the tasks is being removed, and an unknown id after it. *)
Example C11_example : exists s t1 t2, reachable Debug 100 100 s /\ removing 11 s /\ sits s 11 7 t1 /\ sits s 12 31 t2 /\ flags s !! 13 = None /\
  handle_of s 11 0 /\ queue s = [ERemove 11; ERemove 13].
Proof.
  destruct (after_reach Debug 100 100 [Do (LAdd (every 1 11 3 100)); Do (LAdd (every 2 12 30 100)); Handle; Ticks 5; Handle; Do (LRemove 11); Do (LRemove 13)]
    (fun s => match hpc s, queue s, wheel s !! 7, wheel s !! 31, trace s !! 11, flags s !! 13 with HIdle, [ERemove 11; ERemove 13], Some m1, Some m2, Some [HBox _ 0 _ _], None =>
       bool_decide (is_Some (m1 !! 11)) && bool_decide (is_Some (m2 !! 12)) | _, _, _, _, _, _ => false end)) as (s & Hr & HP); [vm_compute; reflexivity|].
  destruct (hpc s) eqn:Eh; try done. 
  destruct (wheel s !! 7) as [m1|] eqn:E1; [|repeat case_match; done]. destruct (wheel s !! 31) as [m2|] eqn:E2; [|repeat case_match; done].
  destruct (bool_decide (is_Some (m1 !! 11))) eqn:B1; [|repeat case_match; done]. destruct (bool_decide (is_Some (m2 !! 12))) eqn:B2; [|repeat case_match; done].
  apply bool_decide_eq_true in B1 as [x1 B1]. apply bool_decide_eq_true in B2 as [x2 B2]. exists s, x1, x2. split; [done|].
  assert (queue s = [ERemove 11; ERemove 13]) as Eq by (clear -HP; repeat (case_match; try done)).
  split; [left; eauto|]. split; [by exists m1|]. split; [by exists m2|].
  split; [clear -HP; repeat (case_match; try done)|]. split; [|done].
  unfold handle_of. destruct (trace s !! 11) as [lt|] eqn:Et; [|clear -HP; repeat (case_match; try done)]. exists lt. split; [done|].
  assert (exists a b c, lt = [HBox a 0 b c]) as (a & b & c & ->) by (clear -HP; repeat (case_match; try done); eauto). cbn. left.
Qed.
