(** Removing tasks, and the order of adding and removing: C10, C30. *)
From Verif Require Import Tactics Inv Own Life Count Quiet Timing Cases Frame Meanwhile Inst Ended Scen PropLife PropInst PropSched PropOps PropAdvance.

Lemma turns_rep pf n s s' : run pf (replicate n LHandler) s = Some s' -> turns pf n s s'.
Proof.
  revert s. induction n as [|n IH]; intros s H; cbn [replicate run] in H; [simplify_eq; apply turns_0|].
  destruct (step pf LHandler s) as [s1|] eqn:Hs; [|done]. eapply (turns_S pf n []); [constructor|done|exact Hs|auto].
Qed.
Lemma turns_app pf n1 n2 s s1 s' : turns pf n1 s s1 -> turns pf n2 s1 s' -> turns pf (n1 + n2) s s'.
Proof. induction 1 as [|n ls s a b c H1 H2 H3 H4 IH]; [done|]. intros H. eapply turns_S; eauto. Qed.
Lemma turns_before pf n ls s s1 s' : Forall not_handler ls -> run pf ls s = Some s1 -> turns pf (S n) s1 s' -> turns pf (S n) s s'.
Proof.
  intros Hls Hrun Ht. inversion Ht as [|? ls2 ? a b ? H1 H2 H3 H4]; subst. eapply (turns_S pf n (ls ++ ls2)); [by apply Forall_app|by eapply run_trans|done|done].
Qed.

(** The three steps of remove_task. *)
Lemma remove_upto pf t0 t1 s i q m n s' : reachable pf t0 t1 s -> hpc s = HIdle -> queue s = ERemove i :: q -> flags s !! i = Some m ->
  ~ processing i (tpc s) -> m_slot m < SLOTS -> handles pf i (S (S (S n))) s s' ->
  exists s1, reachable pf t0 t1 s1 /\ ~ processing i (tpc s1) /\ hpc s1 = HIdle /\ flags s1 !! i = None /\
    (forall sl x, holds s1 i sl x <-> sl <> m_slot m /\ holds s i sl x) /\ (exists q1, queue s1 = q ++ q1) /\
    (forall t, sits s i (m_slot m) t -> nowhere (t_uid t) s') /\ handles pf i n s1 s'.
Proof.
  intros Hr Hh Hq Hm Hp Hlt Hn.
  hnext Hr Hp Hn a b. hstep Hs Hc. rewrite Hh, Hq0, Hq in Hs. cbn [app dispatch] in Hs. fsimpl_in Hs. rewrite Hf, Hm in Hs.
  assert (hpc b = HRem1 i (m_slot m) /\ wheel b = wheel a /\ flags b = flags a /\ queue b = q ++ qq) as (Eh & Ew & Ef & Eq) by (simplify_eq; done). clear Hs.
  hnext Hr2 Hp2 Hn0 c d. hstep Hs Hc0. rewrite Eh in Hs. unfold slot_remove_task in Hs.
  destruct (wheel c !! m_slot m) as [g|] eqn:Ew1.
  2: { exfalso. assert (is_Some (wheel c !! m_slot m)) as [? ?] by (by eapply (slot_there pf t0 t1)). congruence. }
  assert (hpc d = HRem2 i true /\ wheel d = <[m_slot m := delete i g]> (wheel c) /\ flags d = flags c /\ queue d = queue c /\ used d = used c) as (F1 & F2 & F3 & F4 & F5) by (simplify_eq; done). clear Hs.
  assert (forall t, sits s i (m_slot m) t -> nowhere (t_uid t) d) as Hno.
  { intros t Hsit. assert (holds c i (m_slot m) t) as [y Hy]. { apply Hk0, (holds_same a b i Ew), Hk, sits_holds, Hsit. }
    pose proof Hy as (g' & Hg' & Hy2). rewrite Ew1 in Hg'. apply (inj Some) in Hg'. subst g'.
    change (t_uid t) with (t_uid (set_cylinder_line y t)). eapply (uid_dropped c); [by eapply own_reach|by eapply sits_held|done|].
    rewrite !uids_eq, F1, F4, F2, Ht0, Hc0, Eh. cbn [hpc_task fmap list_fmap app].
    rewrite <- (uids_wheel_remove _ _ _ _ _ Ew1 Hy2). rewrite !app_assoc. symmetry. apply Permutation_middle. }
  assert (forall t, sits s i (m_slot m) t -> nowhere (t_uid t) s') as Hno'.
  { intros t Hsit. destruct (handles_run _ _ _ _ _ Hn1) as [ls Hls]. eapply nowhere_run; [|exact Hls]. auto. }
  hnext Hr3 Hp3 Hn1 e f. hstep Hs Hc1. rewrite F1 in Hs.
  assert (hpc f = HIdle /\ wheel f = wheel e /\ flags f = delete i (flags e) /\ queue f = queue e) as (G1 & G2 & G3 & G4) by (simplify_eq; done).
  exists f. split_and!; try done.
  - by rewrite G3, lookup_delete.
  - intros sl x. rewrite (holds_same e f i G2), Hk1, (holds_del c d i _ g Ew1 F2), Hk0, (holds_same a b i Ew), Hk. done.
  - exists (qq ++ qq0 ++ qq1). by rewrite G4, Hq2, F4, Hq1, Eq, !app_assoc.
Qed.

(** The four steps of add_task and record_task_mark. *)
Definition adds (t : task) (e : event) : Prop := e = EAdd t \/ e = EInsert t.
Lemma next_exec_cyl pf t o t' c : get_next_exec_timestamp pf t = Ret (o, t') -> t_id (set_cylinder_line c t') = t_id t /\ t_uid (set_cylinder_line c t') = t_uid t.
Proof. unfold get_next_exec_timestamp, res_bind. repeat case_match; intros E; simplify_eq; done. Qed.
Lemma add_upto pf t0 t1 s e t i q n s' d t2 : reachable pf t0 t1 s -> hpc s = HIdle -> adds t e -> t_id t = i -> queue s = e :: q ->
  get_next_exec_timestamp pf t = Ret (Some d, t2) -> d + 2 * SLOTS < U64 ->
  ~ processing i (tpc s) -> handles pf i (S (S (S (S n)))) s s' ->
  exists s1 sl, reachable pf t0 t1 s1 /\ ~ processing i (tpc s1) /\ hpc s1 = HIdle /\ sl < SLOTS /\
    (exists m, flags s1 !! i = Some m /\ m_slot m = sl /\ m_num m = 0) /\
    (forall sl' x, holds s1 i sl' x <-> (sl' = sl /\ x = set_cylinder_line (t_cyl x) t2) \/ (sl' <> sl /\ holds s i sl' x)) /\
    (exists q1, queue s1 = q ++ q1) /\ handles pf i n s1 s'.
Proof.
  intros Hr Hh He Hi Hq Hnx Hd Hp Hn.
  hnext Hr Hp Hn a b. hstep Hs Hc. rewrite Hh, Hq0, Hq in Hs. cbn [app] in Hs.
  assert (exists c, hpc b = HAdd1 t c (hand a) (iters a) /\ wheel b = wheel a /\ flags b = flags a /\ queue b = q ++ qq) as (c & Eh & Ew & Ef & Eq).
  { destruct He as [-> | ->]; cbn [dispatch] in Hs; simplify_eq; eexists; done. } clear Hs.
  hnext Hr2 Hp2 Hn0 f g. hstep Hs Hc0. rewrite Eh, Hnx in Hs.
  assert (hand a < SLOTS) as Hha. { rewrite (hand_of _ _ _ _ Hr1). apply N.mod_lt. done. }
  assert (add_distance d (gtime f) (t_id t) + 2 * SLOTS < U64) as Hle.
  { pose proof (N.mod_lt (t_id t) SLOTS ltac:(done)). unfold add_distance, checked_sub, SLOTS, U64 in *. repeat case_match; simplify_eq; lia. }
  unfold SLOTS in Hle, Hha. rewrite add64_small in Hs by (unfold U64 in *; lia). cbn [res_bind] in Hs. rewrite add64_small in Hs by (unfold U64 in *; lia).
  set (seed := add_distance d (gtime f) (t_id t) + hand a + 1) in *.
  assert (hpc g = HAdd2 (set_cylinder_line (seed / SLOTS) t2) c (seed mod SLOTS) /\ wheel g = wheel f /\ flags g = flags f /\ queue g = queue f) as (Fh & Fw & Ff & Fq) by (simplify_eq; done). clear Hs.
  destruct (next_exec_cyl _ _ _ _ (seed / SLOTS) Hnx) as [Hid2 Hu2].
  set (sl := seed mod SLOTS) in *. assert (sl < SLOTS) as Hsl by (apply N.mod_lt; done).
  hnext Hr3 Hp3 Hn1 h j. hstep Hs Hc1. rewrite Fh in Hs.
  destruct (wheel h !! sl) as [w|] eqn:Ew1.
  2: { exfalso. assert (is_Some (wheel h !! sl)) as [? ?] by (by eapply (slot_there pf t0 t1)). congruence. }
  assert (hpc j = HAdd3 i c sl /\ wheel j = <[sl := <[i := set_cylinder_line (seed / SLOTS) t2]> w]> (wheel h) /\ flags j = flags h /\ queue j = queue h) as (Gh & Gw & Gf & Gq).
  { clear Hnx. apply (inj Some) in Hs. subst j. unfold slot_add_task. fsimpl. rewrite Hid2, Hi. done. } clear Hs.
  hnext Hr5 Hp5 Hn2 k l. hstep Hs Hc2. rewrite Gh in Hs.
  assert (hpc l = HIdle /\ wheel l = wheel k /\ flags l = <[i := Mark i sl 0 ((fun c => (c, [])) <$> c)]> (flags k) /\ queue l = queue k) as (K1 & K2 & K3 & K4).
  { apply (inj Some) in Hs. subst l. clear. unfold complete, drop_mark. repeat case_match; done. }
  exists l, sl. split_and!; try done.
  - eexists. rewrite K3, lookup_insert. done.
  - intros sl' x. rewrite (holds_same k l i K2), Hk2, (holds_put h j i _ w _ Ew1 Gw), Hk1, (holds_same f g i Fw), Hk0, (holds_same a b i Ew), Hk.
    apply or_iff_compat_r, and_iff_compat_l. split.
    + intros [cc H]. eapply like_eq in H. rewrite H. done.
    + intros ->. exists (seed / SLOTS). done.
  - exists (qq ++ qq0 ++ qq1 ++ qq2). by rewrite K4, Hq3, Gq, Hq2, Fq, Hq1, Eq, !app_assoc.
Qed.

(** Deciding where tasks of one id are. *)
Definition noid (i : N) (w : gmap N (gmap N task)) : bool := forallb (fun t => negb (t_id t =? i)) (wheel_tasks w).
Definition oneid (i sl : N) (w : gmap N (gmap N task)) : bool :=
  match w !! sl with Some g => match g !! i with Some _ => noid i (delete sl w) | None => false end | None => false end.
Lemma noid_ok pf t0 t1 s i : reachable pf t0 t1 s -> noid i (wheel s) = true -> forall sl x, ~ holds s i sl x.
Proof.
  intros Hr H sl x [c (g & Hg & Hx)]. unfold noid in H. rewrite forallb_forall in H.
  assert (set_cylinder_line c x ∈ wheel_tasks (wheel s)) as Hin by (apply elem_of_wheel_tasks; eauto).
  apply elem_of_list_In in Hin. specialize (H _ Hin). apply negb_true_iff, N.eqb_neq in H. apply H.
  exact (wf_key s (wf_reach _ _ _ _ Hr) _ _ _ _ Hg Hx).
Qed.
Lemma oneid_ok pf t0 t1 s i sl : reachable pf t0 t1 s -> oneid i sl (wheel s) = true ->
  (exists t, sits s i sl t) /\ forall sl' x, holds s i sl' x -> sl' = sl.
Proof.
  unfold oneid. intros Hr H. destruct (wheel s !! sl) as [g|] eqn:Eg; [|done]. destruct (g !! i) as [t|] eqn:Et; [|done].
  split; [by exists t, g|]. intros sl' x [c (g' & Hg & Hx)]. destruct (decide (sl' = sl)) as [|Hne]; [done|]. exfalso.
  unfold noid in H. rewrite forallb_forall in H.
  assert (set_cylinder_line c x ∈ wheel_tasks (delete sl (wheel s))) as Hin by (apply elem_of_wheel_tasks; exists sl', g', i; by rewrite lookup_delete_ne).
  apply elem_of_list_In in Hin. specialize (H _ Hin). apply negb_true_iff, N.eqb_neq in H. apply H.
  exact (wf_key s (wf_reach _ _ _ _ Hr) _ _ _ _ Hg Hx).
Qed.
Lemma nowhere_wheel u s i sl x : nowhere u s -> sits s i sl x -> t_uid x <> u.
Proof. intros [_ H] Hx <-. apply H, elem_of_list_fmap. exists x. split; [done|]. by eapply sits_held. Qed.

(* ------------------------------------------------------------------ *)
(** ** C10 A removed task is not started again *)
(** The full statement: the handler takes remove_task(i) from the queue and finishes it; from then on no task with this id that was there is
    started. *)
Definition C10_never_again : Prop := forall pf t0 t1 s i q t s1 ls s2, reachable pf t0 t1 s -> hpc s = HIdle -> queue s = ERemove i :: q ->
  t ∈ held s -> t ∉ (queue s ≫= ev_task) -> t_id t = i -> turns pf 3 s s1 -> run pf ls s1 = Some s2 ->
  starts (t_uid t) (log s2) = starts (t_uid t) (log s1).
(** It is false while the scheduler has the task in its hands: it puts it back into the wheel after the removal, where it has no mark and
    can never be removed again. *)
Theorem C10_never_again_refuted : ~ C10_never_again.
Proof.
  intros H. destruct (after_reach Debug 100 100 ([Do (LAdd (every 1 11 3 100)); Handle; Ticks 4] ++ replicate 4 (Do (LTimer 0 0 104)) ++ [Do (LRemove 11)])
    (fun s => match hpc s, queue s, tpc s with
      | HIdle, [e], TMaint _ _ t => match e with ERemove i => i =? 11 | _ => false end && (t_uid t =? 1) && (t_id t =? 11) &&
          match run Debug (replicate 3 LHandler) s with
          | Some s1 => match play Debug [Ticks 20; Do (LRemove 11); Handle; Ticks 20] s1 with Some s2 => (starts 1 (log s1) =? 0) && (starts 1 (log s2) =? 14) | None => false end
          | None => false end
      | _, _, _ => false end)) as (s & Hr & HP); [vm_compute; reflexivity|].
  destruct (hpc s) eqn:Eh; try discriminate HP. destruct (queue s) as [|e [|? ?]] eqn:Eq; [discriminate HP| |discriminate HP].
  destruct (tpc s) eqn:Et; try discriminate HP. match type of Et with _ = TMaint _ _ ?x => rename x into t end.
  apply andb_true_iff in HP as [HP0 HP]. apply andb_true_iff in HP0 as [HP0 HP2]. apply andb_true_iff in HP0 as [HP0 HP1]. apply N.eqb_eq in HP1, HP2.
  destruct e as [| | | |i| | | | |]; try discriminate HP0. apply N.eqb_eq in HP0. subst i.
  destruct (run Debug _ s) as [s1|] eqn:E1; [|discriminate HP]. destruct (play Debug _ s1) as [s2|] eqn:E2; [|discriminate HP].
  apply andb_true_iff in HP as [HP3 HP4]. apply N.eqb_eq in HP3, HP4. destruct (play_run _ _ _ _ E2) as [l2 Hl2].
  assert (starts (t_uid t) (log s2) = starts (t_uid t) (log s1)) as Hx; [|rewrite HP1, HP3, HP4 in Hx; discriminate Hx].
  refine (H Debug 100 100 s 11 [] t s1 l2 s2 Hr Eh Eq _ _ HP2 (turns_rep _ _ _ _ E1) Hl2).
  - unfold held. rewrite Et, !elem_of_app. right; right; left. left.
  - rewrite Eq. cbn. apply not_elem_of_nil.
Qed.
Print Assumptions C10_never_again_refuted.
(** It is true if the scheduler does not work on the task while it is removed. *)
Theorem C10_never_again_partial pf t0 t1 s i q m t s' : reachable pf t0 t1 s -> hpc s = HIdle -> queue s = ERemove i :: q ->
  flags s !! i = Some m -> sits s i (m_slot m) t -> ~ processing i (tpc s) -> handles pf i 3 s s' ->
  hpc s' = HIdle /\ flags s' !! i = None /\ (forall x, ~ sits s' i (m_slot m) x) /\
  (forall ls s'' sl x, run pf ls s' = Some s'' -> sits s'' i sl x -> t_uid x <> t_uid t) /\
  forall ls s'', run pf ls s' = Some s'' -> starts (t_uid t) (log s'') = starts (t_uid t) (log s').
Proof.
  intros Hr Hh Hq Hm Hon Hp Hn. assert (m_slot m < SLOTS) as Hlt. { eapply sits_lt; [by eapply wf_reach|done]. }
  destruct (remove_upto _ _ _ _ _ _ _ _ _ Hr Hh Hq Hm Hp Hlt Hn) as (s1 & Hr1 & Hp1 & E1 & E2 & E3 & E4 & E5 & Hn0). inversion Hn0; subst.
  split_and!; try done.
  - intros x Hx. by apply sits_holds, E3 in Hx as [? _].
  - intros ls s'' sl x Hrun Hx. apply (nowhere_run _ _ _ _ _ (E5 _ Hon)) in Hrun as [Hno _]. by eapply nowhere_wheel.
  - intros ls s'' Hrun. by apply (nowhere_run _ _ _ _ _ (E5 _ Hon)) in Hrun as [_ ?].
Qed.
Print Assumptions C10_never_again_partial.
(** If the mark names the slot of every task with this id, none is left. *)
Theorem C10_none_left_partial pf t0 t1 s i q m s' : reachable pf t0 t1 s -> hpc s = HIdle -> queue s = ERemove i :: q ->
  flags s !! i = Some m -> m_slot m < SLOTS -> (forall sl x, holds s i sl x -> sl = m_slot m) -> ~ processing i (tpc s) -> handles pf i 3 s s' ->
  forall sl x, ~ sits s' i sl x.
Proof.
  intros Hr Hh Hq Hm Hlt Hu Hp Hn sl x Hx.
  destruct (remove_upto _ _ _ _ _ _ _ _ _ Hr Hh Hq Hm Hp Hlt Hn) as (s1 & Hr1 & Hp1 & E1 & E2 & E3 & E4 & E5 & Hn0). inversion Hn0; subst.
  apply sits_holds, E3 in Hx as [? Hx]. by apply Hu in Hx.
Qed.
Print Assumptions C10_none_left_partial.
Lemma c10_state : exists s m t s', reachable Debug 100 100 s /\ hpc s = HIdle /\ queue s = [ERemove 11] /\ flags s !! 11 = Some m /\
  sits s 11 (m_slot m) t /\ (forall sl x, holds s 11 sl x -> sl = m_slot m) /\ ~ processing 11 (tpc s) /\ handles Debug 11 3 s s' /\
  starts (t_uid t) (log s) = 2 /\ exists s2 ls, run Debug ls s' = Some s2 /\ iters s' + 40 < iters s2.
Proof.
  destruct (after_reach Debug 100 100 [Do (LAdd (every 1 11 3 100)); Do (LAdd (every 2 12 5 100)); Handle; Ticks 8; Handle; Do (LRemove 11)]
    (fun s => match hpc s, queue s, flags s !! 11, tpc s with
      | HIdle, [e], Some m, TCheck _ => match e with ERemove i => i =? 11 | _ => false end && (starts 1 (log s) =? 2) && oneid 11 (m_slot m) (wheel s) &&
         match wheel s !! m_slot m with Some g => match g !! 11 with Some t => t_uid t =? 1 | None => false end | None => false end &&
          match run Debug (replicate 3 LHandler) s with
          | Some s1 => match play Debug [Ticks 50] s1 with Some s2 => (iters s1 + 40 <? iters s2) | None => false end
          | None => false end
      | _, _, _, _ => false end)) as (s & Hr & HP); [vm_compute; reflexivity|].
  destruct (hpc s) eqn:Eh; try discriminate HP. destruct (queue s) as [|e [|? ?]] eqn:Eq; [discriminate HP| |discriminate HP].
  destruct (flags s !! 11) as [m|] eqn:Em; [|discriminate HP].
  destruct (tpc s) eqn:Et; try discriminate HP.
  apply andb_true_iff in HP as [HP0 HP]. apply andb_true_iff in HP0 as [HP0 HP3]. apply andb_true_iff in HP0 as [HP0 HP2]. apply andb_true_iff in HP0 as [HP0 HP1]. apply N.eqb_eq in HP1.
  destruct e as [| | | |i| | | | |]; try discriminate HP0. apply N.eqb_eq in HP0. subst i.
  destruct (oneid_ok _ _ _ _ _ _ Hr HP2) as [[t Ht] Hu].
  destruct (run Debug _ s) as [s1|] eqn:E1; [|discriminate HP]. destruct (play Debug _ s1) as [s2|] eqn:E2; [|discriminate HP]. destruct (play_run _ _ _ _ E2) as [l2 Hl2].
  apply N.ltb_lt in HP. exists s, m, t, s1. split_and!; try done.
  - intros Hx. by rewrite Et in Hx.
  - by apply handles_rep.
  - destruct Ht as (g & Hg & Ht). rewrite Hg, Ht in HP3. apply N.eqb_eq in HP3. by rewrite HP3.
  - by exists s2, l2.
Qed.
Example C10_example : exists s m t s', reachable Debug 100 100 s /\ hpc s = HIdle /\ queue s = [ERemove 11] /\ flags s !! 11 = Some m /\
  sits s 11 (m_slot m) t /\ (forall sl x, holds s 11 sl x -> sl = m_slot m) /\ ~ processing 11 (tpc s) /\ handles Debug 11 3 s s' /\
  starts (t_uid t) (log s) = 2 /\ exists s2 ls, run Debug ls s' = Some s2 /\ iters s' + 40 < iters s2.
Proof. exact c10_state. Qed.

(** The scheduler records in the mark, if there is one, the slot it parks a task in. *)
Theorem C10_place_recorded pf t0 t1 s l ids i sl upd ch rec now s' : reachable pf t0 t1 s -> tpc s = TMark l ids i sl upd ->
  step pf (LTimer ch rec now) s = Some s' -> tpc s' = TLoop l ids /\ wheel s' = wheel s /\
  (forall m, flags s !! i = Some m -> exists m', flags s' !! i = Some m' /\ m_slot m' = sl) /\ (flags s !! i = None -> flags s' = flags s).
Proof.
  intros Hr Ht Hs. cbn [step] in Hs. unfold timer_step in Hs. rewrite Ht in Hs.
  destruct (flags s !! i) as [m|] eqn:Em; repeat case_match; simplify_eq; split_and!; try done; try (intros ? [= <-]); eexists; fsimpl; rewrite lookup_insert; done.
Qed.
Print Assumptions C10_place_recorded.
Example C10_place_example : exists s, reachable Debug 100 100 s /\ exists l ids m, tpc s = TMark l ids 11 7 true /\ flags s !! 11 = Some m /\ m_slot m = 4.
Proof.
  destruct (after_reach Debug 100 100 ([Do (LAdd (every 1 11 3 100)); Handle; Ticks 4] ++ replicate 9 (Do (LTimer 0 0 104)))
    (fun s => match tpc s, flags s !! 11 with TMark _ _ i sl u, Some m => (i =? 11) && (sl =? 7) && u && (m_slot m =? 4) | _, _ => false end)) as (s & Hr & HP); [vm_compute; reflexivity|].
  exists s. split; [exact Hr|]. destruct (tpc s) as [| | | | | | | | |l ids i sl u| | |] eqn:Et; try discriminate HP. destruct (flags s !! 11) as [m|]; [|discriminate HP].
  exists l, ids, m. apply andb_true_iff in HP as [HP H4]. apply andb_true_iff in HP as [HP H3]. apply andb_true_iff in HP as [H1 H2]. apply N.eqb_eq in H1, H2, H4. by subst.
Qed.

(** No mark, and none on its way. *)
Definition markless (i : N) (s : sys) : Prop :=
  flags s !! i = None /\ Forall (fun e => forall t, adds t e -> t_id t <> i) (queue s) /\
  match hpc s with HAdd1 t _ _ _ | HAdd2 t _ _ => t_id t <> i | HAdd3 j _ _ => j <> i | _ => True end.
Definition adds_other (i : N) (lb : label) : Prop := forall t, lb = LAdd t \/ lb = LInsert t -> t_id t <> i.
Lemma complete_hpc b s : hpc (complete b s) = HIdle /\ flags (complete b s) = flags s /\ queue (complete b s) = queue s /\ tpc (complete b s) = tpc s.
Proof. unfold complete. repeat case_match; done. Qed.
Lemma markless_step pf lb s s' i : step pf lb s = Some s' -> adds_other i lb -> markless i s ->
  markless i s' /\ forall l ids x r, tpc s' = TSpawn l ids x r -> t_id x = i -> tpc s = TSpawn l ids x r \/ t_maxpar x = None.
Proof.
  intros Hs Hlb (H1 & H2 & H3). unfold markless, adds_other in *.
  step_inv Hs; inst_shape; fsimpl; fsimpl_all.
  all: try (split; [split_and!; try done|intros; simplify_eq; auto; fail]).
  all: try (apply Forall_app; split; [done|]; constructor; [|done]; intros ? [|]; simplify_eq; eauto).
  all: repeat match goal with H : queue _ = _ |- _ => rewrite H in H2; clear H end.
  all: try (by apply Forall_cons in H2 as [_ ?]).
  all: try (apply Forall_cons in H2 as [H2 _]; apply H2; by constructor).
  all: try (rewrite lookup_insert_ne; [done|congruence]).
  all: try (by rewrite lookup_delete_None; right).
  all: try (match goal with H : flags _ !! _ = Some _ |- _ => rewrite lookup_insert_ne; [done|]; intros ->; congruence end).
  all: try (match goal with H : hpc _ = _ |- _ => rewrite H in H3 end).
  all: try (rewrite lookup_insert_ne; done).
  all: try (match goal with H : get_next_exec_timestamp _ _ = _ |- _ => apply next_exec_cyl with (c := 0) in H as [H _]; fsimpl; cbn in *; congruence end).
  all: destruct (fl !! i) as [m'|] eqn:Em; [|done]; destruct (Hfl1 i m' Em) as (m & Hm & _); congruence.
Qed.
Lemma limited_task pf t0 t1 s t x : reachable pf t0 t1 s -> submitted t (log s) -> x ∈ held s -> t_uid x = t_uid t -> t_maxpar x = t_maxpar t /\ t_id x = t_id t.
Proof.
  intros Hr Ht Hx Hu. destruct (ci_held s (cnt_reach _ _ _ _ Hr) _ Hx) as (y & Hy & E1 & E2 & _ & E3 & _).
  rewrite (ci_uniq s (cnt_reach _ _ _ _ Hr) t y Ht Hy); [|congruence]. by split.
Qed.
(** What the race leaves behind ends by itself if the task has a parallel limit: without a mark the scheduler drops it when it is due. *)
Theorem C10_limited_ends pf t0 t1 s t mx ls s' : reachable pf t0 t1 s -> submitted t (log s) -> t_maxpar t = Some mx -> markless (t_id t) s ->
  (forall l ids x r, tpc s = TSpawn l ids x r -> t_uid x <> t_uid t) -> Forall (adds_other (t_id t)) ls -> run pf ls s = Some s' ->
  starts (t_uid t) (log s') = starts (t_uid t) (log s).
Proof.
  intros Hr Ht Hmx. revert s Hr Ht. induction ls as [|lb ls IH]; intros s Hr Ht Hm Hsp Hls Hrun; cbn [run] in Hrun; [by simplify_eq|].
  destruct (step pf lb s) as [s1|] eqn:Hs; [|done]. apply Forall_cons in Hls as [Hlb Hls]. destruct (markless_step _ _ _ _ _ Hs Hlb Hm) as [Hm1 Hsp1].
  assert (reachable pf t0 t1 s1) as Hr1 by (by eapply reach_step). assert (submitted t (log s1)) as Ht1 by (by eapply submitted_mono).
  rewrite (IH s1 Hr1 Ht1 Hm1); [|..|done|done].
  - destruct (starts_step _ _ _ _ Hs) as [(l & ids & x & r & Hx & _ & _ & -> & _)|[-> _]]; [|done].
    cbn [starts]. destruct (t_uid x =? t_uid t) eqn:E; [apply N.eqb_eq in E; by eapply Hsp in Hx|done].
  - intros l ids x r Hx Hu. assert (x ∈ held s1) as Hin by (unfold held; rewrite Hx, !elem_of_app; right; right; left; left).
    destruct (limited_task _ _ _ _ _ _ Hr1 Ht1 Hin Hu) as [E1 E2]. destruct (Hsp1 _ _ _ _ Hx E2) as [H|H]; [by eapply Hsp|congruence].
Qed.
Print Assumptions C10_limited_ends.
Example C10_limited_example : exists s t, reachable Debug 100 100 s /\ submitted t (log s) /\ t_maxpar t = Some 2 /\ markless (t_id t) s /\
  (forall l ids x r, tpc s = TSpawn l ids x r -> t_uid x <> t_uid t) /\ starts (t_uid t) (log s) = 1 /\ exists sl x, sits s (t_id t) sl x /\ t_uid x = t_uid t.
Proof.
  set (t := limited 2 (every 1 11 3 100)).
  destruct (scen_sub Debug 100 100 ([Do (LAdd t); Handle; Ticks 4] ++ replicate 8 (Do (LTimer 0 0 104)) ++ [Do (LRemove 11); Handle; Ticks 1]) 0 (LAdd t) t
    (fun s => match hpc s, queue s, flags s !! 11, tpc s, wheel s !! 7 with
      | HIdle, [], None, TCheck _, Some g => (starts 1 (log s) =? 1) && match g !! 11 with Some x => t_uid x =? 1 | None => false end
      | _, _, _, _, _ => false end)) as (s & Hr & Hsub & HP); [reflexivity|auto|vm_compute; reflexivity|].
  destruct (hpc s) eqn:Eh; try discriminate HP. destruct (queue s) as [|? ?] eqn:Eq; [|discriminate HP]. destruct (flags s !! 11) as [m|] eqn:Em; [discriminate HP|].
  destruct (tpc s) eqn:Et; try discriminate HP. destruct (wheel s !! 7) as [g|] eqn:Eg; [|discriminate HP]. apply andb_true_iff in HP as [H1 H2]. apply N.eqb_eq in H1.
  destruct (g !! 11) as [x|] eqn:Ex; [|discriminate H2]. apply N.eqb_eq in H2.
  exists s, t. split; [exact Hr|]. split; [exact Hsub|]. split; [reflexivity|]. split.
  - split; [exact Em|]. rewrite Eq, Eh. split; [constructor|done].
  - rewrite Et. split; [intros; discriminate|]. split; [exact H1|]. exists 7, x. split; [by exists g|exact H2].
Qed.

(* ------------------------------------------------------------------ *)
(** ** C30 API calls take effect in the order they are made *)
(** The full statement.  Events are handled in the order of the calls; an add and then a removal leave nothing behind that would be started;
    a removal and then an add leave nothing behind of what was there. *)
Definition C30_add_then_remove : Prop := forall pf t0 t1 s t e q s1 ls s2, reachable pf t0 t1 s -> hpc s = HIdle -> adds t e -> queue s = e :: ERemove (t_id t) :: q ->
  turns pf 7 s s1 -> run pf ls s1 = Some s2 -> starts (t_uid t) (log s2) = starts (t_uid t) (log s1).
Definition C30_remove_then_add : Prop := forall pf t0 t1 s t e q old s1 ls s2, reachable pf t0 t1 s -> hpc s = HIdle -> adds t e -> queue s = ERemove (t_id t) :: e :: q ->
  old ∈ held s -> old ∉ (queue s ≫= ev_task) -> t_id old = t_id t -> turns pf 7 s s1 -> run pf ls s1 = Some s2 ->
  starts (t_uid old) (log s2) = starts (t_uid old) (log s1).
Definition C30_in_order : Prop := (forall pf t0 t1 s, reachable pf t0 t1 s -> reverse (sends (log s)) = reverse (pops (log s)) ++ queue s) /\ C30_add_then_remove /\ C30_remove_then_add.
(** Both consequences are false: see C10. *)
Definition c30_ticks : list label := ([101; 102; 103; 104] ≫= fun now => replicate 5 (LTimer 0 0 now)) ++ replicate 4 (LTimer 0 0 105).
Theorem C30_add_then_remove_refuted : ~ C30_add_then_remove.
Proof.
  intros H. destruct (scen_sub Debug 100 100 [Do (LAdd (every 1 11 3 100)); Do (LRemove 11)] 0 (LAdd (every 1 11 3 100)) (every 1 11 3 100)
    (fun s => match hpc s, queue s with
      | HIdle, [e; e2] => match e with EAdd t => t_uid t =? 1 | _ => false end && match e2 with ERemove i => i =? 11 | _ => false end &&
          match run Debug (replicate 4 LHandler) s with
          | Some s1 => match run Debug c30_ticks s1 with
            | Some s2 => match run Debug (replicate 3 LHandler) s2 with
              | Some s3 => match play Debug [Ticks 40] s3 with Some s4 => (starts 1 (log s3) =? 0) && (starts 1 (log s4) =? 14) | None => false end
              | None => false end
            | None => false end
          | None => false end
      | _, _ => false end)) as (s & Hr & Hsub & HP); [reflexivity|auto|vm_compute; reflexivity|].
  destruct (hpc s) eqn:Eh; try discriminate HP. destruct (queue s) as [|e [|e2 [|? ?]]] eqn:Eq; try discriminate HP.
  apply andb_true_iff in HP as [HP0 HP]. apply andb_true_iff in HP0 as [HP0 HP1].
  destruct e as [|t| | | | | | | |]; try discriminate HP0. apply N.eqb_eq in HP0.
  destruct e2 as [| | | |i| | | | |]; try discriminate HP1. apply N.eqb_eq in HP1. subst i.
  assert (t = every 1 11 3 100) as -> by (eapply queued_is; [exact Hr|exact Hsub|rewrite Eq; left|by left|exact HP0]).
  destruct (run Debug (replicate 4 LHandler) s) as [s1|] eqn:E1; [|discriminate HP]. destruct (run Debug c30_ticks s1) as [s2|] eqn:E2; [|discriminate HP].
  destruct (run Debug (replicate 3 LHandler) s2) as [s3|] eqn:E3; [|discriminate HP]. destruct (play Debug [Ticks 40] s3) as [s4|] eqn:E4; [|discriminate HP].
  apply andb_true_iff in HP as [HP3 HP4]. apply N.eqb_eq in HP3, HP4. destruct (play_run _ _ _ _ E4) as [l4 Hl4].
  assert (turns Debug 7 s s3) as Ht.
  { apply (turns_app Debug 4 3 s s1 s3); [exact (turns_rep _ _ _ _ E1)|]. refine (turns_before Debug 2 c30_ticks s1 s2 s3 _ E2 (turns_rep _ _ _ _ E3)). repeat constructor. }
  pose proof (H Debug 100 100 s (every 1 11 3 100) (EAdd (every 1 11 3 100)) [] s3 l4 s4 Hr Eh (or_introl eq_refl) Eq Ht Hl4) as Hx.
  change (t_uid (every 1 11 3 100)) with 1 in Hx. rewrite HP3, HP4 in Hx. discriminate Hx.
Qed.
Print Assumptions C30_add_then_remove_refuted.
Theorem C30_remove_then_add_refuted : ~ C30_remove_then_add.
Proof.
  intros H. set (u := every 2 11 1000 104).
  destruct (scen_sub Debug 100 100 ([Do (LAdd (every 1 11 3 100)); Handle; Ticks 4] ++ replicate 4 (Do (LTimer 0 0 104)) ++ [Do (LRemove 11); Do (LAdd u)]) 8 (LAdd u) u
    (fun s => match hpc s, queue s, tpc s with
      | HIdle, [e; e2], TMaint _ _ t => match e with ERemove i => i =? 11 | _ => false end && match e2 with EAdd t => t_uid t =? 2 | _ => false end && (t_uid t =? 1) && (t_id t =? 11) &&
          match run Debug (replicate 7 LHandler) s with
          | Some s1 => match play Debug [Ticks 40] s1 with Some s2 => (starts 1 (log s1) =? 0) && (starts 1 (log s2) =? 14) | None => false end
          | None => false end
      | _, _, _ => false end)) as (s & Hr & Hsub & HP); [reflexivity|auto|vm_compute; reflexivity|].
  destruct (hpc s) eqn:Eh; try discriminate HP. destruct (queue s) as [|e [|e2 [|? ?]]] eqn:Eq; try discriminate HP.
  destruct (tpc s) eqn:Et; try discriminate HP. match type of Et with _ = TMaint _ _ ?x => rename x into t end.
  apply andb_true_iff in HP as [HP0 HP]. apply andb_true_iff in HP0 as [HP0 HP2]. apply andb_true_iff in HP0 as [HP0 HP1]. apply andb_true_iff in HP0 as [HP0 HP3]. apply N.eqb_eq in HP1, HP2.
  destruct e as [| | | |i| | | | |]; try discriminate HP0. apply N.eqb_eq in HP0. subst i.
  destruct e2 as [|t'| | | | | | | |]; try discriminate HP3. apply N.eqb_eq in HP3.
  assert (t' = u) as -> by (eapply queued_is; [exact Hr|exact Hsub|rewrite Eq; right; left|by left|exact HP3]).
  destruct (run Debug _ s) as [s1|] eqn:E1; [|discriminate HP]. destruct (play Debug _ s1) as [s2|] eqn:E2; [|discriminate HP].
  apply andb_true_iff in HP as [HP4 HP5]. apply N.eqb_eq in HP4, HP5. destruct (play_run _ _ _ _ E2) as [l2 Hl2].
  assert (starts (t_uid t) (log s2) = starts (t_uid t) (log s1)) as Hx; [|rewrite HP1, HP4, HP5 in Hx; discriminate Hx].
  refine (H Debug 100 100 s u (EAdd u) [] t s1 l2 s2 Hr Eh (or_introl eq_refl) Eq _ _ HP2 (turns_rep _ _ _ _ E1) Hl2).
  - unfold held. rewrite Et, !elem_of_app. right; right; left. left.
  - rewrite Eq. cbn. intros Hin. apply elem_of_list_singleton in Hin. rewrite Hin in HP1. discriminate HP1.
Qed.
Print Assumptions C30_remove_then_add_refuted.
(** Both are true if the scheduler does not work on a task with this id in the meantime. *)
Theorem C30_add_then_remove_partial pf t0 t1 s t e q s' d x : reachable pf t0 t1 s -> hpc s = HIdle -> adds t e -> queue s = e :: ERemove (t_id t) :: q ->
  get_next_exec_timestamp pf t = Ret (Some d, x) -> d + 2 * SLOTS < U64 -> (forall sl y, ~ holds s (t_id t) sl y) -> ~ processing (t_id t) (tpc s) -> handles pf (t_id t) 7 s s' ->
  hpc s' = HIdle /\ flags s' !! t_id t = None /\ (forall sl y, ~ sits s' (t_id t) sl y) /\
  forall ls s'', run pf ls s' = Some s'' -> starts (t_uid t) (log s'') = starts (t_uid t) (log s').
Proof.
  intros Hr Hh He Hq Hnx Hd Hno Hp Hn.
  destruct (add_upto _ _ _ _ _ _ _ _ _ _ _ _ Hr Hh He eq_refl Hq Hnx Hd Hp Hn) as (a & sl & Hra & Hpa & Ha & Hsl & (m & Hm & Em & _) & Ka & [q1 Qa] & Hna).
  subst sl. destruct (remove_upto _ _ _ _ _ _ _ _ _ Hra Ha Qa Hm Hpa Hsl Hna) as (b & Hrb & Hpb & Hb & Fb & Kb & Qb & Nb & Hnb). inversion Hnb; subst.
  split_and!; try done.
  - intros sl y Hy. apply sits_holds, Kb in Hy as [H1 H2]. apply Ka in H2 as [[? _]|[_ H2]]; [done|]. by eapply Hno.
  - intros ls s'' Hrun. assert (holds a (t_id t) (m_slot m) x) as [c Hc]. { apply Ka. left. split; [done|]. by destruct x. }
    apply Nb in Hc. destruct (next_exec_cyl _ _ _ _ c Hnx) as [_ E]. rewrite E in Hc. by apply (nowhere_run _ _ _ _ _ Hc) in Hrun as [_ ?].
Qed.
Print Assumptions C30_add_then_remove_partial.
Theorem C30_remove_then_add_partial pf t0 t1 s t e q m s' d x : reachable pf t0 t1 s -> hpc s = HIdle -> adds t e -> queue s = ERemove (t_id t) :: e :: q ->
  get_next_exec_timestamp pf t = Ret (Some d, x) -> d + 2 * SLOTS < U64 -> flags s !! t_id t = Some m -> m_slot m < SLOTS ->
  (forall sl y, holds s (t_id t) sl y -> sl = m_slot m) -> ~ processing (t_id t) (tpc s) -> handles pf (t_id t) 7 s s' ->
  hpc s' = HIdle /\ (exists m' y, flags s' !! t_id t = Some m' /\ sits s' (t_id t) (m_slot m') y) /\
  (forall sl y, sits s' (t_id t) sl y -> t_uid y = t_uid t) /\ (forall sl y sl' y', sits s' (t_id t) sl y -> sits s' (t_id t) sl' y' -> sl = sl') /\
  forall old ls s'', sits s (t_id t) (m_slot m) old -> run pf ls s' = Some s'' -> starts (t_uid old) (log s'') = starts (t_uid old) (log s').
Proof.
  intros Hr Hh He Hq Hnx Hd Hm Hsl Hu Hp Hn.
  destruct (remove_upto _ _ _ _ _ _ _ _ _ Hr Hh Hq Hm Hp Hsl Hn) as (a & Hra & Hpa & Ha & Fa & Ka & [q1 Qa] & Na & Hna).
  destruct (add_upto _ _ _ _ _ _ _ _ _ _ _ _ Hra Ha He eq_refl Qa Hnx Hd Hpa Hna) as (b & sl & Hrb & Hpb & Hb & Hsl' & (m' & Hm' & Em & _) & Kb & Qb & Hnb). inversion Hnb; subst.
  assert (forall sl y, sits s' (t_id t) sl y -> sl = m_slot m' /\ y = set_cylinder_line (t_cyl y) x) as Hall.
  { intros sl y Hy. apply sits_holds, Kb in Hy as [[-> Hy]|[_ Hy]]; [done|]. apply Ka in Hy as [H1 H2]. by apply Hu in H2. }
  split_and!; try done.
  - assert (holds s' (t_id t) (m_slot m') x) as [c Hc]. { apply Kb. left. split; [done|]. by destruct x. } by exists m', (set_cylinder_line c x).
  - intros sl y Hy. apply Hall in Hy as [_ ->]. by destruct (next_exec_cyl _ _ _ _ (t_cyl y) Hnx) as [_ ?].
  - intros sl y sl' y' H1 H2. apply Hall in H1 as [-> _], H2 as [-> _]. done.
  - intros old ls s'' Hold Hrun. by apply (nowhere_run _ _ _ _ _ (Na _ Hold)) in Hrun as [_ ?].
Qed.
Print Assumptions C30_remove_then_add_partial.
Definition c30_new : task := every 2 11 1000 107.
Example C30_example : exists s m d x s', reachable Debug 100 100 s /\ hpc s = HIdle /\ queue s = [ERemove 11; EAdd c30_new] /\
  get_next_exec_timestamp Debug c30_new = Ret (Some d, x) /\ d + 2 * SLOTS < U64 /\ flags s !! 11 = Some m /\ m_slot m < SLOTS /\
  (forall sl y, holds s 11 sl y -> sl = m_slot m) /\ ~ processing 11 (tpc s) /\ handles Debug 11 7 s s' /\ exists old, sits s 11 (m_slot m) old.
Proof.
  destruct (scen_sub Debug 100 100 [Do (LAdd (every 1 11 3 100)); Do (LAdd (every 3 12 5 100)); Handle; Ticks 8; Handle; Do (LRemove 11); Do (LAdd c30_new)] 6 (LAdd c30_new) c30_new
    (fun s => match hpc s, queue s, flags s !! 11, tpc s with
      | HIdle, [e; e2], Some m, TCheck _ => match e with ERemove i => i =? 11 | _ => false end && match e2 with EAdd t => t_uid t =? 2 | _ => false end && oneid 11 (m_slot m) (wheel s) && (m_slot m <? SLOTS) &&
          match run Debug (replicate 7 LHandler) s with Some s1 => true | None => false end
      | _, _, _, _ => false end)) as (s & Hr & Hsub & HP); [reflexivity|auto|vm_compute; reflexivity|].
  destruct (hpc s) eqn:Eh; try discriminate HP. destruct (queue s) as [|e [|e2 [|? ?]]] eqn:Eq; try discriminate HP.
  destruct (flags s !! 11) as [m|] eqn:Em; [|discriminate HP]. destruct (tpc s) eqn:Et; try discriminate HP.
  apply andb_true_iff in HP as [HP0 HP]. apply andb_true_iff in HP0 as [HP0 HP2]. apply andb_true_iff in HP0 as [HP0 HP1]. apply andb_true_iff in HP0 as [HP0 HP3]. apply N.ltb_lt in HP2.
  destruct e as [| | | |i| | | | |]; try discriminate HP0. apply N.eqb_eq in HP0. subst i.
  destruct e2 as [|t'| | | | | | | |]; try discriminate HP3. apply N.eqb_eq in HP3.
  assert (t' = c30_new) as -> by (eapply queued_is; [exact Hr|exact Hsub|rewrite Eq; right; left|by left|exact HP3]).
  destruct (oneid_ok _ _ _ _ _ _ Hr HP1) as [[t Ht] Hu]. destruct (run Debug _ s) as [s1|] eqn:E1; [|discriminate HP].
  eexists s, m, _, _, s1. split; [exact Hr|]. split; [exact Eh|]. split; [exact Eq|]. split; [reflexivity|]. split; [reflexivity|].
  split; [exact Em|]. split; [exact HP2|]. split; [exact Hu|]. split; [intros Hx; by rewrite Et in Hx|]. split; [by apply handles_rep|]. by exists t.
Qed.
Example C30_example_add : exists s d x s', reachable Debug 100 100 s /\ hpc s = HIdle /\ queue s = [EAdd (every 1 11 3 100); ERemove 11] /\
  get_next_exec_timestamp Debug (every 1 11 3 100) = Ret (Some d, x) /\ d + 2 * SLOTS < U64 /\
  (forall sl y, ~ holds s 11 sl y) /\ ~ processing 11 (tpc s) /\ handles Debug 11 7 s s'.
Proof.
  destruct (scen_sub Debug 100 100 [Do (LAdd (every 1 11 3 100)); Do (LRemove 11)] 0 (LAdd (every 1 11 3 100)) (every 1 11 3 100)
    (fun s => match hpc s, queue s, tpc s with
      | HIdle, [e; e2], TCheck _ => match e with EAdd t => t_uid t =? 1 | _ => false end && match e2 with ERemove i => i =? 11 | _ => false end && noid 11 (wheel s) &&
          match run Debug (replicate 7 LHandler) s with Some s1 => true | None => false end
      | _, _, _ => false end)) as (s & Hr & Hsub & HP); [reflexivity|auto|vm_compute; reflexivity|].
  destruct (hpc s) eqn:Eh; try discriminate HP. destruct (queue s) as [|e [|e2 [|? ?]]] eqn:Eq; try discriminate HP. destruct (tpc s) eqn:Et; try discriminate HP.
  apply andb_true_iff in HP as [HP0 HP]. apply andb_true_iff in HP0 as [HP0 HP2]. apply andb_true_iff in HP0 as [HP0 HP1].
  destruct e as [|t| | | | | | | |]; try discriminate HP0. apply N.eqb_eq in HP0.
  destruct e2 as [| | | |i| | | | |]; try discriminate HP1. apply N.eqb_eq in HP1. subst i.
  assert (t = every 1 11 3 100) as -> by (eapply queued_is; [exact Hr|exact Hsub|rewrite Eq; left|by left|exact HP0]).
  pose proof (noid_ok _ _ _ _ _ Hr HP2) as Hno. destruct (run Debug _ s) as [s1|] eqn:E1; [|discriminate HP].
  eexists s, _, _, s1. split; [exact Hr|]. split; [exact Eh|]. split; [exact Eq|]. split; [reflexivity|]. split; [reflexivity|].
  split; [exact Hno|]. split; [intros Hx; by rewrite Et in Hx|]. by apply handles_rep.
Qed.
