(** What the other threads do during an operation of the event handler; Task values that are gone. *)
From Verif Require Import Tactics Inv Own Life Count Quiet Timing Cases Frame.

Lemma set_cyl_cyl c c' t : set_cylinder_line c (set_cylinder_line c' t) = set_cylinder_line c t.
Proof. done. Qed.
Lemma set_cyl_id t : set_cylinder_line (t_cyl t) t = t.
Proof. by destruct t. Qed.
Lemma holds_cyl s i sl c t : holds s i sl (set_cylinder_line c t) <-> holds s i sl t.
Proof. done. Qed.
Lemma sits_holds s i sl t : sits s i sl t -> holds s i sl t.
Proof. intros H. exists (t_cyl t). by rewrite set_cyl_id. Qed.
Lemma sits_fun s i sl t t' : sits s i sl t -> sits s i sl t' -> t = t'.
Proof. intros (m & Hm & Ht) (m' & Hm' & Ht'). congruence. Qed.
Lemma holds_empty s i sl : (forall t, ~ holds s i sl t) <-> forall t, ~ sits s i sl t.
Proof. split; [intros H t Ht; eapply H, sits_holds, Ht|intros H t [c Ht]; eapply H, Ht]. Qed.

(** One step of another thread. *)
Lemma other_step pf t0 t1 lb s s' i : reachable pf t0 t1 s -> step pf lb s = Some s' -> not_handler lb -> ~ processing i (tpc s) -> ~ processing i (tpc s') ->
  (forall sl t, holds s' i sl t <-> holds s i sl t) /\ flags s' !! i = flags s !! i /\ hpc s' = hpc s /\ hpub s' = hpub s /\
  exists q, queue s' = queue s ++ q.
Proof.
  intros Hr Hs Hlb Hp Hp'. pose proof (wf_reach _ _ _ _ Hr) as Hwf.
  assert (hpc s' = hpc s /\ hpub s' = hpub s /\ exists q, queue s' = queue s ++ q) as (E1 & E2 & E3).
  { clear Hp Hp'. step_inv Hs; fsimpl; try done; split_and!; try done; eauto using app_nil_r. all: by exists []; rewrite app_nil_r. }
  split; [|split_and!; try done].
  2: { apply (frame_mark pf lb); [done|]. destruct lb; cbn; try tauto; try done. intros (l & ids & sl & upd & Ht). apply Hp. by rewrite Ht. }
  clear E1 E2 E3. intros sl t. unfold holds.
  destruct (match lb with LTimer _ _ _ => true | _ => false end) eqn:Hb.
  2: { assert (wheel s' = wheel s) as -> by (clear Hp Hp'; step_inv Hs; done). done. }
  destruct lb; try done. cbn [step] in Hs. clear Hlb Hb. 
  pose proof (wf_loop s Hwf) as Hl. pose proof (wf_hand s Hwf) as Hh. revert Hp Hp'.
  pc_inv Hs; fsimpl; intros Hp Hp'; try done.
  - (* scan *)
    unfold on. destruct (decide (sl = l_hand l)) as [->|]; [|by rewrite lookup_insert_ne]. rewrite lookup_insert, Heqo.
    assert (g0 = snd (slot_arrival_time_tasks g)) as -> by (by rewrite Heqp). cbn [snd slot_arrival_time_tasks].
    split.
    + intros (c & m & Hm & Hi). simplify_eq. rewrite lookup_fmap in Hi. destruct (g !! i) as [x|] eqn:Ex; [|done]. cbn in Hi. simplify_eq.
      unfold check_arrived in Hi. destruct (t_cyl x =? 0); cbn in Hi.
      * exists c, g. by rewrite <- Hi.
      * exists (t_cyl x), g. split; [done|]. rewrite Ex. f_equal. transitivity (set_cylinder_line (t_cyl x) (set_cylinder_line (t_cyl x - 1) x)); [by destruct x|]. rewrite Hi. done.
    + intros (c & m & Hm & Hi). simplify_eq. destruct (decide (c = 0)) as [->|Hc].
      * exists 0, ((fun t => snd (check_arrived t)) <$> m). split; [done|]. by rewrite lookup_fmap, Hi.
      * exists (c - 1), ((fun t => snd (check_arrived t)) <$> m). split; [done|]. rewrite lookup_fmap, Hi. cbn. unfold check_arrived. cbn [t_cyl set_cylinder_line]. destruct (c =? 0) eqn:E; [lia|]. done.
  - (* taken *)
    cbn [processing] in Hp'. assert (t_id t2 = n0) as Hid by (by eapply (wf_key s Hwf)).
    unfold on. destruct (decide (sl = l_hand l)) as [->|]; [|by rewrite lookup_insert_ne]. rewrite lookup_insert, Heqo0.
    split; intros (c & m & Hm & Hi); simplify_eq; exists c; eexists; (split; [done|]); [rewrite lookup_delete_ne in Hi by done; done|rewrite lookup_delete_ne by done; done].
  - unfold on. destruct (decide (sl = l_hand l)) as [->|]; [|by rewrite lookup_insert_ne]. rewrite lookup_insert, Heqo0. by rewrite delete_notin.
  - (* parked *)
    cbn [processing] in Hp. pose proof (next_exec_id _ _ _ _ Heqr) as (Hid & _).
    match goal with H : wheel s !! (?x mod SLOTS) = Some _ |- _ => rename x into nn, H into Hw end.
    unfold on. destruct (decide (sl = nn mod SLOTS)) as [->|]; [|by rewrite lookup_insert_ne]. rewrite lookup_insert, Hw. unfold slot_add_task.
    split; intros (c & m & Hm & Hi); simplify_eq; exists c; eexists; (split; [done|]).
    + by rewrite lookup_insert_ne in Hi by (cbn; congruence).
    + by rewrite lookup_insert_ne by (cbn; congruence).
Qed.

Lemma meanwhile_run pf i s s' : meanwhile pf i s s' -> exists ls, run pf ls s = Some s' /\ Forall not_handler ls.
Proof. induction 1 as [s|lb s s1 s2 Hlb Hs Hp Hm (ls & H1 & H2)]; [by exists []|]. exists (lb :: ls). cbn [run]. rewrite Hs. auto. Qed.
Lemma run_trans pf l1 l2 s1 s2 s3 : run pf l1 s1 = Some s2 -> run pf l2 s2 = Some s3 -> run pf (l1 ++ l2) s1 = Some s3.
Proof. intros H1 H2. by rewrite run_app, H1. Qed.
Lemma handles_run pf i n s s' : handles pf i n s s' -> exists ls, run pf ls s = Some s'.
Proof.
  induction 1 as [s|n s s1 s2 s' Hm Hs Hh [ls IH]]; [by exists []|]. destruct (meanwhile_run _ _ _ _ Hm) as (l1 & H1 & _).
  exists (l1 ++ LHandler :: ls). eapply run_trans; [done|]. cbn [run]. by rewrite Hs.
Qed.
Lemma reach_run pf t0 t1 s ls s' : reachable pf t0 t1 s -> run pf ls s = Some s' -> reachable pf t0 t1 s'.
Proof. intros [l0 H0] H. exists (l0 ++ ls). eapply run_trans; done. Qed.
Lemma meanwhile_reach pf i t0 t1 s s' : reachable pf t0 t1 s -> meanwhile pf i s s' -> reachable pf t0 t1 s'.
Proof. intros Hr Hm. destruct (meanwhile_run _ _ _ _ Hm) as (ls & H & _). by eapply reach_run. Qed.

Lemma meanwhile_keeps pf t0 t1 s s' i : reachable pf t0 t1 s -> meanwhile pf i s s' -> ~ processing i (tpc s) ->
  (forall sl t, holds s' i sl t <-> holds s i sl t) /\ flags s' !! i = flags s !! i /\ hpc s' = hpc s /\ hpub s' = hpub s /\
  (exists q, queue s' = queue s ++ q) /\ ~ processing i (tpc s') /\ reachable pf t0 t1 s'.
Proof.
  intros Hr Hm. revert Hr. induction Hm as [s|lb s s1 s2 Hlb Hs Hp Hm IH]; intros Hr Hn.
  { split_and!; try done. exists []. by rewrite app_nil_r. }
  destruct (other_step _ _ _ _ _ _ _ Hr Hs Hlb Hn Hp) as (A1 & A2 & A3 & A4 & q1 & A5).
  destruct (IH (reach_step _ _ _ _ _ _ Hr Hs) Hp) as (B1 & B2 & B3 & B4 & (q2 & B5) & B6 & B7).
  split_and!; try congruence.
  - intros sl t. by rewrite B1.
  - exists (q1 ++ q2). by rewrite B5, A5, app_assoc.
Qed.

(** A handler step does not touch the scheduler's place. *)
Lemma handler_tpc pf s s' : step pf LHandler s = Some s' -> tpc s' = tpc s /\ iters s' = iters s /\ hand s' = hand s.
Proof. apply handler_frame. Qed.

(** The value [u] is nowhere in the timer, and was there: it never comes back. *)
Definition nowhere (u : N) (s : sys) : Prop := u ∈ used s /\ u ∉ uids s.
Lemma nowhere_step pf lb s s' u : nowhere u s -> step pf lb s = Some s' -> nowhere u s' /\ starts u (log s') = starts u (log s).
Proof.
  intros [Hu Hn] Hs. split.
  - split; [by apply (used_step _ _ _ _ Hs)|]. destruct (uids_step _ _ _ _ Hs) as [(t & H1 & H2 & H3)|[H1 H2]].
    + rewrite H3, elem_of_cons. intros [->|?]; done.
    + intros Hin. by apply Hn, (elem_of_submseteq _ _ _ Hin H2).
  - destruct (starts_step _ _ _ _ Hs) as [(l & ids & t & r & H1 & H2 & H3 & H4 & _)|[H _]]; [|done].
    rewrite H4. cbn [starts]. destruct (t_uid t =? u) eqn:E; [|lia]. exfalso. apply Hn. apply N.eqb_eq in E as <-.
    rewrite uids_eq, H1, !elem_of_app. right; right; left. cbn [tpc_task fmap list_fmap]. left.
Qed.
Lemma nowhere_run pf ls s s' u : nowhere u s -> run pf ls s = Some s' -> nowhere u s' /\ starts u (log s') = starts u (log s).
Proof.
  revert s. induction ls as [|lb ls IH]; intros s Hn H; cbn [run] in H; [by simplify_eq|].
  destruct (step pf lb s) as [s1|] eqn:Hs; [|done]. destruct (nowhere_step _ _ _ _ _ Hn Hs) as [H1 H2]. destruct (IH _ H1 H) as [H3 H4].
  split; [done|]. by rewrite H4.
Qed.

Lemma iters_step pf lb s s' : step pf lb s = Some s' -> iters s <= iters s'.
Proof. intros Hs. step_inv Hs; inst_shape; repeat case_match; fsimpl; lia. Qed.
Lemma iters_run pf ls s s' : run pf ls s = Some s' -> iters s <= iters s'.
Proof.
  revert s. induction ls as [|lb ls IH]; intros s H; cbn [run] in H; [by simplify_eq|].
  destruct (step pf lb s) as [s1|] eqn:Hs; [|done]. apply iters_step in Hs. apply IH in H. lia.
Qed.
Lemma iters_mw pf i s s' : meanwhile pf i s s' -> iters s <= iters s'.
Proof. intros Hm. destruct (meanwhile_run _ _ _ _ Hm) as (ls & H & _). by eapply iters_run. Qed.
Lemma iters_h pf i n s s' : handles pf i n s s' -> iters s <= iters s'.
Proof. intros Hm. destruct (handles_run _ _ _ _ _ Hm) as (ls & H). by eapply iters_run. Qed.

(** One handler step of an operation: what the other threads left alone, then the step. *)
Lemma handles_inv pf t0 t1 i n s s' : reachable pf t0 t1 s -> ~ processing i (tpc s) -> handles pf i (S n) s s' ->
  exists s1 s2, reachable pf t0 t1 s1 /\ ~ processing i (tpc s1) /\
    (forall sl t, holds s1 i sl t <-> holds s i sl t) /\ flags s1 !! i = flags s !! i /\ hpc s1 = hpc s /\ hpub s1 = hpub s /\
    (exists q, queue s1 = queue s ++ q) /\ iters s <= iters s1 /\ iters s2 = iters s1 /\ hand s2 = hand s1 /\ iters s2 <= iters s' /\
    step pf LHandler s1 = Some s2 /\ reachable pf t0 t1 s2 /\ ~ processing i (tpc s2) /\ tpc s2 = tpc s1 /\ handles pf i n s2 s'.
Proof.
  intros Hr Hp Hh. inversion Hh as [|? ? s1 s2 ? Hm Hs Hn]; subst. exists s1, s2.
  destruct (meanwhile_keeps _ _ _ _ _ _ Hr Hm Hp) as (A1 & A2 & A3 & A4 & A5 & A6 & A7).
  destruct (handler_tpc _ _ _ Hs) as (B1 & B2 & B3). split_and!; try done; try lia.
  - by eapply iters_mw.
  - by eapply iters_h.
  - by eapply reach_step.
  - by rewrite B1.
Qed.

(** Changes of one slot. *)
Lemma holds_del s s' i sl0 m0 : wheel s !! sl0 = Some m0 -> wheel s' = <[sl0 := delete i m0]> (wheel s) ->
  forall sl t, holds s' i sl t <-> sl <> sl0 /\ holds s i sl t.
Proof.
  intros Hw Hw' sl t. unfold holds, on. rewrite Hw'. destruct (decide (sl = sl0)) as [->|].
  - rewrite lookup_insert. split; [|tauto]. intros (c & m & ? & Hm). simplify_eq. by rewrite lookup_delete in Hm.
  - rewrite lookup_insert_ne by done. tauto.
Qed.
Lemma holds_put s s' i sl0 m0 t0 : wheel s !! sl0 = Some m0 -> wheel s' = <[sl0 := <[i := t0]> m0]> (wheel s) ->
  forall sl t, holds s' i sl t <-> (sl = sl0 /\ exists c, t0 = set_cylinder_line c t) \/ (sl <> sl0 /\ holds s i sl t).
Proof.
  intros Hw Hw' sl t. unfold holds, on. rewrite Hw'. destruct (decide (sl = sl0)) as [->|].
  - rewrite lookup_insert. split.
    + intros (c & m & ? & Hm). simplify_eq. rewrite lookup_insert in Hm. simplify_eq. left. eauto.
    + intros [[_ [c ->]]|[? _]]; [|done]. exists c, (<[i := set_cylinder_line c t]> m0). by rewrite lookup_insert.
  - rewrite lookup_insert_ne by done. tauto.
Qed.
Lemma holds_same s s' i : wheel s' = wheel s -> forall sl t, holds s' i sl t <-> holds s i sl t.
Proof. intros E sl t. unfold holds. by rewrite E. Qed.
Lemma like_eq c c' t t' : set_cylinder_line c t = set_cylinder_line c' t' -> t' = set_cylinder_line (t_cyl t') t.
Proof. destruct t, t'; cbn. intros; simplify_eq. done. Qed.
Lemma holds_fun s i sl t t' : holds s i sl t -> holds s i sl t' -> t' = set_cylinder_line (t_cyl t') t.
Proof. intros [c H] [c' H']. pose proof (sits_fun _ _ _ _ _ H H'). by eapply like_eq. Qed.

(** The tasks that users submit are fresh. *)
Lemma submitted_fresh pf t0 t1 s t : reachable pf t0 t1 s -> submitted t (log s) -> fresh_task t = true.
Proof.
  intros Hr. revert s Hr. apply (reach_ind pf t0 t1 (fun s => submitted t (log s) -> fresh_task t = true)).
  - intros (e & He & _). change (log (init t0 t1)) with [OTick 0 t1] in He. apply elem_of_list_singleton in He. discriminate He.
  - intros s lb s' _ IH Hs Hsub. destruct (submitted_step _ _ _ _ _ Hs Hsub) as [?|[(_ & ? & _) _]]; auto.
Qed.
Lemma handles_rep pf i n s s' : run pf (replicate n LHandler) s = Some s' -> handles pf i n s s'.
Proof.
  revert s. induction n as [|n IH]; intros s H; cbn [replicate run] in H; [simplify_eq; apply handles_0|].
  destruct (step pf LHandler s) as [s1|] eqn:Hs; [|done]. eapply handles_S; [apply mw_refl|exact Hs|auto].
Qed.
(** A value that was in the handler's hands, and is not put anywhere, is gone. *)
Lemma uid_dropped s s' t : own_inv s -> t ∈ held s -> used s' = used s -> uids s ≡ₚ t_uid t :: uids s' -> nowhere (t_uid t) s'.
Proof.
  intros [Hnd Hu] Hin Hus Hp. split.
  - rewrite Hus. apply Hu. apply elem_of_list_fmap. eauto.
  - rewrite Hp in Hnd. by apply NoDup_cons in Hnd as [? _].
Qed.
Lemma sits_held s i sl t : sits s i sl t -> t ∈ held s.
Proof. intros (m & ? & ?). unfold held. rewrite !elem_of_app. right; right; right. apply elem_of_wheel_tasks. eauto. Qed.
(** Putting a task where there was one with this id. *)
Lemma uids_wheel_put w sl m k t t' : w !! sl = Some m -> m !! k = Some t ->
  t_uid t :: (t_uid <$> wheel_tasks (<[sl := <[k := t']> m]> w)) ≡ₚ t_uid t' :: (t_uid <$> wheel_tasks w).
Proof.
  intros H Hk. rewrite wheel_tasks_insert, (wheel_tasks_lookup w sl m H), slot_tasks_insert, (slot_tasks_lookup m k t Hk).
  cbn [fmap list_fmap app]. apply Permutation_swap.
Qed.
Lemma perm_swap_in {A} (x y : A) q t w w' : x :: w' ≡ₚ y :: w -> q ++ y :: t ++ w ≡ₚ x :: q ++ t ++ w'.
Proof.
  intros H. transitivity (q ++ t ++ y :: w); [f_equiv; apply Permutation_middle|]. rewrite <- H.
  rewrite !app_assoc. symmetry. apply Permutation_middle.
Qed.
