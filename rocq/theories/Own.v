(** Ownership: where Task values are. *)
From Verif Require Import Tactics Inv.



(* ------------------------------------------------------------------ *)

Lemma slot_tasks_insert m k t : slot_tasks (<[k := t]> m) ≡ₚ t :: slot_tasks (delete k m).
Proof.
  unfold slot_tasks. rewrite <- insert_delete_insert.
  rewrite map_to_list_insert by apply lookup_delete. done.
Qed.
Lemma slot_tasks_lookup m k t : m !! k = Some t -> slot_tasks m ≡ₚ t :: slot_tasks (delete k m).
Proof. intros H. unfold slot_tasks. by rewrite <- (map_to_list_delete m k t H). Qed.
Lemma slot_tasks_delete m k : slot_tasks (delete k m) ⊆+ slot_tasks m.
Proof.
  destruct (m !! k) as [t|] eqn:H.
  - rewrite (slot_tasks_lookup m k t H). by apply submseteq_cons.
  - by rewrite delete_notin.
Qed.
Lemma slot_tasks_fmap f m : slot_tasks (f <$> m) ≡ₚ f <$> slot_tasks m.
Proof.
  unfold slot_tasks. rewrite map_to_list_fmap. rewrite <- !list_fmap_compose.
  erewrite list_fmap_ext; [reflexivity|]. intros i [k t]; done.
Qed.
Lemma elem_of_slot_tasks m t : t ∈ slot_tasks m <-> exists k, m !! k = Some t.
Proof.
  unfold slot_tasks. rewrite elem_of_list_fmap. split.
  - intros ([k t'] & -> & H). apply elem_of_map_to_list in H. eauto.
  - intros (k & H). exists (k, t). split; [done|]. by apply elem_of_map_to_list.
Qed.

Lemma wheel_tasks_insert w sl m : wheel_tasks (<[sl := m]> w) ≡ₚ slot_tasks m ++ wheel_tasks (delete sl w).
Proof.
  unfold wheel_tasks. rewrite <- insert_delete_insert.
  rewrite map_to_list_insert by apply lookup_delete. done.
Qed.
Lemma wheel_tasks_lookup w sl m : w !! sl = Some m -> wheel_tasks w ≡ₚ slot_tasks m ++ wheel_tasks (delete sl w).
Proof. intros H. unfold wheel_tasks. rewrite <- (map_to_list_delete w sl m H). done. Qed.
Lemma elem_of_wheel_tasks w t : t ∈ wheel_tasks w <-> exists sl m k, w !! sl = Some m /\ m !! k = Some t.
Proof.
  unfold wheel_tasks. rewrite elem_of_list_bind. split.
  - intros (m & Ht & Hm). apply elem_of_slot_tasks in Ht as [k Hk].
    apply elem_of_list_fmap in Hm as ([sl m'] & -> & H). apply elem_of_map_to_list in H. eauto.
  - intros (sl & m & k & Hw & Hm). exists m. split; [apply elem_of_slot_tasks; eauto|].
    apply elem_of_list_fmap. exists (sl, m). split; [done|]. by apply elem_of_map_to_list.
Qed.

Lemma slot_arrival_tasks m : slot_tasks (snd (slot_arrival_time_tasks m)) ≡ₚ (fun t => snd (check_arrived t)) <$> slot_tasks m.
Proof. apply slot_tasks_fmap. Qed.

Lemma check_arrived_uid t : t_uid (snd (check_arrived t)) = t_uid t.
Proof. unfold check_arrived. case_match; done. Qed.

Lemma uids_arrival m : t_uid <$> slot_tasks (snd (slot_arrival_time_tasks m)) ≡ₚ t_uid <$> slot_tasks m.
Proof.
  rewrite slot_arrival_tasks. rewrite <- list_fmap_compose.
  erewrite list_fmap_ext; [reflexivity|]. intros i t _. apply check_arrived_uid.
Qed.

(** uids on the wheel after an update of one slot *)
Lemma uids_wheel_add w sl m t : w !! sl = Some m ->
  t_uid <$> wheel_tasks (<[sl := slot_add_task m t]> w) ⊆+ t_uid t :: (t_uid <$> wheel_tasks w).
Proof.
  intros H. rewrite wheel_tasks_insert, (wheel_tasks_lookup w sl m H).
  unfold slot_add_task. rewrite slot_tasks_insert. rewrite !fmap_app. cbn.
  apply submseteq_skip, submseteq_app; [|done].
  apply fmap_submseteq, slot_tasks_delete.
Qed.
Lemma uids_wheel_remove w sl m k t : w !! sl = Some m -> m !! k = Some t ->
  t_uid t :: (t_uid <$> wheel_tasks (<[sl := delete k m]> w)) ≡ₚ t_uid <$> wheel_tasks w.
Proof.
  intros H Hk. rewrite wheel_tasks_insert, (wheel_tasks_lookup w sl m H).
  rewrite (slot_tasks_lookup m k t Hk). done.
Qed.
Lemma uids_wheel_delete w sl m k : w !! sl = Some m ->
  t_uid <$> wheel_tasks (<[sl := delete k m]> w) ⊆+ t_uid <$> wheel_tasks w.
Proof.
  intros H. rewrite wheel_tasks_insert, (wheel_tasks_lookup w sl m H).
  apply fmap_submseteq, submseteq_app; [apply slot_tasks_delete|done].
Qed.
Lemma uids_wheel_scan w sl m : w !! sl = Some m ->
  t_uid <$> wheel_tasks (<[sl := snd (slot_arrival_time_tasks m)]> w) ≡ₚ t_uid <$> wheel_tasks w.
Proof.
  intros H. rewrite wheel_tasks_insert, (wheel_tasks_lookup w sl m H).
  rewrite !fmap_app. by rewrite uids_arrival.
Qed.

Definition uids (s : sys) : list N := t_uid <$> held s.

Lemma uids_eq s : uids s = (t_uid <$> (queue s ≫= ev_task)) ++ (t_uid <$> hpc_task (hpc s)) ++
   (t_uid <$> tpc_task (tpc s)) ++ (t_uid <$> wheel_tasks (wheel s)).
Proof. unfold uids, held. by rewrite !fmap_app. Qed.

Lemma next_exec_uid pf t o t' : get_next_exec_timestamp pf t = Ret (o, t') -> t_uid t' = t_uid t.
Proof. intros H. by apply next_exec_id in H as (_ & ? & _). Qed.
Lemma down_count_uid pf t t' : down_count_and_set_valid pf t = Ret t' -> t_uid t' = t_uid t.
Proof. unfold down_count_and_set_valid, res_bind. case_match; [|done]. intros; by simplify_eq. Qed.

Lemma sub4 (a b c d d' : list N) : d ⊆+ d' -> a ++ b ++ c ++ d ⊆+ a ++ b ++ c ++ d'.
Proof. intros. by repeat apply submseteq_app. Qed.

Ltac wheel_uids :=
  repeat match goal with
  | Hx : slot_arrival_time_tasks ?g = (_, ?g1) |- _ =>
      assert (g1 = snd (slot_arrival_time_tasks g)) by (by rewrite Hx); subst g1; clear Hx
  | Hw : wheel ?s !! ?sl = Some ?g |- context [wheel_tasks (<[?sl := snd (slot_arrival_time_tasks ?g)]> (wheel ?s))] =>
      rewrite (uids_wheel_scan _ _ _ Hw)
  | Hw : wheel ?s !! ?sl = Some ?g, Hk : ?g !! ?k = Some ?t |-
      context [wheel_tasks (<[?sl := delete ?k ?g]> (wheel ?s))] =>
      rewrite <- (uids_wheel_remove _ _ _ _ _ Hw Hk); clear Hw
  | Hw : wheel ?s !! ?sl = Some ?g |- context [wheel_tasks (<[?sl := delete ?k ?g]> (wheel ?s))] =>
      etransitivity; [apply sub4, (uids_wheel_delete _ _ _ k Hw)|]
  | Hw : wheel ?s !! ?sl = Some ?g |- context [wheel_tasks (<[?sl := slot_add_task ?g ?t]> (wheel ?s))] =>
      etransitivity; [apply sub4, (uids_wheel_add _ _ _ t Hw)|]
  | H : get_next_exec_timestamp _ _ = Ret (_, _) |- _ => apply next_exec_uid in H
  | H : down_count_and_set_valid _ _ = Ret _ |- _ => apply down_count_uid in H
  end.

Lemma uids_step pf lb s s' : step pf lb s = Some s' ->
  (exists t, used s' = {[t_uid t]} ∪ used s /\ t_uid t ∉ used s /\ uids s' ≡ₚ t_uid t :: uids s) \/
  (used s' = used s /\ uids s' ⊆+ uids s).
Proof.
  intros H. rewrite !uids_eq.
  step_inv H; inst_shape; fsimpl.
  1-3: left; exists t; split; [done|]; apply andb_prop in Heqb as [_ Hb];
    apply negb_true_iff, bool_decide_eq_false in Hb; split; [done|];
    rewrite bind_app; cbn [mbind list_bind ev_task app]; rewrite fmap_app; cbn [fmap list_fmap];
    rewrite <- !app_assoc; cbn [app]; by rewrite <- Permutation_middle.
  all: right; split; [reflexivity|]; rewrite ?bind_app; cbn [mbind list_bind ev_task app]; rewrite ?app_nil_r;
    try reflexivity.
  all: rewrite ?slot_update_eq; wheel_uids; cbn [hpc_task tpc_task fmap list_fmap app t_uid clear_cylinder_line set_cylinder_line];
    try (match goal with H : t_uid _ = t_uid _ |- _ => rewrite H end);
    try solve_submseteq.
Qed.

(** ** C42: a submitted task is in one place *)

Definition own_inv (s : sys) : Prop := NoDup (uids s) /\ forall u, u ∈ uids s -> u ∈ used s.

Lemma own_step pf lb s s' : own_inv s -> step pf lb s = Some s' -> own_inv s'.
Proof.
  intros [Hn Hu] H. apply uids_step in H as [(t & Hus & Hnew & Hp)|[Hus Hp]].
  - split.
    + rewrite Hp. constructor; [|done]. intros Hin. by apply Hnew, Hu.
    + intros u. rewrite Hp, Hus. rewrite elem_of_cons. set_solver.
  - split.
    + apply submseteq_Permutation in Hp as [k Hp]. rewrite Hp in Hn. by apply NoDup_app in Hn as [? _].
    + intros u Hin. rewrite Hus. apply Hu. eapply elem_of_submseteq; eauto.
Qed.

Lemma init_uids n t0 t1 : uids (init_n n t0 t1) = [].
Proof.
  destruct (uids (init_n n t0 t1)) as [|u l] eqn:E; [done|exfalso].
  assert (u ∈ uids (init_n n t0 t1)) as Hu by (rewrite E; constructor). clear E.
  unfold uids, held, init_n in Hu. cbn [queue hpc tpc wheel mbind list_bind hpc_task tpc_task app] in Hu.
  apply elem_of_list_fmap in Hu as (t & _ & Ht). apply elem_of_wheel_tasks in Ht as (sl & m & k & Hw & Hm).
  rewrite init_wheel_lookup in Hw. case_bool_decide; simplify_eq.
Qed.

Lemma own_reach pf t0 t1 s : reachable pf t0 t1 s -> own_inv s.
Proof.
  apply reach_ind; eauto using own_step.
  unfold own_inv, init. rewrite init_uids. split; [constructor|]. intros u Hu. by apply elem_of_nil in Hu.
Qed.
