(** How Task values change from step to step; which were submitted. *)
From Verif Require Import Tactics Inv Own.



(** What never changes in a Task but by count down. *)
Definition core (t t' : task) : Prop :=
  t_uid t' = t_uid t /\ t_id t' = t_id t /\ t_maxrun t' = t_maxrun t /\ t_maxpar t' = t_maxpar t /\
  t_valid t' = t_valid t /\ count (t_freq t') = count (t_freq t).

Lemma core_refl t : core t t.
Proof. done. Qed.
Lemma core_cyl c t : core t (set_cylinder_line c t).
Proof. done. Qed.
Lemma core_trans t1 t2 t3 : core t1 t2 -> core t2 t3 -> core t1 t3.
Proof. unfold core. intros (?&?&?&?&?&?) (?&?&?&?&?&?). repeat split; congruence. Qed.
Lemma core_arrived t : core t (snd (check_arrived t)).
Proof. unfold check_arrived. case_match; done. Qed.
Lemma next_alarm_count pf f o f' : next_alarm_timestamp pf f = Ret (o, f') -> count f' = count f.
Proof.
  unfold next_alarm_timestamp, res_bind. intros H. repeat case_match; simplify_eq; done.
Qed.
Lemma core_next pf t o t' : get_next_exec_timestamp pf t = Ret (o, t') -> core t t'.
Proof.
  unfold get_next_exec_timestamp, res_bind. destruct (next_alarm_timestamp pf (t_freq t)) as [[o1 f]|] eqn:E; [|done].
  intros; simplify_eq. apply next_alarm_count in E. done.
Qed.

(** The Task values held anywhere but in the scheduler's hands. *)
Definition rest (s : sys) : list task := (queue s ≫= ev_task) ++ hpc_task (hpc s) ++ wheel_tasks (wheel s).

Lemma held_rest s : held s ≡ₚ tpc_task (tpc s) ++ rest s.
Proof. unfold held, rest. solve_Permutation. Qed.
Lemma elem_held s t : t ∈ held s <-> t ∈ tpc_task (tpc s) \/ t ∈ rest s.
Proof. by rewrite held_rest, elem_of_app. Qed.

Lemma rest_uid s t t2 : own_inv s -> t ∈ rest s -> t2 ∈ tpc_task (tpc s) -> t_uid t <> t_uid t2.
Proof.
  intros [Hn _] Ht Ht2 He. unfold uids in Hn. rewrite held_rest, fmap_app in Hn.
  apply NoDup_app in Hn as (_ & Hn & _).
  apply (Hn (t_uid t2)); [by apply elem_of_list_fmap_1|]. rewrite <- He. by apply elem_of_list_fmap_1.
Qed.

Lemma held_inj s t t2 : own_inv s -> t ∈ held s -> t2 ∈ held s -> t_uid t = t_uid t2 -> t = t2.
Proof.
  intros [Hn _]. unfold uids in Hn. induction (held s) as [|x l IH]; [by intros ?%elem_of_nil|].
  cbn in Hn. apply NoDup_cons in Hn as [Hx Hn].
  intros [->|H1]%elem_of_cons [->|H2]%elem_of_cons He; auto.
  - destruct Hx. rewrite He. by apply elem_of_list_fmap_1.
  - destruct Hx. rewrite <- He. by apply elem_of_list_fmap_1.
Qed.

Lemma elem_wheel_insert t w sl m : t ∈ wheel_tasks (<[sl := m]> w) -> t ∈ slot_tasks m \/ t ∈ wheel_tasks w.
Proof.
  rewrite !elem_of_wheel_tasks, elem_of_slot_tasks. intros (i & m' & k & Hi & Hk).
  destruct (decide (i = sl)) as [->|]; [rewrite lookup_insert in Hi|rewrite lookup_insert_ne in Hi by done];
    naive_solver.
Qed.
Lemma elem_slot_wheel t w sl m : w !! sl = Some m -> t ∈ slot_tasks m -> t ∈ wheel_tasks w.
Proof. rewrite elem_of_wheel_tasks, elem_of_slot_tasks. naive_solver. Qed.
Lemma elem_slot_add t m t' : t' ∈ slot_tasks (slot_add_task m t) -> t' = t \/ t' ∈ slot_tasks m.
Proof.
  unfold slot_add_task. rewrite !elem_of_slot_tasks. intros (k & Hk).
  destruct (decide (k = t_id t)) as [->|]; [rewrite lookup_insert in Hk|rewrite lookup_insert_ne in Hk by done];
    naive_solver.
Qed.
Lemma elem_slot_delete t m k : t ∈ slot_tasks (delete k m) -> t ∈ slot_tasks m.
Proof. rewrite !elem_of_slot_tasks. intros (j & Hj). apply lookup_delete_Some in Hj. naive_solver. Qed.
Lemma elem_slot_arrival t m : t ∈ slot_tasks (snd (slot_arrival_time_tasks m)) ->
  exists t0, t0 ∈ slot_tasks m /\ t = snd (check_arrived t0).
Proof. rewrite elem_of_slot_tasks. intros (k & Hk). apply slot_arrival_lookup in Hk as (t0 & H1 & ->).
  exists t0. rewrite elem_of_slot_tasks. eauto. Qed.

(** Where a task of the next state comes from. *)
Definition from (pf : profile) (lb : label) (s s' : sys) (t' : task) : Prop :=
  (exists t, t ∈ rest s /\ core t t') \/
  (exists t, tpc_task (tpc s) = [t] /\ core t t' /\ forall l ids r, tpc s = TGate l ids t r -> tpc s' = tpc s) \/
  (exists l ids t r, tpc s = TGate l ids t r /\ tpc s' = TPark l ids t' true /\
     down_count_and_set_valid pf t = Ret t' /\ t_valid t' = true) \/
  ((lb = LAdd t' \/ lb = LInsert t' \/ lb = LUpdate t') /\ fresh_task t' = true /\ t_uid t' ∉ used s).

Lemma elem_rest_wheel s t : t ∈ wheel_tasks (wheel s) -> t ∈ rest s.
Proof. unfold rest. rewrite !elem_of_app. auto. Qed.
Lemma elem_rest_hpc s t : t ∈ hpc_task (hpc s) -> t ∈ rest s.
Proof. unfold rest. rewrite !elem_of_app. auto. Qed.
Lemma elem_rest_queue s t : t ∈ (queue s ≫= ev_task) -> t ∈ rest s.
Proof. unfold rest. rewrite !elem_of_app. auto. Qed.

Lemma rest_from pf lb s s' t t' : t ∈ rest s -> core t t' -> from pf lb s s' t'.
Proof. left. eauto. Qed.

Definition is_submit (lb : label) (s : sys) (t : task) : Prop :=
  (lb = LAdd t \/ lb = LInsert t \/ lb = LUpdate t) /\ fresh_task t = true /\ t_uid t ∉ used s.

Lemma queue_step pf lb s s' t' : step pf lb s = Some s' -> t' ∈ (queue s' ≫= ev_task) ->
  t' ∈ (queue s ≫= ev_task) \/ is_submit lb s t'.
Proof.
  intros H. step_inv H; inst_shape; fsimpl.
  all: try (by left).
  all: rewrite ?bind_app; cbn [mbind list_bind ev_task app]; rewrite ?app_nil_r; try (by left).
  1-3: rewrite elem_of_app, elem_of_list_singleton; intros [?| ->]; [by left|right];
    apply andb_prop in Heqb as [Hf Hb]; apply negb_true_iff, bool_decide_eq_false in Hb; split; auto.

  all: intros Hin; left; by right.
Qed.

Lemma hpc_step pf lb s s' t' : step pf lb s = Some s' -> t' ∈ hpc_task (hpc s') ->
  exists t, t ∈ rest s /\ core t t'.
Proof.
  intros H. step_inv H; inst_shape; fsimpl.
  all: try (by intros Hin; exists t'; split; [apply elem_rest_hpc|]).
  all: cbn [hpc_task]; rewrite ?elem_of_nil, ?elem_of_list_singleton; try done; intros ->.
  1-3: exists t; split; [apply elem_rest_queue; match goal with H : queue _ = _ |- _ => rewrite H end; cbn; constructor|done].
  - exists t. split; [apply elem_rest_hpc; rewrite Heqh; cbn; constructor|].
    apply core_next in Heqr. done.
  - eexists. split; [apply elem_rest_wheel, elem_of_wheel_tasks; eauto|done].
  - exists t. split; [apply elem_rest_hpc; rewrite Heqh; cbn; constructor|done].
Qed.

Lemma tpc_step pf lb s s' t' : step pf lb s = Some s' -> t' ∈ tpc_task (tpc s') -> from pf lb s s' t'.
Proof.
  intros H. step_inv H; inst_shape; fsimpl.
  all: try (by intros Hin; right; left; exists t'; split; [by destruct (tpc s); cbn in Hin |- *; rewrite ?elem_of_nil, ?elem_of_list_singleton in Hin; try done; subst|]).
  all: cbn [tpc_task]; rewrite ?elem_of_nil, ?elem_of_list_singleton; try done; intros ->.
  all: try (by right; left; exists t; rewrite Heqt; split; [done|split; [done|intros; simplify_eq]]).
  - left. eexists. split; [apply elem_rest_wheel, elem_of_wheel_tasks; eauto|done].
  - right; right; left. rewrite Heqt. eauto 10.
Qed.

Lemma wheel_step pf lb s s' t' : step pf lb s = Some s' -> t' ∈ wheel_tasks (wheel s') ->
  (exists t, t ∈ rest s /\ core t t') \/
  (exists l ids t upd, tpc s = TPark l ids t upd /\ core t t').
Proof.
  intros H. step_inv H; inst_shape; fsimpl.
  all: try (by intros Hin; left; exists t'; split; [apply elem_rest_wheel|]).
  all: try match goal with Hx : slot_arrival_time_tasks ?g = (_, ?g1) |- _ =>
         assert (g1 = snd (slot_arrival_time_tasks g)) by (by rewrite Hx); subst g1; clear Hx end.
  all: rewrite ?slot_update_eq; intros [Hin|Hin]%elem_wheel_insert; [|by left; exists t'; split; [apply elem_rest_wheel|]].
  all: first [apply elem_slot_add in Hin as [->|Hin] | apply elem_slot_delete in Hin | apply elem_slot_arrival in Hin as (t0 & Hin & ->)];
    try (left; eexists; split; [eapply elem_rest_wheel, elem_slot_wheel; [|exact Hin]; eassumption|auto using core_arrived, core_refl]; fail).
  - right. apply core_next in Heqr. eauto 10.
  - left. exists t. split; [apply elem_rest_hpc; rewrite Heqh; cbn; constructor|done].
  - left. exists t. split; [apply elem_rest_hpc; rewrite Heqh; cbn; constructor|done].
  - left. exists t. split; [apply elem_rest_hpc; rewrite Heqh; cbn; constructor|done].
Qed.

Lemma held_step pf lb s s' t' : step pf lb s = Some s' -> t' ∈ held s' -> from pf lb s s' t'.
Proof.
  intros H. unfold held. rewrite !elem_of_app. intros [Hin|[Hin|[Hin|Hin]]].
  - destruct (queue_step _ _ _ _ _ H Hin) as [?|?].
    + left. eauto using elem_rest_queue, core_refl.
    + right; right; right. done.
  - left. eauto using hpc_step.
  - eauto using tpc_step.
  - destruct (wheel_step _ _ _ _ _ H Hin) as [?|(l & ids & t & upd & Hp & Hc)]; [by left|].
    right; left. exists t. rewrite Hp. split; [done|split; [done|intros; simplify_eq]].
Qed.
