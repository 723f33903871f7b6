(** Every Task value goes through the due times of its own frequency, one after the other. *)
From Verif Require Import Tactics Inv Own Life Count Quiet Timing Arrival Phase.




Lemma next_iter pf t d t' : get_next_exec_timestamp pf t = Ret (Some d, t') ->
  exists z, iter_next pf (iter_of (t_freq t)) = Ret (Some z, iter_of (t_freq t')) /\ d = as_u64 z.
Proof.
  unfold get_next_exec_timestamp, next_alarm_timestamp, res_bind.
  destruct (t_freq t); cbn [iter_of iter_next].
  1, 2: destruct (cron_step c) as [[z|] c']; intros; simplify_eq; cbn [option_map] in *; simplify_eq; eauto.
  all: destruct (ss_next pf s) as [[x s']|]; intros; simplify_eq; cbn [option_map] in *; simplify_eq; eauto.
Qed.
Lemma down_count_iter pf t t' : down_count_and_set_valid pf t = Ret t' -> iter_of (t_freq t') = iter_of (t_freq t).
Proof.
  unfold down_count_and_set_valid, res_bind, down_count. destruct (t_freq t); cbn.
  1, 3: intros; simplify_eq; done.
  all: unfold res_bind; destruct (sub64 pf n 1); intros; simplify_eq; done.
Qed.

Lemma planned_inst u lg l : Forall inst_obs lg -> planned u (lg ++ l) = planned u l.
Proof. induction 1 as [|[] lg Hx H IH]; try done. Qed.

(** Steps that change the due times of [u] are the two planning steps. *)
Definition plans (pf : profile) (s s' : sys) (t : task) : Prop :=
  exists d t', get_next_exec_timestamp pf t = Ret (Some d, t') /\ (forall u, planned u (log s') = if t_uid t =? u then d :: planned u (log s) else planned u (log s)) /\
  ((exists c h k sl cyl, hpc s = HAdd1 t c h k /\ hpc s' = HAdd2 (set_cylinder_line cyl t') c sl /\ queue s' = queue s /\ wheel s' = wheel s /\ tpc s' = tpc s) \/
   (exists l ids b sl m cyl, tpc s = TPark l ids t b /\ wheel s !! sl = Some m /\ wheel s' = <[sl := slot_add_task m (set_cylinder_line cyl t')]> (wheel s) /\
      tpc_task (tpc s') = [] /\ hpc s' = hpc s /\ queue s' = queue s)).

Definition keeps (s : sys) (t' : task) : Prop :=
  exists t, t ∈ held s /\ t_uid t' = t_uid t /\ iter_of (t_freq t') = iter_of (t_freq t).
Lemma keeps_same s t : t ∈ held s -> keeps s t.
Proof. by exists t. Qed.
Lemma keeps_rest s t : t ∈ rest s -> keeps s t.
Proof. intros. apply keeps_same, elem_held. auto. Qed.
Lemma iter_arrived t : iter_of (t_freq (snd (check_arrived t))) = iter_of (t_freq t).
Proof. unfold check_arrived. case_match; done. Qed.

Lemma plans_step pf lb s s' : step pf lb s = Some s' ->
  (exists t, plans pf s s' t) \/
  ((forall u, planned u (log s') = planned u (log s)) /\
   (forall t', t' ∈ held s' -> is_submit lb s t' \/ keeps s t')).
Proof.
  intros Hs.
  assert ((exists t, plans pf s s' t) \/ (forall u, planned u (log s') = planned u (log s)) /\
    (forall t', t' ∈ hpc_task (hpc s') -> keeps s t') /\ (forall t', t' ∈ tpc_task (tpc s') -> keeps s t') /\
    (forall t', t' ∈ wheel_tasks (wheel s') -> keeps s t')) as [?|(H1 & H2 & H3 & H4)]; [|by left|].
  2: { right. split; [done|]. intros t' Hin. unfold held in Hin. rewrite !elem_of_app in Hin. destruct Hin as [Hin|[?|[?|?]]]; auto.
       destruct (queue_step _ _ _ _ _ Hs Hin) as [?|?]; auto. right. by apply keeps_rest, elem_rest_queue. }
  assert (forall t', t' ∈ hpc_task (hpc s) -> keeps s t') as K1 by (intros; by apply keeps_rest, elem_rest_hpc).
  assert (forall t', t' ∈ tpc_task (tpc s) -> keeps s t') as K2 by (intros; apply keeps_same, elem_held; auto).
  assert (forall t', t' ∈ wheel_tasks (wheel s) -> keeps s t') as K3 by (intros; by apply keeps_rest, elem_rest_wheel).
  assert (forall t', t' ∈ (queue s ≫= ev_task) -> keeps s t') as K4 by (intros; by apply keeps_rest, elem_rest_queue).
  step_inv Hs; inst_shape; fsimpl.
  all: try (right; split; [intros u; rewrite ?planned_inst by done; try reflexivity; repeat case_match; reflexivity|];
    split; [|split]; intros t' Hin; cbn [hpc_task tpc_task] in Hin; auto;
    rewrite ?elem_of_nil, ?elem_of_list_singleton in Hin; try done; subst; auto; fail).
  all: try match goal with Hx : slot_arrival_time_tasks ?g = (_, ?g1) |- _ =>
         assert (g1 = snd (slot_arrival_time_tasks g)) by (by rewrite Hx); subst g1; clear Hx end.
  all: try (left; exists t, n, t0; split; [done|]; split; [intros u; reflexivity|]; first [left; do 5 eexists; repeat split; eassumption || reflexivity | right; do 6 eexists; split; [eassumption|]; split; [eassumption|]; repeat split]; fail).
  all: right; split; [intros u; rewrite ?planned_inst by done; try reflexivity; repeat case_match; reflexivity|].
  all: rewrite ?slot_update_eq; split; [|split]; intros t' Hin; cbn [hpc_task tpc_task] in Hin; auto.
  all: try (apply elem_wheel_insert in Hin as [Hin|Hin]; [|by auto];
    first [apply elem_slot_add in Hin as [->|Hin] | apply elem_slot_delete in Hin | apply elem_slot_arrival in Hin as (t0 & Hin & ->)]).
  all: try (by apply K3; eapply elem_slot_wheel; [|exact Hin]; eassumption).
  all: try (rewrite ?elem_of_nil, ?elem_of_list_singleton in Hin; try done; subst).
  all: try (apply K3, elem_of_wheel_tasks; eauto; fail).
  all: try (apply K1; cbn; constructor; fail).
  all: try (apply K4; cbn; constructor; fail).
  - apply (elem_slot_wheel _ _ _ _ Heqo) in Hin. exists t0. split; [by apply elem_held; right; apply elem_rest_wheel|].
    split; [apply check_arrived_uid|apply iter_arrived].
  - exists t. split; [apply elem_held; left; rewrite Heqt; cbn; constructor|].
    split; [by apply down_count_uid in Heqr|by apply down_count_iter in Heqr].
  - exists t. split; [|done]. apply elem_held; right; apply elem_rest_wheel, elem_of_wheel_tasks. eauto.
Qed.
Lemma others_differ {A B} (f : A -> B) (a b : list A) t t' : NoDup (f <$> (a ++ [t] ++ b)) -> t' ∈ a ++ b -> f t' <> f t.
Proof.
  intros Hn Hin He. cbn [app] in Hn. rewrite <- Permutation_middle in Hn. cbn in Hn. apply NoDup_cons in Hn as [Hn _].
  apply Hn. rewrite <- He. by apply elem_of_list_fmap_1.
Qed.

(** A planning step changes one held Task only. *)
Lemma plans_held pf s s' t : own_inv s -> plans pf s s' t ->
  t ∈ held s /\
  forall t', t' ∈ held s' ->
    (t_uid t' = t_uid t /\ exists d z, iter_next pf (iter_of (t_freq t)) = Ret (Some z, iter_of (t_freq t')) /\ d = as_u64 z /\
       planned (t_uid t) (log s') = d :: planned (t_uid t) (log s)) \/
    (t_uid t' <> t_uid t /\ keeps s t').
Proof.
  intros Hown (d & t1 & Hn & Hpl & Hw).
  assert (t ∈ held s) as Hheld.
  { apply elem_held. destruct Hw as [(c & h & k & sl & cyl & E & _)|(l & ids & b & sl & m & cyl & E & _)]; [right; apply elem_rest_hpc|left]; rewrite E; cbn; constructor. }
  split; [done|]. intros t' Hin.
  apply next_iter in Hn as HH. destruct HH as (z & Hz & ->). apply next_exec_uid in Hn.
  assert (planned (t_uid t) (log s') = as_u64 z :: planned (t_uid t) (log s)) as Hp by (rewrite Hpl; by rewrite N.eqb_refl).
  assert (forall cyl, t' = set_cylinder_line cyl t1 -> t_uid t' = t_uid t /\ exists d z, iter_next pf (iter_of (t_freq t)) = Ret (Some z, iter_of (t_freq t')) /\ d = as_u64 z /\
       planned (t_uid t) (log s') = d :: planned (t_uid t) (log s)) as Hself.
  { intros cyl ->. split; [done|]. exists (as_u64 z), z. done. }
  assert (t' ∈ held s -> t_uid t' <> t_uid t -> t_uid t' <> t_uid t /\ keeps s t') as Hoth.
  { intros Hh Hne. split; [done|by apply keeps_same]. }
  destruct Hown as [Hnd _]. unfold uids, held in Hnd. unfold held in Hin, Hoth.
  destruct Hw as [(c & h & k & sl & cyl & E & E' & Eq & Ew & Et)|(l & ids & b & sl & m & cyl & E & Em & Ew & Et & Eh & Eq)].
  - rewrite E', Eq, Ew, Et in Hin. rewrite E in Hnd, Hoth. cbn [hpc_task] in *. 
    assert (t' = set_cylinder_line cyl t1 \/ t' ∈ (queue s ≫= ev_task) ++ tpc_task (tpc s) ++ wheel_tasks (wheel s)) as [Hs|Hs].
    { rewrite !elem_of_app, elem_of_list_singleton in Hin; rewrite !elem_of_app. tauto. }
    + left. eauto.
    + right. apply Hoth; [|by eapply others_differ]. rewrite !elem_of_app in Hs; rewrite !elem_of_app. tauto.
  - rewrite Et, Eq, Ew, Eh in Hin. rewrite E in Hnd, Hoth. cbn [tpc_task] in *.
    assert (t' = set_cylinder_line cyl t1 \/ t' ∈ ((queue s ≫= ev_task) ++ hpc_task (hpc s)) ++ wheel_tasks (wheel s)) as [Hs|Hs].
    { rewrite !elem_of_app in Hin |- *. destruct Hin as [?|[?|Hin]]; [tauto..|].
      apply elem_wheel_insert in Hin as [Hin|Hin]; [|tauto]. apply elem_slot_add in Hin as [->|Hin]; [by left|].
      right; right. by eapply elem_slot_wheel. }
    + left. eauto.
    + right. apply Hoth; [|rewrite app_assoc in Hnd; by eapply others_differ]. rewrite !elem_of_app in Hs; rewrite !elem_of_app. tauto.
Qed.

Record finv (pf : profile) (s : sys) : Prop := {
  f_new : forall u, u ∉ used s -> planned u (log s) = [];
  f_sub : forall t, submitted t (log s) -> exists i', follows pf (iter_of (t_freq t)) (planned (t_uid t) (log s)) i' /\
            forall t', t' ∈ held s -> t_uid t' = t_uid t -> iter_of (t_freq t') = i'
}.

Lemma finv_step pf lb s s' : own_inv s -> own_inv s' -> cnt_inv s -> finv pf s -> step pf lb s = Some s' -> finv pf s'.
Proof.
  intros Ho Ho' Hc [Hnew Hsub] Hs. pose proof (used_step _ _ _ _ Hs) as Hus.
  assert (forall t t', is_submit lb s t -> t' ∈ held s -> t_uid t' <> t_uid t) as Hfresh.
  { intros t t' (_ & _ & Hu) Ht He. apply Hu. rewrite <- He. apply (proj2 Ho). by apply elem_of_list_fmap_1. }
  destruct (plans_step _ _ _ _ Hs) as [[t Hp]|[Hpl Hk]].
  - destruct (plans_held _ _ _ _ Ho Hp) as [Ht Hh].
    assert (t_uid t ∈ used s) as Hu by (apply (proj2 Ho); by apply elem_of_list_fmap_1).
    destruct Hp as (d & t1 & Hn & Hpl & _). split.
    + intros u Hnu. rewrite Hpl. case (N.eqb_spec (t_uid t) u); [intros <-; set_solver|]. intros _. apply Hnew. set_solver.
    + intros t0 Hs0. destruct (submitted_step _ _ _ _ _ Hs Hs0) as [H0|[H0 _]].
      * destruct (Hsub t0 H0) as (i' & Hf & Hi). destruct (decide (t_uid t0 = t_uid t)) as [He|Hne].
        -- apply next_iter in Hn as (z & Hz & ->). exists (iter_of (t_freq t1)). split.
           ++ rewrite Hpl, He, N.eqb_refl. econstructor; [|exact Hz]. rewrite He in Hf. rewrite (Hi t Ht (eq_sym He)). done.
           ++ intros t' Ht' He'. destruct (Hh t' Ht') as [(_ & d & z' & Hz' & _)|[? _]]; congruence.
        -- exists i'. split; [rewrite Hpl; case (N.eqb_spec (t_uid t) (t_uid t0)); congruence|].
           intros t' Ht' He'. destruct (Hh t' Ht') as [(? & _)|[_ (t2 & Ht2 & E1 & E2)]]; [congruence|].
           rewrite E2. apply Hi; congruence.
      * exists (iter_of (t_freq t0)). split.
        -- rewrite Hpl. case (N.eqb_spec (t_uid t) (t_uid t0)) as [E|E]; [by apply Hfresh in E|].
           rewrite (Hnew (t_uid t0)); [constructor|]. by destruct H0 as (_ & _ & ?).
        -- intros t' Ht' He'. destruct (Hh t' Ht') as [(E & _)|[_ (t2 & Ht2 & E1 & E2)]].
           ++ rewrite E in He'. by apply Hfresh in He'.
           ++ rewrite E1 in He'. by apply Hfresh in He'.
  - split.
    + intros u Hu. rewrite Hpl. apply Hnew. set_solver.
    + intros t0 Hs0. rewrite Hpl. destruct (submitted_step _ _ _ _ _ Hs Hs0) as [H0|[H0 _]].
      * destruct (Hsub t0 H0) as (i' & Hf & Hi). exists i'. split; [done|].
        intros t' Ht' He. destruct (Hk t' Ht') as [(_ & _ & Hu)|(t2 & Ht2 & E1 & E2)].
        -- destruct Hu. rewrite He. by apply (ci_used _ Hc).
        -- rewrite E2. apply Hi; congruence.
      * exists (iter_of (t_freq t0)). rewrite (Hnew (t_uid t0)) by (by destruct H0 as (_ & _ & ?)). split; [constructor|].
        intros t' Ht' He. destruct (Hk t' Ht') as [H1|(t2 & Ht2 & E1 & E2)].
        -- destruct H0 as ([->|[->| ->]] & _), H1 as ([?|[?|?]] & _); congruence.
        -- rewrite E1 in He. by apply Hfresh in He.
Qed.
Lemma finv_init pf n t0 t1 : finv pf (init_n n t0 t1).
Proof. split; [intros u _; reflexivity|]. intros t (e & He & _). cbn [init_n log] in He. apply elem_of_list_singleton in He. done. Qed.
Lemma finv_reach pf t0 t1 s : reachable pf t0 t1 s -> finv pf s.
Proof.
  revert s. apply (reach_ind pf t0 t1 (finv pf)).
  - apply finv_init.
  - intros lb s s' Hr Hf Hs. assert (reachable pf t0 t1 s') by (by eapply reach_step).
    apply (finv_step pf lb s); [by eapply own_reach..|by eapply cnt_reach|done|done].
Qed.
