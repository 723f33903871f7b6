(** The first run of an added task. *)
From Verif Require Import Tactics Inv Own Life Count Quiet Timing Arrival Phase Rearm Sched Lost Clock.



Lemma arrival_ge k n dist : k <= n -> k + 1 + dist <= arrival k n dist.
Proof. unfold arrival, due, gap, SLOTS. lia. Qed.
Lemma arrival_mod k n dist : arrival k n dist mod SLOTS = (k + 1 + dist) mod SLOTS.
Proof. unfold arrival. rewrite due_mod; unfold SLOTS; lia. Qed.
(** On time or one revolution late. *)
Lemma arrival_exact k n dist : k <= n <= k + 1 ->
  arrival k n dist = k + 1 + dist + (if k mod SLOTS + (n - k) <=? (dist + k mod SLOTS + 1) mod SLOTS then 0 else SLOTS).
Proof. unfold arrival, due, gap, SLOTS. case_match; lia. Qed.

Lemma plan_inst u lg l : Forall inst_obs lg -> plan_of u (lg ++ l) = plan_of u l.
Proof. induction 1 as [|[] lg Hx H IH]; try done. Qed.

Definition planned_ok (k g d : N) (i sl cyl : N) : Prop :=
  d + SLOTS < U64 ->
  sl = (add_distance d g i + k mod SLOTS + 1) mod SLOTS /\ cyl = (add_distance d g i + k mod SLOTS + 1) / SLOTS.

Definition plan_inv (s : sys) : Prop :=
  match hpc s with
  | HAdd2 t _ sl => exists k g d, plan_of (t_uid t) (log s) = Some (t_id t, k, g, d) /\ k <= iters s /\
      planned_ok k g d (t_id t) sl (t_cyl t)
  | _ => True
  end.

Definition added_at (o : obs) (r : list obs) : Prop :=
  match o with
  | OAdded u i n sl c => exists k g d, plan_of u r = Some (i, k, g, d) /\ k <= n /\ planned_ok k g d i sl c
  | _ => True
  end.

Lemma added_inst lg l : Forall inst_obs lg -> each added_at l -> each added_at (lg ++ l).
Proof. induction 1 as [|[] lg Hx H IH]; try done; cbn; auto. Qed.

Lemma add_distance_le d g i : d + SLOTS < U64 -> add_distance d g i + SLOTS < U64.
Proof. unfold add_distance, checked_sub, SLOTS, U64. destruct (g <=? d) eqn:E; lia. Qed.

Lemma next_scan_ge s : iters s <= next_scan s.
Proof. unfold next_scan. case_match; lia. Qed.

Lemma plan_step pf lb s s' : wf s -> step pf lb s = Some s' -> plan_inv s -> plan_inv s'.
Proof.
  intros Hwf Hs Hp. pose proof (wf_hpc _ Hwf) as Hh. unfold plan_inv in *.
  step_inv Hs; inst_shape; fsimpl; try exact Hp; try exact I.
  all: try (destruct (hpc s) eqn:E; try exact I; destruct Hp as (k0 & g1 & d1 & H1 & H2 & H3); exists k0, g1, d1; 
    (split; [rewrite ?plan_inst by done; exact H1|split; [try lia; done|done]]); fail).
  - exists k, (gtime s), n. cbn [plan_of]. apply next_exec_id in Heqr as (E1 & E2 & _). cbn [t_uid t_id set_cylinder_line t_cyl]. rewrite E1, E2, N.eqb_refl.
    cbn [wf_handler] in Hh. destruct Hh as [-> Hk]. split; [done|]. split; [done|]. intros Hd.
    pose proof (add_distance_le n (gtime s) (t_id t) Hd) as Hle.
    unfold res_bind, add64 in Heqr0. revert Heqr0. assert (k mod SLOTS < SLOTS) by (unfold SLOTS; lia).
    replace (add_distance n (gtime s) (t_id t) + k mod SLOTS <? U64) with true by (symmetry; apply N.ltb_lt; lia).
    replace (add_distance n (gtime s) (t_id t) + k mod SLOTS + 1 <? U64) with true by (symmetry; apply N.ltb_lt; lia).
    intros; simplify_eq. done.
Qed.

Lemma added_step pf lb s s' : plan_inv s -> step pf lb s = Some s' -> each added_at (log s) -> each added_at (log s').
Proof.
  intros Hp Hs He. unfold plan_inv in Hp.
  step_inv Hs; inst_shape; fsimpl; try assumption; try (apply added_inst; [done|]); cbn [each added_at]; auto.
  all: repeat case_match; cbn [each added_at]; auto.
  all: try (split; [|done]; destruct Hp as (k0 & g1 & d1 & H1 & H2 & H3); exists k0, g1, d1; split; [done|]; split; [|done];
    pose proof (next_scan_ge s); lia).
Qed.

Lemma added_reach pf t0 t1 s : reachable pf t0 t1 s -> plan_inv s /\ each added_at (log s).
Proof.
  revert s. apply (reach_ind pf t0 t1 (fun s => plan_inv s /\ each added_at (log s))).
  - split; [exact I|cbn; auto].
  - intros lb s1 s2 Hr [H1 H2] Hs. split; [eapply plan_step; eauto using wf_reach|by eapply added_step].
Qed.

(** The first run after a task was put on the wheel. *)
Lemma next_run_or_drop u r D l1 : each (ok_at u) (l1 ++ r) -> phase u r = Wait D ->
  match first_run u l1 with
  | Some k => k = D
  | None => phase u (l1 ++ r) = Wait D \/ (phase u (l1 ++ r) = Gone /\ exists i, ODrop u i NoMark ∈ l1)
  end.
Proof.
  intros He Hr. induction l1 as [|o l1 IH]; [by left|].
  cbn [app each] in He. destruct He as [Ho He]. specialize (IH He). cbn [first_run app].
  destruct (first_run u l1) as [k|]; [done|].
  destruct (decide (about u o)) as [Ha|Ha].
  - destruct o; cbn in Ha; try done; subst; cbn [run_it ok_at] in *; rewrite ?N.eqb_refl.
    + specialize (Ho eq_refl). destruct IH as [IH|[IH _]]; congruence.
    + specialize (Ho eq_refl). destruct IH as [IH|[IH _]]; congruence.
    + specialize (Ho eq_refl). destruct IH as [IH|[IH _]]; congruence.
    + specialize (Ho eq_refl). destruct IH as [IH|[IH _]]; congruence.
    + destruct (Ho eq_refl) as (it & ts & ?). destruct IH as [IH|[IH _]]; congruence.
    + destruct w.
      * right. cbn [phase]. rewrite N.eqb_refl. split; [done|]. exists tid. by left.
      * destruct (Ho eq_refl) as [?|(? & ? & ?)]; destruct IH as [IH|[IH _]]; congruence.
  - assert (run_it u o = None) as ->.
    { destruct o; cbn in *; try done; apply N.eqb_neq in Ha; by rewrite Ha. }
    rewrite phase_other by (destruct o; cbn in *; done).
    destruct IH as [?|[? (i & Hi)]]; [by left|right]. split; [done|]. exists i. by right.
Qed.

(** Entries about a Task value carry its id. *)
Definition id_at (t : task) (o : obs) : Prop :=
  match o with
  | OPlan u i _ _ _ | OAdded u i _ _ _ | OLaunch u i _ _ _ | OSkip u i _ _ | OPark u i _ _ _ | OEnd u i | ODrop u i _ => u = t_uid t -> i = t_id t
  | _ => True
  end.
Lemma id_inst t lg : Forall inst_obs lg -> Forall (id_at t) lg.
Proof. induction 1 as [|[] lg Hx H IH]; constructor; try done. Qed.
Lemma id_step pf lb s s' t : cnt_inv s -> uniq t (log s) -> step pf lb s = Some s' -> Forall (id_at t) (log s) -> Forall (id_at t) (log s').
Proof.
  intros Hc Hu Hs He.
  assert (forall t', t' ∈ held s -> t_uid t' = t_uid t -> t_id t' = t_id t) as Hid.
  { intros t' Hin E. destruct (ci_held s Hc t' Hin) as (t2 & H2 & E2 & E3 & _). by rewrite <- (Hu t2 H2 ltac:(congruence)). }
  assert (forall t', t' ∈ tpc_task (tpc s) -> t' ∈ held s) as K1 by (intros; by apply in_tpc).
  assert (forall t', t' ∈ hpc_task (hpc s) -> t' ∈ held s) as K2 by (intros; by apply in_coming, coming_hpc).
  clear Hc Hu.
  step_inv Hs; inst_shape; fsimpl; try assumption; try (apply Forall_app; split; [by apply id_inst|]).
  all: repeat case_match; repeat apply Forall_cons_2; try done.
  all: cbn [id_at]; intros E; apply Hid; try done; first [apply K1; cbn; apply elem_of_list_here|apply K2; cbn; apply elem_of_list_here].
Qed.
Lemma id_reach pf t0 t1 s t : reachable pf t0 t1 s -> submitted t (log s) -> Forall (id_at t) (log s).
Proof.
  intros Hr Hs. pose proof (submitted_uniq _ _ _ _ _ Hr Hs) as Hu. clear Hs.
  revert s Hr Hu. apply (reach_ind pf t0 t1 (fun s => uniq t (log s) -> Forall (id_at t) (log s))).
  - intros _. by repeat constructor.
  - intros lb s1 s2 Hr IH Hs Hu. pose proof (uniq_anti _ _ _ _ _ Hs Hu).
    eapply id_step; eauto using cnt_reach.
Qed.

Theorem first_run_at pf t0 t1 s t l1 l2 i n sl c :
  reachable pf t0 t1 s -> submitted t (log s) -> quiet t (log s) -> near (t_uid t) (log s) ->
  log s = l1 ++ OAdded (t_uid t) i n sl c :: l2 ->
  exists k g d, plan_of (t_uid t) l2 = Some (t_id t, k, g, d) /\ k <= n /\
  (d + SLOTS < U64 ->
   match first_run (t_uid t) l1 with
   | Some x => x = arrival k n (add_distance d g (t_id t))
   | None => iters s <= arrival k n (add_distance d g (t_id t)) \/ exists i, ODrop (t_uid t) i NoMark ∈ l1
   end).
Proof.
  intros Hr Hs Hq Hn El. pose proof (only_quiet s t (cnt_reach _ _ _ _ Hr) Hs Hq) as Ho.
  pose proof (ok_at_reach _ _ _ _ _ Hr Hs Hq Hn) as Hok. pose proof (tinv_only _ _ _ _ _ Hr Ho Hn) as Hti.
  pose proof (proj2 (added_reach _ _ _ _ Hr)) as Had. pose proof (id_reach _ _ _ _ _ Hr Hs) as Hid.
  rewrite El in Had, Hok, Hid. apply (each_split _ l1) in Had. destruct Had as (k & g & d & Hp & Hk & Hpl).
  apply Forall_app in Hid as [_ Hid]. apply Forall_cons in Hid as [Hid _]. cbn in Hid. rewrite (Hid eq_refl) in *.
  exists k, g, d. split; [done|]. split; [done|]. intros Hd. destruct (Hpl Hd) as [-> ->].
  assert (phase (t_uid t) (OAdded (t_uid t) (t_id t) n ((add_distance d g (t_id t) + k mod SLOTS + 1) mod SLOTS) ((add_distance d g (t_id t) + k mod SLOTS + 1) / SLOTS) :: l2)
    = Wait (arrival k n (add_distance d g (t_id t)))) as Hw.
  { cbn [phase]. by rewrite N.eqb_refl. }
  pose proof (next_run_or_drop _ _ _ l1 Hok Hw) as Hx.
  destruct (first_run (t_uid t) l1) as [x|]; [done|].
  destruct Hx as [Hx|[_ Hx]]; [left|by right].
  apply (ti_le _ _ _ Hti). rewrite expect_phase, El, Hx. done.
Qed.
