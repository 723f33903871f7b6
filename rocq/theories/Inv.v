(** Structural invariant of reachable states. *)
From Verif Require Import Tactics.

Definition loop_of (p : timer_pc) : option loop :=
  match p with
  | TCheck l | TStore l | TScan l | TLoop l _ | TMaint l _ _ | TSpawn l _ _ _
  | TSend l _ _ _ _ | TGate l _ _ _ | TPark l _ _ _ | TMark l _ _ _ _ | TLapse l => Some l
  | TStopped | TDead => None
  end.

Definition wf_handler (k : N) (p : handler_pc) : Prop :=
  match p with
  | HAdd1 _ _ h k1 => h = k1 mod SLOTS /\ k1 <= k
  | HAdd2 _ _ sl | HAdd3 _ _ sl | HUpd _ sl | HAdv1 _ sl | HRem1 _ sl => sl < SLOTS
  | HAdv3 _ sl => sl <= SLOTS
  | _ => True
  end.

Definition wf_timer (p : timer_pc) : Prop :=
  match p with TMark _ _ _ sl _ => sl < SLOTS | _ => True end.

Record wf (s : sys) : Prop := {
  wf_hand : hand s = iters s mod SLOTS;
  wf_loop : forall l, loop_of (tpc s) = Some l ->
      l_hand l = hand s /\ l_next l = (hand s + 1) mod SLOTS;
  wf_wheel : forall i, is_Some (wheel s !! i) <-> i < SLOTS;
  wf_key : forall i m k t, wheel s !! i = Some m -> m !! k = Some t -> t_id t = k;
  wf_flag : forall k m, flags s !! k = Some m -> m_id m = k /\ m_slot m < SLOTS;
  wf_hpc : wf_handler (iters s) (hpc s);
  wf_tmark : wf_timer (tpc s)
}.

Lemma slot_arrival_lookup m k t :
  snd (slot_arrival_time_tasks m) !! k = Some t ->
  exists t0, m !! k = Some t0 /\ t = snd (check_arrived t0).
Proof. cbn. rewrite lookup_fmap_Some. intros (t0 & <- & ?). eauto. Qed.

Lemma check_arrived_id t : t_id (snd (check_arrived t)) = t_id t.
Proof. unfold check_arrived. case_match; done. Qed.

Lemma wheel_insert_wf (w : wheel_t) i m m0 :
  (forall j, is_Some (w !! j) <-> j < SLOTS) -> w !! i = Some m0 ->
  forall j, is_Some (<[i := m]> w !! j) <-> j < SLOTS.
Proof.
  intros H Hi j. destruct (decide (j = i)) as [->|].
  - rewrite lookup_insert. rewrite <- H, Hi. naive_solver.
  - rewrite lookup_insert_ne by done. apply H.
Qed.

Lemma key_insert (w : wheel_t) sl (m' : slot) :
  (forall i m k t, w !! i = Some m -> m !! k = Some t -> t_id t = k) ->
  (forall k t, m' !! k = Some t -> t_id t = k) ->
  forall i m k t, <[sl := m']> w !! i = Some m -> m !! k = Some t -> t_id t = k.
Proof.
  intros H H' i m k t Hi Hk. destruct (decide (i = sl)) as [->|].
  - rewrite lookup_insert in Hi. simplify_eq. eauto.
  - rewrite lookup_insert_ne in Hi by done. eauto.
Qed.
Lemma key_add (m : slot) t :
  (forall k t, m !! k = Some t -> t_id t = k) ->
  forall k t', slot_add_task m t !! k = Some t' -> t_id t' = k.
Proof.
  unfold slot_add_task. intros H k t' Hk. destruct (decide (k = t_id t)) as [->|].
  - rewrite lookup_insert in Hk. congruence.
  - rewrite lookup_insert_ne in Hk by done. eauto.
Qed.
Lemma slot_update_eq m t : slot_update_task m t = slot_add_task m t.
Proof. unfold slot_update_task. case_match; done. Qed.
Lemma key_delete (m : slot) j :
  (forall k t, m !! k = Some t -> t_id t = k) ->
  forall k t', delete j m !! k = Some t' -> t_id t' = k.
Proof. intros H k t' Hk. apply lookup_delete_Some in Hk. naive_solver. Qed.
Lemma key_arrival (m : slot) :
  (forall k t, m !! k = Some t -> t_id t = k) ->
  forall k t', snd (slot_arrival_time_tasks m) !! k = Some t' -> t_id t' = k.
Proof.
  intros H k t' Hk. apply slot_arrival_lookup in Hk as (t0 & ? & ->).
  rewrite check_arrived_id. eauto.
Qed.

Lemma next_exec_id pf t o t' : get_next_exec_timestamp pf t = Ret (o, t') ->
  t_id t' = t_id t /\ t_uid t' = t_uid t /\ t_cyl t' = t_cyl t /\ t_valid t' = t_valid t /\
  t_maxpar t' = t_maxpar t /\ t_maxrun t' = t_maxrun t.
Proof.
  unfold get_next_exec_timestamp, res_bind. case_match; [|done].
  case_match. intros ?; simplify_eq. done.
Qed.

Lemma init_wheel_lookup n i :
  init_task_wheel n !! i = if bool_decide (i < N.of_nat n) then Some ∅ else None.
Proof.
  unfold init_task_wheel.
  assert (forall k m, foldr (fun i w => <[N.of_nat i := ∅]> w) (∅ : wheel_t) (seq k m) !! i =
     if bool_decide (N.of_nat k <= i < N.of_nat (k + m)) then Some ∅ else None) as H.
  { intros k m. revert k. induction m as [|m IH]; intros k; cbn [seq foldr].
    - rewrite lookup_empty. case_bool_decide; [lia|done].
    - destruct (decide (i = N.of_nat k)) as [->|].
      + rewrite lookup_insert. case_bool_decide; [done|lia].
      + rewrite lookup_insert_ne by done. rewrite IH.
        repeat case_bool_decide; try done; lia. }
  rewrite H. repeat case_bool_decide; try done; lia.
Qed.

Lemma wf_init_n n t0 t1 : N.of_nat n = SLOTS -> wf (init_n n t0 t1).
Proof.
  intros Hn. unfold init_n. split; cbn [hand iters tpc wheel flags hpc loop_of wf_handler].
  - reflexivity.
  - intros l Hl. simplify_eq. done.
  - intros i. rewrite init_wheel_lookup, Hn.
    case_bool_decide as Hb; split; intros Hi; try done.
    by apply is_Some_None in Hi.
  - intros i m k t. rewrite init_wheel_lookup. case_bool_decide; [|done].
    intros; simplify_eq.
  - intros k m Hk. by rewrite lookup_empty in Hk.
  - exact I.
  - exact I.
Qed.

Lemma wf_init t0 t1 : wf (init t0 t1).
Proof. apply wf_init_n. apply N2Nat.id. Qed.

Lemma hd_mod h : h + 1 <= SLOTS -> h < SLOTS -> (h + 1) mod SLOTS < SLOTS.
Proof. unfold SLOTS. lia. Qed.

Lemma slots_lt x : x mod SLOTS < SLOTS.
Proof. unfold SLOTS. lia. Qed.

Global Opaque init_task_wheel.

Lemma wf_step pf lb s s' : wf s -> step pf lb s = Some s' -> wf s'.
Proof.
  intros [Hhand Hloop Hwheel Hkey Hflag Hhpc Htm] H.
  step_inv H; inst_shape; split; try assumption; try exact I; fsimpl.
  all: cbn [loop_of wf_handler wf_timer] in *; subst; try done.
  all: try match goal with Hx : slot_arrival_time_tasks ?g = (_, ?g1) |- _ =>
         assert (g1 = snd (slot_arrival_time_tasks g)) by (by rewrite Hx); subst g1; clear Hx end.
  all: try (intros ?k ?m ?Hf; match goal with Hfl1 : forall k m', ?fl !! k = Some m' -> _, Hf : ?fl !! _ = Some _ |- _ =>
     apply Hfl1 in Hf as (?m1 & Hf & [-> ->]); eauto end; fail).
  all: try (eapply wheel_insert_wf; eauto; fail).
  all: try (rewrite ?slot_update_eq; eapply key_insert; eauto using key_add, key_delete, key_arrival; fail).
  all: try (eapply slots_lt).
  all: try (by eapply Hflag).
  - intros k m0 Hk. destruct (decide (k = tid)) as [->|].
    + rewrite lookup_insert in Hk. simplify_eq. cbn [m_id m_slot inc_num set_slot_mark]. split; [by apply (Hflag tid m)|done].
    + rewrite lookup_insert_ne in Hk by done. eauto.
  - intros k m0 Hk. destruct (decide (k = tid)) as [->|].
    + rewrite lookup_insert in Hk. simplify_eq. cbn [m_id m_slot inc_num set_slot_mark]. split; [by apply (Hflag tid m)|done].
    + rewrite lookup_insert_ne in Hk by done. eauto.
  - unfold SLOTS in *. lia.
  - intros l0 Hl0. simplify_eq. done.
  - destruct (hpc s); cbn in *; try done. lia.
  - intros k m0 Hk. destruct (decide (k = tid)) as [->|].
    + rewrite lookup_insert in Hk. simplify_eq. cbn [m_id m_slot]. done.
    + rewrite lookup_insert_ne in Hk by done. eauto.
  - unfold SLOTS in *. lia.
  - intros k m0 Hk. apply lookup_delete_Some in Hk as [_ Hk]. eauto.
Qed.

(** Invariants of all executions. *)
Lemma run_inv (P : sys -> Prop) pf :
  (forall lb s s', P s -> step pf lb s = Some s' -> P s') ->
  forall ls s s', P s -> run pf ls s = Some s' -> P s'.
Proof.
  intros Hstep ls. induction ls as [|lb ls IH]; cbn [run]; intros s s' HP Hr.
  - by simplify_eq.
  - destruct (step pf lb s) as [s1|] eqn:Hs; [|done]. eauto.
Qed.

Lemma run_app pf l1 l2 s : run pf (l1 ++ l2) s = match run pf l1 s with Some s1 => run pf l2 s1 | None => None end.
Proof.
  revert s. induction l1 as [|lb l1 IH]; cbn [run app]; intros s; [done|].
  destruct (step pf lb s); [apply IH|done].
Qed.

Lemma run_snoc pf ls lb s s' : run pf (ls ++ [lb]) s = Some s' <->
  exists s1, run pf ls s = Some s1 /\ step pf lb s1 = Some s'.
Proof.
  rewrite run_app. destruct (run pf ls s) as [s1|]; cbn [run].
  - destruct (step pf lb s1) eqn:Hs; naive_solver.
  - naive_solver.
Qed.

Lemma reach_step pf t0 t1 s lb s' : reachable pf t0 t1 s -> step pf lb s = Some s' -> reachable pf t0 t1 s'.
Proof. intros [ls Hr] Hs. exists (ls ++ [lb]). apply run_snoc. eauto. Qed.

(** Induction over reachable states. *)
Lemma reach_ind pf t0 t1 (P : sys -> Prop) :
  P (init t0 t1) ->
  (forall lb s s', reachable pf t0 t1 s -> P s -> step pf lb s = Some s' -> P s') ->
  forall s, reachable pf t0 t1 s -> P s.
Proof.
  intros Hi Hstep s [ls Hr]. revert s Hr. induction ls as [|lb ls IH] using rev_ind; intros s Hr.
  - cbn in Hr. by simplify_eq.
  - apply run_snoc in Hr as (s1 & Hr & Hs). apply (Hstep lb s1 s); [by exists ls|by apply IH|done].
Qed.

Lemma wf_reach pf t0 t1 s : reachable pf t0 t1 s -> wf s.
Proof. apply reach_ind; eauto using wf_init, wf_step. Qed.

Lemma reachable_init pf t0 t1 : reachable pf t0 t1 (init t0 t1).
Proof. by exists []. Qed.

(** The log only grows. *)
Lemma step_log pf lb s s' : step pf lb s = Some s' -> exists l, log s' = l ++ log s.
Proof.
  intros H. step_inv H; inst_shape; fsimpl; try (by exists []); try (by eexists [_]).
  all: try (by eexists [_; _]).
  all: try (eexists (_ ++ [_]); rewrite <- app_assoc; cbn; reflexivity).
  all: repeat case_match; first [by exists [] | by eexists [_] | by eexists [_; _] | by eexists [_; _; _]].
Qed.
