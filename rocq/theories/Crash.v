(** What happens to the running instances when the event handler panics.

    System.v stops the event handler ([HDead]) and leaves its data as they are.
    In the code its thread unwinds (/repo/src/entity.rs:266-276, 420-437): the
    EventHandle is dropped, and with it
    - the TaskTrace (event_handle.rs:102, task_handle.rs:13-15): each
      DelayTaskHandlerBox in it is dropped, and [Drop for DelayTaskHandlerBox]
      (task_handle.rs:163-174) calls [quit] if the handle has not been taken;
    - the only receiver of the event channel (entity.rs:225; the builder's own is
      dropped with the builder, 214-216), which closes the channel.  Messages that are
      already in the channel stay there, unreceived, as long as there is a sender.
    On a closed channel [send] gives the event back inside the error.
    [Timer::send_timer_event] (timer_core.rs:277-286) prints and drops it: an
    AppendTaskHandle is dropped with its DelayTaskHandlerBox, whose [drop] again calls
    [quit].

    Here the system is extended by these calls of [quit]; they change
    nothing else. *)
From Verif Require Import Tactics Inv Own Cases Inst Fifo Scen.

(** [x_told]: the instances told to quit in one of these two ways, newest first.
    [x_left]: the events in the channel when it was closed. *)
Record xsys := X { x_sys : sys; x_told : list (N * Z); x_left : list event }.

Definition dead (s : sys) : bool := match hpc s with HDead => true | _ => false end.

(** [self.send_timer_event(task_id, tmp_task_handler_box)] on the closed channel. *)
Definition refused (lb : label) (s : sys) : list (N * Z) :=
  match lb, tpc s with
  | LTimer _ _ _, TSend _ _ t r _ => [(t_id t, r)]
  | _, _ => []
  end.

Definition xstep (pf : profile) (lb : label) (x : xsys) : option xsys :=
  match step pf lb (x_sys x) with
  | None => None
  | Some s' =>
      Some (if dead (x_sys x) then X s' (refused lb (x_sys x) ++ x_told x) (x_left x)
            else if dead s' then X s' (trace_recs (trace s')) (queue s')
            else X s' [] [])
  end.
Fixpoint xrun (pf : profile) (ls : list label) (x : xsys) : option xsys :=
  match ls with
  | [] => Some x
  | lb :: ls' => match xstep pf lb x with Some x' => xrun pf ls' x' | None => None end
  end.
Definition xinit (t0 t1 : N) : xsys := X (init t0 t1) [] [].
Definition xreachable (pf : profile) (t0 t1 : N) (x : xsys) : Prop := exists ls, xrun pf ls (xinit t0 t1) = Some x.

Lemma dead_iff s : dead s = true <-> hpc s = HDead.
Proof. unfold dead. destruct (hpc s); split; congruence. Qed.
Lemma dead_not s : dead s = false <-> hpc s <> HDead.
Proof. rewrite <- dead_iff. destruct (dead s); split; congruence. Qed.
Lemma dead_step pf lb s s' : step pf lb s = Some s' -> hpc s = HDead ->
  hpc s' = HDead /\ trace s' = trace s /\ quits (log s') = quits (log s) /\ pops (log s') = pops (log s) /\
  exists es, queue s' = queue s ++ es /\ es ≫= ev_rec = refused lb s.
Proof.
  intros Hs Hd. unfold refused. step_inv Hs; try congruence; inst_shape; fsimpl.
  all: try (by repeat split; try done; exists []; rewrite app_nil_r).
  all: repeat split; try done; eexists [_]; split; reflexivity.
Qed.

(** The plain system below. *)
Lemma xrun_snoc pf ls lb x x1 : xrun pf ls x = Some x1 -> xrun pf (ls ++ [lb]) x = xstep pf lb x1.
Proof. revert x. induction ls as [|l ls IH]; intros x; cbn; [intros [= ->]; by destruct (xstep pf lb x1)|]. destruct (xstep pf l x); [apply IH|done]. Qed.
Lemma xstep_sys pf lb x x' : xstep pf lb x = Some x' -> step pf lb (x_sys x) = Some (x_sys x').
Proof. unfold xstep. destruct (step pf lb (x_sys x)); [|done]. by intros [= <-]; repeat case_match. Qed.
Lemma xrun_sys pf ls : forall x x', xrun pf ls x = Some x' -> run pf ls (x_sys x) = Some (x_sys x').
Proof.
  induction ls as [|lb ls IH]; intros x x'; cbn; [by intros [= ->]|]. destruct (xstep pf lb x) as [x1|] eqn:E; [|done].
  intros H. rewrite (xstep_sys _ _ _ _ E). auto.
Qed.
Lemma run_xrun pf ls : forall x s', run pf ls (x_sys x) = Some s' -> exists x', xrun pf ls x = Some x' /\ x_sys x' = s'.
Proof.
  induction ls as [|lb ls IH]; intros x s'; cbn; [intros [= <-]; eauto|]. unfold xstep. destruct (step pf lb (x_sys x)) as [s1|]; [|done].
  intros H. apply IH. by repeat case_match.
Qed.
Lemma xreach_sys pf t0 t1 x : xreachable pf t0 t1 x -> reachable pf t0 t1 (x_sys x).
Proof. intros [ls H]. exists ls. exact (xrun_sys _ _ _ _ H). Qed.
Lemma xreach_ind pf t0 t1 (P : xsys -> Prop) : P (xinit t0 t1) ->
  (forall lb x x', xreachable pf t0 t1 x -> P x -> xstep pf lb x = Some x' -> P x') -> forall x, xreachable pf t0 t1 x -> P x.
Proof.
  intros H0 HS x [ls H]. revert x H. induction ls as [|lb ls IH] using rev_ind; intros x H; [injection H as <-; exact H0|].
  destruct (xrun pf ls (xinit t0 t1)) as [x1|] eqn:E.
  - rewrite (xrun_snoc _ _ _ _ _ E) in H. eapply HS; [by exists ls|by apply IH|exact H].
  - exfalso. clear -E H. revert E H. generalize (xinit t0 t1). induction ls as [|l ls IH]; intros x0; cbn; [done|]. destruct (xstep pf l x0); [apply IH|done].
Qed.

(** The event handler is alive and nothing has been told; or it is dead: the channel held [x_left] when it was closed, and told are
    those that were in the TaskTrace and those whose handle was sent later. *)
Definition xinv (x : xsys) : Prop :=
  if dead (x_sys x)
  then exists es, queue (x_sys x) = x_left x ++ es /\ x_told x ≡ₚ (es ≫= ev_rec) ++ trace_recs (trace (x_sys x))
  else x_told x = [] /\ x_left x = [].
Lemma xinv_step pf lb x x' : xinv x -> xstep pf lb x = Some x' -> xinv x'.
Proof.
  unfold xinv, xstep. intros Hi H. destruct (step pf lb (x_sys x)) as [s'|] eqn:Hs; [|done]. destruct (dead (x_sys x)) eqn:Ed.
  - injection H as <-. cbn [x_sys x_told x_left]. apply dead_iff in Ed. destruct (dead_step _ _ _ _ Hs Ed) as (E1 & E2 & _ & _ & es' & E3 & E4).
    apply dead_iff in E1. rewrite E1. destruct Hi as (es & Eq & Ep). exists (es ++ es'). rewrite E3, Eq, E2, Ep, bind_app, E4, <- app_assoc.
    split; [done|]. rewrite !app_assoc. f_equiv. apply Permutation_app_comm.
  - destruct (dead s') eqn:Ed'; injection H as <-; cbn [x_sys x_told x_left]; rewrite Ed'; [|done]. exists []. by rewrite app_nil_r.
Qed.
Lemma xinv_reach pf t0 t1 x : xreachable pf t0 t1 x -> xinv x.
Proof. apply (xreach_ind pf t0 t1 xinv); [split; exact eq_refl|]. intros. by eapply xinv_step. Qed.

(** What becomes of what is in the channel when it is closed: nothing. *)
Lemma x_left_step pf lb x x' : xstep pf lb x = Some x' -> hpc (x_sys x) = HDead -> hpc (x_sys x') = HDead /\ x_left x' = x_left x.
Proof.
  unfold xstep. intros H Hd. destruct (step pf lb (x_sys x)) as [s'|] eqn:Hs; [|done]. pose proof Hd as Ed%dead_iff. rewrite Ed in H. injection H as <-.
  split; [|done]. by destruct (dead_step _ _ _ _ Hs Hd).
Qed.
Lemma x_left_run pf ls : forall x x', xrun pf ls x = Some x' -> hpc (x_sys x) = HDead -> hpc (x_sys x') = HDead /\ x_left x' = x_left x.
Proof.
  induction ls as [|lb ls IH]; intros x x'; cbn; [by intros [= ->]|]. destruct (xstep pf lb x) as [x1|] eqn:E; [|done].
  intros H Hd. destruct (x_left_step _ _ _ _ E Hd) as [Hd1 El]. rewrite <- El. auto.
Qed.

(** Every instance started so far is in one place. *)
Definition xplaces (x : xsys) : list (N * Z) :=
  tpc_rec (tpc (x_sys x)) ++ (x_left x ≫= ev_rec) ++ x_told x ++ quits (log (x_sys x)).
Lemma xplaces_dead pf t0 t1 x : xreachable pf t0 t1 x -> hpc (x_sys x) = HDead -> places (x_sys x) ≡ₚ xplaces x.
Proof.
  intros Hr Hd%dead_iff. pose proof (xinv_reach _ _ _ _ Hr) as Hi. unfold xinv in Hi. rewrite Hd in Hi. destruct Hi as (es & Eq & Ep).
  unfold places, xplaces. rewrite Eq, Ep, bind_app, <- !app_assoc. done.
Qed.
Lemma xplaces_sub pf t0 t1 x : xreachable pf t0 t1 x -> xplaces x ⊆+ places (x_sys x).
Proof.
  intros Hr. destruct (dead (x_sys x)) eqn:Ed.
  - apply dead_iff in Ed. by rewrite (xplaces_dead _ _ _ _ Hr Ed).
  - pose proof (xinv_reach _ _ _ _ Hr) as Hi. unfold xinv in Hi. rewrite Ed in Hi. destruct Hi as [E1 E2]. unfold xplaces, places. rewrite E1, E2.
    cbn. solve_submseteq.
Qed.

(** Playing out concrete executions, as in Scen.v. *)
Fixpoint xtick (pf : profile) (fuel : nat) (now : N) (x : xsys) : option xsys :=
  match fuel with
  | O => None
  | S f => match xstep pf (LTimer 0 (fresh_rec (x_sys x)) now) x with
           | Some x' => if iters (x_sys x) <? iters (x_sys x') then Some x' else xtick pf f now x'
           | None => None
           end
  end.
Fixpoint xticks (pf : profile) (n : nat) (x : xsys) : option xsys :=
  match n with
  | O => Some x
  | S k => match xtick pf FUEL (clock (x_sys x) + 1) x with Some x' => xticks pf k x' | None => None end
  end.
Fixpoint xhandle (pf : profile) (fuel : nat) (x : xsys) : option xsys :=
  match fuel with
  | O => None
  | S f => match hpc (x_sys x), queue (x_sys x) with
           | HIdle, [] => Some x
           | HDead, _ => Some x
           | _, _ => match xstep pf LHandler x with Some x' => xhandle pf f x' | None => None end
           end
  end.
Inductive xact := XDo (lb : label) | XTicks (n : nat) | XHandle.
Definition xplay1 (pf : profile) (a : xact) (x : xsys) : option xsys :=
  match a with XDo lb => xstep pf lb x | XTicks n => xticks pf n x | XHandle => xhandle pf FUEL x end.
Fixpoint xplay (pf : profile) (l : list xact) (x : xsys) : option xsys :=
  match l with
  | [] => Some x
  | a :: r => match xplay1 pf a x with Some x' => xplay pf r x' | None => None end
  end.
Definition xafter (pf : profile) (t0 t1 : N) (l : list xact) (P : xsys -> bool) : bool :=
  match xplay pf l (X (init0 t0 t1) [] []) with Some x => P x | None => false end.

Definition xgoes (pf : profile) (x x' : xsys) : Prop := exists ls, xrun pf ls x = Some x'.
Lemma xgoes_refl pf x : xgoes pf x x.
Proof. by exists []. Qed.
Lemma xgoes_step pf lb x x1 x' : xstep pf lb x = Some x1 -> xgoes pf x1 x' -> xgoes pf x x'.
Proof. intros E [ls H]. exists (lb :: ls). cbn. by rewrite E. Qed.
Lemma xgoes_trans pf x x1 x' : xgoes pf x x1 -> xgoes pf x1 x' -> xgoes pf x x'.
Proof.
  intros [ls H]. revert x H. induction ls as [|lb ls IH]; intros x H; cbn in H; [by injection H as ->|]. destruct (xstep pf lb x) as [x2|] eqn:E; [|done].
  intros Hg. eapply xgoes_step; [exact E|]. by apply IH.
Qed.
Lemma xtick_goes pf fuel now : forall x x', xtick pf fuel now x = Some x' -> xgoes pf x x'.
Proof.
  induction fuel as [|f IH]; intros x x' H; [done|]. cbn [xtick] in H. destruct (xstep pf _ x) as [x1|] eqn:E; [|done].
  eapply xgoes_step; [exact E|]. destruct (iters _ <? iters _); [injection H as ->; apply xgoes_refl|auto].
Qed.
Lemma xticks_goes pf n : forall x x', xticks pf n x = Some x' -> xgoes pf x x'.
Proof.
  induction n as [|k IH]; intros x x' H; cbn [xticks] in H; [injection H as ->; apply xgoes_refl|].
  destruct (xtick pf FUEL _ x) as [x1|] eqn:E; [|done]. eapply xgoes_trans; [by eapply xtick_goes|auto].
Qed.
Lemma xhandle_goes pf fuel : forall x x', xhandle pf fuel x = Some x' -> xgoes pf x x'.
Proof.
  induction fuel as [|f IH]; intros x x' H; [done|]. cbn [xhandle] in H.
  assert (match xstep pf LHandler x with Some x' => xhandle pf f x' | None => None end = Some x' -> xgoes pf x x') as Hx.
  { destruct (xstep pf LHandler x) as [x1|] eqn:E; [|done]. intros H1. eapply xgoes_step; eauto. }
  destruct (hpc (x_sys x)); try exact (Hx H); [destruct (queue (x_sys x)); [|exact (Hx H)]|]; injection H as ->; apply xgoes_refl.
Qed.
Lemma xplay1_goes pf a x x' : xplay1 pf a x = Some x' -> xgoes pf x x'.
Proof.
  destruct a; [|exact (xticks_goes pf n x x')|exact (xhandle_goes pf FUEL x x')].
  cbn [xplay1]. intros H. eapply xgoes_step; [exact H|apply xgoes_refl].
Qed.
Lemma xplay_goes pf l : forall x x', xplay pf l x = Some x' -> xgoes pf x x'.
Proof.
  induction l as [|a l IH]; intros x x' H; cbn [xplay] in H; [injection H as ->; apply xgoes_refl|].
  destruct (xplay1 pf a x) as [x1|] eqn:E; [|done]. eapply xgoes_trans; [exact (xplay1_goes _ _ _ _ E)|by apply IH].
Qed.
Lemma xafter_reach pf t0 t1 l P : xafter pf t0 t1 l P = true -> exists x, xreachable pf t0 t1 x /\ P x = true.
Proof.
  unfold xafter. rewrite init0_eq. change (X (init t0 t1) [] []) with (xinit t0 t1).
  destruct (xplay pf l (xinit t0 t1)) as [x|] eqn:E; [|intros H; discriminate H]. intros H. exists x. split; [exact (xplay_goes _ _ _ _ E)|exact H].
Qed.

(** Nothing is lost on the way: an instance that was started is in one of the places, unless the scheduler panicked before it had
    made its handle. *)
Definition traced (s : sys) : Prop := forall u tid rec it ts, OLaunch u tid rec it ts ∈ log s ->
  (tid, rec) ∈ places s \/ tpc s = TDead /\ exists l, launches (log s) = (u, tid, rec, it, ts) :: l.
Lemma places_grow pf lb s s' : step pf lb s = Some s' -> places s ⊆+ places s'.
Proof.
  intros H. unfold places. step_inv H; inst_cases; isimpl.
  all: repeat match goal with E : tpc ?s = _ |- context [tpc ?s] => rewrite E end.
  all: repeat match goal with E : queue ?s = _ |- context [queue ?s] => rewrite E end.
  all: rewrite ?bind_app; cbn [mbind list_bind ev_rec tpc_rec public_of app quits]; rewrite ?app_nil_r.
  all: try reflexivity.
  all: try match goal with Hq : quit_one_task_handler _ _ _ = Some _ |- _ => rewrite (quit_recs _ _ _ _ Hq) end.
  all: try rewrite trace_insert_recs.
  all: try solve_submseteq.
  all: try (repeat case_match; cbn [quits tpc_rec app]; solve_submseteq).
Qed.
Lemma dead_stays pf lb s s' : step pf lb s = Some s' -> tpc s = TDead -> tpc s' = TDead /\ launches (log s') = launches (log s).
Proof.
  intros Hs Hd. step_inv Hs; try congruence; inst_shape; fsimpl; rewrite ?launches_app, ?launches_inst by done; cbn [app launches]; try done.
  all: try (repeat case_match; done).
Qed.
Lemma launch_placed pf lb s s' l ids t r : step pf lb s = Some s' -> tpc s = TSpawn l ids t r ->
  launches (log s') = launches (log s) \/ (t_id t, r) ∈ places s' \/ tpc s' = TDead.
Proof.
  intros Hs Ep. unfold places. step_inv Hs; try congruence; inst_shape; fsimpl; rewrite ?launches_app, ?launches_inst by done; cbn [app launches]; try (by left).
  all: try (by right; right).
  all: try (injection Ep as -> -> -> ->; right; left; apply elem_of_list_here).
  all: try (left; repeat case_match; done).
Qed.
Lemma traced_step pf lb s s' : traced s -> step pf lb s = Some s' -> traced s'.
Proof.
  intros Ht Hs u tid rec it ts Hin. pose proof (places_grow _ _ _ _ Hs) as Hg. apply elem_launches in Hin.
  destruct (insts_step _ _ _ _ Hs) as [(l & ids & t & r & g & Ep & Ei & El & _)|(El & _ & _)].
  - rewrite El in Hin. cbn [launches] in Hin. apply elem_of_cons in Hin as [[= -> -> -> -> ->]|Hin].
    + destruct (launch_placed _ _ _ _ _ _ _ _ Hs Ep) as [E|[E|E]]; [|by left|right; split; [done|]; rewrite El; cbn [launches]; eauto].
      rewrite El in E. cbn [launches] in E. apply (f_equal length) in E. cbn in E. lia.
    + apply elem_launches in Hin. destruct (Ht _ _ _ _ _ Hin) as [Hp|[E _]]; [|congruence]. left. by eapply elem_of_submseteq.
  - rewrite El in Hin. apply elem_launches in Hin. destruct (Ht _ _ _ _ _ Hin) as [Hp|[E Hl]]; [left; by eapply elem_of_submseteq|].
    right. destruct (dead_stays _ _ _ _ Hs E) as [-> ->]. by split.
Qed.
Lemma traced_reach pf t0 t1 s : reachable pf t0 t1 s -> traced s.
Proof.
  apply (reach_ind pf t0 t1 traced); [|intros; by eapply traced_step]. intros u tid rec it ts H. change (log (init t0 t1)) with [OTick 0 t1] in H. apply elem_of_list_singleton in H. discriminate H.
Qed.

(** The handles received are those in the TaskTrace and those told by the event handler. *)
Lemma recorded_step pf lb s s' : step pf lb s = Some s' -> pops (log s) ≫= ev_rec ≡ₚ trace_recs (trace s) ++ quits (log s) ->
  pops (log s') ≫= ev_rec ≡ₚ trace_recs (trace s') ++ quits (log s').
Proof.
  intros Hs Hi. step_inv Hs; inst_cases; isimpl.
  all: cbn [mbind list_bind ev_rec public_of pops app quits] in *.
  all: try exact Hi.
  all: try match goal with Hq : quit_one_task_handler _ _ _ = Some _ |- _ => rewrite (quit_recs _ _ _ _ Hq) in Hi end.
  all: try rewrite trace_insert_recs.
  all: try (rewrite Hi; solve_Permutation).
  all: try (repeat case_match; cbn [pops quits mbind list_bind ev_rec app]; rewrite Hi; solve_Permutation).
Qed.
Lemma recorded_reach pf t0 t1 s : reachable pf t0 t1 s -> pops (log s) ≫= ev_rec ≡ₚ trace_recs (trace s) ++ quits (log s).
Proof.
  apply (reach_ind pf t0 t1 (fun s => pops (log s) ≫= ev_rec ≡ₚ trace_recs (trace s) ++ quits (log s))); [|intros; by eapply recorded_step].
  change (@nil (N * Z) ≡ₚ []). reflexivity.
Qed.
