(** C59: when everything has been let go, what ends? *)
From stdpp Require Import prelude.
From Coq Require Import Lia.
From Verif Require Import Ends.
Local Open Scope nat_scope.

(** The user has let go of everything, the timer has been stopped, its scheduler has ended and no instance runs. *)
Definition let_go (o : own) : Prop :=
  o_builder o = false /\ o_timers o = 0 /\ o_chains o = 0 /\ o_insts o = 0 /\ o_ctxs o = 0 /\ o_user_rt o = 0 /\ o_motiv o = false /\ o_sched o = false.
Definition by_itself (lb : olabel) : Prop := lb <> OHandPanic.
(** Nothing of the timer is left: its thread and both of its tasks have ended. *)
Definition all_gone (o : own) : Prop := (o_hand o = HRet \/ o_hand o = HPanic) /\ o_rec o = false /\ o_add o = false.

(** The property. *)
Definition C59_all_ends : Prop := forall k n o, oreach k n o -> let_go o -> exists ls o', Forall by_itself ls /\ orun k ls o = Some o' /\ all_gone o'.

(** The event handler never returns: its own RecyclingBins hold a sender of the channel it waits on. *)
Theorem C59_handler_never_returns k n o : oreach k n o -> o_hand o <> HRet.
Proof. intros Hr. apply (oi_ret _ _ (oinv_reach _ _ _ Hr)). Qed.
Print Assumptions C59_handler_never_returns.
Theorem C59_never_closes k n o : oreach k n o -> o_hand o = HNew \/ o_hand o = HRun -> o_snd o <> 0 /\ o_rcv o <> 0.
Proof. intros Hr Hh. destruct (oinv_reach _ _ _ Hr) as [H1 H2 _ H4 _ _ _ _ _]. destruct Hh as [E|E]; rewrite E in *; cbn in *; rewrite H1, H2, H4; cbn; lia. Qed.
Print Assumptions C59_never_closes.

(** While the event handler lives, the sweeper and its receiver live.  On smol the sweeper outlives everything. *)
Theorem C59_sweeper_stays k n o ls o' : oreach k n o -> o_rec o = true -> orun k ls o = Some o' -> k = Smol \/ o_hand o' = HRun -> o_rec o' = true.
Proof.
  intros Hr Hrec H [-> |Hh].
  - clear Hr. revert o Hrec H. induction ls as [|lb ls IH]; intros o Hrec; cbn; [by intros [= <-]|]. destruct (ostep Smol lb o) as [o1|] eqn:E; [|done].
    apply IH. eapply rec_stays; [by left|exact Hrec|exact E].
  - assert (oinv k o') as Hi. { eapply orun_inv; [by eapply oinv_reach|exact H]. } by destruct (oi_run _ _ Hi Hh).
Qed.
Print Assumptions C59_sweeper_stays.

(** A life: a timer is made, sends a stop, is dropped; the scheduler ends. *)
Definition life : list olabel := [OBuilderDrop; OHandStart; OSend MOther; OInsert; OStart; OChainNext; OSend MStop; OChainDrop; OInstDrop; OTimerDrop; OCtxFinish] ++ replicate 5 (OHandRecv false) ++ [OSchedCheck].
Example C59_life k : exists o, oreach k 0 o /\ let_go o /\ o_hand o = HRun /\ o_queue o = [] /\ o_calls o = [true; true; true].
Proof. destruct k; (eexists; split; [exists life; vm_compute; reflexivity|]); repeat split. Qed.

Theorem C59_all_ends_refuted : ~ C59_all_ends.
Proof.
  intros H. destruct (C59_life Smol) as (o & Hr & Hl & Hh & _). destruct (H _ _ _ Hr Hl) as (ls & o' & Hf & Hx & Hg & Hrec & _).
  assert (o_rec o = true) as E by by destruct (oi_run _ _ (oinv_reach _ _ _ Hr) Hh).
  pose proof (C59_sweeper_stays _ _ _ _ _ Hr E Hx (or_introl eq_refl)). congruence.
Qed.
Print Assumptions C59_all_ends_refuted.
(** On tokio too nothing ends by itself: the event handler keeps the runtime, and so its tasks. *)
Theorem C59_nothing_ends k n o ls o' : oreach k n o -> o_hand o = HRun -> Forall by_itself ls -> orun k ls o = Some o' ->
  o_hand o' = HRun /\ o_rec o' = true /\ o_add o' = true /\ o_rt o' <> 0.
Proof.
  intros Hr Hh Hf H. assert (oinv k o') as Hi. { eapply orun_inv; [by eapply oinv_reach|exact H]. }
  assert (o_hand o' = HRun) as E.
  { assert (oinv k o) as Hi0 by by eapply oinv_reach. clear Hr Hi. revert o Hh Hi0 H. induction Hf as [|lb ls Hb Hf IH]; intros o Hh Hi0; cbn; [by intros [= <-]|].
    destruct (ostep k lb o) as [o1|] eqn:E; [|done]. assert (oinv k o1) as Hi1 by by eapply oinv_step. apply IH; [|done].
    pose proof (oi_ret _ _ Hi1) as Hret. clear IH Hf Hi1 Hi0. destruct lb; ostep_cases E; orest; try done; try congruence.
    all: exfalso; first [by apply Hb|apply Hret; orest; done]. }
  destruct (oi_run _ _ Hi E) as [? ?]. repeat split; try done. rewrite (oi_rt _ _ Hi), E. cbn. lia.
Qed.
Print Assumptions C59_nothing_ends.
(** Only after a panic of the event handler can a timer on tokio end altogether: then it does, with its channel and runtime. *)
Theorem C59_all_ends_partial n o : oreach Tokio n o -> let_go o -> o_hand o = HPanic -> exists ls o', Forall by_itself ls /\ orun Tokio ls o = Some o' /\ all_gone o' /\
  o_snd o' = 0 /\ o_bins o' = 0 /\ o_rt o' = 0.
Proof.
  intros Hr (L1 & L2 & L3 & L4 & L5 & L6 & L7 & L8) Hh. destruct (oinv_reach _ _ _ Hr) as [H1 _ _ H4 H5 _ _ _ _].
  rewrite L1, L2, L3, L4, L5, L8 in H1. rewrite L1, L2, L6, L8, Hh in H5. rewrite Hh in H4. cbn in H1, H4, H5.
  destruct (o_rec o) eqn:E1, (o_add o) eqn:E2; cbn in H4; rewrite H4 in H1; cbn in H1.
  4: { exists [], o. repeat split; try done. by right. }
  all: exists [ORtGone]; eexists; split; [by constructor|]; split.
  1, 3, 5: cbn; rewrite H5, E1; cbn; rewrite ?E2; cbn; unfold less_bins; cbn; rewrite H4; cbn; rewrite ?E2; cbn; reflexivity.
  all: repeat split; cbn; rewrite ?H1, ?H5; try done; by right.
Qed.
Print Assumptions C59_all_ends_partial.

(** After a panic of the event handler the task that receives the units works off those sent and ends by itself, on both runtimes; the sweeper stays as it is. *)
Theorem C59_receiver_ends k n o : oreach k n o -> o_hand o = HPanic -> o_add o = true ->
  exists o', orun k (replicate (S (o_units o)) OAddRecv) o = Some o' /\ o_add o' = false /\ o_units o' = 0 /\ o_rec o' = o_rec o /\ o_hand o' = HPanic.
Proof.
  intros Hr Hh Ha. pose proof (oi_rsnd _ _ (oinv_reach _ _ _ Hr)) as Hs. rewrite Hh in Hs. cbn in Hs. clear Hr.
  remember (o_units o) as u eqn:Eu. revert o Hh Ha Hs Eu. induction u as [|u IH]; intros o Hh Ha Hs Eu.
  - cbn. rewrite Ha, <- Eu, Hs. cbn. eexists. split; [reflexivity|]. unfold less_bins. repeat case_match; cbn; auto.
  - change (replicate (S (S u)) OAddRecv) with (OAddRecv :: replicate (S u) OAddRecv). cbn [orun ostep]. rewrite Ha, <- Eu.
    destruct (IH (w_units u o)) as (o' & H1 & H2 & H3 & H4 & H5); try done. exists o'. auto.
Qed.
Print Assumptions C59_receiver_ends.
Example C59_receiver_example k : exists o, oreach k 0 o /\ o_hand o = HPanic /\ o_add o = true /\ o_units o = 1 /\ o_rec o = true.
Proof. destruct k; (eexists; split; [exists [OBuilderDrop; OHandStart; OStart; OHandRecv true; OHandPanic]; vm_compute; reflexivity|]); repeat split. Qed.

(** A call of the user fails exactly if the event handler has panicked, stopped or not. *)
Definition is_call (lb : olabel) : Prop := (exists m, lb = OSend m) \/ lb = OInsert \/ lb = OInstCancel.
Theorem C59_calls_succeed k n o lb o' : oreach k n o -> o_builder o = false -> is_call lb -> ostep k lb o = Some o' ->
  exists b, o_calls o' = b :: o_calls o /\ (b = true <-> o_hand o <> HPanic).
Proof.
  intros Hr Hb Hc H. pose proof (oi_rcv _ _ (oinv_reach _ _ _ Hr)) as Hv. pose proof (oi_ret _ _ (oinv_reach _ _ _ Hr)) as Hret. rewrite Hb in Hv. cbn in Hv.
  exists (open o). split.
  - destruct Hc as [[m ->]|[-> | ->]]; cbn in H; repeat (case_match; try discriminate H); simplify_eq; cbn; try done.
  - unfold open. rewrite Hv. destruct (o_hand o); cbn; split; intros ?; try done.
Qed.
Print Assumptions C59_calls_succeed.

(** Dropping every DelayTimer does not stop the scheduler: without a stop event or a panic it goes on. *)
Theorem C59_drop_does_not_stop k n ls o : orun k ls (built n) = Some o -> OSend MStop ∉ ls -> OSchedPanic ∉ ls -> o_sched o = true.
Proof.
  intros H Hs Hp. assert (stopless o /\ o_sched o = true) as [_ ?]; [|done]. revert o H. induction ls as [|lb ls IH] using rev_ind; intros o H.
  - injection H as <-. split; [split|]; [done|by intros ?%elem_of_nil|done].
  - apply orun_split in H as (o1 & H1 & H2). rewrite elem_of_app, elem_of_list_singleton in Hs, Hp. destruct (IH ltac:(tauto) ltac:(tauto) _ H1) as [Hl Hc].
    split; [eapply stopless_step; [|exact Hl|exact H2]; intros ->; tauto|]. eapply sched_step; [|exact (proj1 Hl)|exact Hc|exact H2]. intros ->; tauto.
Qed.
Print Assumptions C59_drop_does_not_stop.
Example C59_dropped k : exists ls o, orun k ls (built 0) = Some o /\ OSend MStop ∉ ls /\ OSchedPanic ∉ ls /\ o_timers o = 0 /\ o_chains o = 0 /\ o_sched o = true.
Proof. destruct k; (exists [OBuilderDrop; OHandStart; OInsert; OChainDrop; OTimerDrop]; eexists; split; [vm_compute; reflexivity|]); repeat split; set_solver. Qed.
(** After a panic of the event handler: a failed call, and on tokio the end. *)
Example C59_panicked : exists o, oreach Tokio 1 o /\ o_hand o = HPanic /\ o_calls o = [false; false; true] /\ let_go (w_motiv false o) /\ o_chains o = 0.
Proof. eexists. split; [exists ([OBuilderDrop; OHandStart; OSend MOther; OHandPanic; OSend MOther; OInsert; OTimerDrop; OSchedPanic; ORtDrop]); vm_compute; reflexivity|]. repeat split. Qed.
Example C59_partial_nonvacuous : exists o, oreach Tokio 1 o /\ let_go o /\ o_hand o = HPanic /\ o_rec o = true /\ o_add o = true.
Proof. eexists. split; [exists [OBuilderDrop; OHandStart; OSend MStop; OHandRecv false; OSchedCheck; OHandPanic; OTimerDrop; ORtDrop]; vm_compute; reflexivity|]. repeat split. Qed.
