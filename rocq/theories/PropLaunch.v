(** C48: the runtime the builder was asked for is the one in use. *)
From Verif Require Import Base Launch.

(** The calls a program can make on a builder before [build]. *)
Inductive call := CSmol | CTokio | CCustom (rt : N) | CShared (rt : N) | CReport.
Definition calls (c : call) : tbuilder -> tbuilder :=
  match c with
  | CSmol => smol_runtime_by_default
  | CTokio => tokio_runtime_by_default
  | CCustom rt => tokio_runtime_by_custom rt
  | CShared rt => tokio_runtime_shared_by_custom rt
  | CReport => enable_status_report
  end.
Definition configure (cs : list call) : tbuilder := foldl (fun b c => calls c b) new_tbuilder cs.

(** What the user asked for: the last runtime setter, by default a tokio runtime
    that the timer creates. *)
Inductive choice := UseSmol | UseOwnTokio | UseGiven (rt : N).
Definition asks (c : call) : option choice :=
  match c with CSmol => Some UseSmol | CTokio => Some UseOwnTokio | CCustom rt | CShared rt => Some (UseGiven rt) | CReport => None end.
Definition chosen (cs : list call) : choice := List.last (omap asks cs) UseOwnTokio.
(** The runtime in use; one that the timer creates is new in the world. *)
Definition fits (w : world) (c : choice) (on : option N) : Prop :=
  match c with UseSmol => on = None | UseOwnTokio => on = Some (w_rt w) | UseGiven rt => on = Some rt end.
Definition is_report (c : call) : bool := match c with CReport => true | _ => false end.

Lemma last_omap_snoc cs c : chosen (cs ++ [c]) = match asks c with Some x => x | None => chosen cs end.
Proof.
  unfold chosen. rewrite omap_app. cbn. destruct (asks c); [|by rewrite app_nil_r]. apply List.last_last.
Qed.
Definition inst_of (c : choice) : rt_instance :=
  match c with UseSmol => RtInstance None Smol | UseOwnTokio => RtInstance None Tokio | UseGiven rt => RtInstance (Some rt) Tokio end.
Lemma configured cs : configure cs = TBuilder (inst_of (chosen cs)) None (existsb is_report cs).
Proof.
  unfold configure. induction cs as [|c cs IH] using rev_ind; [done|].
  rewrite foldl_app, last_omap_snoc, existsb_app. cbn [foldl existsb]. rewrite IH, orb_false_r.
  destruct c; cbn; rewrite ?orb_false_r, ?orb_true_r; done.
Qed.

Definition smol_free (c : choice) : bool := match c with UseSmol => false | _ => true end.

(** Whatever was called on the builder, in whatever order: [build] fails only if it has to
    create a tokio runtime and tokio does not; otherwise exactly one scheduler and one event
    handler run, on the runtime asked for last, with the header of the timer that is returned;
    the runtime kind in the header - by which every routine is spawned - is tokio exactly if
    there is a tokio runtime; and what the timer, the scheduler and the
    sweeper send goes to the channel the handler reads, which no other timer has. *)
Theorem C48_build ok w cs :
  let c := chosen cs in
  match build ok w (configure cs) with
  | Panic => c = UseOwnTokio /\ ok = false
  | Ret (d, ts, w') =>
      exists on h ch,
        ts = [Scheduler on ch h; Handler on ch ch (ri_kind (sh_rt h)) (existsb is_report cs) h] /\
        d = DTimer h ch (existsb is_report cs) /\
        fits w c on /\ ri_inner (sh_rt h) = on /\ (ri_kind (sh_rt h) = Tokio <-> is_Some on) /\
        (ri_kind (sh_rt h) = Smol <-> c = UseSmol) /\
        w_chan w <= ch < w_chan w' /\ w_hdr w <= sh_id h < w_hdr w'
  end.
Proof.
  cbn zeta. rewrite configured. unfold build. cbn [tb_rt tb_chan tb_report].
  destruct (chosen cs) as [| |rt]; cbn.
  - exists None, (Header (w_hdr w) (RtInstance None Smol)), (w_chan w). cbn. repeat split; try done; try lia. intros [? ?]; done.
  - destruct ok; cbn; [|done]. exists (Some (w_rt w)), (Header (w_hdr w) (RtInstance (Some (w_rt w)) Tokio)), (w_chan w). cbn. repeat split; try done; try lia.
  - exists (Some rt), (Header (w_hdr w) (RtInstance (Some rt) Tokio)), (w_chan w). cbn. repeat split; try done; try lia.
Qed.
Print Assumptions C48_build.

(** A builder can be cloned and each copy built: the timers share the runtime that was handed
    in, but neither the event channel nor the header. *)
Theorem C48_clones w cs ok1 ok2 d1 ts1 w1 d2 ts2 w2 :
  build ok1 w (configure cs) = Ret (d1, ts1, w1) -> build ok2 w1 (configure cs) = Ret (d2, ts2, w2) ->
  dt_tx d1 <> dt_tx d2 /\ sh_id (dt_hdr d1) <> sh_id (dt_hdr d2) /\
  (forall rt, chosen cs = UseGiven rt -> ri_inner (sh_rt (dt_hdr d1)) = Some rt /\ ri_inner (sh_rt (dt_hdr d2)) = Some rt) /\
  (chosen cs = UseOwnTokio -> ri_inner (sh_rt (dt_hdr d1)) <> ri_inner (sh_rt (dt_hdr d2))).
Proof.
  intros H1 H2. rewrite configured in H1, H2. unfold build in H1, H2. cbn [tb_rt tb_chan tb_report] in H1, H2.
  destruct (chosen cs) as [| |rt]; [| destruct ok1, ok2 |]; cbn in H1, H2; try done; injection H1 as <- <- <-; injection H2 as <- <- <-; cbn;
    repeat split; try lia; try done; try congruence; intros; try congruence; try (intros [=]; lia).
Qed.
Print Assumptions C48_clones.

(** The last setter counts; a runtime that was handed in earlier is not used. *)
Example C48_sample :
  build true (World 10 20 30) (configure [CCustom 3; CReport; CSmol; CShared 4]) =
    Ret (DTimer (Header 30 (RtInstance (Some 4) Tokio)) 20 true,
         [Scheduler (Some 4) 20 (Header 30 (RtInstance (Some 4) Tokio)); Handler (Some 4) 20 20 Tokio true (Header 30 (RtInstance (Some 4) Tokio))],
         World 10 21 31) /\
  build true (World 10 20 30) (configure [CCustom 3; CTokio]) =
    Ret (DTimer (Header 30 (RtInstance (Some 10) Tokio)) 20 false,
         [Scheduler (Some 10) 20 (Header 30 (RtInstance (Some 10) Tokio)); Handler (Some 10) 20 20 Tokio false (Header 30 (RtInstance (Some 10) Tokio))],
         World 11 21 31) /\
  build false (World 10 20 30) (configure [CCustom 3; CSmol]) =
    Ret (DTimer (Header 30 (RtInstance None Smol)) 20 false,
         [Scheduler None 20 (Header 30 (RtInstance None Smol)); Handler None 20 20 Smol false (Header 30 (RtInstance None Smol))],
         World 10 21 31).
Proof. vm_compute. done. Qed.
