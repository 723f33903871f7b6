(** Ends of instances and of tasks: C44, C45. *)
From Verif Require Import Tactics Inv Own Life Count Quiet Scen Cases Inst Ended Origin Account PropInst PropLimit Way Settle.

Lemma quit_not_running tid rec l1 l2 : (forall u j it ts, OLaunch u j rec it ts ∉ l1) -> rec ∉ running tid (l1 ++ OQuit tid rec :: l2).
Proof.
  induction l1 as [|o l1 IH]; intros Hn.
  - cbn [app running]. rewrite N.eqb_refl, elem_of_list_filter. by intros [? _].
  - assert (rec ∉ running tid (l1 ++ OQuit tid rec :: l2)) as Hi. { apply IH. intros u j it ts H. apply (Hn u j it ts). by right. }
    cbn [app]. destruct o; cbn [running]; try exact Hi.
    + case_match; [|done]. apply not_elem_of_cons. split; [|done]. intros ->. eapply Hn. left.
    + case_match; [|done]. rewrite elem_of_list_filter. by intros [_ ?].
Qed.
Lemma quit_ended pf t0 t1 s tid rec : reachable pf t0 t1 s -> OQuit tid rec ∈ log s -> rec ∉ running tid (log s).
Proof.
  intros Hr Hin. apply elem_of_list_split in Hin as (l1 & l2 & El).
  destruct (C15_quit_by_first_event _ _ _ _ _ _ _ _ Hr El) as (e & fin & st & l3 & l4 & hb & u & it & ts & E2 & _ & _ & Hl & _).
  rewrite El. apply quit_not_running. intros u' j it' ts' H.
  pose proof (ri_uniq s (rec_reach _ _ _ _ Hr)) as Hu. rewrite El, launches_app, fmap_app, NoDup_app in Hu. destruct Hu as (_ & Hu & _).
  apply elem_launches in H. apply (Hu rec).
  - apply elem_of_list_fmap. by exists (u', j, rec, it', ts').
  - apply elem_of_list_fmap. exists (u, tid, rec, it, ts). split; [done|]. apply elem_launches. rewrite E2. right. right. apply elem_of_app. right. by right.
Qed.

(* ------------------------------------------------------------------ *)
(** ** C44 An instance whose future panics does not block its task *)

(** An instance that panicked can end without the user's help: some continuation in which the user does not cancel it ends it. *)
Definition C44_panic_ends : Prop := forall pf t0 t1 s tid u rec, reachable pf t0 t1 s -> insts s !! rec = Some (Inst tid u true IPanicked) -> tpc s <> TDead -> hpc s <> HDead ->
  exists ls s', Forall (no_cancel rec) ls /\ run pf ls s = Some s' /\ rec ∉ running tid (log s').

(** Without a maximum running time, it never ends ... *)
Lemma hopeless_run pf t0 t1 ls s s' tid rec : reachable pf t0 t1 s -> hopeless tid rec s -> Forall (no_cancel rec) ls -> run pf ls s = Some s' -> hopeless tid rec s'.
Proof.
  revert s. induction ls as [|lb ls IH]; intros s Hr Hh Hl Hrun; cbn [run] in Hrun; [by injection Hrun as <-|].
  destruct (step pf lb s) as [s1|] eqn:Hs; [|discriminate Hrun]. apply Forall_cons in Hl as [Hl1 Hl2].
  exact (IH s1 (reach_step _ _ _ _ _ _ Hr Hs) (hopeless_step _ _ _ _ _ _ _ _ Hr Hh Hl1 Hs) Hl2 Hrun).
Qed.
Lemma panicked_hopeless pf t0 t1 s t tid u g rec : reachable pf t0 t1 s -> insts s !! rec = Some (Inst tid u g IPanicked) -> submitted t (log s) -> t_uid t = u -> t_maxrun t = None ->
  ECancel tid rec ∉ queue s -> rec ∈ running tid (log s) -> hopeless tid rec s.
Proof.
  intros Hr Hi Ht Hu Hm Hc Hrun. split; [unfold fate; by rewrite Hi|done| |done].
  destruct (ri_inst s (rec_reach _ _ _ _ Hr) rec tid u) as (it & ts & Hl); [by rewrite Hi|]. exists u, it, ts, t. done.
Qed.
Theorem C44_never_ends pf t0 t1 s t tid u g rec ls s' : reachable pf t0 t1 s -> insts s !! rec = Some (Inst tid u g IPanicked) -> submitted t (log s) -> t_uid t = u -> t_maxrun t = None ->
  ECancel tid rec ∉ queue s -> rec ∈ running tid (log s) -> Forall (no_cancel rec) ls -> run pf ls s = Some s' -> rec ∈ running tid (log s').
Proof.
  intros Hr Hi Ht Hu Hm Hc Hrun Hl Hs. exact (hl_run _ _ _ (hopeless_run _ _ _ _ _ _ _ _ Hr (panicked_hopeless _ _ _ _ _ _ _ _ _ Hr Hi Ht Hu Hm Hc Hrun) Hl Hs)).
Qed.
Print Assumptions C44_never_ends.

(** ... and when as many instances as the limit allows have panicked, the task does not start any more, whatever happens except cancelling them. *)
Theorem C44_blocks_task pf t0 t1 s t mx ls s' : reachable pf t0 t1 s -> submitted t (log s) -> t_maxrun t = None -> t_maxpar t = Some mx ->
  N.of_nat (length (running (t_id t) (log s))) = mx ->
  (forall rec, rec ∈ running (t_id t) (log s) -> insts s !! rec = Some (Inst (t_id t) (t_uid t) true IPanicked) /\ ECancel (t_id t) rec ∉ queue s /\ Forall (no_cancel rec) ls) ->
  run pf ls s = Some s' -> sole t (log s') -> starts (t_uid t) (log s') = starts (t_uid t) (log s).
Proof.
  intros Hr Hsub Hmr Hmp Hlen Hp Hrun Ht. pose (R := running (t_id t) (log s)).
  assert (forall rec, rec ∈ R -> hopeless (t_id t) rec s) as Hh.
  { intros rec Hin. destruct (Hp rec Hin) as (H1 & H2 & _). by eapply panicked_hopeless. }
  assert (forall rec, rec ∈ R -> Forall (no_cancel rec) ls) as Hn by (intros rec Hin; apply (Hp rec Hin)).
  assert (NoDup R) as Hnd by exact (C07_counted_once _ _ _ _ (t_id t) Hr).
  assert (mx = N.of_nat (length R)) as -> by (by rewrite <- Hlen). clearbody R. clear Hp Hlen.
  revert s Hr Hsub Hh Hrun. induction ls as [|lb ls IH]; intros s Hr Hsub Hh Hrun; cbn [run] in Hrun; [by injection Hrun as <-|].
  destruct (step pf lb s) as [s1|] eqn:Hs; [|discriminate Hrun].
  pose proof (reach_step _ _ _ _ _ _ Hr Hs) as Hr1. pose proof (submitted_mono _ _ _ _ _ Hs Hsub) as Hsub1.
  assert (forall rec, rec ∈ R -> hopeless (t_id t) rec s1) as Hh1.
  { intros rec Hin. pose proof (Hn rec Hin) as Hx. apply Forall_cons in Hx as [Hx _]. exact (hopeless_step _ _ _ _ _ _ _ _ Hr (Hh rec Hin) Hx Hs). }
  rewrite (IH (fun rec Hin => proj2 (proj1 (Forall_cons _ _ _) (Hn rec Hin))) s1 Hr1 Hsub1 Hh1 Hrun).
  destruct (starts_step _ _ _ _ Hs) as [(l & ids & x & r & E & _ & _ & E2 & _)|[E _]]; [|by rewrite E]. rewrite E2. cbn [starts].
  destruct (t_uid x =? t_uid t) eqn:Eu; [|lia]. apply N.eqb_eq in Eu. exfalso.
  assert (x ∈ held s) as Hx by (apply elem_held; left; rewrite E; left).
  destruct (ci_held s (cnt_reach _ _ _ _ Hr) x Hx) as (x1 & H1 & H2 & H3 & _).
  assert (x1 = t) as -> by (apply (ci_uniq s (cnt_reach _ _ _ _ Hr)); [done|done|congruence]).
  pose proof (C07_limit_holds _ _ _ _ _ _ Hr1 (sole_run _ _ _ _ _ Hrun Hsub1 Ht) Hmp) as Hle.
  rewrite E2 in Hle. cbn [running] in Hle. rewrite <- H3, N.eqb_refl in Hle. cbn [length] in Hle.
  assert (length R <= length (running (t_id t) (log s)))%nat; [|lia].
  apply submseteq_length, NoDup_submseteq; [done|]. intros rec Hin. exact (hl_run _ _ _ (Hh rec Hin)).
Qed.
Print Assumptions C44_blocks_task.

(** With a maximum running time, it ends: the event handler and the sweeper alone can bring that about, at any time
    (unless the event handler dies while handling an earlier event). *)
Definition inner (lb : label) : Prop := service lb \/ exists ch rec now, lb = LTimer ch rec now.
Lemma way_run pf t0 t1 ls s s' tid rec : reachable pf t0 t1 s -> on_way tid rec s -> run pf ls s = Some s' -> on_way tid rec s'.
Proof.
  revert s. induction ls as [|lb ls IH]; intros s Hr Hw Hrun; cbn [run] in Hrun; [by injection Hrun as <-|].
  destruct (step pf lb s) as [s1|] eqn:Hs; [|discriminate Hrun]. refine (IH s1 (reach_step _ _ _ _ _ _ Hr Hs) _ Hrun).
  apply (way_step pf lb s s1); [by eapply hpub_reach|apply st_hb; by eapply stat_reach|done|done].
Qed.
Lemma way_over tid rec s : on_way tid rec s -> tpc s <> TDead -> (forall l ids t e, tpc s <> TSend l ids t rec e) -> queue s = [] -> recq s = [] -> heap s = [] -> OQuit tid rec ∈ log s.
Proof.
  intros Hw H1 H2 Hq Hr Hh. destruct Hw as [Hw|l ids t d Hw _|hb d Hw _ _|u Hw _ _ _|Hw _|Hw]; [done|by destruct (H2 _ _ _ _ Hw)| | | |done].
  - rewrite Hq in Hw. by apply elem_of_nil in Hw.
  - rewrite Hr, Hh in Hw. by destruct Hw as [?%elem_of_nil|?%elem_of_nil].
  - rewrite Hq in Hw. by apply elem_of_nil in Hw.
Qed.
Theorem C44_timed_ends pf t0 t1 s u tid rec it ts t m : reachable pf t0 t1 s -> OLaunch u tid rec it ts ∈ log s -> submitted t (log s) -> t_uid t = u -> t_maxrun t = Some m -> tpc s <> TDead ->
  exists ls s', Forall inner ls /\ run pf ls s = Some s' /\ (rec ∉ running tid (log s') \/ hpc s' = HDead).
Proof.
  intros Hr Hin Hsub Hu Hm Hd. pose proof (way_reach _ _ _ _ _ _ _ _ _ _ _ Hr Hin Hsub Hu Hm) as Hw.
  assert (exists l0 s0, Forall inner l0 /\ run pf l0 s = Some s0 /\ tpc s0 <> TDead /\ (forall l ids t r e, tpc s0 <> TSend l ids t r e)) as (l0 & s0 & Hl0 & Hrun0 & Hd0 & Hn0).
  { assert ((exists l ids t r e, tpc s = TSend l ids t r e) \/ (forall l ids t r e, tpc s <> TSend l ids t r e)) as [(l & ids & x & r & e & E)|E] by (destruct (tpc s); eauto 10; right; done).
    - exists [LTimer 0 0 0]. eexists. split; [apply Forall_singleton; right; eauto|]. split; [cbn [run step]; unfold timer_step; rewrite E; reflexivity|]. fsimpl. done.
    - exists [], s. done. }
  destruct (settle pf s0) as (ls & s1 & Hl & Hrun & Ht & Hx). pose proof (reach_run _ _ _ _ _ _ Hr Hrun0) as Hr0. pose proof (reach_run _ _ _ _ _ _ Hr0 Hrun) as Hr1.
  pose proof (way_run _ _ _ _ _ _ _ _ Hr0 (way_run _ _ _ _ _ _ _ _ Hr Hw Hrun0) Hrun) as Hw1.
  exists (l0 ++ ls), s1. split; [apply Forall_app; split; [done|]; eapply Forall_impl; [exact Hl|]; by left|]. split; [by rewrite run_app, Hrun0|].
  destruct Hx as [Hx|(Hq & Hrq & Hhp & _)]; [by right|left]. apply (quit_ended _ _ _ _ _ _ Hr1). apply way_over; [done|congruence| |done|done|done].
  intros l ids x e. rewrite Ht. apply Hn0.
Qed.
Print Assumptions C44_timed_ends.
(** Whatever the order in which they work: once nothing is left to do for them, the instance has ended. *)
Theorem C44_timed_has_ended pf t0 t1 s u tid rec it ts t m : reachable pf t0 t1 s -> OLaunch u tid rec it ts ∈ log s -> submitted t (log s) -> t_uid t = u -> t_maxrun t = Some m ->
  tpc s <> TDead -> (forall l ids x e, tpc s <> TSend l ids x rec e) -> queue s = [] -> recq s = [] -> heap s = [] -> rec ∉ running tid (log s).
Proof.
  intros Hr Hin Hsub Hu Hm H1 H2 Hq Hrq Hh. apply (quit_ended _ _ _ _ _ _ Hr). apply way_over; try done. by eapply way_reach.
Qed.
Print Assumptions C44_timed_has_ended.

(** The only start allowed at a time panics: the refutation, and a meeting of the hypotheses above. *)
Definition panicked (s : sys) : bool := match insts s !! 0%Z with Some (Inst i u true IPanicked) => (i =? 11) && (u =? 1) | _ => false end && at_check s && match hpc s with HIdle => true | _ => false end &&
  bool_decide (running 11 (log s) = [0%Z]) && match queue s with [] => true | _ => false end.
Lemma panicked_is s : panicked s = true -> insts s !! 0%Z = Some (Inst 11 1 true IPanicked) /\ (exists l, tpc s = TCheck l) /\ hpc s = HIdle /\ running 11 (log s) = [0%Z] /\ queue s = [].
Proof.
  unfold panicked. intros H. apply andb_true_iff in H as [H H5]. apply andb_true_iff in H as [H H4]. apply andb_true_iff in H as [H H3]. apply andb_true_iff in H as [H1 H2].
  apply bool_decide_eq_true in H4. destruct (queue s) eqn:Eq; [|discriminate H5].
  destruct (insts s !! 0%Z) as [[i u [|] []]|] eqn:Ei; try discriminate H1. apply andb_true_iff in H1 as [E3 E4]. apply N.eqb_eq in E3, E4. subst i u. unfold at_check in H2. destruct (tpc s) eqn:E; try discriminate H2. destruct (hpc s) eqn:E2; try discriminate H3. eauto 6.
Qed.
Example C44_blocked_example : exists s, reachable Debug 100 100 s /\ sole (limited 1 (every 1 11 5 100)) (log s) /\ panicked s = true.
Proof.
  destruct (scen_alone Debug 100 100 [Do (LAdd (limited 1 (every 1 11 5 100))); Handle; Ticks 7; Handle; Do (LPanic 0)] (limited 1 (every 1 11 5 100)) panicked)
    as (s & (Hr & Hs & Hq & _) & HP); [left; left|vm_compute; reflexivity|].
  exists s. split; [exact Hr|]. split; [exact (quiet_sole _ _ Hs Hq)|exact HP].
Qed.
Theorem C44_panic_ends_refuted : ~ C44_panic_ends.
Proof.
  intros H. destruct C44_blocked_example as (s & Hr & Ht & HP). apply panicked_is in HP as (H1 & (l & H2) & H3 & H4 & H5).
  destruct (H _ _ _ _ _ _ _ Hr H1) as (ls & s' & Hl & Hrun & Hn); [by rewrite H2|by rewrite H3|]. apply Hn.
  refine (C44_never_ends _ _ _ _ _ _ _ _ _ _ _ Hr H1 (proj1 Ht) eq_refl eq_refl _ _ Hl Hrun); [rewrite H5; by apply not_elem_of_nil|rewrite H4; left].
Qed.
Print Assumptions C44_panic_ends_refuted.
Example C44_timed_example : exists s, reachable Debug 100 100 s /\ sole (timed 3 (every 1 11 5 100)) (log s) /\ panicked s = true /\ OLaunch 1 11 0 6 106 ∈ log s.
Proof.
  destruct (scen_alone Debug 100 100 [Do (LAdd (timed 3 (every 1 11 5 100))); Handle; Ticks 7; Handle; Do (LPanic 0)] (timed 3 (every 1 11 5 100)) (fun s => panicked s && existsb (same (OLaunch 1 11 0 6 106)) (log s)))
    as (s & (Hr & Hs & Hq & _) & HP); [left; left|vm_compute; reflexivity|].
  apply andb_true_iff in HP as [H1 H2]. apply existsb_exists in H2 as (o & Ho & E). apply same_ok in E. subst o.
  exists s. split; [exact Hr|]. split; [exact (quiet_sole _ _ Hs Hq)|]. split; [exact H1|]. by apply elem_of_list_In.
Qed.

(* ------------------------------------------------------------------ *)
(** ** C45 Bookkeeping of finished tasks is released *)

(** The countdown is used up, all instances have ended, nobody has anything left to do. *)
Definition over (t : task) (n : N) (s : sys) : Prop := count (t_freq t) = Some n /\ 1 <= n /\ starts (t_uid t) (log s) = n /\ running (t_id t) (log s) = [] /\
  queue s = [] /\ recq s = [] /\ heap s = [] /\ hpc s = HIdle /\ exists l, tpc s = TCheck l.
Definition C45_released : Prop := forall pf t0 t1 s t n, reachable pf t0 t1 s -> sole t (log s) -> over t n s ->
  (forall x, x ∈ held s -> t_id x <> t_id t) /\ flags s !! t_id t = None /\ trace s !! t_id t = None.

Definition overb (i u n : N) (s : sys) : bool := (starts u (log s) =? n) && none_runs i s && match queue s with [] => true | _ => false end && bool_decide (length (recq s) = 0%nat) && bool_decide (length (heap s) = 0%nat) &&
  match hpc s with HIdle => true | _ => false end && at_check s && bool_decide (is_Some (flags s !! i)) && bool_decide (is_Some (trace s !! i)).
Example C45_example : exists s, reachable Debug 100 100 s /\ sole (ntimes 1 11 1 5 100) (log s) /\ over (ntimes 1 11 1 5 100) 1 s /\ flags s !! 11 <> None /\ trace s !! 11 <> None.
Proof.
  destruct (scen_alone Debug 100 100 [Do (LAdd (ntimes 1 11 1 5 100)); Handle; Ticks 7; Handle; Do (LFinish 0 107 None); Handle; Ticks 1] (ntimes 1 11 1 5 100) (overb 11 1 1))
    as (s & (Hr & Hs & Hq & _) & HP); [left; left|vm_compute; reflexivity|].
  unfold overb in HP. repeat match goal with H : (_ && _) = true |- _ => apply andb_true_iff in H as [? ?] end.
  repeat match goal with H : bool_decide _ = true |- _ => apply bool_decide_eq_true in H end.
  match goal with H : none_runs _ _ = true |- _ => unfold none_runs in H end. match goal with H : at_check _ = true |- _ => unfold at_check in H end.
  destruct (running 11 (log s)) eqn:E1; [|discriminate]. destruct (queue s) eqn:E4; [|discriminate]. destruct (hpc s) eqn:E2; try discriminate. destruct (tpc s) eqn:E3; try discriminate.
  exists s. split; [exact Hr|]. split; [exact (quiet_sole _ _ Hs Hq)|]. split.
  - unfold over. split; [reflexivity|]. split; [discriminate|]. split; [by apply N.eqb_eq|]. split; [exact E1|]. split; [done|].
    split; [by apply nil_length_inv|]. split; [by apply nil_length_inv|]. split; [done|]. eauto.
  - split; by apply not_eq_None_Some.
Qed.
Theorem C45_released_refuted : ~ C45_released.
Proof. intros H. destruct C45_example as (s & Hr & Ht & Ho & H1 & _). destruct (H _ _ _ _ _ _ Hr Ht Ho) as (_ & H2 & _). by apply H1. Qed.
Print Assumptions C45_released_refuted.

(** What holds: no copy of the task is left on the wheel or elsewhere, ... *)
Theorem C45_released_partial pf t0 t1 s t n : reachable pf t0 t1 s -> sole t (log s) -> over t n s -> forall x, x ∈ held s -> t_id x <> t_id t.
Proof.
  intros Hr [Ht Hu] (Hn & H1 & Hst & _ & _ & _ & _ & _ & l & Hl) x Hx Hi.
  destruct (ci_held s (cnt_reach _ _ _ _ Hr) x Hx) as (t' & H2 & H3 & H4 & _ & _ & _ & _ & H5).
  assert (t' = t) as -> by (apply Hu; [done|congruence]). destruct (H5 n Hn H1) as (_ & c & _ & Hc & E). rewrite <- H3, Hl, Hst in E. cbn [pend] in E. lia.
Qed.
Print Assumptions C45_released_partial.
(** ... and the trace keeps no handle of it, only an empty list. *)
Theorem C45_handles_released pf t0 t1 s i l : reachable pf t0 t1 s -> running i (log s) = [] -> trace s !! i = Some l -> l = [].
Proof.
  intros Hr Hn Hl. destruct l as [|hb l]; [done|]. exfalso. assert ((i, hb_rec hb) ∈ trace_recs (trace s)) as Hin by (apply elem_trace_recs; eexists; split; [exact Hl|left]).
  apply (trace_running _ _ _ _ _ _ Hr) in Hin. rewrite Hn in Hin. by apply elem_of_nil in Hin.
Qed.
Print Assumptions C45_handles_released.

(** The mark stays until a removal is called, ... *)
Definition no_remove (i : N) (s : sys) : Prop := ERemove i ∉ queue s /\ (forall sl, hpc s <> HRem1 i sl) /\ (forall ok, hpc s <> HRem2 i ok).
Lemma no_remove_step pf lb s s' i : step pf lb s = Some s' -> lb <> LRemove i -> no_remove i s -> no_remove i s'.
Proof.
  intros Hs. unfold no_remove. step_inv Hs; inst_cases; isimpl; intros Hl (R1 & R2 & R3).
  all: try (rewrite not_elem_of_cons in R1; destruct R1 as [R0 R1]).
  all: split; [try done; try (rewrite not_elem_of_app, not_elem_of_cons; split; [done|]; split; [|apply not_elem_of_nil]; congruence)|].
  all: split; intros; try congruence; try done.
  all: naive_solver.
Qed.
Lemma mark_step pf lb s s' i : step pf lb s = Some s' -> no_remove i s -> flags s !! i <> None -> flags s' !! i <> None.
Proof.
  intros Hs (_ & _ & Hn) Hf. destruct (num_kinds _ _ _ _ i Hs) as [K|l ids sl m1 m2 K1 K2 K3 K4 K5|c sl m1 K1 K2 K3 K4|ok K1 K2|e q fin rec st tr m1 m2 K1 K2 K3 K4 K5 K6 K7 K8]; try congruence.
  destruct (flags s !! i), (flags s' !! i); done.
Qed.
Theorem C45_mark_stays pf s ls s' i : no_remove i s -> flags s !! i <> None -> LRemove i ∉ ls -> run pf ls s = Some s' -> flags s' !! i <> None.
Proof.
  revert s. induction ls as [|lb ls IH]; intros s Hn Hf Hl Hrun; cbn [run] in Hrun; [by injection Hrun as <-|].
  destruct (step pf lb s) as [s1|] eqn:Hs; [|discriminate Hrun]. apply not_elem_of_cons in Hl as [Hl1 Hl2].
  refine (IH s1 _ _ Hl2 Hrun); [|by eapply mark_step]. eapply no_remove_step; [exact Hs|congruence|done].
Qed.
Print Assumptions C45_mark_stays.
(** ... which releases it; ... *)
Theorem C45_remove_releases pf s i ok : hpc s = HRem2 i ok -> exists s', step pf LHandler s = Some s' /\ flags s' !! i = None.
Proof.
  intros E. cbn [step]. unfold handler_step. rewrite E. eexists. split; [reflexivity|].
  unfold complete, drop_mark, abandon_opt. repeat case_match; fsimpl; apply lookup_delete.
Qed.
Print Assumptions C45_remove_releases.
(** ... but the list of its instances stays for ever, even then. *)
Lemma trace_keeps pf lb s s' i : hpub_ok s -> step pf lb s = Some s' -> trace s !! i <> None -> trace s' !! i <> None.
Proof.
  intros Hok Hs Hi. destruct (step_kinds _ _ _ _ Hok Hs) as [e q fin j r st Hh Hq He Hx|j hb q Hh Hq Hx|lg Et Eh El Ha].
  - apply (ended_effect _ _ _ _ _ _ _ _ He) in Hx as (_ & [(_ & ->)|(tr & n & p & Hn & Et & El & _)]); [done|]. rewrite Et. unfold quit_one_task_handler in Hn.
    destruct (trace s !! j) as [lj|] eqn:Ej; [|discriminate Hn]. destruct (take_rec hb_rec r lj) as [[? l']|]; [|discriminate Hn]. injection Hn as <-.
    destruct (decide (j = i)) as [->|Hne]; [by rewrite lookup_insert|by rewrite lookup_insert_ne].
  - apply appended_effect in Hx as (_ & -> & _). unfold trace_insert. destruct (decide (j = i)) as [->|Hne]; [by rewrite lookup_insert|by rewrite lookup_insert_ne].
  - by rewrite Et.
Qed.
Theorem C45_list_stays pf t0 t1 s ls s' i : reachable pf t0 t1 s -> trace s !! i <> None -> run pf ls s = Some s' -> trace s' !! i <> None.
Proof.
  revert s. induction ls as [|lb ls IH]; intros s Hr Hi Hrun; cbn [run] in Hrun; [by injection Hrun as <-|].
  destruct (step pf lb s) as [s1|] eqn:Hs; [|discriminate Hrun]. refine (IH s1 (reach_step _ _ _ _ _ _ Hr Hs) _ Hrun). eapply trace_keeps; [by eapply hpub_reach|exact Hs|done].
Qed.
Print Assumptions C45_list_stays.
