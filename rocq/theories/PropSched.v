(** The scheduler: C19, C32, C40. *)
From Verif Require Import Tactics Inv Own Life Count Quiet Timing Arrival Cases Inst Ended Frame Scen PropInst.

(* ------------------------------------------------------------------ *)
(** ** C40 Tasks with different ids do not influence each other *)
Definition C40_no_influence : Prop := forall pf t0 t1 lb s s' i sl t, reachable pf t0 t1 s -> step pf lb s = Some s' ->
  sits s i sl t -> ~ touches i lb s -> waits s s' i sl t /\ tpc s' <> TDead.
(** A task whose closure panics takes the scheduler with it, and so all other tasks. *)
Theorem C40_no_influence_refuted : ~ C40_no_influence.
Proof.
  intros H. destruct (after_reach Debug 100 100 [Do (LAdd (every 1 11 3 100)); Do (LAdd (every 2 12 30 100)); Handle; Ticks 4;
      Do (LTimer 0 0 0); Do (LTimer 0 0 0); Do (LTimer 0 0 0); Do (LTimer 0 0 0); Do (LTimer 0 0 0)]
    (fun s => match tpc s, wheel s !! 31 with TSpawn _ _ t _, Some m => (t_id t =? 11) && bool_decide (is_Some (m !! 12)) | _, _ => false end)) as (s & Hr & HP); [vm_compute; reflexivity|].
  destruct (tpc s) eqn:Et; try discriminate HP. destruct (wheel s !! 31) as [m|] eqn:Ew; [|discriminate HP]. apply andb_true_iff in HP as [_ HP].
  apply bool_decide_eq_true in HP as [t' Hm]. destruct (H _ _ _ LRoutinePanic s (set_tpc TDead s) 12 31 t' Hr) as [_ Hd].
  - cbn. unfold routine_panic. by rewrite Et.
  - by exists m.
  - intros [].
  - by apply Hd.
Qed.
Print Assumptions C40_no_influence_refuted.
(** Apart from that: after a step that is no operation on the id [i], a task waiting under [i] waits for the same iteration as before,
    or the step was the one that takes it, in that iteration. *)
Theorem C40_no_influence_partial pf t0 t1 lb s s' i sl t : reachable pf t0 t1 s -> step pf lb s = Some s' ->
  sits s i sl t -> ~ touches i lb s -> tpc s' <> TDead -> waits s s' i sl t.
Proof. intros. by eapply frame_step. Qed.
Print Assumptions C40_no_influence_partial.

(** Steps with other ids only, all the way along an execution in which the scheduler does not die. *)
Fixpoint untouched (pf : profile) (i : N) (ls : list label) (s : sys) : Prop :=
  match ls with
  | [] => True
  | lb :: r => ~ touches i lb s /\ match step pf lb s with Some s' => tpc s' <> TDead /\ untouched pf i r s' | None => False end
  end.
Lemma when_at_ge s i sl t : iters s <= when_at s i sl t.
Proof.
  unfold when_at. case_decide; [lia|]. pose proof (due_ge (next_scan s) sl (t_cyl t)) as Hd. assert (iters s <= next_scan s); [|lia].
  unfold next_scan. case_match; lia.
Qed.
(** So whatever happens to other tasks, it waits until its iteration, and in its iteration it is taken. *)
Theorem C40_waits_for_its_iteration pf t0 t1 ls s s' i sl t : reachable pf t0 t1 s -> sits s i sl t -> untouched pf i ls s -> run pf ls s = Some s' ->
  (iters s' <= when_at s i sl t /\ exists c, sits s' i sl (set_cylinder_line c t) /\ when_at s' i sl (set_cylinder_line c t) = when_at s i sl t) \/
  (exists ls1 ls2 s1 l ids c, ls = ls1 ++ ls2 /\ run pf ls1 s = Some s1 /\ tpc s1 = TMaint l ids (set_cylinder_line c t) /\ iters s1 = when_at s i sl t).
Proof.
  revert s t. induction ls as [|lb ls IH]; intros s t Hr Hon Hu Hrun; cbn [run untouched] in *.
  { simplify_eq. left. split; [apply when_at_ge|]. exists (t_cyl t). by destruct t. }
  destruct Hu as [Hn Hu]. destruct (step pf lb s) as [s1|] eqn:Hs; [|done]. destruct Hu as [Hd Hu].
  destruct (frame_step _ _ _ _ _ _ _ _ _ Hr Hs Hon Hn Hd) as [(t' & Hon' & Hw & c & ->)|(l & ids & Ht & Hw)].
  - destruct (IH s1 _ (reach_step _ _ _ _ _ _ Hr Hs) Hon' Hu Hrun) as [(Hi & c' & H1 & H2)|(ls1 & ls2 & s2 & l & ids & c' & -> & H1 & H2 & H3)].
    + left. rewrite <- Hw. split; [done|]. exists c'. split; [done|]. exact H2.
    + right. exists (lb :: ls1), ls2, s2, l, ids, c'. split; [done|]. cbn [run]. rewrite Hs. split; [done|]. split; [done|]. by rewrite <- Hw.
  - right. exists [lb], ls, s1, l, ids, (t_cyl t). split; [done|]. cbn [run]. rewrite Hs. split; [done|]. split; [|done]. by destruct t.
Qed.
Print Assumptions C40_waits_for_its_iteration.

(** Nor does anything done for another id change the mark of [i], which holds its parallel count and its chain. *)
Theorem C40_mark pf lb s s' i : step pf lb s = Some s' -> ~ touches_mark i lb s -> flags s' !! i = flags s !! i.
Proof. apply frame_mark. Qed.
Print Assumptions C40_mark.

(** 60 ticks of another task, and its removal: task 12 still waits in slot 31 for iteration 31 + 3600. *)
Definition c40_acts : list act := [Do (LAdd (every 1 11 3 100)); Do (LAdd (every 2 12 3630 100)); Handle].
Fixpoint untouchedb (pf : profile) (i : N) (n : nat) (s : sys) : bool :=
  match n with
  | O => true
  | S n => match tpc s with TPark _ _ t _ => negb (t_id t =? i) | _ => true end &&
           match step pf (LTimer 0 (fresh_rec s) 0) s with Some s' => match tpc s' with TDead => false | _ => untouchedb pf i n s' end | None => false end
  end.
Example C40_example : exists s ls s', reachable Debug 100 100 s /\ run Debug ls s = Some s' /\ untouched Debug 12 ls s /\
  (exists t, sits s 12 31 t /\ when_at s 12 31 t = 3631) /\ iters s < iters s'.
Proof.
  assert (forall n s, untouchedb Debug 12 n s = true -> exists ls s', run Debug ls s = Some s' /\ untouched Debug 12 ls s /\
    N.iter (N.of_nat n) (fun o => match o with Some s => step Debug (LTimer 0 (fresh_rec s) 0) s | None => None end) (Some s) = Some s') as Hx.
  { induction n as [|n IH]; intros s H; [exists [], s; done|]. cbn [untouchedb] in H. apply andb_true_iff in H as [H1 H2].
    destruct (step Debug (LTimer 0 (fresh_rec s) 0) s) as [s1|] eqn:E; [|done].
    destruct (IH s1) as (ls & s' & R & U & I); [by destruct (tpc s1)|]. exists (LTimer 0 (fresh_rec s) 0 :: ls), s'. cbn [run untouched]. rewrite E. split; [done|]. split.
    - split; [|split; [by destruct (tpc s1)|done]]. cbn. intros (l & ids & t & upd & Et & Hi). rewrite Et in H1. apply negb_true_iff, N.eqb_neq in H1. done.
    - rewrite Nat2N.inj_succ, N.iter_succ_r. by rewrite E. }
  destruct (after_reach Debug 100 100 c40_acts (fun s => match wheel s !! 31 with Some m => match m !! 12 with Some t => when_at s 12 31 t =? 3631 | None => false end | None => false end &&
    untouchedb Debug 12 60 s && match N.iter 60 (fun o => match o with Some s => step Debug (LTimer 0 (fresh_rec s) 0) s | None => None end) (Some s) with Some s' => iters s <? iters s' | None => false end)) as (s & Hr & HP); [vm_compute; reflexivity|].
  apply andb_true_iff in HP as [HP H3]. apply andb_true_iff in HP as [H1 H2]. destruct (Hx 60%nat s H2) as (ls & s' & R & U & I).
  exists s, ls, s'. split; [done|]. split; [done|]. split; [done|]. split.
  - destruct (wheel s !! 31) as [m|] eqn:E; [|done]. destruct (m !! 12) as [t|] eqn:E2; [|done]. exists t. split; [by exists m|]. by apply N.eqb_eq.
  - change (N.of_nat 60) with 60 in I. rewrite I in H3. by apply N.ltb_lt.
Qed.

(* ------------------------------------------------------------------ *)
(** ** C32 The scheduler never spins or loses its place *)
Theorem C32_place pf t0 t1 s : reachable pf t0 t1 s ->
  hand s < SLOTS /\ hand s = iters s mod SLOTS /\ (forall sl, is_Some (wheel s !! sl) <-> sl < SLOTS) /\
  (forall l, loop_of (tpc s) = Some l -> l_hand l = hand s /\ l_next l = (hand s + 1) mod SLOTS).
Proof. intros Hr%wf_reach. split; [rewrite (wf_hand s Hr); apply slots_lt|]. split; [apply (wf_hand s Hr)|]. split; [apply (wf_wheel s Hr)|apply (wf_loop s Hr)]. Qed.
Print Assumptions C32_place.

(** The ticks: iteration they start and second read, newest first. *)
Fixpoint tick_list (lg : list obs) : list (N * N) :=
  match lg with [] => [] | OTick k ts :: r => (k, ts) :: tick_list r | _ :: r => tick_list r end.
Lemma tick_list_inst lg l : Forall inst_obs lg -> tick_list (lg ++ l) = tick_list l.
Proof. induction 1 as [|[] lg Hx H IH]; try done. Qed.
(** The hand moves only with a tick, and then by one slot. *)
Theorem C32_hand_moves_by_one pf lb s s' : step pf lb s = Some s' ->
  (hand s' = hand s /\ iters s' = iters s /\ tick_list (log s') = tick_list (log s)) \/
  (hand s' = (hand s + 1) mod SLOTS /\ iters s' = iters s + 1 /\ exists ts, tick_list (log s') = (iters s + 1, ts) :: tick_list (log s)).
Proof.
  intros Hs. step_inv Hs; inst_shape; fsimpl; rewrite ?tick_list_inst by done.
  all: try (left; split_and!; [done|done|repeat case_match; done]). right. split_and!; eauto.
Qed.
Print Assumptions C32_hand_moves_by_one.

(** How far the scheduler is in its pass. *)
Definition stage (p : timer_pc) : nat :=
  match p with TCheck _ => 4 | TStore _ => 3 | TScan _ => 2 | TStopped | TDead => 0 | _ => 1 end.
Definition work (p : timer_pc) : nat :=
  match p with
  | TLoop _ ids => 10 * length ids + 1
  | TMaint _ ids _ => 10 * length ids + 7 | TSpawn _ ids _ _ => 10 * length ids + 6 | TSend _ ids _ _ _ => 10 * length ids + 5
  | TGate _ ids _ _ => 10 * length ids + 4 | TPark _ ids _ _ => 10 * length ids + 3 | TMark _ ids _ _ _ => 10 * length ids + 2
  | _ => 0
  end.
Definition ahead (p' p : timer_pc) : Prop := (stage p' < stage p)%nat \/ stage p' = stage p /\ (work p' < work p)%nat.
Lemma ahead_acc p : Acc ahead p.
Proof.
  remember (stage p) as a eqn:Ea. revert p Ea. induction a as [a IHa] using lt_wf_ind. intros p Ea.
  remember (work p) as b eqn:Eb. revert p Ea Eb. induction b as [b IHb] using lt_wf_ind. intros p Ea Eb.
  constructor. intros p' [H|[H1 H2]]; [eapply IHa; [|done]; lia|]. eapply IHb; [|lia|done]. lia.
Qed.
(** Every step of the scheduler is a tick or brings it forward in its pass. *)
Lemma pass_step pf ch rec now s s' : wf s -> step pf (LTimer ch rec now) s = Some s' -> ahead (tpc s') (tpc s) \/ iters s < iters s'.
Proof.
  intros Hwf Hs. pose proof (wf_loop s Hwf) as Hl. pose proof (wf_hand s Hwf) as Hh. cbn [step] in Hs. unfold ahead.
  assert (forall l, loop_of (tpc s) = Some l -> is_Some (wheel s !! l_hand l)) as Hw.
  { intros l Hx. destruct (Hl _ Hx) as [-> _]. apply (wf_wheel s Hwf). rewrite Hh. apply slots_lt. }
  pc_inv Hs; fsimpl; cbn [stage work].
  all: try (destruct (motiv s); cbn [stage work]).
  all: try (left; lia).
  all: try (right; lia).
  all: try (destruct (Hw _ eq_refl) as [? Hx]; rewrite Hx in *; discriminate).
  all: pose proof (length_delete _ _ (mk_is_Some _ _ Heqo)) as Hd; cbn [length] in *; left; right; split; [done|lia].
Qed.
Lemma pass_other pf lb s s' : (forall ch rec now, lb <> LTimer ch rec now) -> step pf lb s = Some s' -> (tpc s' = tpc s \/ ahead (tpc s') (tpc s)) /\ iters s' = iters s.
Proof.
  intros Hlb Hs. destruct (match lb with LTimer _ _ _ | LRoutinePanic => true | _ => false end) eqn:Hb.
  - destruct lb; try done; [by edestruct Hlb|]. cbn in Hs. unfold routine_panic in Hs. destruct (tpc s) eqn:Et; simplify_eq. fsimpl. split; [right|done].
    left. cbn. lia.
  - clear Hlb. step_inv Hs; inst_shape; fsimpl; auto; done.
Qed.

(** In an execution in which the scheduler always takes another step, there is always another tick. *)
Theorem C32_each_pass_ends_in_a_tick pf t0 t1 (σ : nat -> sys) (lb : nat -> label) : reachable pf t0 t1 (σ 0%nat) ->
  (forall n, step pf (lb n) (σ n) = Some (σ (S n))) -> (forall n, exists m ch rec now, (n <= m)%nat /\ lb m = LTimer ch rec now) ->
  forall n, exists m, (n <= m)%nat /\ iters (σ n) < iters (σ m).
Proof.
  intros Hr Hs Ht. assert (forall n, reachable pf t0 t1 (σ n)) as Hr'.
  { intros n. induction n as [|n IH]; [done|]. exact (reach_step _ _ _ _ _ _ IH (Hs n)). }
  intros n. remember (tpc (σ n)) as p eqn:Ep. revert n Ep. induction (ahead_acc p) as [p _ IH]. intros n ->.
  destruct (Ht n) as (m & ch & rec & now & Hm & El). remember (m - n)%nat as d eqn:Ed. revert n IH Hm Ed. induction d as [|d IHd]; intros n IH Hm Ed.
  - assert (n = m) as -> by lia. pose proof (Hs m) as Hx. rewrite El in Hx. destruct (pass_step _ _ _ _ _ _ (wf_reach _ _ _ _ (Hr' m)) Hx) as [Ha|Hi].
    + destruct (C32_hand_moves_by_one _ _ _ _ (Hs m)) as [(_ & Ei & _)|(_ & Ei & _)]; [|exists (S m); split; lia].
      destruct (IH _ Ha (S m) eq_refl) as (m' & ? & ?). exists m'. rewrite <- Ei. split; [lia|done].
    + exists (S m). split; [lia|done].
  - destruct (C32_hand_moves_by_one _ _ _ _ (Hs n)) as [(_ & Ei & _)|(_ & Ei & _)]; [|exists (S n); split; lia].
    assert (tpc (σ (S n)) = tpc (σ n) \/ ahead (tpc (σ (S n))) (tpc (σ n)) \/ iters (σ n) < iters (σ (S n))) as [E|[Ha|Hi]].
    { destruct (match lb n with LTimer _ _ _ => true | _ => false end) eqn:Eb.
      - pose proof (Hs n) as Hx. destruct (lb n); try done. destruct (pass_step _ _ _ _ _ _ (wf_reach _ _ _ _ (Hr' n)) Hx); auto.
      - destruct (pass_other pf (lb n) (σ n) (σ (S n))) as [[?|?] _]; auto. intros ??? E. by rewrite E in Eb. }
    + rewrite <- E in IH. destruct (IHd (S n) IH) as (m' & ? & ?); [lia..|]. exists m'. rewrite <- Ei. split; [lia|done].
    + destruct (IH _ Ha (S n) eq_refl) as (m' & ? & ?). exists m'. rewrite <- Ei. split; [lia|done].
    + exists (S n). split; [lia|done].
Qed.
Print Assumptions C32_each_pass_ends_in_a_tick.

(** The scheduler can always take its next step, unless it was stopped or died, or the event handler holds the mark
    it wants to change; then the event handler can take its next step. *)
Theorem C32_never_stuck pf t0 t1 s : reachable pf t0 t1 s -> tpc s <> TStopped -> tpc s <> TDead ->
  (exists ch rec, forall now, is_Some (step pf (LTimer ch rec now) s)) \/
  (exists l ids i sl upd, tpc s = TMark l ids i sl upd /\ mark_locked s i = true /\ is_Some (step pf LHandler s)).
Proof.
  intros Hr H1 H2. cbn [step]. unfold timer_step. destruct (tpc s) eqn:Et; try done.
  all: try (left; exists 0%nat, 0%Z; intros now; repeat case_match; done).
  - left. exists 0%nat, (fresh (dom (insts s))). intros now. rewrite decide_True; [repeat case_match; done|].
    apply not_elem_of_dom. apply is_fresh.
  - destruct (mark_locked s tid) eqn:El.
    + right. do 5 eexists. split; [done|]. split; [done|]. unfold mark_locked in El. unfold handler_step. repeat case_match; done.
    + left. exists 0%nat, 0%Z. intros now. case_match; done.
Qed.
Print Assumptions C32_never_stuck.
(** And within three steps of the event handler the mark is free again. *)
Theorem C33_mark_is_given_back pf s i : mark_locked s i = true ->
  exists n s', (n <= 3)%nat /\ run pf (replicate n LHandler) s = Some s' /\ mark_locked s' i = false /\ tpc s' = tpc s.
Proof.
  intros Hl. unfold mark_locked in Hl. destruct (hpc s) eqn:Eh; try discriminate Hl.
  - exists 1%nat. cbn [replicate run step]. unfold handler_step. rewrite Eh. eexists. split; [lia|]. split; [reflexivity|]. by unfold complete; destruct (hpub s).
  - assert (forall t sl s2, hpc s2 = HAdv3 t sl -> exists s', step pf LHandler s2 = Some s' /\ mark_locked s' i = false /\ tpc s' = tpc s2) as H3.
    { intros t sl2 s2 E. cbn [step]. unfold handler_step. rewrite E. destruct (wheel s2 !! sl2); eexists; (split; [reflexivity|]); unfold complete; by case_match. }
    destruct (step pf LHandler s) as [s1|] eqn:E1; [|cbn [step] in E1; unfold handler_step in E1; rewrite Eh in E1; repeat (case_match; try discriminate E1)].
    assert (tpc s1 = tpc s /\ (hpc s1 = HIdle \/ exists t, hpc s1 = HAdv2 t)) as [Ht [Hi|[t Ha]]].
    { cbn [step] in E1. unfold handler_step in E1. rewrite Eh in E1. destruct (wheel s !! sl) as [m|]; [|injection E1 as <-; unfold complete; case_match; cbn; auto].
      destruct (slot_remove_task m tid) as [[t|] m']; injection E1 as <-; [cbn; eauto|unfold complete; case_match; cbn; auto]. }
    + exists 1%nat, s1. split; [lia|]. cbn [replicate run]. rewrite E1. split; [done|]. unfold mark_locked. by rewrite Hi.
    + destruct (H3 t (hand s1 + 1) (set_hpc (HAdv3 t (hand s1 + 1)) s1) eq_refl) as (s3 & E3 & L3 & T3).
      exists 3%nat, s3. split; [lia|]. cbn [replicate run]. rewrite E1.
      assert (step pf LHandler s1 = Some (set_hpc (HAdv3 t (hand s1 + 1)) s1)) as ->. { cbn [step]. unfold handler_step. by rewrite Ha. }
      rewrite E3. split; [done|]. split; [done|]. rewrite T3. exact Ht.
  - exists 2%nat. cbn [replicate run]. assert (step pf LHandler s = Some (set_hpc (HAdv3 t (hand s + 1)) s)) as ->. { cbn [step]. unfold handler_step. by rewrite Eh. }
    cbn [step]. unfold handler_step. cbn [hpc set_hpc]. destruct (wheel _ !! _); eexists; (split; [lia|]); (split; [reflexivity|]); unfold complete; by case_match.
  - exists 1%nat. cbn [replicate run step]. unfold handler_step. rewrite Eh. destruct (wheel s !! sl); eexists; (split; [lia|]); (split; [reflexivity|]); unfold complete; by case_match.
  - exists 1%nat. cbn [replicate run step]. unfold handler_step. rewrite Eh. destruct (wheel s !! sl); eexists; (split; [lia|]); (split; [reflexivity|]); done.
Qed.
Print Assumptions C33_mark_is_given_back.
Example C33_wait_example : exists s l ids sl upd, reachable Debug 100 100 s /\ tpc s = TMark l ids 11 sl upd /\ mark_locked s 11 = true.
Proof.
  destruct (after_reach Debug 100 100 ([Do (LAdd (every 1 11 3 100)); Handle; Ticks 4] ++ replicate 9 (Do (LTimer 0 0 105)) ++ [Do (LAdvance 11); Do LHandler; Do LHandler])
    (fun s => mark_locked s 11 && match tpc s with TMark _ _ i _ _ => i =? 11 | _ => false end)) as (s & Hr & HP); [vm_compute; reflexivity|].
  apply andb_true_iff in HP as [H1 H2]. destruct (tpc s) eqn:E; try discriminate H2. apply N.eqb_eq in H2 as ->. eauto 10.
Qed.
(** A whole turn of the wheel, and a bit more. *)
Example C32_example : exists s, reachable Debug 100 100 s /\ hand s = 5 /\ iters s = 3605.
Proof.
  destruct (after_reach Debug 100 100 [Ticks 3605] (fun s => (hand s =? 5) && (iters s =? 3605))) as (s & Hr & HP); [vm_compute; reflexivity|].
  apply andb_true_iff in HP as [H1 H2]. apply N.eqb_eq in H1, H2. eauto.
Qed.

(* ------------------------------------------------------------------ *)
(** ** C19 Stop stops starts and nothing else *)
(** Entries of the log after which, in a later iteration, stop had been handled. *)
Definition stopped_before (lg : list obs) : Prop := exists l1 k ts l2, lg = l1 ++ OTick k ts :: l2 /\ OPop EStop ∈ l2.
Record stop_inv (s : sys) : Prop := {
  sp_motiv : OPop EStop ∈ log s -> motiv s = false;
  sp_tpc : stopped_before (log s) -> match tpc s with TCheck _ | TStopped | TDead => True | _ => False end;
  sp_launch : each (fun o r => match o with OLaunch _ _ _ _ _ => ~ stopped_before r | _ => True end) (log s) }.
Lemma stopped_cons o l : stopped_before (o :: l) -> (exists k ts, o = OTick k ts /\ OPop EStop ∈ l) \/ stopped_before l.
Proof.
  intros ([|o' l1] & k & ts & l2 & E & Hin); cbn in E; simplify_eq; [left; eauto|]. right. exists l1, k, ts, l2. done.
Qed.
Lemma stopped_pop l : stopped_before l -> OPop EStop ∈ l.
Proof. intros (l1 & k & ts & l2 & -> & Hin). set_solver. Qed.
Lemma stopped_inst lg l : Forall inst_obs lg -> stopped_before (lg ++ l) -> stopped_before l.
Proof. induction 1 as [|o lg Hx H IH]; [done|]. intros [(k & ts & -> & _)|?]%stopped_cons; [done|auto]. Qed.
Lemma pop_inst lg l : Forall inst_obs lg -> OPop EStop ∈ lg ++ l -> OPop EStop ∈ l.
Proof. rewrite elem_of_app. intros H [Hin|?]; [|done]. by apply (proj1 (Forall_forall _ _) H) in Hin. Qed.
Lemma stop_inv_step pf lb s s' : stop_inv s -> step pf lb s = Some s' -> stop_inv s'.
Proof.
  intros [H1 H2 H3] Hs.
  assert (forall lg l, Forall inst_obs lg -> each (fun o r => match o with OLaunch _ _ _ _ _ => ~ stopped_before r | _ => True end) l ->
    each (fun o r => match o with OLaunch _ _ _ _ _ => ~ stopped_before r | _ => True end) (lg ++ l)) as Hinst.
  { induction 1 as [|[] lg Hx H IH]; try done; intros; split; auto. }
  assert (forall l, OPop EStop ∈ l -> (l = log s -> motiv s = false)) as Hpop by (intros l ? ->; auto).
  assert (forall l, stopped_before l -> l = log s -> motiv s = false) as Hst.
  { intros l Hx ->. by apply H1, stopped_pop. }
  constructor.
  - clear H2 H3 Hinst Hst. step_inv Hs; inst_shape; fsimpl; rewrite ?complete_log; intros Hin.
    all: try done.
    all: repeat case_match; try (apply pop_inst in Hin; [|done]); rewrite ?elem_of_cons in Hin; destruct_or?; try done; eauto.
  - clear H3 Hinst Hpop. step_inv Hs; inst_shape; fsimpl; rewrite ?complete_log; intros Hin.
    all: repeat first [progress (apply stopped_inst in Hin; [|done])|apply stopped_cons in Hin as [(? & ? & ? & _)|Hin]; [done|]|
           match type of Hin with context [hpub ?x] => destruct (hpub x) end|match type of Hin with context [if ?b then _ else _] => is_var b; destruct b end].
    all: try (by (specialize (H2 Hin); repeat case_match)).
    all: try done.
    apply stopped_pop, H1 in Hin. done.
  - clear Hpop. step_inv Hs; inst_shape; fsimpl; rewrite ?complete_log.
    all: try (by auto). all: try (by (repeat case_match; cbn [each]; auto)).
    all: try (cbn [each]; split; [intros Hx; by apply H2 in Hx|done]).
    all: apply Hinst; [done|]; by split.
Qed.
Lemma stop_reach pf t0 t1 s : reachable pf t0 t1 s -> stop_inv s.
Proof.
  apply reach_ind; [|intros; by eapply stop_inv_step]. constructor.
  - change (log (init t0 t1)) with [OTick 0 t1]. intros H%elem_of_list_singleton. discriminate H.
  - change (log (init t0 t1)) with [OTick 0 t1]. intros H%stopped_pop%elem_of_list_singleton. discriminate H.
  - split; exact I.
Qed.

(** A start after stop was handled happens in the same iteration: no tick lies between. *)
Theorem C19_no_start_in_later_ticks pf t0 t1 s l1 l2 l3 u i rec it ts : reachable pf t0 t1 s ->
  log s = l1 ++ OLaunch u i rec it ts :: l2 ++ OPop EStop :: l3 -> forall k now, OTick k now ∉ l2.
Proof.
  intros Hr El k now Hin. pose proof (sp_launch s (stop_reach _ _ _ _ Hr)) as H. rewrite El in H. apply each_split in H. apply H.
  apply elem_of_list_split in Hin as (a & b & ->). exists a, k, now, (b ++ OPop EStop :: l3). rewrite <- app_assoc. split; [done|]. set_solver.
Qed.
Print Assumptions C19_no_start_in_later_ticks.

(** Once the scheduler has looked at the flag it does nothing any more: it starts no task, and the hand stands still. *)
Theorem C19_stopped_for_good pf s ls s' : tpc s = TStopped -> run pf ls s = Some s' ->
  tpc s' = TStopped /\ launches (log s') = launches (log s) /\ hand s' = hand s.
Proof.
  revert s. induction ls as [|lb ls IH]; intros s Ht Hrun; cbn [run] in Hrun; [by simplify_eq|].
  destruct (step pf lb s) as [s1|] eqn:Hs; [|done].
  assert (tpc s1 = TStopped /\ launches (log s1) = launches (log s) /\ hand s1 = hand s) as (E1 & E2 & E3).
  { clear Hrun IH. step_inv Hs; inst_shape; fsimpl; try done.
    all: try (by (split_and!; try done; repeat case_match)).
    all: split_and!; try done; rewrite launches_app; by rewrite (launches_inst _ Hlg). }
  destruct (IH s1 E1 Hrun) as (? & ? & ?). split_and!; congruence.
Qed.
Print Assumptions C19_stopped_for_good.
(** It looks at the flag at the end of the iteration in which stop was handled. *)
Theorem C19_flag_is_seen pf t0 t1 s l : reachable pf t0 t1 s -> OPop EStop ∈ log s -> tpc s = TCheck l -> forall ch rec now s',
  step pf (LTimer ch rec now) s = Some s' -> tpc s' = TStopped.
Proof.
  intros Hr Hp Ht ch rec now s' Hs. cbn in Hs. unfold timer_step in Hs. rewrite Ht, (sp_motiv s (stop_reach _ _ _ _ Hr) Hp) in Hs. by simplify_eq.
Qed.
Print Assumptions C19_flag_is_seen.
(** Handling stop changes nothing but the flag. *)
Theorem C19_stop_changes_only_the_flag pf t0 t1 s q : reachable pf t0 t1 s -> hpc s = HIdle -> queue s = EStop :: q ->
  step pf LHandler s = Some (set_motiv false (emit (OPop EStop) (set_queue q s))).
Proof.
  intros Hr Hh Hq. pose proof (hpub_reach _ _ _ _ Hr) as Hp. unfold hpub_ok in Hp. rewrite Hh in Hp. cbn. unfold handler_step. rewrite Hh, Hq. cbn.
  unfold complete, emit. destruct s; cbn in *; by subst.
Qed.
Print Assumptions C19_stop_changes_only_the_flag.
Definition gate_inv (s : sys) : Prop := forall r i, insts s !! r = Some i -> i_gate i = false ->
  (exists l ids t e, tpc s = TSend l ids t r e) \/ (exists l ids t, tpc s = TGate l ids t r).
Lemma gate_step pf lb s s' : gate_inv s -> step pf lb s = Some s' -> gate_inv s'.
Proof.
  intros H Hs. unfold gate_inv in *. step_inv Hs; inst_shape; fsimpl; try done.
  all: intros r1 i1 Hi Hg.
  all: try (by (destruct (H _ _ Hi Hg) as [(? & ? & ? & ? & ?)|(? & ? & ? & ?)]; simplify_eq; eauto 10)).
  all: try (rewrite lookup_insert_Some in Hi; destruct Hi as [[<- <-]|[Hne Hi]]; [try done; eauto 10|
         destruct (H _ _ Hi Hg) as [(? & ? & ? & ? & ?)|(? & ? & ? & ?)]; simplify_eq; eauto 10]).
  all: try (rewrite lookup_alter_Some in Hi; destruct Hi as [(<- & ? & ? & ->)|[Hne Hi]]; [done|
         destruct (H _ _ Hi Hg) as [(? & ? & ? & ? & ?)|(? & ? & ? & ?)]; simplify_eq; eauto 10]).
Qed.
Lemma gate_reach pf t0 t1 s : reachable pf t0 t1 s -> gate_inv s.
Proof. apply reach_ind; [|intros; by eapply gate_step]. intros r i H. change (insts (init t0 t1)) with (∅ : gmap Z inst) in H. by rewrite lookup_empty in H. Qed.
(** The rest goes on: with the scheduler stopped, the event handler (unless it died) handles every event, every running instance can
    end, and so can their events be handled. *)
Theorem C19_the_rest_goes_on pf t0 t1 s : reachable pf t0 t1 s -> tpc s = TStopped ->
  (hpc s <> HDead -> hpc s <> HIdle \/ queue s <> [] -> is_Some (step pf LHandler s)) /\
  (forall r i now out, insts s !! r = Some i -> i_fate i = IRunning -> is_Some (step pf (LFinish r now out) s)).
Proof.
  intros Hr Ht. split.
  - intros H1 H2. cbn. unfold handler_step. destruct (hpc s); try done; repeat case_match; try done. by destruct H2.
  - intros r [tid uid g f] now out Hi Hf. cbn in *. subst f. unfold inst_finish. rewrite Hi. destruct g; [done|].
    destruct (gate_reach _ _ _ _ Hr _ _ Hi eq_refl) as [(? & ? & ? & ? & ?)|(? & ? & ? & ?)]; congruence.
Qed.
Print Assumptions C19_the_rest_goes_on.
(** Stop is handled while a task is being started; the instance started then, and the one before, finish after the scheduler has stopped. *)
Example C19_example : exists s, reachable Debug 100 100 s /\ tpc s = TStopped /\ insts s !! 1%Z = Some (Inst 11 1 true IRunning) /\
  (exists l1 l2, log s = l1 ++ OLaunch 1 11 1 5 105 :: l2 /\ OPop EStop ∈ l2) /\ OPublic (PFinish 11 0 109 None) ∈ log s.
Proof.
  destruct (after_reach Debug 100 100 [Do (LAdd (every 1 11 2 100)); Handle; Ticks 5;
      Do (LTimer 0 0 0); Do (LTimer 0 0 0); Do (LTimer 0 0 0); Do (LTimer 0 0 0); Do (LTimer 0 1 0); Do LStop; Handle; Ticks 1; Do (LTimer 0 0 0);
      Do (LFinish 0 109 None); Handle]
    (fun s => match tpc s, insts s !! 1%Z with TStopped, Some (Inst 11 1 true IRunning) => true | _, _ => false end && (inb (OPublic (PFinish 11 0 109 None)) (log s) &&
       sees (OLaunch 1 11 1 5 105) (log s) (fun l1 l2 => inb (OPop EStop) l2)))) as (s & Hr & HP); [vm_compute; reflexivity|].
  apply andb_true_iff in HP as [H1 HP]. facts HP. exists s. split; [done|]. destruct (tpc s); try done. split; [done|].
  destruct (insts s !! 1%Z) as [[tid uid g f]|]; [|done]. split; [repeat case_match; by simplify_eq|]. split; [|done]. eauto.
Qed.
