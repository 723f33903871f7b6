(** C52, C53: what an instance runs after it was told to quit, and what it reports. *)
From Verif Require Import Base State System Inv Scen Routine.

Definition user (o : robs) : Prop := match o with UStart | URun | UReturn | UPanic => True | _ => False end.

Definition is_finish (o : robs) : bool := match o with SFinish => true | _ => false end.
Definition is_start (o : robs) : bool := match o with UStart => true | _ => false end.
Definition times (p : robs -> bool) (lg : list robs) : nat := length (List.filter p lg).

(** ** The invariant *)

(** What the log tells of the state. *)
Record rinv (k : rkind) (rt : runtime) (r : rst) : Prop := RInv {
  ri_gone : SGone ∈ r_log r <-> r_wrap r = WDropped;
  ri_sent : times is_finish (r_log r) = (match r_wrap r with WSent => 1 | _ => 0 end)%nat;
  ri_told : SQuit ∈ r_log r <-> r_told r = true;
  ri_start : UStart ∈ r_log r <-> match r_body r with BActive | BReturned | BPanicked => True | BDropped => UStart ∈ r_log r | BNew => False end;
  ri_starts : (times is_start (r_log r) <= 1)%nat /\ (r_body r = BNew -> times is_start (r_log r) = 0%nat);
  ri_ret : UReturn ∈ r_log r <-> r_body r = BReturned;
  ri_panic : UPanic ∈ r_log r <-> r_body r = BPanicked;
  ri_drop : r_body r = BDropped -> r_wrap r = WDropped;
  ri_kind : match k with
    | AsyncFn => match r_body r with
        | BNew | BActive => r_wrap r = WAwait
        | BReturned => r_wrap r = WGate \/ r_wrap r = WSent \/ r_wrap r = WDropped
        | BPanicked => r_wrap r = WPanicked
        | BDropped => True
        end
    | SyncFn => match r_wrap r with
        | WGate | WSent => r_body r = BReturned \/ (r_body r = BPanicked /\ rt = Tokio)
        | WPanicked => r_body r = BPanicked /\ rt = Smol
        | _ => True
        end
    end
}.

Lemma rinv_init k rt : rinv k rt rinit.
Proof. split; cbn; try done; rewrite ?elem_of_nil; try done; try lia; by destruct k. Qed.

Lemma rinv_step k rt l r r' : rinv k rt r -> rstep k rt l r = Some r' -> rinv k rt r'.
Proof.
  intros H Hs. destruct r as [b w g t lg], H as [H1 H2 H3 H4 H5 H6 H7 H8 H9]; cbn in *.
  assert (forall o x : robs, (o ∈ x :: lg) <-> (o = x \/ o ∈ lg)) as Hc by (intros; apply elem_of_cons).
  destruct l, k; cbn in Hs; repeat (case_match; try discriminate); simplify_eq; cbn in *; unfold times in *;
    (split; cbn in *; rewrite ?Hc; first [assumption|solve [intuition (congruence || discriminate || lia)]|
      destruct b; solve [intuition (congruence || discriminate || lia)]]).
Qed.

Lemma rrun_app k rt l1 l2 r : rrun k rt (l1 ++ l2) r = match rrun k rt l1 r with Some r' => rrun k rt l2 r' | None => None end.
Proof. revert r. induction l1 as [|l l1 IH]; intros r; cbn; [done|]. destruct (rstep k rt l r); [apply IH|done]. Qed.
Lemma rreach_ind k rt (P : rst -> Prop) :
  P rinit -> (forall l r r', rreach k rt r -> P r -> rstep k rt l r = Some r' -> P r') -> forall r, rreach k rt r -> P r.
Proof.
  intros H0 HS r [ls Hls]. revert r Hls. induction ls as [|l ls IH] using rev_ind; intros r Hr; [cbn in Hr; by simplify_eq|].
  rewrite rrun_app in Hr. destruct (rrun k rt ls rinit) as [r1|] eqn:E; [|done]. cbn in Hr.
  destruct (rstep k rt l r1) as [r2|] eqn:E2; [|done]. simplify_eq. eapply HS; [by exists ls|by apply IH|done].
Qed.
Lemma rinv_reach k rt r : rreach k rt r -> rinv k rt r.
Proof. apply rreach_ind; [apply rinv_init|]. intros. by eapply rinv_step. Qed.

(** The log only grows, by at most one entry a step. *)
Lemma rstep_log k rt l r r' : rstep k rt l r = Some r' -> r_log r' = r_log r \/ exists o, r_log r' = o :: r_log r.
Proof. destruct l, k; cbn; intros H; repeat (case_match; try discriminate); simplify_eq; cbn; eauto. Qed.

(** Every entry of the log was made by a step from a reachable state. *)
Lemma log_made k rt r : rreach k rt r -> forall l1 o l2, r_log r = l1 ++ o :: l2 ->
  exists l r1 r2, rreach k rt r1 /\ rstep k rt l r1 = Some r2 /\ r_log r1 = l2 /\ r_log r2 = o :: l2.
Proof.
  intros Hr. pattern r. revert r Hr. apply rreach_ind.
  - intros l1 o l2 H. by destruct l1.
  - intros l r r' Hr IH Hs l1 o l2 E. destruct (rstep_log _ _ _ _ _ Hs) as [E'|[o' E']].
    + rewrite E' in E. eauto.
    + destruct l1 as [|o1 l1].
      * rewrite E' in E. cbn in E. simplify_eq. exists l, r, r'. done.
      * rewrite E' in E. cbn in E. simplify_eq. eauto.
Qed.

(** ** C52: no user code after the end of a cancelled instance *)

(** C52, as stated: once a quit has taken effect, none of the user's code of this
    instance runs any more. *)
Definition C52_silent : Prop := forall k rt r l1 l2,
  rreach k rt r -> r_log r = l1 ++ SGone :: l2 -> Forall (fun o => ~ user o) l1.

(** Missing: sync tasks. *)
Theorem C52_silent_partial rt r l1 l2 :
  rreach AsyncFn rt r -> r_log r = l1 ++ SGone :: l2 -> Forall (fun o => ~ user o) l1.
Proof.
  intros Hr E. apply Forall_forall. intros o Ho Hu. apply elem_of_list_split in Ho as (a & b & ->).
  rewrite <- app_assoc in E. cbn in E. destruct (log_made _ _ _ Hr _ _ _ E) as (l & r1 & r2 & H1 & H2 & E1 & E2).
  pose proof (rinv_reach _ _ _ H1) as Hi. assert (r_wrap r1 = WDropped) as Hw.
  { apply (ri_gone _ _ _ Hi). rewrite E1. set_solver. }
  rewrite <- E1 in E2. clear -H2 Hw E2 Hu.
  destruct l; cbn in H2; unfold async_step in H2; rewrite ?Hw in H2; repeat (case_match; try discriminate); simplify_eq; cbn in *;
    first [apply (f_equal length) in E2; cbn in E2; lia|simplify_eq; done].
Qed.
Print Assumptions C52_silent_partial.

(** A sync closure goes on: on tokio it can even be started afterwards. *)
Definition late_start : list rlabel := [RQuit; RGone; RStart; RRun; RReturn].
Theorem C52_silent_refuted : ~ C52_silent.
Proof.
  intros H. destruct (rrun SyncFn Tokio late_start rinit) as [r|] eqn:E; [|vm_compute in E; discriminate].
  assert (rreach SyncFn Tokio r) as Hr by (exists late_start; exact E).
  vm_compute in E. injection E as <-.
  specialize (H SyncFn Tokio _ [UReturn; URun; UStart] [SQuit] Hr eq_refl). apply Forall_inv in H. by apply H.
Qed.
Print Assumptions C52_silent_refuted.

(** On smol it is not started any more; a closure that runs runs on. *)
Theorem C52_smol_not_started r l1 l2 :
  rreach SyncFn Smol r -> r_log r = l1 ++ SGone :: l2 -> UStart ∉ l1.
Proof.
  intros Hr E Ho. apply elem_of_list_split in Ho as (a & b & ->).
  rewrite <- app_assoc in E. cbn in E. destruct (log_made _ _ _ Hr _ _ _ E) as (l & r1 & r2 & H1 & H2 & E1 & E2).
  assert (r_wrap r1 = WDropped) as Hw.
  { apply (ri_gone _ _ _ (rinv_reach _ _ _ H1)). rewrite E1. set_solver. }
  assert (r_body r1 <> BNew) as Hb.
  { clear -H1 Hw. revert Hw. pattern r1. revert r1 H1. apply rreach_ind; [done|]. intros l r r' Hr IH Hs Hw.
    destruct l; cbn in Hs; repeat (case_match; try discriminate); simplify_eq; cbn in *; try done; try (by apply IH).
    all: unfold body_dropped; by destruct (r_body r). }
  rewrite <- E1 in E2. clear -H2 Hw Hb E2.
  destruct l; cbn in H2; repeat (case_match; try discriminate); simplify_eq; cbn in *;
    first [apply (f_equal length) in E2; cbn in E2; lia|simplify_eq; congruence].
Qed.
Print Assumptions C52_smol_not_started.
(** Only a quit drops an instance: before the drop stands one, and an instance
    that was never told to quit still has its wrapper; there is one quit at most. *)
Theorem C52_only_by_quit k rt r l1 l2 :
  rreach k rt r -> r_log r = l1 ++ SGone :: l2 -> SQuit ∈ l2 /\ SQuit ∉ l1 /\ SGone ∉ l1 /\ SGone ∉ l2.
Proof.
  intros Hr E. destruct (log_made _ _ _ Hr _ _ _ E) as (l & r1 & r2 & H1 & H2 & E1 & E2).
  pose proof (rinv_reach _ _ _ H1) as Hi. rewrite <- E1 in E2.
  assert (r_told r1 = true /\ r_wrap r1 <> WDropped) as [Ht Hw].
  { clear -H2 E2. destruct l, k; cbn in H2; unfold async_step, sync_step in H2; repeat (case_match; try discriminate); simplify_eq; cbn in *;
      first [apply (f_equal length) in E2; cbn in E2; lia|simplify_eq; by split]. }
  rewrite <- E1. rewrite (ri_told _ _ _ Hi), (ri_gone _ _ _ Hi). split; [done|]. split; [|split; [|done]].
  - intros Ho. apply elem_of_list_split in Ho as (a & b & ->). rewrite <- app_assoc in E. cbn in E.
    destruct (log_made _ _ _ Hr _ _ _ E) as (l' & r3 & r4 & H3 & H4 & E3 & E4).
    assert (r_told r3 = true) as Ht3.
    { apply (ri_told _ _ _ (rinv_reach _ _ _ H3)). rewrite E3. apply elem_of_app. right. right. rewrite <- E1. by apply (ri_told _ _ _ Hi). }
    rewrite <- E3 in E4. clear -H4 E4 Ht3. destruct l', k; cbn in H4; unfold async_step, sync_step in H4; rewrite ?Ht3 in H4; repeat (case_match; try discriminate); simplify_eq; cbn in *;
      first [apply (f_equal length) in E4; cbn in E4; lia|simplify_eq].
  - intros Ho. apply elem_of_list_split in Ho as (a & b & ->). rewrite <- app_assoc in E. cbn in E.
    destruct (log_made _ _ _ Hr _ _ _ E) as (l' & r3 & r4 & H3 & H4 & E3 & E4).
    assert (r_wrap r3 = WDropped) as Hw3.
    { apply (ri_gone _ _ _ (rinv_reach _ _ _ H3)). rewrite E3. set_solver. }
    rewrite <- E3 in E4. clear -H4 E4 Hw3. destruct l', k; cbn in H4; unfold async_step, sync_step in H4; rewrite ?Hw3 in H4; repeat (case_match; try discriminate); simplify_eq; cbn in *;
      first [apply (f_equal length) in E4; cbn in E4; lia|simplify_eq].
Qed.
Print Assumptions C52_only_by_quit.

Example C52_example :
  (r_log <$> rrun AsyncFn Smol [RStart; RRun; RQuit; RRun; RGone] rinit) = Some [SGone; URun; SQuit; URun; UStart] /\
  (r_log <$> rrun SyncFn Smol [RStart; RQuit; RGone; RRun; RReturn] rinit) = Some [UReturn; URun; SGone; SQuit; UStart].
Proof. vm_compute. split; reflexivity. Qed.

(** ** C53: the finish event *)

(** C53, as stated: the finish event of an instance means that its body returned. *)
Definition C53_means_returned : Prop := forall k rt r l1 l2,
  rreach k rt r -> r_log r = l1 ++ SFinish :: l2 -> UReturn ∈ l2.

Lemma finish_cause k rt r l1 l2 : rreach k rt r -> r_log r = l1 ++ SFinish :: l2 ->
  UReturn ∈ l2 \/ (UPanic ∈ l2 /\ k = SyncFn /\ rt = Tokio).
Proof.
  intros Hr E. destruct (log_made _ _ _ Hr _ _ _ E) as (l & r1 & r2 & H1 & H2 & E1 & E2).
  pose proof (rinv_reach _ _ _ H1) as Hi. rewrite <- E1. rewrite (ri_ret _ _ _ Hi), (ri_panic _ _ _ Hi).
  assert (r_wrap r1 = WGate) as Hw.
  { rewrite <- E1 in E2. clear -H2 E2. destruct l, k; cbn in H2; unfold async_step, sync_step in H2; repeat (case_match; try discriminate); simplify_eq; cbn in *;
      first [apply (f_equal length) in E2; cbn in E2; lia|simplify_eq; done]. }
  pose proof (ri_kind _ _ _ Hi) as Hk. rewrite Hw in Hk. destruct k; [destruct (r_body r1) eqn:Eb; try done; [by left|]|tauto].
  exfalso. rewrite (ri_drop _ _ _ Hi Eb) in Hw. done.
Qed.

(** Missing: a sync task on tokio. *)
Theorem C53_means_returned_partial k rt r l1 l2 :
  ~ (k = SyncFn /\ rt = Tokio) -> rreach k rt r -> r_log r = l1 ++ SFinish :: l2 -> UReturn ∈ l2.
Proof. intros Hn Hr E. destruct (finish_cause _ _ _ _ _ Hr E) as [?|(_ & ? & ?)]; tauto. Qed.
Print Assumptions C53_means_returned_partial.

(** There a closure that panicked is reported like one that returned. *)
Definition panic_reported : list rlabel := [RGate; RStart; RPanic; RJoin; RSend].
Theorem C53_means_returned_refuted : ~ C53_means_returned.
Proof.
  intros H. destruct (rrun SyncFn Tokio panic_reported rinit) as [r|] eqn:E; [|vm_compute in E; discriminate].
  assert (rreach SyncFn Tokio r) as Hr by (exists panic_reported; exact E).
  vm_compute in E. injection E as <-.
  specialize (H SyncFn Tokio _ [] [UPanic; UStart] Hr eq_refl). rewrite !elem_of_cons, elem_of_nil in H.
  destruct H as [H|[H|H]]; done.
Qed.
Print Assumptions C53_means_returned_refuted.

(** In every case: one finish event at most, only when the user's code is over,
    never after the wrapper was dropped, and no user code after it. *)
Theorem C53_finish_once k rt r : rreach k rt r ->
  (times is_finish (r_log r) <= 1)%nat /\ (times is_start (r_log r) <= 1)%nat /\ (SFinish ∈ r_log r -> SGone ∉ r_log r) /\
  (forall l1 l2, r_log r = l1 ++ SFinish :: l2 -> (UReturn ∈ l2 \/ UPanic ∈ l2) /\ Forall (fun o => ~ user o) l1).
Proof.
  intros Hr. pose proof (rinv_reach _ _ _ Hr) as Hi. split; [rewrite (ri_sent _ _ _ Hi); destruct (r_wrap r); lia|].
  split; [apply (ri_starts _ _ _ Hi)|].
  assert (forall lg, SFinish ∈ lg -> (0 < times is_finish lg)%nat) as Hpos.
  { intros lg Hx. apply elem_of_list_split in Hx as (a & b & ->). unfold times. rewrite List.filter_app, app_length. cbn. lia. }
  split.
  - intros Hf Hg. apply (ri_gone _ _ _ Hi) in Hg. pose proof (ri_sent _ _ _ Hi) as Hs. rewrite Hg in Hs. specialize (Hpos _ Hf). lia.
  - intros l1 l2 E. split; [destruct (finish_cause _ _ _ _ _ Hr E); tauto|].
    apply Forall_forall. intros o Ho Hu. apply elem_of_list_split in Ho as (a & b & ->). rewrite <- app_assoc in E. cbn in E.
    destruct (log_made _ _ _ Hr _ _ _ E) as (l & r1 & r2 & H1 & H2 & E1 & E2). pose proof (rinv_reach _ _ _ H1) as Hi1.
    assert (r_wrap r1 = WSent) as Hw.
    { pose proof (ri_sent _ _ _ Hi1) as Hs. assert (0 < times is_finish (r_log r1))%nat as Hp by (apply Hpos; rewrite E1; set_solver).
      destruct (r_wrap r1); try lia. done. }
    assert (r_body r1 = BReturned \/ r_body r1 = BPanicked) as Hb.
    { pose proof (ri_kind _ _ _ Hi1) as Hk. rewrite Hw in Hk. pose proof (ri_drop _ _ _ Hi1) as Hd. destruct k; [destruct (r_body r1); try done; auto; by rewrite Hd in Hw|tauto]. }
    assert (r_log r2 = o :: r_log r1) as E2' by (by rewrite E1). clear -H2 Hw Hb E2' Hu.
    destruct Hb as [Hb|Hb]; destruct l, k; cbn in H2; unfold async_step, sync_step in H2; rewrite ?Hw, ?Hb in H2;
      repeat (case_match; try discriminate); simplify_eq; cbn in *;
      first [apply (f_equal length) in E2'; cbn in E2'; lia|simplify_eq; done].
Qed.
Print Assumptions C53_finish_once.

(** A body that returned is reported, if the instance is not told to quit first:
    the wrapper alone brings it about once the gate is open. *)
Theorem C53_reported k rt r : rreach k rt r -> UReturn ∈ r_log r -> SGone ∉ r_log r -> r_gate r = true ->
  exists ls r', Forall (fun l => l = RJoin \/ l = RSend) ls /\ rrun k rt ls r = Some r' /\ SFinish ∈ r_log r'.
Proof.
  intros Hr Hu Hg Eg. pose proof (rinv_reach _ _ _ Hr) as Hi. rewrite (ri_ret _ _ _ Hi) in Hu. rewrite (ri_gone _ _ _ Hi) in Hg.
  assert (r_wrap r = WSent -> SFinish ∈ r_log r) as Hsent.
  { intros Hw. pose proof (ri_sent _ _ _ Hi) as Hs. rewrite Hw in Hs. clear -Hs. induction (r_log r) as [|o l IH]; [done|].
    unfold times in *. cbn in Hs. destruct (is_finish o) eqn:E; [destruct o; try done; left|]. right. by apply IH. }
  pose proof (ri_kind _ _ _ Hi) as Hk. rewrite Hu in Hk. destruct r as [b w g t lg]. cbn in *. subst b g.
  destruct w; try done.
  - destruct k; [naive_solver|]. exists [RJoin; RSend]. eexists. split; [by apply Forall_cons; split; [left|apply Forall_singleton; right]|]. split; [reflexivity|]. cbn. left.
  - exists [RSend]. eexists. split; [by apply Forall_singleton; right|]. split; [reflexivity|]. cbn. left.
  - exists [], (RSt BReturned WSent true t lg). split; [constructor|]. split; [done|]. by apply Hsent.
  - destruct k; naive_solver.
Qed.
Print Assumptions C53_reported.
(** An async body that panicked, or any on smol, is never reported. *)
Theorem C53_panic_not_reported k rt r : ~ (k = SyncFn /\ rt = Tokio) -> rreach k rt r -> UPanic ∈ r_log r -> SFinish ∉ r_log r.
Proof.
  intros Hn Hr Hp Hf. apply elem_of_list_split in Hf as (a & b & E).
  pose proof (C53_means_returned_partial _ _ _ _ _ Hn Hr E) as Hu. pose proof (rinv_reach _ _ _ Hr) as Hi.
  assert (UReturn ∈ r_log r) as Hu' by (rewrite E; set_solver).
  rewrite (ri_ret _ _ _ Hi) in Hu'. rewrite (ri_panic _ _ _ Hi) in Hp. congruence.
Qed.
Print Assumptions C53_panic_not_reported.
#[global] Instance rlabel_eq : EqDecision rlabel.
Proof. solve_decision. Defined.
Lemma gate_opened k rt ls r r' : rrun k rt ls r = Some r' -> r_gate r' = true -> r_gate r = true \/ RGate ∈ ls.
Proof.
  revert r. induction ls as [|l ls IH]; intros r H Hg; [cbn in H; simplify_eq; by left|]. cbn in H.
  destruct (rstep k rt l r) as [r1|] eqn:E; [|done]. destruct (IH _ H Hg) as [H1|H1]; [|right; by right].
  destruct (decide (l = RGate)) as [->|Hl]; [right; left|left].
  destruct l, k; cbn in E; unfold async_step, sync_step in E; repeat (case_match; try discriminate); simplify_eq; cbn in *; done.
Qed.

(** The event waits for the gate, so it is sent after AppendTaskHandle. *)
Theorem C53_after_gate k rt ls r l1 l2 : rrun k rt ls rinit = Some r -> ls = l1 ++ RSend :: l2 -> RGate ∈ l1.
Proof.
  intros H ->. rewrite rrun_app in H. destruct (rrun k rt l1 rinit) as [r1|] eqn:E; [|done]. cbn in H.
  assert (r_gate r1 = true) as Hg by (destruct (r_wrap r1), (r_gate r1); done).
  by destruct (gate_opened _ _ _ _ _ E Hg).
Qed.
Print Assumptions C53_after_gate.

Example C53_example :
  (r_log <$> rrun AsyncFn Tokio [RStart; RReturn; RGate; RSend] rinit) = Some [SFinish; UReturn; UStart] /\
  (r_log <$> rrun SyncFn Smol [RGate; RStart; RReturn; RJoin; RSend; RQuit] rinit) = Some [SQuit; SFinish; UReturn; UStart] /\
  (r_log <$> rrun SyncFn Tokio panic_reported rinit) = Some [SFinish; UPanic; UStart] /\
  (r_log <$> rrun SyncFn Smol [RGate; RStart; RPanic; RJoin] rinit) = Some [UPanic; UStart].
Proof. vm_compute. repeat split. Qed.

(** ** The instances of System.v *)

Definition fate_of (w : wrapper) : ifate := match w with WSent => IEnded | WPanicked => IPanicked | _ => IRunning end.
Definition shows (r : rst) (rec : Z) (s : sys) : Prop :=
  exists tid uid, insts s !! rec = Some (Inst tid uid (r_gate r) (fate_of (r_wrap r))).

(** Each step of an instance, other than the opening of its gate (a step of the
    scheduler), is in System.v no step, [LFinish] or [LPanic]: [LFinish] when
    the finish event is sent, for any clock and output. *)
Theorem C53_in_system k rt pf l r r' rec s now out :
  rstep k rt l r = Some r' -> shows r rec s ->
  match l with
  | RGate => True
  | RSend => exists s', step pf (LFinish rec now out) s = Some s' /\ shows r' rec s'
  | _ => shows r' rec s \/ exists s', step pf (LPanic rec) s = Some s' /\ shows r' rec s'
  end.
Proof.
  intros Hs (tid & uid & Hi). destruct r as [b w g t lg]. unfold shows. cbn [r_gate r_wrap] in *.
  destruct l; [| | | | |done| | |]; cbn in Hs.
  all: try (left; destruct k; cbn in Hs; repeat (case_match; try discriminate); simplify_eq; cbn; by exists tid, uid).
  - destruct k; cbn in Hs; repeat (case_match; try discriminate); simplify_eq; cbn [r_gate r_wrap fate_of] in *.
    + right. exists (set_insts (<[rec := Inst tid uid g IPanicked]> (insts s)) s). cbn [step]. unfold inst_panic. rewrite Hi.
      split; [done|]. exists tid, uid. cbn. by rewrite lookup_insert.
    + left. by exists tid, uid.
  - destruct k; cbn in Hs; [done|]. repeat (case_match; try discriminate); simplify_eq; cbn [r_gate r_wrap fate_of] in *; try (left; by exists tid, uid).
    right. exists (set_insts (<[rec := Inst tid uid g IPanicked]> (insts s)) s). cbn [step]. unfold inst_panic. rewrite Hi.
    split; [done|]. exists tid, uid. cbn. by rewrite lookup_insert.
  - repeat (case_match; try discriminate). simplify_eq. cbn [r_gate r_wrap fate_of step] in *. unfold inst_finish. rewrite Hi.
    eexists. split; [reflexivity|]. exists tid, uid. cbn. by rewrite lookup_insert.
Qed.
Print Assumptions C53_in_system.
Example C53_in_system_example : exists s, reachable Debug 100 100 s /\
  shows (RSt BReturned WGate true false [UReturn; UStart]) 0 s /\
  rstep AsyncFn Smol RSend (RSt BReturned WGate true false [UReturn; UStart]) = Some (RSt BReturned WSent true false [SFinish; UReturn; UStart]).
Proof.
  destruct (after_reach Debug 100 100 [Do (LInsert (ntimes 1 1 4 1 100)); Handle; Ticks 3; Handle]
    (fun s => match insts s !! 0%Z with Some (Inst _ _ true IRunning) => true | _ => false end)) as (s & Hr & H).
  { vm_compute. reflexivity. }
  exists s. split; [exact Hr|]. split; [|reflexivity]. unfold shows. cbn [r_gate r_wrap fate_of].
  destruct (insts s !! 0%Z) as [[tid uid [] []]|]; try discriminate. exists tid, uid. reflexivity.
Qed.
