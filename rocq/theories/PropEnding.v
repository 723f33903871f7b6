(** Instances that returned or were cancelled end, and callers that wait for the end return: C62. *)
From Verif Require Import Tactics Inv Own Life Count Quiet Panics Scen Cases Inst Ended Origin Fifo Account Chain Kept Way PropLife PropInst PropChain PropEnd PropWait PropWatch PropCancel Live LiveEnd PropLive PropCalm.

(** An event that ends an instance, taken after the event that registers the instance, leaves it ended. *)
Lemma pops_step pf lb s s' : step pf lb s = Some s' -> pops (log s') = pops (log s) \/ exists e q, lb = LHandler /\ hpc s = HIdle /\ queue s = e :: q /\ pops (log s') = e :: pops (log s).
Proof.
  intros Hs. step_inv Hs; inst_cases; isimpl.
  all: repeat match goal with |- context [match hpub ?x with _ => _ end] => destruct (hpub x) | |- context [if ?x then _ :: _ else _] => destruct x end.
  all: cbn [pops app pub_entries]; first [by left|right; eexists _, _; done].
Qed.
Lemma end_step pf s s' e q fin i r st : step pf LHandler s = Some s' -> hpc s = HIdle -> queue s = e :: q -> ending e fin i r st -> (i, r) ∈ trace_recs (trace s) -> OQuit i r ∈ log s'.
Proof.
  intros Hs Hh Hq He Hin. assert (ended fin i r st (popped e q s) s') as Hx.
  { cbn [step] in Hs. unfold handler_step in Hs. rewrite Hh, Hq in Hs. revert He Hs. clear. intros He Hs. destruct He; cbn [dispatch] in Hs; injection Hs as <-; first [apply cancel_cases|apply finish_cases]. }
  destruct (ended_effect _ _ _ _ _ _ _ _ He Hx) as (_ & [(Hn & _)|(tr & n & p & _ & _ & El & _)]); [by apply quit_none in Hn|]. rewrite El, !elem_of_app. right. right. left.
Qed.
(** ** C62 An event that ends an instance and was sent after the instance had been announced is not lost: once it has been taken, the instance has ended. *)
Theorem C62_no_end_is_lost pf t0 t1 s e fin i hb st l1 l2 : reachable pf t0 t1 s -> ending e fin i (hb_rec hb) st -> sends (log s) = l1 ++ e :: l2 -> EAppend i hb ∈ l2 ->
  (length (queue s) <= length l1)%nat -> OQuit i (hb_rec hb) ∈ log s.
Proof.
  intros Hr He Es Ha Hl. assert (exists l1', pops (log s) = l1' ++ e :: l2) as [l1' Hp].
  { rewrite (fifo_reach _ _ _ _ Hr) in Es. exists (drop (length (queue s)) l1). apply (f_equal (drop (length (queue s)))) in Es. rewrite drop_app_le in Es by (rewrite reverse_length; lia).
    rewrite drop_ge in Es by (rewrite reverse_length; lia). cbn in Es. rewrite Es. by apply drop_app_le. }
  clear Es Hl l1. revert s Hr l1' Hp. apply (reach_ind pf t0 t1 (fun s => forall l1', pops (log s) = l1' ++ e :: l2 -> OQuit i (hb_rec hb) ∈ log s)).
  - change (log (init t0 t1)) with [OTick 0 t1]. intros [|? ?] H; discriminate H.
  - intros lb s s' Hr IH Hs l1' Hp. destruct (step_log _ _ _ _ Hs) as [lg El]. destruct (pops_step _ _ _ _ Hs) as [E|(e' & q & -> & Hh & Hq & E)].
    + rewrite E in Hp. rewrite El. apply elem_of_app. right. by eapply IH.
    + rewrite E in Hp. destruct l1' as [|x l1']; cbn in Hp; injection Hp as -> Hp; [|rewrite El; apply elem_of_app; right; by eapply IH].
      assert (OPop (EAppend i hb) ∈ log s) as Hpa by (apply elem_pops; by rewrite Hp).
      destruct (popped_at _ _ _ _ _ _ Hr Hpa) as [Ht|?]; [|rewrite El; apply elem_of_app; by right]. by eapply end_step.
Qed.
Print Assumptions C62_no_end_is_lost.

(** In a fair execution it is taken, so the instance ends - or the event handler has died. *)
Theorem C62_event_ends pf t0 t1 σ lb n e fin i hb st l1 l2 : exec pf t0 t1 σ lb -> weakly_fair pf by_handler σ lb -> ending e fin i (hb_rec hb) st ->
  sends (log (σ n)) = l1 ++ e :: l2 -> EAppend i hb ∈ l2 -> exists m, (n <= m)%nat /\ (OQuit i (hb_rec hb) ∈ log (σ m) \/ hpc (σ m) = HDead).
Proof.
  intros He Hf Hen Es Ha. destruct (C54_every_event_is_handled _ _ _ _ _ n He Hf) as (m & Hm & [Hd|[_ Hp]]); exists m; (split; [done|]); [by right|left].
  pose proof (exec_reach _ _ _ _ _ m He) as Hr. refine (C62_no_end_is_lost _ _ _ _ _ _ _ _ _ (reverse (queue (σ m)) ++ l1) l2 Hr Hen _ Ha _).
  - rewrite (fifo_reach _ _ _ _ Hr), Hp, Es. by rewrite app_assoc.
  - rewrite app_length, reverse_length. lia.
Qed.
Print Assumptions C62_event_ends.

(** The future of an instance returns after the instance was announced, unless the scheduler died at that very point. *)
Definition announced (i : N) (r : Z) (l : list event) : Prop := exists hb, EAppend i hb ∈ l /\ hb_rec hb = r.
Lemma announced_app i r l1 l2 : announced i r l2 -> announced i r (l1 ++ l2).
Proof. intros (hb & H & E). exists hb. split; [|done]. apply elem_of_app. by right. Qed.
Lemma gate_new pf lb s s' l ids t r : step pf lb s = Some s' -> tpc s' = TGate l ids t r ->
  (tpc s = TGate l ids t r \/ exists e, tpc s = TSend l ids t r e /\ insts s' = insts s /\ announced (t_id t) r (sends (log s'))).
Proof.
  intros Hs. step_inv Hs; inst_shape; fsimpl; intros E; try (left; congruence); try discriminate E.
  right. injection E as -> -> -> ->. eexists. split; [done|]. split; [done|]. cbn [sends]. eexists. split; [left|done].
Qed.
Lemma open_new pf lb s s' r i u f : step pf lb s = Some s' -> insts s' !! r = Some (Inst i u true f) ->
  (exists f0, insts s !! r = Some (Inst i u true f0)) \/ tpc s' = TDead \/ exists l ids t g, tpc s = TGate l ids t r /\ insts s !! r = Some (Inst i u g f).
Proof.
  intros Hs. step_inv Hs; inst_shape; fsimpl; intros E; try (left; eauto; fail); try (by right; left).
  all: try (rewrite lookup_insert_Some in E; destruct E as [[<- E]|[Hne E]]; [try discriminate E; injection E; intros; subst; left; eauto|left; eauto]).
  all: rewrite lookup_alter_Some in E; destruct E as [(<- & x & Ex & E)|[Hne E]]; [|left; eauto].
  all: right; right; destruct x as [i0 u0 g0 f0]; cbn in E; injection E as -> -> ->; eauto 10.
Qed.
Lemma finish_new pf lb s s' r i u g : step pf lb s = Some s' -> insts s' !! r = Some (Inst i u g IEnded) ->
  (exists g0, insts s !! r = Some (Inst i u g0 IEnded)) \/ insts s !! r = Some (Inst i u true IRunning) /\ exists time out, sends (log s') = EFinish i r time out :: sends (log s).
Proof.
  intros Hs. step_inv Hs; inst_shape; fsimpl; intros E; try (left; eauto; fail).
  all: try (rewrite lookup_insert_Some in E; destruct E as [[<- E]|[Hne E]]; [try discriminate E; injection E; intros; subst|left; eauto]).
  all: try (rewrite lookup_alter_Some in E; destruct E as [(<- & x & Ex & E)|[Hne E]]; [destruct x as [i0 u0 g0 f0]; cbn in E; injection E as -> -> <- ->|]; left; eauto).
  all: right; split; [done|]; eexists _, _; reflexivity.
Qed.
Record open_inv (s : sys) : Prop := {
  oi_gate : forall l ids t r, tpc s = TGate l ids t r -> announced (t_id t) r (sends (log s)) /\ exists i, insts s !! r = Some i /\ i_tid i = t_id t;
  oi_open : forall r i u f, insts s !! r = Some (Inst i u true f) -> announced i r (sends (log s)) \/ tpc s = TDead;
  oi_end : forall r i u g, insts s !! r = Some (Inst i u g IEnded) -> tpc s = TDead \/ exists l1 time out l2, sends (log s) = l1 ++ EFinish i r time out :: l2 /\ announced i r l2
}.
Lemma open_reach pf t0 t1 s : reachable pf t0 t1 s -> open_inv s.
Proof.
  revert s. apply (reach_ind pf t0 t1 open_inv).
  - change (insts (init t0 t1)) with (∅ : gmap Z inst). split.
    + intros l ids t r H. change (tpc (init t0 t1)) with (tpc (init_n 0 t0 t1)) in H. discriminate H.
    + intros r i u f H. change (insts (init t0 t1)) with (∅ : gmap Z inst) in H. rewrite lookup_empty in H. discriminate H.
    + intros r i u f H. change (insts (init t0 t1)) with (∅ : gmap Z inst) in H. rewrite lookup_empty in H. discriminate H.
  - intros lb s s' Hr [H1 H2 H3] Hs. destruct (step_log _ _ _ _ Hs) as [lg El].
    assert (forall i r, announced i r (sends (log s)) -> announced i r (sends (log s'))) as Ha by (intros i r Hx; rewrite El, sends_app; by apply announced_app).
    assert (tpc s = TDead -> tpc s' = TDead) as Hd by (by eapply dead_step).
    assert (forall r i, insts s !! r = Some i -> exists i', insts s' !! r = Some i' /\ i_tid i' = i_tid i) as Hi.
    { intros r i Hi. destruct (insts_step _ _ _ _ Hs) as [(l & ids & t & r1 & g & Et & E & _)|(_ & E & _)].
      - rewrite E. rewrite lookup_insert_ne; [eauto|]. intros ->. pose proof (ri_spawn s (rec_reach _ _ _ _ Hr) _ _ _ _ Et). congruence.
      - specialize (E r). rewrite Hi in E. destruct (insts s' !! r) as [i'|]; [|discriminate E]. cbn in E. injection E as E _. eauto. }
    split.
    + intros l ids t r E. destruct (gate_new _ _ _ _ _ _ _ _ Hs E) as [E0|(e & E0 & Ei & Hn)].
      * destruct (H1 _ _ _ _ E0) as (Hx & i & Hy & Ey). split; [by apply Ha|]. destruct (Hi _ _ Hy) as (i' & ? & ?). exists i'. split; [done|congruence].
      * split; [done|]. rewrite Ei. apply (ri_at s (rec_reach _ _ _ _ Hr)). unfold places. rewrite E0. set_solver.
    + intros r i u f E. destruct (open_new _ _ _ _ _ _ _ _ Hs E) as [(f0 & E0)|[?|(l & ids & t & g & Et & E0)]]; [|by right|].
      * destruct (H2 _ _ _ _ E0) as [?|?]; [left|right]; auto.
      * left. destruct (H1 _ _ _ _ Et) as (Hx & i' & Hy & Ey). apply Ha. assert (t_id t = i) as <-; [|done]. rewrite E0 in Hy. injection Hy as <-. done.
    + intros r i u g E. destruct (finish_new _ _ _ _ _ _ _ _ Hs E) as [(g0 & E0)|(E0 & time & out & Es)].
      * destruct (H3 _ _ _ _ E0) as [?|(l1 & time & out & l2 & Es & Hx)]; [left; auto|]. right. exists (sends lg ++ l1), time, out, l2. rewrite El, sends_app, Es. split; [by rewrite app_assoc|done].
      * destruct (H2 _ _ _ _ E0) as [?|?]; [|left; auto]. right. exists [], time, out, (sends (log s)). done.
Qed.

(** ** C62 An instance whose future has returned ends ... *)
Theorem C62_returned_ends pf t0 t1 σ lb n r i u g : exec pf t0 t1 σ lb -> weakly_fair pf by_handler σ lb -> insts (σ n) !! r = Some (Inst i u g IEnded) ->
  exists m, (n <= m)%nat /\ (r ∉ running i (log (σ m)) /\ OQuit i r ∈ log (σ m) \/ hpc (σ m) = HDead \/ tpc (σ m) = TDead).
Proof.
  intros He Hf Hi. destruct (oi_end _ (open_reach _ _ _ _ (exec_reach _ _ _ _ _ n He)) _ _ _ _ Hi) as [Hd|(l1 & time & out & l2 & Es & hb & Ha & <-)]; [exists n; auto|].
  destruct (C62_event_ends _ _ _ _ _ n _ _ _ hb _ _ _ He Hf (ending_finish i (hb_rec hb) time out) Es Ha) as (m & Hm & [Hx|Hx]); exists m; (split; [done|]); [|by auto].
  left. split; [|done]. eapply quit_ended; [by eapply exec_reach|done].
Qed.
Print Assumptions C62_returned_ends.

(** A cancelling call that was not refused was sent after the instance had been announced. *)
Lemma hdr_popped pf t0 t1 s rec h : reachable pf t0 t1 s -> hdrs s !! rec = Some h -> exists hb, OPop (EAppend (h_tid h) hb) ∈ log s /\ hb_rec hb = rec.
Proof.
  intros Hr Hh. apply elem_taken. destruct (hdr_place _ _ _ _ _ _ Hr Hh) as [[Ht _]|Hq]; [by eapply trace_taken|by eapply quit_taken].
Qed.
Lemma call_sends pf lb s s' w rec : step pf lb s = Some s' -> waiters s !! w = None -> waiters s' !! w = Some (Waiter rec WSent) -> exists h, hdrs s !! rec = Some h /\ sends (log s') = ECancel (h_tid h) rec :: sends (log s).
Proof.
  intros Hs Hn Hy. destruct (waiter_new _ _ _ _ _ Hs Hn) as [?|[r ->]]; [congruence|]. cbn [step] in Hs. unfold inst_cancel in Hs. rewrite Hn in Hs.
  destruct (hdrs s !! r) as [h|] eqn:Eh; [|discriminate Hs]. destruct (chains s !! h_chain h); [|discriminate Hs]. destruct (_ && _); [|discriminate Hs]. injection Hs as <-. revert Hy. fsimpl. rewrite lookup_insert. intros [= ->]. eauto.
Qed.
Lemma called pf t0 t1 s w x : reachable pf t0 t1 s -> waiters s !! w = Some x -> exists i l1 l2, sends (log s) = l1 ++ ECancel i (w_rec x) :: l2 /\ announced i (w_rec x) l2.
Proof.
  intros Hr. revert s Hr x. apply (reach_ind pf t0 t1 (fun s => forall x, waiters s !! w = Some x -> exists i l1 l2, sends (log s) = l1 ++ ECancel i (w_rec x) :: l2 /\ announced i (w_rec x) l2)).
  - intros x H. change (waiters (init t0 t1)) with (∅ : gmap N waiter) in H. rewrite lookup_empty in H. discriminate H.
  - intros lb s s' Hr IH Hs x Hx. destruct (step_log _ _ _ _ Hs) as [lg El].
    assert (forall x0, waiters s !! w = Some x0 -> w_rec x0 = w_rec x -> exists i l1 l2, sends (log s') = l1 ++ ECancel i (w_rec x) :: l2 /\ announced i (w_rec x) l2) as Hold.
    { intros x0 H0 E0. destruct (IH _ H0) as (i & l1 & l2 & Es & Ha). rewrite E0 in *. exists i, (sends lg ++ l1), l2. rewrite El, sends_app, Es. split; [by rewrite <- app_assoc|done]. }
    destruct (wait_kinds _ _ _ _ w Hs) as [K|r1 K0 K1 K2|r1 _ K1 K2|r1 tid1 e q fin st1 tr _ _ _ K3 K4 K5 K6|r1 h _ K1 K2 K3].
    + apply (Hold x); [congruence|done].
    + assert (x = Waiter r1 WSent) as -> by congruence. cbn [w_rec]. destruct (call_sends _ _ _ _ _ _ Hs K0 K1) as (h & Hh & Es). exists (h_tid h), [], (sends (log s)). split; [done|].
      destruct (hdr_popped _ _ _ _ _ _ Hr Hh) as (hb & Hp & E). exists hb. split; [|done]. rewrite (fifo_reach _ _ _ _ Hr). apply elem_of_app. right. by apply elem_pops.
    + eapply Hold; [exact K1|]. assert (x = Waiter r1 WListen) as -> by congruence. done.
    + eapply Hold; [exact K4|]. assert (x = Waiter r1 WWoken) as -> by congruence. done.
    + eapply Hold; [exact K1|]. assert (x = Waiter r1 (WRet (h_state h))) as -> by congruence. done.
Qed.
Lemma quit_launch pf t0 t1 s i j rec u it ts : reachable pf t0 t1 s -> OQuit i rec ∈ log s -> OLaunch u j rec it ts ∈ log s -> j = i.
Proof.
  intros Hr Hq Hl. pose proof (rec_reach _ _ _ _ Hr) as Hi. destruct (ri_at s Hi i rec) as (x & Hx & E); [by apply (elem_of_submseteq _ _ _ (proj2 (elem_quits _ _ _) Hq)), quits_places|].
  pose proof (ri_launch s Hi _ _ _ _ _ Hl) as E'. rewrite Hx in E'. unfold who in E'. cbn in E'. injection E' as E1 _. congruence.
Qed.
(** ... and so does an instance that a call of [cancel_with_wait], [cancel_with_async_wait] or [cancel_with_wait_timeout] was made on. *)
Theorem C62_cancelled_ends pf t0 t1 σ lb n w x : exec pf t0 t1 σ lb -> weakly_fair pf by_handler σ lb -> waiters (σ n) !! w = Some x ->
  exists m, (n <= m)%nat /\ ((exists i, OQuit i (w_rec x) ∈ log (σ m)) /\ (forall i, w_rec x ∉ running i (log (σ m))) \/ hpc (σ m) = HDead).
Proof.
  intros He Hf Hw. destruct (called _ _ _ _ _ _ (exec_reach _ _ _ _ _ n He) Hw) as (i & l1 & l2 & Es & hb & Ha & E).
  destruct (C62_event_ends _ _ _ _ _ n (ECancel i (hb_rec hb)) _ _ hb _ l1 l2 He Hf (ending_cancel i (hb_rec hb))) as (m & Hm & [Hx|Hx]); [by rewrite E|done|..]; exists m; (split; [done|]); [|by auto].
  rewrite <- E. left. split; [by exists i|]. intros j Hj. pose proof (exec_reach _ _ _ _ _ m He) as Hr.
  destruct (running_launched _ _ _ _ _ _ Hr Hj) as [(u1 & it1 & ts1 & L1) Hn]. assert (j = i) as ->; [|done].
  by eapply quit_launch.
Qed.
Print Assumptions C62_cancelled_ends.

(** The chain of a task that was started and is not removed stays alive while the user holds it. *)
Lemma lost_chain pf lb s s' c : step pf lb s = Some s' -> chain_state s c = Some LIVING -> chain_state s' c = Some LIVING \/ lb = LChainDrop c \/
  (exists i ok, hpc s = HRem2 i ok /\ mchain i c s) \/ (exists i co sl, hpc s = HAdd3 i co sl /\ mchain i c s) \/ (exists i, hchain (hpc s) = Some (i, c) /\ forall co sl, hpc s <> HAdd3 i co sl).
Proof.
  intros Hs. unfold chain_state. step_inv Hs; inst_cases; isimpl; intros Hd; try (by left).
  all: try (match goal with |- context [<[?k := _]> (chains _)] => destruct (decide (k = c)) as [->|]; [rewrite lookup_insert|rewrite lookup_insert_ne by done; by left] end; cbn; first [by left|by right; left|left; match goal with H : chains _ !! _ = Some _ |- _ => rewrite H in Hd; exact Hd end]).
  all: try (match goal with |- context [alter _ ?k (chains _)] => destruct (decide (k = c)) as [->|]; [|rewrite lookup_alter_ne by done; by left] end;
    first [left; rewrite lookup_alter; destruct (chains s !! c); [exact Hd|discriminate Hd]|match goal with H : _ <$> _ = Some DROPPED |- _ => rewrite Hd in H; discriminate H end]).
  - destruct c0 as [cid|]; [|by left]. destruct (decide (cid = c)) as [->|]; [|rewrite lookup_alter_ne by done; by left]. right; right; right; right. exists (t_id t). done.
  - destruct (flags s !! tid) as [m|] eqn:Ef; [|by left]. destruct (m_chain m) as [[cid l]|] eqn:Em; [|by left]. cbn [fmap option_fmap option_map fst].
    destruct (decide (cid = c)) as [->|]; [|rewrite lookup_alter_ne by done; by left]. right; right; right; left. exists tid, c0, sl. split; [done|]. by exists m, l.
  - destruct (flags s !! tid) as [m|] eqn:Ef; [|by left]. destruct (m_chain m) as [[cid l]|] eqn:Em; [|by left]. cbn [fmap option_fmap option_map fst].
    destruct (decide (cid = c)) as [->|]; [|rewrite lookup_alter_ne by done; by left]. right; right; left. exists tid, ok. split; [done|]. by exists m, l.
Qed.
Lemma kept_living pf t0 t1 lb s s' t u r it ts : reachable pf t0 t1 s -> step pf lb s = Some s' -> OSend (EInsert t) ∈ log s -> kept t (log s) -> OLaunch u (t_id t) r it ts ∈ log s -> lb <> LChainDrop (t_uid t) ->
  chain_state s (t_uid t) = Some LIVING -> chain_state s' (t_uid t) = Some LIVING.
Proof.
  intros Hr Hs Hi Hk Hl Hd Hc. assert (forall i, ins (t_uid t) i (log s) -> i = t_id t) as Hu.
  { intros i Hx. eapply ins_uniq; [by eapply cnt_reach|exact Hx|]. by exists t. }
  pose proof (chain_reach _ _ _ _ Hr) as Hci. pose proof (proj2 (kept_marked _ _ _ _ _ Hr Hk) _ _ _ _ Hl) as Hm.
  destruct (lost_chain _ _ _ _ _ Hs Hc) as [?|[?|[(i & ok & E & H)|[(i & co & sl & E & H)|(i & E & H)]]]]; [done|done|exfalso..].
  - assert (i = t_id t) as -> by (by apply Hu, (ch_mark _ Hci)). by eapply kept_noremove.
  - assert (i = t_id t) as -> by (by apply Hu, (ch_mark _ Hci)). destruct H as (m & l & H & _). rewrite (kept_fresh _ _ _ _ _ Hr Hk) in H; [discriminate H|]. by rewrite E.
  - assert (i = t_id t) as -> by (by apply Hu, (ch_hand _ Hci)). destruct Hm as [Hm|(c & sl & Eh)]; [|by apply (H c sl)].
    apply Hm, (kept_fresh _ _ _ _ _ Hr Hk). destruct (hpc s) eqn:Eh; try discriminate E; cbn in E |- *; destruct c; try discriminate E; by injection E as ->.
Qed.

(** ** C62 The caller returns

    A call that listens before the instance ends returns with a final state, if the id of its task is added once and not removed and
    the user keeps the chain.  (The other cases are those of C37.) *)
Theorem C62_caller_returns pf t0 t1 σ lb n w rec t u it ts : exec pf t0 t1 σ lb -> weakly_fair pf by_handler σ lb -> weakly_fair pf (fun l => l = LReturn w) σ lb ->
  OSend (EInsert t) ∈ log (σ n) -> OLaunch u (t_id t) rec it ts ∈ log (σ n) -> waiters (σ n) !! w = Some (Waiter rec WListen) -> OQuit (t_id t) rec ∉ log (σ n) ->
  (forall k, kept t (log (σ k))) -> chain_state (σ n) (t_uid t) = Some LIVING -> (forall k, (n <= k)%nat -> lb k <> LChainDrop (t_uid t)) ->
  exists m, (n <= m)%nat /\ ((exists st, waiters (σ m) !! w = Some (Waiter rec (WRet st)) /\ st ∈ [COMPLETED; CANCELLED; TIMEOUT]) \/ hpc (σ m) = HDead).
Proof.
  intros He Hf Hw Hi Hl Hx Hn Hk Hc0 Hdr.
  assert (forall k, (n <= k)%nat -> chain_state (σ k) (t_uid t) = Some LIVING) as Hc.
  { intros k Hnk. induction Hnk as [|k Hnk IH]; [done|]. destruct (exec_log _ _ _ _ _ n k He Hnk) as [l El].
    refine (kept_living _ _ _ _ _ _ _ u rec it ts (exec_reach _ _ _ _ _ k He) (ex_step _ _ _ _ _ He k) _ (Hk k) _ (Hdr k Hnk) IH); rewrite El; apply elem_of_app; by right. }
  destruct (C62_cancelled_ends _ _ _ _ _ n w _ He Hf Hx) as (m & Hm & [[[i Hq] _]|Hd]); [|exists m; auto]. cbn [w_rec] in Hq.
  assert (i = t_id t) as ->. { symmetry. refine (quit_launch _ _ _ _ _ _ _ u it ts (exec_reach _ _ _ _ _ m He) Hq _). destruct (exec_log _ _ _ _ _ n m He Hm) as [l ->]. apply elem_of_app. by right. }
  destruct (until (fun k => waiters (σ k) !! w = Some (Waiter rec WListen) /\ OQuit (t_id t) rec ∉ log (σ k)) (fun k => awake w rec (σ k)) n m) as [[_ Hy]|(k & Hkm & Hy)]; [|done|done|done|].
  - intros k Hnk [K1 K2]. pose proof (exec_reach _ _ _ _ _ k He) as Hr. pose proof (ex_step _ _ _ _ _ He k) as Hs.
    destruct (quit_dec (t_id t) rec (log (σ (S k)))) as [Hy|Hy].
    + right. left. specialize (Hc k Hnk). unfold chain_state in Hc. destruct (chains (σ k) !! t_uid t) as [ch|] eqn:Ec; [|discriminate Hc]. injection Hc as Hc.
      refine (quit_wakes _ _ _ _ _ _ _ _ _ _ Hr _ (Hk k) Ec Hc Hs K2 Hy K1). destruct (exec_log _ _ _ _ _ n k He Hnk) as [l ->]. apply elem_of_app. by right.
    + destruct (listen_step _ _ _ _ _ _ Hs K1) as [?|?]; [by left|right; by left].
  - destruct (Hw k) as (j & Hj & Hfair).
    assert (forall j, (k <= j)%nat -> awake w rec (σ j)) as Haw. { intros j0 Hj0. induction Hj0 as [|j0 Hj0 IH]; [done|]. eapply awake_step; [apply (ex_step _ _ _ _ _ He)|done]. }
    assert (exists j' st, (k <= j')%nat /\ waiters (σ j') !! w = Some (Waiter rec (WRet st))) as (j' & st & Hj' & Hret).
    { destruct (Haw j Hj) as [Hwk|[st Hret]]; [|exists j, st; done]. pose proof (exec_reach _ _ _ _ _ j He) as Hr. pose proof (wait_hdr _ _ _ _ _ _ Hr Hwk) as Hh. cbn [w_rec] in Hh.
      destruct (hdrs (σ j) !! rec) as [h|] eqn:Eh; [|done]. assert (step pf (LReturn w) (σ j) = Some (set_waiters (<[w := Waiter rec (WRet (h_state h))]> (waiters (σ j))) (σ j))) as Hst.
      { cbn [step]. unfold inst_return. by rewrite Hwk, Eh. }
      destruct Hfair as [El|Hno].
      - exists (S j), (h_state h). split; [lia|]. pose proof (ex_step _ _ _ _ _ He j) as Hs. rewrite El, Hst in Hs. injection Hs as <-. fsimpl. apply lookup_insert.
      - exfalso. apply Hno. exists (LReturn w). split; [done|]. rewrite Hst. eauto. }
    exists j'. split; [lia|]. left. exists st. split; [done|]. pose proof (exec_reach _ _ _ _ _ j' He) as Hr.
    destruct (C61_ok pf t0 t1 (C (σ j') ∅) w rec st (creach_lift _ _ _ _ Hr) Hret) as (h & Hh & <- & Hne & _). cbn [c_sys] in Hh.
    destruct (C13_final_state_is_final pf t0 t1 (σ j') [] (σ j') rec h Hr eq_refl Hh) as (h' & Hh' & Hin & _). assert (h' = h) as -> by congruence.
    apply elem_of_cons in Hin as [?|?]; done.
Qed.
Print Assumptions C62_caller_returns.

(** ** C62 Without exceptions in calm executions: nothing but the fairness is assumed there. *)
Theorem C62_calm_returned_ends t0 t1 σ lb n r i u g : calm_exec t0 t1 σ lb -> weakly_fair Release by_handler σ lb -> insts (σ n) !! r = Some (Inst i u g IEnded) ->
  exists m, (n <= m)%nat /\ r ∉ running i (log (σ m)) /\ OQuit i r ∈ log (σ m).
Proof.
  intros Hc Hf Hi. destruct (C62_returned_ends _ _ _ _ _ n r i u g (calm_is_exec _ _ _ _ Hc) Hf Hi) as (m & Hm & Hx). exists m. split; [done|].
  destruct (calm_going _ _ _ (calm_reach _ _ _ _ m Hc)) as (_ & ? & ?). naive_solver.
Qed.
Print Assumptions C62_calm_returned_ends.
Theorem C62_calm_cancelled_ends t0 t1 σ lb n w x : calm_exec t0 t1 σ lb -> weakly_fair Release by_handler σ lb -> waiters (σ n) !! w = Some x ->
  exists m, (n <= m)%nat /\ (exists i, OQuit i (w_rec x) ∈ log (σ m)) /\ forall i, w_rec x ∉ running i (log (σ m)).
Proof.
  intros Hc Hf Hi. destruct (C62_cancelled_ends _ _ _ _ _ n w x (calm_is_exec _ _ _ _ Hc) Hf Hi) as (m & Hm & Hx). exists m. split; [done|].
  destruct (calm_going _ _ _ (calm_reach _ _ _ _ m Hc)) as (_ & _ & ?). naive_solver.
Qed.
Print Assumptions C62_calm_cancelled_ends.
Theorem C62_calm_caller_returns t0 t1 σ lb n w rec t u it ts : calm_exec t0 t1 σ lb -> weakly_fair Release by_handler σ lb -> weakly_fair Release (fun l => l = LReturn w) σ lb ->
  OSend (EInsert t) ∈ log (σ n) -> OLaunch u (t_id t) rec it ts ∈ log (σ n) -> waiters (σ n) !! w = Some (Waiter rec WListen) -> OQuit (t_id t) rec ∉ log (σ n) ->
  (forall k, kept t (log (σ k))) -> chain_state (σ n) (t_uid t) = Some LIVING -> (forall k, (n <= k)%nat -> lb k <> LChainDrop (t_uid t)) ->
  exists m st, (n <= m)%nat /\ waiters (σ m) !! w = Some (Waiter rec (WRet st)) /\ st ∈ [COMPLETED; CANCELLED; TIMEOUT].
Proof.
  intros Hc Hf Hw H1 H2 H3 H4 H5 H6 H7. destruct (C62_caller_returns _ _ _ _ _ n w rec t u it ts (calm_is_exec _ _ _ _ Hc) Hf Hw H1 H2 H3 H4 H5 H6 H7) as (m & Hm & Hx).
  destruct (calm_going _ _ _ (calm_reach _ _ _ _ m Hc)) as (_ & _ & ?). destruct Hx as [(st & ? & ?)|?]; [|done]. exists m, st. done.
Qed.
Print Assumptions C62_calm_caller_returns.

(** Fair executions that begin with given steps. *)
Definition before {A} (x : A) (f : nat -> A) (n : nat) : A := match n with O => x | S n => f n end.
Lemma before_fair pf P s l σ lb : weakly_fair pf P σ lb -> weakly_fair pf P (before s σ) (before l lb).
Proof. intros Hf n. destruct (Hf n) as (m & Hm & Hx). exists (S m). split; [lia|exact Hx]. Qed.
Lemma before_exec pf t0 t1 s l σ lb : reachable pf t0 t1 s -> step pf l s = Some (σ 0%nat) -> exec pf t0 t1 σ lb -> exec pf t0 t1 (before s σ) (before l lb).
Proof. intros Hr Hs He. split; [exact Hr|]. intros [|n]; [exact Hs|apply (ex_step _ _ _ _ _ He)]. Qed.
Definition inner (lb : label) : Prop := match lb with LTimer _ _ _ | LSweep _ _ | LHandler | LSweepRecv => True | _ => False end.
Lemma fair_from pf t0 t1 ls s s' : reachable pf t0 t1 s -> run pf ls s = Some s' -> exists σ lb, σ 0%nat = s /\ σ (length ls) = s' /\ exec pf t0 t1 σ lb /\ weakly_fair pf by_handler σ lb /\
  (forall n, (n < length ls)%nat -> lb n ∈ ls) /\ forall n, (length ls <= n)%nat -> inner (lb n).
Proof.
  revert s. induction ls as [|l ls IH]; intros s Hr Hrun; cbn [run] in Hrun.
  - injection Hrun as <-. destruct (fair_exists pf t0 t1 (fun n => N.of_nat n) s Hr) as (σ & lb & E & He & H1 & _ & _ & _ & H5). exists σ, lb. cbn [length].
    do 4 (split; [done|]). split; [lia|]. intros n _. specialize (H5 n). by destruct (lb n).
  - destruct (step pf l s) as [s1|] eqn:Es; [|discriminate Hrun]. destruct (IH s1 (reach_step _ _ _ _ _ _ Hr Es) Hrun) as (σ & lb & E0 & E1 & He & Hf & H1 & H2).
    exists (before s σ), (before l lb). split; [done|]. split; [done|]. split; [apply before_exec; [done|by rewrite E0|done]|]. split; [by apply before_fair|].
    split; intros [|n] Hn; cbn in *; try lia; [left|right; apply H1; lia|apply H2; lia].
Qed.
Lemma inner_kept pf t0 t1 lb s s' t : reachable pf t0 t1 s -> step pf lb s = Some s' -> inner lb -> kept t (log s) -> kept t (log s').
Proof.
  intros Hr Hs Hl Hk e He Hm. destruct (sent_step _ _ _ _ _ Hs He) as [?|Hq]; [by apply Hk|].
  assert (forall x, x ∈ queue s' -> x ∈ queue s \/ ~ marks_id (t_id t) x) as Hx.
  { clear -Hs Hl. intros x. step_inv Hs; try (by destruct Hl); inst_shape; fsimpl; rewrite ?elem_of_cons, ?elem_of_app, ?elem_of_cons, ?elem_of_nil; try tauto.
    all: intros [?|[->|[]]]; [by left|right; intros []]. }
  destruct (Hx _ Hq); [|done]. apply Hk; [|done]. by apply (proj1 (src_reach _ _ _ _ Hr)).
Qed.
(** The hypotheses of the theorems: one instance has been cancelled by a caller that listens and then returns, another one has returned. *)
Definition ending_ls : list label := [LHandler; LReturn 5].
Definition ending_acts : list act := [Do (LInsert (every 1 11 5 100)); Handle; Ticks 13; Do (LUpdate (every 2 11 5 113)); Do (LAdvance 11); Handle; Do (LNextCheck 1); Do (LNextTry 1); Do (LInstCancel 5 0); Do (LListen 5); Do (LFinish 1 113 None)].
Definition ending_test (s : sys) : bool :=
  insb 1 (log s) && inb (OLaunch 1 11 0 6 106) (log s) && match waiters s !! 5 with Some (Waiter 0 WListen) => true | _ => false end && negb (bool_decide ((11, 0%Z) ∈ quits (log s))) &&
  match insts s !! 1%Z with Some (Inst 11 1 true IEnded) => true | _ => false end && match chain_state s 1 with Some x => x =? LIVING | None => false end &&
  match run Release ending_ls s with Some s' => keptb (every 1 11 5 100) (log s') && match waiters s' !! 5 with Some (Waiter 0 (WRet _)) => true | _ => false end | None => false end.
Example C62_example : exists σ lb, calm_exec 100 100 σ lb /\ weakly_fair Release by_handler σ lb /\ weakly_fair Release (fun l => l = LReturn 5) σ lb /\
  OSend (EInsert (every 1 11 5 100)) ∈ log (σ 0%nat) /\ OLaunch 1 11 0 6 106 ∈ log (σ 0%nat) /\ waiters (σ 0%nat) !! 5 = Some (Waiter 0 WListen) /\ OQuit 11 0 ∉ log (σ 0%nat) /\
  (forall k, kept (every 1 11 5 100) (log (σ k))) /\ chain_state (σ 0%nat) 1 = Some LIVING /\ (forall k, lb k <> LChainDrop 1) /\ insts (σ 0%nat) !! 1%Z = Some (Inst 11 1 true IEnded).
Proof.
  set (t := every 1 11 5 100). assert (after Release 100 100 ending_acts ending_test = true) as H by (vm_compute; reflexivity).
  unfold after in H. rewrite init0_eq in H. destruct (play Release ending_acts (init 100 100)) as [s|] eqn:E; [|discriminate H].
  pose proof (play_reach _ _ _ _ _ E) as Hr. assert (submitted t (log s)) as Hs by (refine (play_submitted Release ending_acts _ s _ t E _ (or_intror (or_introl eq_refl))); left).
  assert (reachable_with calm Release 100 100 s) as Hc.
  { refine (play_reaches _ Release ending_acts _ s _ _ E).
    - split; [intros ch r n|]; split; discriminate.
    - intros lb Hlb. unfold ending_acts in Hlb. rewrite !elem_of_cons, elem_of_nil in Hlb. repeat destruct Hlb as [Hlb|Hlb]; try discriminate Hlb; try (injection Hlb as ->; split; discriminate). destruct Hlb. }
  clear E. unfold ending_test in H.
  apply andb_true_iff in H as [H H7]. apply andb_true_iff in H as [H H6]. apply andb_true_iff in H as [H H5]. apply andb_true_iff in H as [H H4]. apply andb_true_iff in H as [H H3]. apply andb_true_iff in H as [H1 H2].
  apply (insb_ok _ _ _ _ _ Hr Hs) in H1. apply inb_ok in H2. destruct (run Release ending_ls s) as [s'|] eqn:Er; [|discriminate H7]. apply andb_true_iff in H7 as [H7 H8].
  pose proof (reach_run _ _ _ _ _ _ Hr Er) as Hr'.
  assert (kept t (log s')) as Hk. { apply (keptb_ok _ _ _ _ _ Hr'); [|exact H7]. destruct (run_log _ _ _ _ Er) as [l El]. destruct Hs as (e & He & Hsb). exists e. split; [rewrite El; apply elem_of_app; by right|done]. }
  destruct (fair_from Release 100 100 ending_ls s s' Hr Er) as (σ & lb & E0 & E2 & He & Hf & Hls & Hin). change (length ending_ls) with 2%nat in *.
  assert (forall n, lb n ∈ ending_ls \/ inner (lb n)) as Hlb. { intros n. destruct (le_lt_dec 2 n); auto. }
  exists σ, lb. split.
  { split; [rewrite E0; exact Hc|apply He|]. intros n. destruct (Hlb n) as [Hx|Hx]; [|split; intros Ex; rewrite Ex in Hx; exact Hx].
    unfold ending_ls in Hx. rewrite !elem_of_cons, elem_of_nil in Hx. destruct Hx as [Hx|[Hx|[]]]; rewrite Hx; split; discriminate. }
  split; [exact Hf|]. split.
  { intros n. exists (n + 2)%nat. split; [lia|]. right. intros (l & -> & [x Hx]).
    assert (exists st, waiters (σ (n + 2)%nat) !! 5 = Some (Waiter 0 (WRet st))) as [st Hst].
    { clear Hx x. induction n as [|n [st IH]]; [cbn [Nat.add]; rewrite E2; by destruct (waiters s' !! 5) as [[[| |] []]|]; eauto|]. exists st. cbn [Nat.add].
      destruct (wait_kinds _ _ _ _ 5 (ex_step _ _ _ _ _ He (n + 2)%nat)) as [K|r1 K0 K1 K2|r1 _ K1 K2|r1 tid1 e q fin st1 tr _ _ _ K3 K4 K5 K6|r1 h _ K1 K2 K3]; congruence. }
    cbn [step] in Hx. unfold inst_return in Hx. rewrite Hst in Hx. discriminate Hx. }
  assert (forall k, kept t (log (σ k))) as Hkk.
  { assert (forall k, kept t (log (σ (k + 2)%nat))) as Hz. { induction k as [|k IH]; [cbn [Nat.add]; by rewrite E2|]. cbn [Nat.add]. eapply inner_kept; [by eapply exec_reach|apply (ex_step _ _ _ _ _ He)|apply Hin; lia|exact IH]. }
    intros k e He'. apply (Hz k). destruct (exec_log _ _ _ _ _ k (k + 2) He) as [l ->]; [lia|]. apply elem_of_app. by right. }
  rewrite E0. split; [exact H1|]. split; [exact H2|]. split; [by destruct (waiters s !! 5) as [[[| |] []]|]|]. split; [rewrite <- elem_quits; by destruct (bool_decide_reflect ((11, 0%Z) ∈ quits (log s)))|].
  split; [exact Hkk|]. split; [destruct (chain_state s 1) as [x|]; [|discriminate H6]; apply N.eqb_eq in H6; by subst|]. split.
  - intros k Ex. destruct (Hlb k) as [Hx|Hx]; rewrite Ex in Hx; [|exact Hx]. unfold ending_ls in Hx. rewrite !elem_of_cons, elem_of_nil in Hx. destruct Hx as [Hx|[Hx|[]]]; discriminate Hx.
  - revert H5. generalize (insts s !! 1%Z). clear. intros o H. destruct o as [[i u [|] []]|]; try discriminate H; repeat (case_match; try discriminate H); done.
Qed.
