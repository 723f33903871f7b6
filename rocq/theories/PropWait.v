(** Waiting for a cancellation: C37. *)
From Verif Require Import Tactics Inv Own Life Count Quiet Scen Cases Inst Ended Fifo Account Chain Kept PropLife PropInst PropChain.

(** ** The waiting callers *)
Inductive wait_kind (w : N) (lb : label) (s s' : sys) : Prop :=
| wk_same : waiters s' !! w = waiters s !! w -> wait_kind w lb s s'
| wk_new rec : waiters s !! w = None -> waiters s' !! w = Some (Waiter rec WSent) -> hdrs s !! rec <> None -> wait_kind w lb s s'
| wk_listen rec : lb = LListen w -> waiters s !! w = Some (Waiter rec WSent) -> waiters s' !! w = Some (Waiter rec WListen) -> wait_kind w lb s s'
| wk_woken rec tid e q fin st tr : hpc s = HIdle -> queue s = e :: q -> ending e fin tid rec st -> quit_one_task_handler tid rec (trace s) = Some tr ->
    waiters s !! w = Some (Waiter rec WListen) -> waiters s' !! w = Some (Waiter rec WWoken) -> told rec (log s') <> [] -> wait_kind w lb s s'
| wk_return rec h : lb = LReturn w -> waiters s !! w = Some (Waiter rec WWoken) -> hdrs s !! rec = Some h -> waiters s' !! w = Some (Waiter rec (WRet (h_state h))) -> wait_kind w lb s s'.
Lemma wait_kinds pf lb s s' w : step pf lb s = Some s' -> wait_kind w lb s s'.
Proof.
  intros Hs. step_inv Hs; inst_cases; isimpl.
  all: try (apply wk_same; fsimpl; reflexivity).
  all: try (match goal with |- context [<[?k := _]> (waiters _)] => destruct (decide (k = w)) as [->|Hne]; [|apply wk_same; fsimpl; by rewrite lookup_insert_ne] end).
  all: try (eapply wk_new; [eassumption|fsimpl; apply lookup_insert|]; intros E; congruence).
  all: try (eapply wk_listen; [reflexivity|eassumption|fsimpl; apply lookup_insert]).
  all: try (eapply wk_return; [reflexivity|eassumption|eassumption|fsimpl; apply lookup_insert]).
  all: destruct (waiters s !! w) as [[rc ph]|] eqn:Ew; [|apply wk_same; fsimpl; by rewrite lookup_fmap, Ew].
  all: match goal with H : quit_one_task_handler _ ?r _ = Some _ |- _ => destruct (decide (rc = r)) as [->|Hne] end; [|apply wk_same; fsimpl; rewrite lookup_fmap, Ew; cbn; unfold wake; by rewrite decide_False].
  all: destruct ph; try (apply wk_same; fsimpl; rewrite lookup_fmap, Ew; cbn; unfold wake; by rewrite decide_True).
  all: eapply wk_woken; [eassumption|eassumption|constructor|eassumption|done|fsimpl; rewrite lookup_fmap, Ew; cbn; unfold wake; by rewrite decide_True|].
  all: fsimpl; rewrite ?told_app; destruct (hpub s); cbn [told public_of]; try rewrite decide_True by done; try done.
Qed.

(** An instance that has ended wakes nobody any more. *)
Lemma quit_no_handle pf t0 t1 s tid tid' rec : reachable pf t0 t1 s -> OQuit tid rec ∈ log s -> (tid', rec) ∉ trace_recs (trace s).
Proof.
  intros Hr Hq Hin. apply elem_quits in Hq. pose proof (ri_nodup s (rec_reach _ _ _ _ Hr)) as Hn. unfold places in Hn. rewrite !fmap_app in Hn.
  apply NoDup_app in Hn as (_ & _ & Hn). apply NoDup_app in Hn as (_ & _ & Hn). apply NoDup_app in Hn as (_ & Hn & _).
  apply (Hn rec); apply elem_of_list_fmap; by eexists (_, rec).
Qed.
Definition waits (w : N) (rec : Z) (s : sys) : Prop := waiters s !! w = Some (Waiter rec WSent) \/ waiters s !! w = Some (Waiter rec WListen).
Lemma stuck_step pf t0 t1 lb s s' tid rec w : reachable pf t0 t1 s -> OQuit tid rec ∈ log s -> waits w rec s -> step pf lb s = Some s' -> waits w rec s'.
Proof.
  intros Hr Hq Hw Hs. unfold waits in *. destruct (wait_kinds _ _ _ _ w Hs) as [K|r1 K0 K1 K2|r1 _ K1 K2|r1 tid1 e q fin st tr _ _ _ K3 K4 K5 _|r1 h _ K1 K2 K3].
  - by rewrite K.
  - destruct Hw; congruence.
  - right. rewrite K2. destruct Hw; congruence.
  - exfalso. assert (r1 = rec) as -> by (destruct Hw; congruence). apply (quit_no_handle _ _ _ _ _ tid1 _ Hr Hq). rewrite (quit_recs _ _ _ _ K3). left.
  - destruct Hw; congruence.
Qed.
(** A call of cancel_with_wait that has not been woken when its instance ends never returns. *)
Theorem C37_stuck pf t0 t1 s ls s' tid rec w : reachable pf t0 t1 s -> OQuit tid rec ∈ log s -> waits w rec s -> run pf ls s = Some s' -> waits w rec s'.
Proof.
  revert s. induction ls as [|lb ls IH]; intros s Hr Hq Hw Hrun; cbn [run] in Hrun; [by injection Hrun as <-|].
  destruct (step pf lb s) as [s1|] eqn:Hs; [|discriminate Hrun]. refine (IH s1 (reach_step _ _ _ _ _ _ Hr Hs) _ (stuck_step _ _ _ _ _ _ _ _ _ Hr Hq Hw Hs) Hrun).
  destruct (step_log _ _ _ _ Hs) as [l ->]. apply elem_of_app. by right.
Qed.
Print Assumptions C37_stuck.

(** ** C37 cancel_with_wait returns *)
Lemma alive_mark pf t0 t1 s t ch rec : reachable pf t0 t1 s -> OSend (EInsert t) ∈ log s -> kept t (log s) -> chains s !! t_uid t = Some ch -> c_state ch = LIVING -> hpc s = HIdle ->
  (t_id t, rec) ∈ trace_recs (trace s) -> exists m l, flags s !! t_id t = Some m /\ m_chain m = Some (t_uid t, l) /\ rec ∈ l.
Proof.
  intros Hr Hin Hq Hc Hl Hh Ht. destruct (ch_live s (chain_reach _ _ _ _ Hr) _ _ (t_id t) Hc Hl) as [(t' & L1 & L2)|[L|[L|L]]].
  - by exists t.
  - exfalso. apply (kept_taken _ _ _ _ _ _ Hr Hq (trace_taken _ _ _ _ _ _ Hr Ht)). apply (kept_once _ _ _ _ _ (EInsert t) Hr Hq); [|by right].
    assert (t' = t) as -> by (apply (ci_uniq s (cnt_reach _ _ _ _ Hr)); [eexists; split; [apply (proj1 (src_reach _ _ _ _ Hr)); exact L1|right; by left]|by eexists; split; [exact Hin|right; by left]|done]). done.
  - rewrite Hh in L. discriminate L.
  - destruct L as (m & l & L1 & L2). exists m, l. split; [done|]. split; [done|]. exact (listed_kept _ _ _ _ _ Hr Hq _ _ _ _ L1 L2 Ht).
  - congruence.
Qed.
Lemma quit_wakes pf t0 t1 lb s s' t ch w rec : reachable pf t0 t1 s -> OSend (EInsert t) ∈ log s -> kept t (log s) -> chains s !! t_uid t = Some ch -> c_state ch = LIVING -> step pf lb s = Some s' ->
  OQuit (t_id t) rec ∉ log s -> OQuit (t_id t) rec ∈ log s' -> waiters s !! w = Some (Waiter rec WListen) -> waiters s' !! w = Some (Waiter rec WWoken).
Proof.
  intros Hr Hin Hq Hc Hl Hs Hn Hy Hw. destruct (step_kinds _ _ _ _ (hpub_reach _ _ _ _ Hr) Hs) as [e q fin tid r st Hh Eq He Hx|tid hb q Hh Eq Hx|lg _ _ E1 E2].
  - assert (tid = t_id t /\ r = rec /\ exists tr, quit_one_task_handler tid r (trace s) = Some tr) as (-> & -> & tr0 & Htr).
    { destruct (ended_effect _ _ _ _ _ _ _ _ He Hx) as (_ & [[_ ->]|(tr & n & p & E3 & _ & El & E4 & E5)]).
      - fsimpl_in Hy. apply elem_of_cons in Hy as [Hy|Hy]; [discriminate Hy|done].
      - rewrite El, !elem_of_app, !elem_of_cons in Hy. destruct Hy as [Hy|[Hy|[Hy|[Hy|Hy]]]].
        + destruct E5 as [[-> _]|(p0 & _ & ->)]; [by apply elem_of_nil in Hy|apply elem_of_list_singleton in Hy; discriminate Hy].
        + destruct E4 as [[-> _]|[-> _]]; [by apply elem_of_nil in Hy|apply elem_of_list_singleton in Hy; discriminate Hy].
        + injection Hy as <- <-. eauto.
        + discriminate Hy.
        + done. }
    assert ((t_id t, rec) ∈ trace_recs (trace s)) as Ht by (rewrite (quit_recs _ _ _ _ Htr); left).
    destruct (alive_mark _ _ _ _ _ _ _ Hr Hin Hq Hc Hl Hh Ht) as (m & l & Hm & Hmc & Hrl).
    destruct Hx as [Hz|tr Hz Hz1|tr mz Hz Hz1 Hz2|tr mz cid lz Hz Hz1 Hz2 Hz3|tr mz cid lz Hz Hz1 Hz2 Hz3 Hz4|tr mz cid lz z lz' Hz Hz1 Hz2 Hz3 Hz4];
      change (flags (popped e q s)) with (flags s) in *; change (trace (popped e q s)) with (trace s) in *; try congruence.
    + exfalso. change (chain_state s cid = Some DROPPED) in Hz3. assert (cid = t_uid t) as -> by congruence. unfold chain_state in Hz3. rewrite Hc in Hz3. cbn in Hz3. rewrite Hl in Hz3. discriminate Hz3.
    + exfalso. apply take_rec_none in Hz4. apply Hz4. rewrite list_fmap_id. congruence.
    + change (waiters _) with (wake rec <$> waiters s). rewrite lookup_fmap, Hw. cbn. unfold wake. by rewrite decide_True.
  - exfalso. destruct (appended_effect _ _ _ _ _ Hx) as (_ & _ & _ & El & _). rewrite El, !elem_of_cons in Hy. destruct Hy as [Hy|[Hy|Hy]]; [discriminate Hy|discriminate Hy|done].
  - exfalso. rewrite E1 in Hy. apply elem_of_app in Hy as [Hy|Hy]; [|done]. rewrite Forall_forall in E2. exact (E2 _ Hy).
Qed.
Lemma wait_hdr pf t0 t1 s w x : reachable pf t0 t1 s -> waiters s !! w = Some x -> hdrs s !! w_rec x <> None.
Proof.
  intros Hr. revert s Hr x. apply (reach_ind pf t0 t1 (fun s => forall x, waiters s !! w = Some x -> hdrs s !! w_rec x <> None)).
  - intros x H. change (waiters (init t0 t1)) with (∅ : gmap N waiter) in H. rewrite lookup_empty in H. discriminate H.
  - intros lb s s' Hr IH Hs x Hx. assert (forall r, hdrs s !! r <> None -> hdrs s' !! r <> None) as Hk.
    { intros r Hh. destruct (step_kinds _ _ _ _ (hpub_reach _ _ _ _ Hr) Hs) as [e q fin tid rc st _ _ He Hz|tid hb q _ _ Hz|lg _ -> _ _]; [| |done].
      - destruct (ended_effect _ _ _ _ _ _ _ _ He Hz) as (_ & [[_ ->]|(tr & n & p & _ & _ & _ & [[_ ->]|[_ ->]] & _)]); [exact Hh|exact Hh|].
        destruct (decide (rc = r)) as [->|Hne]; [rewrite lookup_alter|by rewrite lookup_alter_ne]. by destruct (hdrs s !! r).
      - destruct (appended_effect _ _ _ _ _ Hz) as (_ & _ & _ & _ & [->|(m & cid & l & _ & _ & ->)]); [done|].
        destruct (decide (hb_rec hb = r)) as [->|Hne]; [by rewrite lookup_insert|by rewrite lookup_insert_ne]. }
    apply Hk. destruct (wait_kinds _ _ _ _ w Hs) as [K|r1 K0 K1 K2|r1 _ K1 K2|r1 tid1 e q fin st tr _ _ _ K3 K4 K5 _|r1 h _ K1 K2 K3].
    + apply IH. by rewrite <- K.
    + rewrite Hx in K1. by injection K1 as ->.
    + rewrite Hx in K2. injection K2 as ->. exact (IH _ K1).
    + rewrite Hx in K5. injection K5 as ->. exact (IH _ K4).
    + rewrite Hx in K3. injection K3 as ->. cbn. by rewrite K2.
Qed.
Lemma told_mono pf lb s s' rec : step pf lb s = Some s' -> told rec (log s) <> [] -> told rec (log s') <> [].
Proof. intros Hs H. destruct (step_log _ _ _ _ Hs) as [l ->]. rewrite told_app. intros [_ E]%app_eq_nil. done. Qed.
Lemma told_state pf t0 t1 s rec h : reachable pf t0 t1 s -> told rec (log s) <> [] -> hdrs s !! rec = Some h -> h_state h <> RUNNING.
Proof.
  intros Hr Ht Hh. pose proof (stat_reach _ _ _ _ Hr) as Hst.
  destruct (decide (rec ∈ (trace_recs (trace s)).*2)) as [Hx|Hx].
  - apply elem_of_list_fmap in Hx as ([tid r] & -> & Hx). destruct (st_trace s Hst _ _ Hx) as (_ & E & _). done.
  - destruct (decide (rec ∈ (quits (log s)).*2)) as [Hy|Hy].
    + apply elem_of_list_fmap in Hy as ([tid r] & -> & Hy). cbn in *. destruct (st_quit s Hst _ _ Hy) as (p & _ & Hf & E). destruct (E _ Hh) as [-> _].
      destruct Hf as [[_ [E1|E1]]|[(tm & ot & _ & [E1|E1])|[_ [E1|E1]]]]; rewrite E1 in *; try done; cbn; discriminate.
    + destruct (st_none s Hst _ Hx Hy) as (_ & E & _). done.
Qed.
Definition answered (rec : Z) (x : waiter) (lg : list obs) : Prop := match w_phase x with WWoken => told (w_rec x) lg <> [] | WRet st => st <> RUNNING | _ => True end.
Lemma wait_answer pf t0 t1 s w x : reachable pf t0 t1 s -> waiters s !! w = Some x -> answered (w_rec x) x (log s).
Proof.
  intros Hr. revert s Hr x. apply (reach_ind pf t0 t1 (fun s => forall x, waiters s !! w = Some x -> answered (w_rec x) x (log s))).
  - intros x H. change (waiters (init t0 t1)) with (∅ : gmap N waiter) in H. rewrite lookup_empty in H. discriminate H.
  - intros lb s s' Hr IH Hs x Hx. unfold answered. destruct (wait_kinds _ _ _ _ w Hs) as [K|r1 K0 K1 K2|r1 _ K1 K2|r1 tid1 e q fin st tr _ _ _ K3 K4 K5 K6|r1 h _ K1 K2 K3].
    + rewrite K in Hx. specialize (IH _ Hx). unfold answered in IH. destruct (w_phase x); try done. by eapply told_mono.
    + rewrite Hx in K1. by injection K1 as ->.
    + rewrite Hx in K2. by injection K2 as ->.
    + rewrite Hx in K5. by injection K5 as ->.
    + rewrite Hx in K3. injection K3 as ->. cbn. eapply told_state; [exact Hr| |exact K2]. exact (IH _ K1).
Qed.
(** The call has returned, or returns with its next step, with the state the instance ended in. *)
Definition returns (pf : profile) (w : N) (rec : Z) (s : sys) : Prop :=
  (exists st, waiters s !! w = Some (Waiter rec (WRet st)) /\ st <> RUNNING) \/
  (exists s' st, step pf (LReturn w) s = Some s' /\ waiters s' !! w = Some (Waiter rec (WRet st)) /\ st <> RUNNING).
Lemma woken_returns pf t0 t1 s w rec : reachable pf t0 t1 s -> waiters s !! w = Some (Waiter rec WWoken) -> returns pf w rec s.
Proof.
  intros Hr Hw. right. pose proof (wait_hdr _ _ _ _ _ _ Hr Hw) as Hh. cbn in Hh. destruct (hdrs s !! rec) as [h|] eqn:Eh; [|done].
  eexists _, (h_state h). split; [cbn [step]; unfold inst_return; rewrite Hw, Eh; reflexivity|]. split; [fsimpl; apply lookup_insert|].
  eapply told_state; [exact Hr| |exact Eh]. exact (wait_answer _ _ _ _ _ _ Hr Hw).
Qed.
Definition awake (w : N) (rec : Z) (s : sys) : Prop := waiters s !! w = Some (Waiter rec WWoken) \/ exists st, waiters s !! w = Some (Waiter rec (WRet st)).
Lemma awake_returns pf t0 t1 s w rec : reachable pf t0 t1 s -> awake w rec s -> returns pf w rec s.
Proof.
  intros Hr [H|[st H]]; [by eapply woken_returns|]. left. exists st. split; [done|]. exact (wait_answer _ _ _ _ _ _ Hr H).
Qed.
Lemma awake_step pf lb s s' w rec : step pf lb s = Some s' -> awake w rec s -> awake w rec s'.
Proof.
  intros Hs Ha. unfold awake in *. destruct (wait_kinds _ _ _ _ w Hs) as [K|r1 K0 K1 K2|r1 _ K1 K2|r1 tid1 e q fin st tr _ _ _ K3 K4 K5 K6|r1 h _ K1 K2 K3].
  - by rewrite K.
  - destruct Ha as [?|[??]]; congruence.
  - destruct Ha as [?|[??]]; congruence.
  - destruct Ha as [?|[??]]; congruence.
  - right. exists (h_state h). rewrite K3. destruct Ha as [?|[??]]; congruence.
Qed.
Lemma awake_run pf ls s s' w rec : run pf ls s = Some s' -> awake w rec s -> awake w rec s'.
Proof.
  revert s. induction ls as [|lb ls IH]; intros s Hrun Ha; cbn [run] in Hrun; [by injection Hrun as <-|].
  destruct (step pf lb s) as [s1|] eqn:Hs; [|discriminate Hrun]. exact (IH s1 Hrun (awake_step _ _ _ _ _ _ Hs Ha)).
Qed.
Lemma listen_step pf lb s s' w rec : step pf lb s = Some s' -> waiters s !! w = Some (Waiter rec WListen) -> waiters s' !! w = Some (Waiter rec WListen) \/ waiters s' !! w = Some (Waiter rec WWoken).
Proof.
  intros Hs Ha. destruct (wait_kinds _ _ _ _ w Hs) as [K|r1 K0 K1 K2|r1 _ K1 K2|r1 tid1 e q fin st tr _ _ _ K3 K4 K5 K6|r1 h _ K1 K2 K3]; try congruence.
  - left. congruence.
  - right. congruence.
Qed.
Lemma gone_run pf t0 t1 ls s s' c i : reachable pf t0 t1 s -> ins c i (log s) -> run pf ls s = Some s' -> gone c s -> gone c s'.
Proof.
  revert s. induction ls as [|lb ls IH]; intros s Hr Hi Hrun Hg; cbn [run] in Hrun; [by injection Hrun as <-|].
  destruct (step pf lb s) as [s1|] eqn:Hs; [|discriminate Hrun]. exact (IH s1 (reach_step _ _ _ _ _ _ Hr Hs) (ins_mono _ _ _ _ _ _ Hs Hi) Hrun (gone_step _ _ _ _ _ _ _ _ Hr Hi Hs Hg)).
Qed.
Lemma alive_run pf t0 t1 ls s s' t ch : reachable pf t0 t1 s -> OSend (EInsert t) ∈ log s -> run pf ls s = Some s' -> chains s' !! t_uid t = Some ch -> c_state ch = LIVING ->
  exists ch0, chains s !! t_uid t = Some ch0 /\ c_state ch0 = LIVING.
Proof.
  intros Hr Hi Hrun Hc Hl. destruct (decide (chain_state s (t_uid t) = Some LIVING)) as [E|Hg].
  - unfold chain_state in E. destruct (chains s !! t_uid t) as [c0|]; [|discriminate E]. injection E as E. eauto.
  - exfalso. apply (gone_run _ _ _ _ _ _ _ (t_id t) Hr (ex_intro _ t (conj Hi (conj eq_refl eq_refl))) Hrun Hg). unfold chain_state. rewrite Hc. cbn. by rewrite Hl.
Qed.
(** It returns when the caller is listening before the instance ends, the id is added by that insertion only and not removed, and the user keeps the chain. *)
Theorem C37_returns_partial pf t0 t1 s ls s' t ch w rec : reachable pf t0 t1 s -> OSend (EInsert t) ∈ log s -> waiters s !! w = Some (Waiter rec WListen) -> OQuit (t_id t) rec ∉ log s ->
  run pf ls s = Some s' -> kept t (log s') -> chains s' !! t_uid t = Some ch -> c_state ch = LIVING -> OQuit (t_id t) rec ∈ log s' -> returns pf w rec s'.
Proof.
  intros Hr Hi Hw Hn Hrun Hq Hc Hl Hy. apply (awake_returns _ _ _ _ _ _ (reach_run _ _ _ _ _ _ Hr Hrun)).
  revert s Hr Hi Hw Hn Hrun. induction ls as [|lb ls IH]; intros s Hr Hi Hw Hn Hrun; cbn [run] in Hrun; [by injection Hrun as ->|].
  destruct (step pf lb s) as [s1|] eqn:Hs; [|discriminate Hrun]. pose proof (reach_step _ _ _ _ _ _ Hr Hs) as Hr1.
  assert (OSend (EInsert t) ∈ log s1) as Hi1 by (destruct (step_log _ _ _ _ Hs) as [l ->]; apply elem_of_app; by right).
  pose proof (kept_anti _ _ _ _ _ Hs (kept_run _ _ _ _ _ Hrun Hq)) as Hq0.
  destruct (alive_run pf t0 t1 (lb :: ls) s s' t ch Hr Hi) as (ch0 & Hc0 & Hl0); [cbn [run]; by rewrite Hs|done|done|].
  destruct (decide ((t_id t, rec) ∈ quits (log s1))) as [Hy1|Hn1]; rewrite elem_quits in *.
  - apply (awake_run _ _ _ _ _ _ Hrun). left. exact (quit_wakes _ _ _ _ _ _ _ _ _ _ Hr Hi Hq0 Hc0 Hl0 Hs Hn Hy1 Hw).
  - destruct (listen_step _ _ _ _ _ _ Hs Hw) as [Hw1|Hw1]; [by apply (IH s1)|]. apply (awake_run _ _ _ _ _ _ Hrun). by left.
Qed.
Print Assumptions C37_returns_partial.

(** A call of cancel_with_wait in progress, with nothing left to handle, returns by the steps of the caller. *)
Definition caller (w : N) (lb : label) : Prop := lb = LListen w \/ lb = LReturn w.
Definition C37_returns : Prop := forall pf t0 t1 s w x, reachable pf t0 t1 s -> waiters s !! w = Some x -> hpc s = HIdle -> queue s = [] ->
  exists ls s' st, Forall (caller w) ls /\ run pf ls s = Some s' /\ waiters s' !! w = Some (Waiter (w_rec x) (WRet st)).
Lemma stuck_refutes pf t0 t1 s w rec tid : reachable pf t0 t1 s -> waits w rec s -> hpc s = HIdle -> queue s = [] -> OQuit tid rec ∈ log s -> ~ C37_returns.
Proof.
  intros Hr Hw Hh Hq Ho H. assert (exists x, waiters s !! w = Some x /\ w_rec x = rec) as (x & Hx & <-) by (destruct Hw as [E|E]; rewrite E; eexists; (split; [reflexivity|done])).
  destruct (H _ _ _ _ _ _ Hr Hx Hh Hq) as (ls & s' & st & _ & Hrun & Hy). pose proof (C37_stuck _ _ _ _ _ _ _ _ _ Hr Ho Hw Hrun) as Hz. destruct Hz; congruence.
Qed.
(** The instance can be cancelled between the sending of the event and the start of listening ... *)
Definition done_quit (ph : wphase -> bool) (s : sys) : bool := match waiters s !! 5 with Some (Waiter 0 p) => ph p | _ => false end && match hpc s, queue s with HIdle, [] => true | _, _ => false end && inb (OQuit 11 0) (log s).
Lemma done_quit_ok ph s : done_quit ph s = true -> exists p, waiters s !! 5 = Some (Waiter 0 p) /\ ph p = true /\ hpc s = HIdle /\ queue s = [] /\ OQuit 11 0 ∈ log s.
Proof.
  unfold done_quit. intros H. apply andb_true_iff in H as [H H3]. apply andb_true_iff in H as [H1 H2]. apply inb_ok in H3.
  destruct (waiters s !! 5) as [[[| |] p]|]; try discriminate H1. destruct (hpc s); try discriminate H2. destruct (queue s); try discriminate H2. eauto 10.
Qed.
Theorem C37_returns_refuted : ~ C37_returns.
Proof.
  destruct (after_reach Debug 100 100 [Do (LInsert (every 1 11 5 100)); Handle; Ticks 7; Handle; Do (LNextCheck 1); Do (LNextTry 1); Do (LInstCancel 5 0); Handle; Do (LListen 5)]
    (done_quit (fun p => match p with WListen => true | _ => false end))) as (s & Hr & HP); [vm_compute; reflexivity|].
  apply done_quit_ok in HP as (p & H1 & H2 & H3 & H4 & H5). apply (stuck_refutes _ _ _ _ 5 0%Z 11 Hr); try done. right. by destruct p.
Qed.
Print Assumptions C37_returns_refuted.
(** ... and when the task has been removed, nobody wakes the caller although it listened in time. *)
Theorem C37_returns_refuted2 : ~ C37_returns.
Proof.
  destruct (after_reach Debug 100 100 [Do (LInsert (every 1 11 5 100)); Handle; Ticks 7; Handle; Do (LNextCheck 1); Do (LNextTry 1); Do (LRemove 11); Do (LInstCancel 5 0); Do (LListen 5); Handle]
    (done_quit (fun p => match p with WListen => true | _ => false end))) as (s & Hr & HP); [vm_compute; reflexivity|].
  apply done_quit_ok in HP as (p & H1 & H2 & H3 & H4 & H5). apply (stuck_refutes _ _ _ _ 5 0%Z 11 Hr); try done. right. by destruct p.
Qed.
Print Assumptions C37_returns_refuted2.
(** The hypotheses of C37_returns_partial: one LHandler after the state reached handles the cancellation. *)
Example C37_partial_example : exists s s' ch, reachable Debug 100 100 s /\ OSend (EInsert (every 1 11 5 100)) ∈ log s /\ waiters s !! 5 = Some (Waiter 0 WListen) /\ OQuit 11 0 ∉ log s /\
  run Debug [LHandler] s = Some s' /\ kept (every 1 11 5 100) (log s') /\ chains s' !! 1 = Some ch /\ c_state ch = LIVING /\ OQuit 11 0 ∈ log s'.
Proof.
  destruct (scen_kept Debug 100 100 [Do (LInsert (every 1 11 5 100)); Handle; Ticks 7; Do (LUpdate (every 2 11 5 107)); Do (LAdvance 11); Handle; Do (LNextCheck 1); Do (LNextTry 1); Do (LInstCancel 5 0); Do (LListen 5)] (every 1 11 5 100)
    (fun s => insb 1 (log s) && match waiters s !! 5 with Some (Waiter 0 WListen) => true | _ => false end && negb (bool_decide ((11, 0%Z) ∈ quits (log s))) &&
      match run Debug [LHandler] s with Some s' => keptb (every 1 11 5 100) (log s') && match chains s' !! 1 with Some ch => c_state ch =? LIVING | None => false end && inb (OQuit 11 0) (log s') | None => false end))
    as (s & Hr & Hs & Hq & HP); [right; left|vm_compute; reflexivity|].
  apply andb_true_iff in HP as [HP H4]. apply andb_true_iff in HP as [HP H3]. apply andb_true_iff in HP as [H1 H2]. apply (insb_ok _ _ _ _ _ Hr Hs) in H1.
  destruct (run Debug [LHandler] s) as [s'|] eqn:E; [|discriminate H4]. pose proof (reach_run _ _ _ _ _ _ Hr E) as Hr'.
  apply andb_true_iff in H4 as [H4 H6]. apply andb_true_iff in H4 as [H4 H5]. apply inb_ok in H6. destruct (chains s' !! 1) as [ch|] eqn:Ec; [|discriminate H5]. apply N.eqb_eq in H5.
  exists s, s', ch. split; [exact Hr|]. split; [exact H1|]. split; [by destruct (waiters s !! 5) as [[[| |] []]|]|]. split; [rewrite <- elem_quits; by destruct (bool_decide_reflect ((11, 0%Z) ∈ quits (log s)))|].
  split; [done|]. split; [|done]. apply (keptb_ok _ _ _ _ _ Hr'); [|exact H4]. destruct (run_log _ _ _ _ E) as [l El]. destruct Hs as (e & He & Hsb). exists e. split; [rewrite El; apply elem_of_app; by right|done].
Qed.
