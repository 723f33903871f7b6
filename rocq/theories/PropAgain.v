(** A task with a parallel limit is started again and again if its instances end (C67). *)
From Verif Require Import Panics Tactics Inv Own Life Count Quiet Timing Cases Frame Fifo Scen Crash Arrival Meanwhile Kept Inst Ended Origin Account Live LiveEnd PropSched PropCancel PropRemove PropLimit PropLive PropCalm PropChain PropEnding PropNext Sched Lost Stay PropOrphan PropLife PropExact Chain.

(** * Vocabulary *)

(** A start of the task [t] was left out although none of its instances was running. *)
Definition idle_skip (t : task) (lg : list obs) : Prop :=
  exists l1 j it ts l2, lg = l1 ++ OSkip (t_uid t) j it ts :: l2 /\ running (t_id t) l2 = [].
(** The timer discarded [t] because it was due before its mark was recorded. *)
Definition lost_early (t : task) (lg : list obs) : Prop := ODrop (t_uid t) (t_id t) NoMark ∈ lg.

(** * What a skip and a loss leave behind *)
Definition no_osk (o : obs) : Prop := match o with OSkip _ _ _ _ => False | _ => True end.
Lemma skip_entry pf lb s s' : step pf lb s = Some s' ->
  (exists l ids x mx m, tpc s = TMaint l ids x /\ t_maxpar x = Some mx /\ flags s !! t_id x = Some m /\ mx <= m_num m /\
     log s' = OSkip (t_uid x) (t_id x) (iters s) (l_ts l) :: log s /\ tpc s' = TPark l ids x false /\ flags s' = flags s) \/
  exists l, log s' = l ++ log s /\ Forall no_osk l.
Proof.
  intros Hs. destruct (step_log _ _ _ _ Hs) as [l0 E0].
  assert (forall l, Forall inst_obs l -> Forall no_osk l) as Hi by (intros l H; eapply Forall_impl; [exact H|]; intros []; done).
  step_inv Hs; inst_shape; fsimpl; try (right; exists []; split; [done|constructor]).
  all: try (right; eexists [_]; split; [reflexivity|by repeat constructor]).
  all: try (right; eexists (_ ++ [_]); rewrite <- app_assoc; split; [reflexivity|apply Forall_app; split; [by apply Hi|by repeat constructor]]).
  all: try (right; repeat case_match; first [exists []; split; [reflexivity|constructor]|eexists [_]; split; [reflexivity|by repeat constructor]|eexists [_; _]; split; [reflexivity|by repeat constructor]]).
  left. eexists _, _, _, _, _. split_and!; try done. by apply N.leb_le.
Qed.
Lemma stuck_starts pf t0 t1 σ lb t mx n : exec pf t0 t1 σ lb -> (forall k, quiet t (log (σ k))) -> submitted t (log (σ n)) -> t_maxpar t = Some mx -> stuck (t_id t) mx (σ n) ->
  forall m, (n <= m)%nat -> starts (t_uid t) (log (σ m)) = starts (t_uid t) (log (σ n)).
Proof.
  intros He Hq Hsub Hmx Hst m Hm. assert (stuck (t_id t) mx (σ m) /\ starts (t_uid t) (log (σ m)) = starts (t_uid t) (log (σ n))) as [_ ?]; [|done].
  induction Hm as [|m Hm [IH1 IH2]]; [done|]. pose proof (exec_reach _ _ _ _ _ m He) as Hr. pose proof (ex_step _ _ _ _ _ He m) as Hs.
  pose proof (submitted_later _ _ _ _ _ _ _ _ He Hm Hsub) as Hsm. pose proof (submitted_mono _ _ _ _ _ Hs Hsm) as Hsm'.
  split; [exact (stuck_step _ _ _ _ _ _ _ _ Hr Hs Hsm (quiet_sole _ _ Hsm' (Hq (S m))) Hmx IH1)|].
  rewrite <- IH2. destruct (starts_step _ _ _ _ Hs) as [(l & ids & x & r & E & _ & _ & E2 & _)|[E _]]; [|by rewrite E]. rewrite E2. cbn [starts].
  destruct (t_uid x =? t_uid t) eqn:Eu; [|lia]. apply N.eqb_eq in Eu. exfalso.
  assert (x ∈ Spec.held (σ m)) as Hx by (unfold Spec.held; rewrite !elem_of_app, E; right; right; left; apply elem_of_list_here).
  destruct (ci_held _ (cnt_reach _ _ _ _ Hr) x Hx) as (x1 & H1 & H2 & H3 & _).
  assert (x1 = t) as -> by (apply (ci_uniq _ (cnt_reach _ _ _ _ Hr)); [done|done|congruence]).
  destruct IH1 as (_ & S2 & _). apply (S2 _ _ _ _ E). congruence.
Qed.
Lemma osk_old l lg : Forall no_osk l -> forall l1 u j it ts l2, l ++ lg = l1 ++ OSkip u j it ts :: l2 -> exists l1', lg = l1' ++ OSkip u j it ts :: l2.
Proof.
  intros H. induction H as [|o l Ho H IH]; intros l1 u j it ts l2 E; [by exists l1|]. destruct l1 as [|o' l1]; cbn [app] in E; injection E as E1 E2; [subst; done|]. by eapply IH.
Qed.
(** After such a skip the places of the task are used up for good. *)
Lemma idle_stuck pf t0 t1 s t mx : reachable pf t0 t1 s -> submitted t (log s) -> quiet t (log s) -> t_maxpar t = Some mx -> idle_skip t (log s) -> stuck (t_id t) mx s.
Proof.
  intros Hr Hsub Hq Hmx. revert s Hr Hsub Hq. apply (reach_ind pf t0 t1 (fun s => submitted t (log s) -> quiet t (log s) -> idle_skip t (log s) -> stuck (t_id t) mx s)).
  { change (log (init t0 t1)) with [OTick 0 t1]. intros (e & He & _) _. apply elem_of_list_singleton in He. discriminate He. }
  intros lb s s' Hr IH Hs Hsub' Hq' (l1 & j & it & ts & l2 & E & Hrun). pose proof (quiet_anti _ _ _ _ _ Hs Hq') as Hq. pose proof (reach_step _ _ _ _ _ _ Hr Hs) as Hr'.
  assert ((exists l1', log s = l1' ++ OSkip (t_uid t) j it ts :: l2) -> stuck (t_id t) mx s') as Hold.
  { intros [l1' E']. destruct (submitted_step _ _ _ _ _ Hs Hsub') as [Hsub|[(_ & _ & Hnew) _]].
    - refine (stuck_step _ _ _ _ _ _ _ _ Hr Hs Hsub (quiet_sole _ _ Hsub' Hq') Hmx (IH Hsub Hq _)). by exists l1', j, it, ts, l2.
    - pose proof (no_turns _ _ _ _ _ Hr Hnew) as H0. rewrite E', turns_app in H0. cbn [turns] in H0. rewrite N.eqb_refl in H0. lia. }
  destruct (skip_entry _ _ _ _ Hs) as [(l & ids & x & mx' & m & P1 & P2 & P3 & P4 & P5 & P6 & P7)|(l & El & Hl)].
  2: { rewrite El in E. exact (Hold (osk_old _ _ Hl _ _ _ _ _ _ E)). }
  rewrite P5 in E. destruct l1 as [|o l1]; cbn [app] in E; [|injection E as _ E; apply Hold; by exists l1]. injection E as Eu _ _ _ E. subst l2.
  assert (x ∈ Spec.held s) as Hx by (unfold Spec.held; rewrite !elem_of_app, P1; right; right; left; apply elem_of_list_here).
  destruct (ci_held _ (cnt_reach _ _ _ _ Hr) x Hx) as (x1 & H1 & H2 & H3 & _ & H5 & _).
  assert (x1 = t) as -> by (apply (ci_uniq _ (cnt_reach _ _ _ _ Hr')); [by eapply submitted_mono|done|congruence]).
  rewrite <- H3 in P3. rewrite <- H5, Hmx in P2. injection P2 as <-. pose proof (quiet_sole _ _ Hsub' Hq') as Hsole. split; [|split].
  - intros Ha. destruct (wi_await _ _ (wait_reach _ _ _ _ _ _ Hr' (sole_once _ _ Hsole) (sole_bound _ _ _ Hsole Hmx)) Ha) as (Hf & _). congruence.
  - intros ? ? ? ? Ex. congruence.
  - intros m0 y Hf _ _. rewrite P7, P3 in Hf. injection Hf as <-. rewrite P6. cbn [inflight]. unfold nrun. rewrite P5. cbn [running]. rewrite Hrun. cbn [length]. lia.
Qed.
(** What was lost early is nowhere. *)
Lemma lost_nowhere pf t0 t1 s i u : reachable pf t0 t1 s -> unmarked i u s -> nowhere u s.
Proof.
  revert s. apply (reach_ind pf t0 t1 (fun s => unmarked i u s -> nowhere u s)).
  { unfold unmarked. change (log (init t0 t1)) with [OTick 0 t1]. intros H; apply elem_of_list_singleton in H; discriminate H. }
  intros lb s s' Hr IH Hs Hx. pose proof (own_reach _ _ _ _ Hr) as Ho.
  assert (unmarked i u s \/ exists t, t_uid t = u /\ t ∈ Spec.held s /\ used s' = used s /\ uids s ≡ₚ t_uid t :: uids s') as [Hx0|(t & <- & H1 & H2 & H3)]; [|by apply (nowhere_step _ _ _ _ _ (IH Hx0) Hs)|by eapply uid_dropped].
  unfold unmarked in *. clear Hr Ho IH. revert Hx. step_inv Hs; inst_shape; fsimpl; intros Hx; auto.
  all: repeat match goal with H : context [match hpub ?x with _ => _ end] |- _ => destruct (hpub x) | H : context [if ?x then _ :: _ else _] |- _ => destruct x end; rewrite ?elem_of_app, ?elem_of_cons in Hx; auto.
  all: try (left; repeat (destruct Hx as [Hx|Hx]; [first [discriminate Hx|rewrite Forall_forall in Hlg; by destruct (Hlg _ Hx)]|]); by auto).
  destruct Hx as [Hx|Hx]; auto. injection Hx as -> ->. right. exists t. split; [done|]. split; [unfold Spec.held; rewrite Heqt, !elem_of_app; right; right; left; apply elem_of_list_here|].
  split; [done|]. apply hands_off; by rewrite ?Heqt.
Qed.

(** * Instances that end free their places *)
Lemma running_less i l lg : (forall u r it ts, OLaunch u i r it ts ∉ l) -> running i (l ++ lg) = running i lg \/ (length (running i (l ++ lg)) < length (running i lg))%nat.
Proof.
  induction l as [|o l IH]; intros Hn; [by left|]. destruct IH as [IH|IH]; [intros u r it ts Hx; apply (Hn u r it ts); by right|..].
  all: destruct o; cbn [app running]; auto.
  all: destruct (_ =? _) eqn:E; auto.
  all: try (apply N.eqb_eq in E as ->; edestruct Hn; left).
  - rewrite IH. destruct (decide (rec ∈ running i lg)) as [?|Hr]; [right; by apply filter_ne_length|left].
    clear -Hr. induction (running i lg) as [|y k IH]; [done|]. apply not_elem_of_cons in Hr as [H1 H2]. rewrite filter_cons, decide_True by congruence. by rewrite IH.
  - right. pose proof (filter_length (fun x => x <> rec) (running i (l ++ lg))). lia.
Qed.
Lemma same_starts pf t0 t1 s t l lg : reachable pf t0 t1 s -> quiet t (log s) -> log s = l ++ lg -> starts (t_uid t) (log s) = starts (t_uid t) lg -> forall u r it ts, OLaunch u (t_id t) r it ts ∉ l.
Proof.
  intros Hr Hq E Es u r it ts Hx. assert (u = t_uid t) as ->. { eapply quiet_launches; [exact Hr|exact Hq|]. rewrite E. apply elem_of_app. by left. }
  rewrite E, starts_app in Es. pose proof (Chain.starts_in _ _ _ _ _ _ Hx). lia.
Qed.
Lemma turns_skip u l : 1 <= turns u l -> starts u l = 0 -> exists j it ts, OSkip u j it ts ∈ l.
Proof.
  induction l as [|o l IH]; [done|]. intros H1 H2. assert (1 <= turns u l -> starts u l = 0 -> exists j it ts, OSkip u j it ts ∈ o :: l) as Hr.
  { intros H3 H4. destruct (IH H3 H4) as (j & it & ts & H). exists j, it, ts. by right. }
  destruct o; cbn [turns starts] in *; auto; destruct (_ =? _) eqn:E; auto; [lia|]. apply N.eqb_eq in E as ->. eexists _, _, _. left.
Qed.
(** Whatever [Q] is: each instance of [t] ends, or [Q]. *)
Lemma again pf t0 t1 σ lb t mx st (Q : nat -> Prop) : exec pf t0 t1 σ lb -> weakly_fair pf by_handler σ lb -> strongly_fair pf by_scheduler σ lb ->
  t_freq t = SecondsRepeated st -> t_maxpar t = Some mx -> (forall k, quiet t (log (σ k))) ->
  (forall k r, r ∈ running (t_id t) (log (σ k)) -> exists k', (k <= k')%nat /\ (r ∉ running (t_id t) (log (σ k')) \/ Q k')) ->
  forall n, submitted t (log (σ n)) -> exists m, (n <= m)%nat /\ (starts (t_uid t) (log (σ n)) < starts (t_uid t) (log (σ m)) \/
    lost_early t (log (σ m)) \/ idle_skip t (log (σ m)) \/ Q m \/ tpc (σ m) = TStopped \/ tpc (σ m) = TDead \/ hpc (σ m) = HDead).
Proof.
  intros He Hh Hs Hf Hmx Hq Hend n Hsub. set (i := t_id t) in *. set (u := t_uid t) in *.
  assert (forall c k, (n <= k)%nat -> (length (running i (log (σ k))) <= c)%nat -> starts u (log (σ k)) = starts u (log (σ n)) ->
    exists m, (k <= m)%nat /\ (starts u (log (σ n)) < starts u (log (σ m)) \/ Q m \/ running i (log (σ m)) = [] /\ starts u (log (σ m)) = starts u (log (σ n)))) as HA.
  { induction c as [|c IH]; intros k Hk Hc Es; (destruct (running i (log (σ k))) as [|r rs] eqn:Er; [exists k; auto 6|]); [cbn [length] in Hc; lia|].
    destruct (Hend k r) as (k' & Hk' & [Hr|Hr]); [fold i; rewrite Er; left| |exists k'; auto]. pose proof (starts_le _ _ _ _ _ u _ _ He Hk') as Hle.
    destruct (decide (starts u (log (σ k')) = starts u (log (σ n)))) as [E|E]; [|exists k'; split; [done|left; lia]].
    destruct (exec_log _ _ _ _ _ k k' He Hk') as [l El].
    assert (starts u (log (σ k')) = starts u (log (σ k))) as E2 by congruence.
    destruct (running_less i l (log (σ k)) (same_starts _ _ _ _ t l _ (exec_reach _ _ _ _ _ k' He) (Hq k') El E2)) as [H|H]; rewrite <- El, Er in H.
    - destruct Hr. fold i. rewrite H. left.
    - destruct (IH k' ltac:(lia) ltac:(cbn [length] in *; lia) E) as (m & Hm & Hx). exists m. split; [lia|done]. }
  destruct (HA _ n (le_n _) (le_n _) eq_refl) as (k & Hk & [Hx|[Hx|[Hrun Es]]]); [exists k; auto 10..|].
  destruct (left_alone _ _ _ _ _ t k He Hh Hs Hq (submitted_later _ _ _ _ _ _ _ _ He Hk Hsub) (turns u (log (σ k)) + 1)) as (m & Hm & Hx). exists m. split; [lia|].
  destruct Hx as [Hx|[Hx|[Hx|?]]]; [|by destruct (repeated_goes_on _ _ _ _ _ _ _ (exec_reach _ _ _ _ _ m He) (submitted_later _ _ _ _ _ n m _ He ltac:(lia) Hsub) Hf Hx)|by right; left|by right; right; right; right].
  pose proof (starts_le _ _ _ _ _ u _ _ He Hm) as Hle. destruct (decide (starts u (log (σ m)) = starts u (log (σ n)))) as [E|E]; [|left; lia].
  destruct (exec_log _ _ _ _ _ k m He Hm) as [l El]. fold u in Hx. rewrite El, turns_app in Hx.
  assert (starts u (log (σ m)) = starts u (log (σ k))) as E2 by congruence. pose proof (same_starts _ _ _ _ t l _ (exec_reach _ _ _ _ _ m He) (Hq m) El E2) as Hno.
  destruct (turns_skip u l) as (j & it & ts & Hin); [lia|rewrite El, starts_app in E2; lia|]. apply elem_of_list_split in Hin as (l1 & l2 & ->).
  right. right. left. exists l1, j, it, ts, (l2 ++ log (σ k)). split; [rewrite El, <- app_assoc; done|]. fold i.
  destruct (running_less i l2 (log (σ k))) as [H|H]; [|by rewrite H|rewrite Hrun in H; cbn [length] in H; lia]. intros u' r it' ts' Hx'. apply (Hno u' r it' ts'). apply elem_of_app. right. by right.
Qed.
Lemma again_and_again pf t0 t1 σ lb t mx st (Q : nat -> Prop) n : exec pf t0 t1 σ lb -> weakly_fair pf by_handler σ lb -> strongly_fair pf by_scheduler σ lb ->
  t_freq t = SecondsRepeated st -> t_maxpar t = Some mx -> (forall k, quiet t (log (σ k))) ->
  (forall k r, r ∈ running (t_id t) (log (σ k)) -> exists k', (k <= k')%nat /\ (r ∉ running (t_id t) (log (σ k')) \/ Q k')) -> submitted t (log (σ n)) ->
  forall a, exists m, (n <= m)%nat /\ (a <= starts (t_uid t) (log (σ m)) \/
    lost_early t (log (σ m)) \/ idle_skip t (log (σ m)) \/ Q m \/ tpc (σ m) = TStopped \/ tpc (σ m) = TDead \/ hpc (σ m) = HDead).
Proof.
  intros He Hh Hs Hf Hmx Hq Hend Hsub a. induction a as [|a (m & Hm & [H|H])] using N.peano_ind; [exists n; split; [done|left; lia]| |exists m; auto].
  destruct (again _ _ _ _ _ _ _ _ Q He Hh Hs Hf Hmx Hq Hend m (submitted_later _ _ _ _ _ _ _ _ He Hm Hsub)) as (m' & Hm' & [H'|H']); exists m'; (split; [lia|]); [left; lia|by right].
Qed.

(* ------------------------------------------------------------------ *)
(** ** C67 A task with a parallel limit is started again and again if its instances end *)

(** Of all instances of the id [i] it is true that they end. *)
Definition all_end (σ : nat -> sys) (i : N) : Prop := forall k r, r ∈ running i (log (σ k)) -> exists k', (k <= k')%nat /\ r ∉ running i (log (σ k')).

Theorem C67_goes_on pf t0 t1 σ lb t mx st n : exec pf t0 t1 σ lb -> weakly_fair pf by_handler σ lb -> strongly_fair pf by_scheduler σ lb ->
  t_freq t = SecondsRepeated st -> t_maxpar t = Some mx -> (forall k, quiet t (log (σ k))) -> submitted t (log (σ n)) -> all_end σ (t_id t) ->
  forall a, exists m, (n <= m)%nat /\ (a <= starts (t_uid t) (log (σ m)) \/
    lost_early t (log (σ m)) \/ idle_skip t (log (σ m)) \/ tpc (σ m) = TStopped \/ tpc (σ m) = TDead \/ hpc (σ m) = HDead).
Proof.
  intros He Hh Hs Hf Hmx Hq Hsub Hend a. destruct (again_and_again _ _ _ _ _ t mx st (fun _ => False) n He Hh Hs Hf Hmx Hq) with (a := a) as (m & Hm & Hx); [|done|].
  { intros k r Hr. destruct (Hend k r Hr) as (k' & ? & ?). exists k'. auto. }
  exists m. split; [done|]. tauto.
Qed.
Print Assumptions C67_goes_on.
(** In executions without stop and panic: for ever, if and only if it is not lost in the beginning and no start is left out while none of its instances runs. *)
Theorem C67_exactly t0 t1 σ lb t mx st n : calm_exec t0 t1 σ lb -> weakly_fair Release by_handler σ lb -> strongly_fair Release by_scheduler σ lb ->
  t_freq t = SecondsRepeated st -> t_maxpar t = Some mx -> (forall k, quiet t (log (σ k))) -> submitted t (log (σ n)) -> all_end σ (t_id t) ->
  (forall a, exists m, a <= starts (t_uid t) (log (σ m))) <-> forall m, ~ lost_early t (log (σ m)) /\ ~ idle_skip t (log (σ m)).
Proof.
  intros Hc Hh Hs Hf Hmx Hq Hsub Hend. pose proof (calm_is_exec _ _ _ _ Hc) as He. split.
  - intros Hall m. assert (forall k, (n <= k)%nat -> (forall j, (k <= j)%nat -> starts (t_uid t) (log (σ j)) = starts (t_uid t) (log (σ k))) -> False) as Hbound.
    { intros k _ Hj. destruct (Hall (starts (t_uid t) (log (σ k)) + 1)) as (j & Hx). destruct (Nat.le_ge_cases j k) as [H|H]; [pose proof (starts_le _ _ _ _ _ (t_uid t) _ _ He H); lia|].
      rewrite (Hj j H) in Hx. lia. }
    assert (forall x, x ∈ log (σ m) -> x ∈ log (σ (Nat.max n m))) as Hmono. { intros x Hx. destruct (exec_log _ _ _ _ _ m (Nat.max n m) He ltac:(lia)) as [l ->]. apply elem_of_app. by right. }
    pose proof (submitted_later _ _ _ _ _ n (Nat.max n m) _ He ltac:(lia) Hsub) as Hsm. pose proof (exec_reach _ _ _ _ _ (Nat.max n m) He) as Hr. split; intros Hx; apply (Hbound (Nat.max n m) ltac:(lia)); intros j Hj.
    + by apply (nowhere_later _ _ _ _ _ _ _ _ He (lost_nowhere _ _ _ _ _ _ Hr (Hmono _ Hx)) Hj).
    + refine (stuck_starts _ _ _ _ _ _ _ _ He Hq Hsm Hmx _ _ Hj). eapply idle_stuck; [exact Hr|done|apply Hq|done|]. destruct Hx as (l1 & j' & it & ts & l2 & E & Hrun).
      destruct (exec_log _ _ _ _ _ m (Nat.max n m) He ltac:(lia)) as [l El]. exists (l ++ l1), j', it, ts, l2. split; [|done]. by rewrite El, E, app_assoc.
  - intros Hno a. destruct (C67_goes_on _ _ _ _ _ t mx st n He Hh Hs Hf Hmx Hq Hsub Hend a) as (m & Hm & Hx). exists m.
    destruct (calm_going _ _ _ (calm_reach _ _ _ _ m Hc)) as (? & ? & ?). destruct (Hno m). destruct Hx as [?|[?|[?|[?|[?|?]]]]]; done.
Qed.
Print Assumptions C67_exactly.
(** If no place is ever forgotten ([tidy], PropLimit.v) no start is left out while none of its instances runs. *)
Lemma idle_untidy pf t0 t1 s t mx : submitted t (log s) -> quiet t (log s) -> t_maxpar t = Some mx -> 1 <= mx -> idle_skip t (log s) -> ~ tidy pf t0 t1 (t_id t) s.
Proof.
  intros Hsub Hq Hmx H1 Hx Ht. revert Hsub Hq Hx. induction Ht as [|lb s s' Ht IH Hn Hs].
  { change (log (init t0 t1)) with [OTick 0 t1]. intros (e & He & _) _ _. apply elem_of_list_singleton in He. discriminate He. }
  intros Hsub' Hq' (l1 & j & it & ts & l2 & E & Hrun). pose proof (tidy_reach _ _ _ _ _ Ht) as Hr. pose proof (quiet_anti _ _ _ _ _ Hs Hq') as Hq.
  assert (submitted t (log s)) as Hsub.
  { destruct (submitted_step _ _ _ _ _ Hs Hsub') as [?|[(_ & _ & Hnew) El]]; [done|]. pose proof (no_turns _ _ _ _ _ Hr Hnew) as H0.
    assert (turns (t_uid t) (log s') <> 0) as H2. { rewrite E, turns_app. cbn [turns]. rewrite N.eqb_refl. lia. }
    exfalso. destruct (skip_entry _ _ _ _ Hs) as [(l & ids & x & mx' & m & P1 & _ & _ & _ & P5 & _)|(l & El' & Hl)].
    - assert (x ∈ Spec.held s) as Hx by (unfold Spec.held; rewrite !elem_of_app, P1; right; right; left; apply elem_of_list_here).
      destruct (ci_held _ (cnt_reach _ _ _ _ Hr) x Hx) as (x1 & Hx1 & _). rewrite P5 in Hsub'. destruct Hsub' as (e & He & Hse). apply elem_of_cons in He as [He|He]; [discriminate He|].
      assert (submitted t (log s)) as Hsub by (by exists e). apply Hnew. eapply ci_used; [by eapply cnt_reach|done].
    - rewrite El' in E. destruct (osk_old _ _ Hl _ _ _ _ _ _ E) as [l1' E']. rewrite E', turns_app in H0. cbn [turns] in H0. rewrite N.eqb_refl in H0. lia. }
  destruct (skip_entry _ _ _ _ Hs) as [(l & ids & x & mx' & m & P1 & P2 & P3 & P4 & P5 & P6 & P7)|(l & El & Hl)].
  2: { rewrite El in E. destruct (osk_old _ _ Hl _ _ _ _ _ _ E) as [l1' E']. apply IH; [done|done|]. by exists l1', j, it, ts, l2. }
  rewrite P5 in E. destruct l1 as [|o l1]; cbn [app] in E; [|injection E as _ E; apply IH; [done|done|]; by exists l1, j, it, ts, l2]. injection E as Eu _ _ _ E. subst l2.
  assert (x ∈ Spec.held s) as Hx by (unfold Spec.held; rewrite !elem_of_app, P1; right; right; left; apply elem_of_list_here).
  destruct (ci_held _ (cnt_reach _ _ _ _ Hr) x Hx) as (x1 & Hx1 & H2 & H3 & _ & H5 & _).
  assert (x1 = t) as -> by (apply (ci_uniq _ (cnt_reach _ _ _ _ Hr)); [done|done|congruence]).
  rewrite <- H3 in P3. rewrite <- H5, Hmx in P2. injection P2 as <-.
  pose proof (C08_refused_only_at_limit _ _ _ _ _ _ _ _ _ _ Ht (quiet_sole _ _ Hsub Hq) Hmx P1 (eq_sym H3) P3 P4) as Hl. rewrite Hrun in Hl. cbn [length] in Hl. lia.
Qed.
Theorem C67_tidy_goes_on pf t0 t1 σ lb t mx st n : exec pf t0 t1 σ lb -> weakly_fair pf by_handler σ lb -> strongly_fair pf by_scheduler σ lb ->
  t_freq t = SecondsRepeated st -> t_maxpar t = Some mx -> 1 <= mx -> (forall k, quiet t (log (σ k))) -> submitted t (log (σ n)) -> all_end σ (t_id t) ->
  forall a, exists m, (n <= m)%nat /\ (a <= starts (t_uid t) (log (σ m)) \/
    lost_early t (log (σ m)) \/ ~ tidy pf t0 t1 (t_id t) (σ m) \/ tpc (σ m) = TStopped \/ tpc (σ m) = TDead \/ hpc (σ m) = HDead).
Proof.
  intros He Hh Hs Hf Hmx H1 Hq Hsub Hend a. destruct (C67_goes_on _ _ _ _ _ t mx st n He Hh Hs Hf Hmx Hq Hsub Hend a) as (m & Hm & Hx). exists m. split; [done|].
  destruct Hx as [?|[?|[Hx|?]]]; [by left|by right; left|right; right; left|by right; right; right]. eapply idle_untidy; [by eapply submitted_later|apply Hq|done..].
Qed.
Print Assumptions C67_tidy_goes_on.
(** The instances of a task with a maximum running time end: what is said above then holds of it, unless some deadline passes 2^64. *)
Theorem C67_timed t0 t1 σ lb t mx mr st n : calm_exec t0 t1 σ lb -> weakly_fair Release by_handler σ lb -> strongly_fair Release by_scheduler σ lb ->
  weakly_fair Release by_sweeper σ lb -> receives σ lb -> clock_passes lb ->
  t_freq t = SecondsRepeated st -> t_maxpar t = Some mx -> t_maxrun t = Some mr -> (forall k, quiet t (log (σ k))) -> submitted t (log (σ n)) ->
  forall a, exists m, (n <= m)%nat /\ (a <= starts (t_uid t) (log (σ m)) \/ lost_early t (log (σ m)) \/ idle_skip t (log (σ m)) \/
    exists u' tid' rec' it' ts' t' m', OLaunch u' tid' rec' it' ts' ∈ log (σ m) /\ submitted t' (log (σ m)) /\ t_uid t' = u' /\ t_maxrun t' = Some m' /\ U64 <= ts' + m').
Proof.
  intros Hc Hh Hs Hw Hrc Hck Hf Hmx Hmr Hq Hsub a. pose proof (calm_is_exec _ _ _ _ Hc) as He.
  set (Q k := exists u' tid' rec' it' ts' t' m', OLaunch u' tid' rec' it' ts' ∈ log (σ k) /\ submitted t' (log (σ k)) /\ t_uid t' = u' /\ t_maxrun t' = Some m' /\ U64 <= ts' + m').
  destruct (again_and_again _ _ _ _ _ t mx st Q n He Hh Hs Hf Hmx Hq) with (a := a) as (m & Hm & Hx); [|done|].
  - intros k r Hr. apply elem_running in Hr as (u & it & ts & Hl). pose proof (quiet_launches _ _ _ _ _ (exec_reach _ _ _ _ _ k He) (Hq k) _ _ _ _ Hl) as ->.
    pose proof (submitted_later _ _ _ _ _ n (Nat.max n k) _ He ltac:(lia) Hsub) as Hsk.
    destruct (exec_log _ _ _ _ _ k (Nat.max n k) He ltac:(lia)) as [lg El].
    destruct (C57_calm_ends t0 t1 σ lb (Nat.max n k) (t_uid t) (t_id t) r it ts t mr Hc Hh Hs Hw Hrc Hck) as (k' & Hk' & Hx); [rewrite El; apply elem_of_app; by right|done..|].
    exists k'. split; [lia|]. exact Hx.
  - exists m. split; [done|]. destruct (calm_going _ _ _ (calm_reach _ _ _ _ m Hc)) as (? & ? & ?). destruct Hx as [?|[?|[?|[?|[?|[?|?]]]]]]; try done; auto.
Qed.
Print Assumptions C67_timed.

(** ** Executions with a user whose instances return *)
Lemma gate_once pf lb s s' r i u f : gate_inv s -> step pf lb s = Some s' -> insts s !! r = Some (Inst i u false f) ->
  (exists f', insts s' !! r = Some (Inst i u true f')) \/ (exists f', insts s' !! r = Some (Inst i u false f')) /\ iters s' = iters s.
Proof.
  intros Hg Hs Hi. pose proof (Hg _ _ Hi eq_refl) as Ht. revert Hs. intros Hs.
  step_inv Hs; inst_shape; fsimpl.
  all: try (destruct Ht as [(? & ? & ? & ? & Ht)|(? & ? & ? & Ht)]; (discriminate Ht || (rewrite Ht in *; discriminate))).
  all: try (right; split; [by eauto|done]).
  all: try (match type of Hi with insts _ !! ?r = _ => match goal with |- context [<[?k := _]> (insts _)] => destruct (decide (k = r)) as [E|]; [subst|rewrite lookup_insert_ne by done; right; split; [by eauto|done]] end end;
    rewrite lookup_insert; match goal with H : insts _ !! _ = Some _ |- _ => rewrite Hi in H; injection H; intros; subst end; first [left; eauto; fail|right; split; [by eauto|done]]).
  all: try (match type of Hi with insts _ !! ?r = _ => match goal with |- context [alter _ ?k (insts _)] => destruct (decide (k = r)) as [E|]; [subst; rewrite lookup_alter, Hi; left; cbn; by eauto|rewrite lookup_alter_ne by done; right; split; [by eauto|done]] end end).
Qed.
Lemma gate_opens pf t0 t1 σ lb n r i u g f : exec pf t0 t1 σ lb -> weakly_fair pf by_handler σ lb -> strongly_fair pf by_scheduler σ lb ->
  insts (σ n) !! r = Some (Inst i u g f) -> exists m f', (n <= m)%nat /\ insts (σ m) !! r = Some (Inst i u true f').
Proof.
  intros He Hh Hs Hi. destruct g; [exists n, f; auto|]. destruct (ticks_once _ _ _ _ _ He Hh Hs n) as (m & Hm & Hx).
  assert (forall k, (n <= k)%nat -> (exists m f', (n <= m)%nat /\ insts (σ m) !! r = Some (Inst i u true f')) \/ (exists f', insts (σ k) !! r = Some (Inst i u false f')) /\ iters (σ k) = iters (σ n)) as Hall.
  { intros k Hk. induction Hk as [|k Hk [IH|[(f' & IH) IHi]]]; [right; by eauto|by left|].
    destruct (gate_once _ _ _ _ _ _ _ _ (gate_reach _ _ _ _ (exec_reach _ _ _ _ _ k He)) (ex_step _ _ _ _ _ He k) IH) as [(f'' & H)|[H1 H2]]; [left; exists (S k), f''; split; [lia|done]|right; split; [done|congruence]]. }
  destruct (Hall m Hm) as [?|[(f' & H) Ei]]; [done|]. exfalso. destruct Hx as [?|Ho]; [lia|].
  destruct (gate_reach _ _ _ _ (exec_reach _ _ _ _ _ m He) _ _ H eq_refl) as [(? & ? & ? & ? & E)|(? & ? & ? & E)]; rewrite E in Ho; destruct Ho as [Ho|Ho]; discriminate Ho.
Qed.
Lemma gate_kept pf lb s s' r i u f : (forall l ids t r', tpc s = TSpawn l ids t r' -> insts s !! r' = None) -> step pf lb s = Some s' -> insts s !! r = Some (Inst i u true f) ->
  exists f', insts s' !! r = Some (Inst i u true f').
Proof.
  intros Hsp Hs Hi. step_inv Hs; inst_shape; fsimpl; try (by eauto).
  all: try (match type of Hi with insts _ !! ?r = _ => match goal with |- context [<[?k := _]> (insts _)] => destruct (decide (k = r)) as [E|]; [subst|rewrite lookup_insert_ne by done; by eauto] end end).
  all: try (rewrite lookup_insert; match goal with H : insts _ !! _ = Some _ |- _ => rewrite Hi in H; injection H; intros; subst end; by eauto).
  all: try (rewrite (Hsp _ _ _ _ eq_refl) in Hi; discriminate Hi).
  all: try (match type of Hi with insts _ !! ?r = _ => match goal with |- context [alter _ ?k (insts _)] => destruct (decide (k = r)) as [E|]; [subst; rewrite lookup_alter, Hi; cbn; by eauto|rewrite lookup_alter_ne by done; by eauto] end end).
Qed.
Lemma gate_later pf t0 t1 σ lb n m r i u f : exec pf t0 t1 σ lb -> (n <= m)%nat -> insts (σ n) !! r = Some (Inst i u true f) -> exists f', insts (σ m) !! r = Some (Inst i u true f').
Proof.
  intros He Hm Hi. induction Hm as [|m Hm (f' & IH)]; [by eauto|].
  destruct (gate_kept _ _ _ _ _ _ _ _ (ri_spawn _ (rec_reach _ _ _ _ (exec_reach _ _ _ _ _ m He))) (ex_step _ _ _ _ _ He m) IH) as (f'' & H). by eauto.
Qed.
(** No routine panicked. *)
Definition sane (s : sys) : Prop := forall r x, insts s !! r = Some x -> i_fate x <> IPanicked.
Definition finishing (lb : label) : Prop := inner lb \/ exists r now out, lb = LFinish r now out.
Lemma sane_step pf lb s s' : step pf lb s = Some s' -> finishing lb -> sane s -> sane s'.
Proof.
  intros Hs Hl Hn r x Hx. revert Hx. step_inv Hs; try (destruct Hl as [[]|(? & ? & ? & Hl)]; discriminate Hl); inst_shape; fsimpl; try (by apply Hn).
  all: try (rewrite lookup_insert_Some; intros [[<- <-]|[_ Hx]]; [discriminate|by eapply Hn]).
  all: try (rewrite lookup_alter_Some; intros [(<- & y & Hy & ->)|[_ Hx]]; [cbn; by eapply Hn|by eapply Hn]).
Qed.
Lemma finishing_quiet pf lb s s' t : step pf lb s = Some s' -> finishing lb -> quiet t (log s) -> quiet t (log s').
Proof.
  intros Hs [Hl|(r & now & out & ->)] Hq. { eapply internal_quiet; [exact Hs| |done]. by destruct lb. }
  cbn [step] in Hs. unfold inst_finish in Hs. destruct (insts s !! r) as [[tid uid [|] []]|]; try discriminate Hs. injection Hs as <-. fsimpl.
  intros e He Hn. apply elem_of_cons in He as [He|He]; [injection He as ->; destruct Hn|by apply Hq].
Qed.
(** The user lets the instance of [i] that runs return. *)
Definition finishes (i now : N) (s : sys) : label := match running i (log s) with r :: _ => LFinish r now None | [] => sweep_label now s end.
(** Every such execution of one task with limit 1 can be continued so that all its instances end. *)
Theorem C67_finishing_users_exist t0 t1 clk s t mx : reachable_with calm Release t0 t1 s -> submitted t (log s) -> quiet t (log s) -> t_maxpar t = Some mx -> mx <= 1 -> sane s ->
  exists σ lb, σ 0%nat = s /\ calm_exec t0 t1 σ lb /\ weakly_fair Release by_handler σ lb /\ strongly_fair Release by_scheduler σ lb /\ weakly_fair Release by_sweeper σ lb /\ receives σ lb /\
    (forall k, quiet t (log (σ k))) /\ all_end σ (t_id t) /\ forall n, match lb n with LTimer _ _ now | LSweep _ now => now = clk n | _ => True end.
Proof.
  intros Hcr Hsub Hq Hmx H1 Hsane. pose proof (with_reach _ _ _ _ _ Hcr) as Hr.
  destruct (fair_user_exists Release t0 t1 clk (fun n => finishes (t_id t) (clk n)) s Hr) as (σ & lb & E & He & F1 & F2 & F3 & F4 & F5 & F6). exists σ, lb.
  assert (forall n, finishing (lb n)) as Ha.
  { intros n. destruct (F6 n) as [->|Hx]; [|left; by destruct (lb n)]. unfold finishes. destruct (running _ _) as [|r ?]; [|right; by eauto]. left. by destruct (sweep_label_is (clk n) (σ n)) as [ch ->]. }
  assert (forall k, quiet t (log (σ k))) as Hqk. { induction k as [|k IH]; [by rewrite E|]. eapply finishing_quiet; [apply (ex_step _ _ _ _ _ He)|apply Ha|done]. }
  assert (forall k, sane (σ k)) as Hsk. { induction k as [|k IH]; [by rewrite E|]. eapply sane_step; [apply (ex_step _ _ _ _ _ He)|apply Ha|done]. }
  assert (calm_exec t0 t1 σ lb) as Hc. { split; [by rewrite E|apply He|]. intros n. destruct (Ha n) as [Hx|(r & now & out & ->)]; [|split; discriminate]. split; intros Ex; rewrite Ex in Hx; exact Hx. }
  split_and!; try done.
  - intros k r Hrun. pose proof (exec_reach _ _ _ _ _ k He) as Hrk. destruct (elem_running _ _ _ Hrun) as (u & it & ts & Hl).
    pose proof (ri_launch _ (rec_reach _ _ _ _ Hrk) _ _ _ _ _ Hl) as Hw. destruct (insts (σ k) !! r) as [[i' u' g f]|] eqn:Ei; [|discriminate Hw]. cbn in Hw. injection Hw as -> ->.
    destruct (gate_opens _ _ _ _ _ k r _ _ _ _ He F1 F2 Ei) as (k1 & f1 & Hk1 & G1). destruct (F5 k1) as (m & Hm & Hx).
    destruct (decide (r ∈ running (t_id t) (log (σ m)))) as [Hrm|Hrm]; [|exists m; split; [lia|done]].
    destruct (gate_later _ _ _ _ _ k1 m _ _ _ _ He Hm G1) as (f2 & G2).
    assert (submitted t (log (σ m))) as Hsm by (eapply (submitted_later _ _ _ _ _ 0%nat m); [done|lia|by rewrite E]).
    pose proof (C07_limit_holds _ _ _ _ _ _ (exec_reach _ _ _ _ _ m He) (quiet_sole _ _ Hsm (Hqk m)) Hmx) as Hle.
    assert (running (t_id t) (log (σ m)) = [r]) as Er.
    { destruct (running (t_id t) (log (σ m))) as [|x [|y l]]; [by apply elem_of_nil in Hrm|by apply elem_of_list_singleton in Hrm as ->|cbn [length] in Hle; lia]. }
    assert (exists m' g, (m <= m')%nat /\ insts (σ m') !! r = Some (Inst (t_id t) u g IEnded)) as (m' & g' & Hm' & G3).
    { destruct f2; [|exists m, true; auto|by destruct (Hsk m _ _ G2)]. unfold finishes in Hx. rewrite Er in Hx. cbn [step] in Hx. unfold inst_finish in Hx. rewrite G2 in Hx. destruct Hx as [Hx|Hx]; [|discriminate Hx].
      exists (S m), true. split; [lia|]. pose proof (ex_step _ _ _ _ _ He m) as Hst. rewrite Hx in Hst. cbn [step] in Hst. unfold inst_finish in Hst. rewrite G2 in Hst. injection Hst as <-. fsimpl. by rewrite lookup_insert. }
    destruct (C62_calm_returned_ends _ _ _ _ m' r _ _ _ Hc F1 G3) as (m'' & ? & ? & _). exists m''. split; [lia|done].
  - intros n. destruct (F6 n) as [->|Hx]; [|by destruct (lb n)]. unfold finishes. destruct (running _ _); [|done]. by destruct (sweep_label_is (clk n) (σ n)) as [ch ->].
Qed.
Print Assumptions C67_finishing_users_exist.

(** The claim: as long as its instances end, a task with a limit of at least 1 is started again and again. *)
Definition C67_limited_goes_on : Prop := forall t0 t1 σ lb t mx st n, calm_exec t0 t1 σ lb -> weakly_fair Release by_handler σ lb -> strongly_fair Release by_scheduler σ lb ->
  t_freq t = SecondsRepeated st -> t_maxpar t = Some mx -> 1 <= mx -> (forall k, quiet t (log (σ k))) -> submitted t (log (σ n)) -> all_end σ (t_id t) ->
  forall a, exists m, a <= starts (t_uid t) (log (σ m)).
(** The place of the first instance, which returned at once, is forgotten; the next start is left out though none of the task's instances runs. *)
Definition blocked_acts : list act := [Do (LInsert (limited 1 (every 1 11 5 100))); Handle; Ticks 6; T; T; T; T; T; T; T; T; Do (LFinish 0 106 None); Handle; Ticks 7].
Example C67_blocked_example : exists σ lb, calm_exec 100 100 σ lb /\ weakly_fair Release by_handler σ lb /\ strongly_fair Release by_scheduler σ lb /\
  (forall k, quiet (limited 1 (every 1 11 5 100)) (log (σ k))) /\ submitted (limited 1 (every 1 11 5 100)) (log (σ 0%nat)) /\ all_end σ 11 /\
  idle_skip (limited 1 (every 1 11 5 100)) (log (σ 0%nat)) /\ starts 1 (log (σ 0%nat)) = 1.
Proof.
  set (t := limited 1 (every 1 11 5 100)).
  destruct (calm_scen 100 100 blocked_acts (fun s => quietb t (log s) && (starts 1 (log s) =? 1) && sees (OSkip 1 11 11 111) (log s) (fun _ l2 => bool_decide (running 11 l2 = [])) && bool_decide (running 11 (log s) = [])))
    as (s & Hcr & Hr & HP & Hs); [calm_acts blocked_acts|vm_compute; reflexivity|]. specialize (Hs t ltac:(left)).
  apply andb_true_iff in HP as [HP H4]. apply andb_true_iff in HP as [HP H3]. apply andb_true_iff in HP as [H1 H2].
  apply (quietb_ok _ _ _ _ _ Hr Hs) in H1. apply sees_ok in H3 as (l1 & l2 & El & H3). apply bool_decide_eq_true in H3. apply bool_decide_eq_true in H4. apply N.eqb_eq in H2.
  assert (idle_skip t (log s)) as Hx by (by exists l1, 11, 11, 111, l2).
  destruct (fair_exists Release 100 100 (fun n => 113 + N.of_nat n) s Hr) as (σ & lb & E & He & F1 & F2 & _ & _ & F5). exists σ, lb.
  assert (forall k, quiet t (log (σ k))) as Hqk. { induction k as [|k IH]; [by rewrite E|]. eapply internal_quiet; [apply (ex_step _ _ _ _ _ He)| |done]. specialize (F5 k). by destruct (lb k). }
  split. { split; [by rewrite E|apply He|]. intros n. specialize (F5 n). split; intros Ex; rewrite Ex in F5; exact F5. }
  split; [done|]. split; [done|]. split; [done|]. rewrite E. split; [done|]. split; [|done].
  intros k r Hk. exfalso. destruct (exec_log _ _ _ _ _ 0%nat k He ltac:(lia)) as [l Elk]. rewrite E in Elk.
  assert (starts (t_uid t) (log (σ k)) = starts (t_uid t) (log s)) as Est.
  { rewrite <- E. apply (stuck_starts _ _ _ _ _ t 1 0%nat He Hqk); [by rewrite E|done| |lia]. rewrite E. by eapply idle_stuck. }
  destruct (running_less 11 l (log s)) as [H|H]; [exact (same_starts _ _ _ _ t l _ (exec_reach _ _ _ _ _ k He) (Hqk k) Elk Est)| |].
  - rewrite Elk, H, H4 in Hk. by apply elem_of_nil in Hk.
  - rewrite H4 in H. cbn [length] in H. lia.
Qed.
Theorem C67_limited_goes_on_refuted : ~ C67_limited_goes_on.
Proof.
  intros H. destruct C67_blocked_example as (σ & lb & H1 & H2 & H3 & H4 & H5 & H6 & H7 & _). set (t := limited 1 (every 1 11 5 100)) in *.
  pose proof (H 100 100 σ lb t 1 (step_by (100 + 5) 5) 0%nat H1 H2 H3 eq_refl eq_refl ltac:(lia) H4 H5 H6) as Hb.
  exact (proj2 (proj1 (C67_exactly 100 100 σ lb t 1 (step_by (100 + 5) 5) 0%nat H1 H2 H3 eq_refl eq_refl H4 H5 H6) Hb 0%nat) H7).
Qed.
Print Assumptions C67_limited_goes_on_refuted.

(** An execution in which the instances of a task with limit 1 return, after one of its starts was left out because an instance ran. *)
Definition again_acts : list act := [Do (LInsert (limited 1 (timed 60 (every 1 11 5 100)))); Handle; Ticks 13; Do (LFinish 0 112 None); Handle; Ticks 6].
Definition saneb (s : sys) : bool := forallb (fun x => match i_fate (snd x) with IPanicked => false | _ => true end) (map_to_list (insts s)).
Lemma saneb_ok s : saneb s = true -> sane s.
Proof. unfold saneb. intros H r x Hx E. rewrite forallb_forall in H. specialize (H (r, x)). cbn in H. rewrite E in H. discriminate H. apply elem_of_list_In, elem_of_map_to_list, Hx. Qed.
Example C67_example : exists σ lb, calm_exec 100 100 σ lb /\ weakly_fair Release by_handler σ lb /\ strongly_fair Release by_scheduler σ lb /\ weakly_fair Release by_sweeper σ lb /\ receives σ lb /\ clock_passes lb /\
  (forall k, quiet (limited 1 (timed 60 (every 1 11 5 100))) (log (σ k))) /\ submitted (limited 1 (timed 60 (every 1 11 5 100))) (log (σ 0%nat)) /\ all_end σ 11 /\
  OSkip 1 11 11 111 ∈ log (σ 0%nat) /\ starts 1 (log (σ 0%nat)) = 2 /\ running 11 (log (σ 0%nat)) = [1%Z].
Proof.
  set (t := limited 1 (timed 60 (every 1 11 5 100))).
  destruct (calm_scen 100 100 again_acts (fun s => quietb t (log s) && (starts 1 (log s) =? 2) && inb (OSkip 1 11 11 111) (log s) && bool_decide (running 11 (log s) = [1%Z]) && saneb s))
    as (s & Hcr & Hr & HP & Hs); [calm_acts again_acts|vm_compute; reflexivity|]. specialize (Hs t ltac:(left)).
  apply andb_true_iff in HP as [HP H5]. apply andb_true_iff in HP as [HP H4]. apply andb_true_iff in HP as [HP H3]. apply andb_true_iff in HP as [H1 H2].
  apply (quietb_ok _ _ _ _ _ Hr Hs) in H1. apply inb_ok in H3. apply bool_decide_eq_true in H4. apply N.eqb_eq in H2. apply saneb_ok in H5.
  destruct (C67_finishing_users_exist 100 100 (fun n => 119 + N.of_nat n) s t 1 Hcr Hs H1 eq_refl ltac:(lia) H5) as (σ & lb & E & G1 & G2 & G3 & G4 & G5 & G6 & G7 & G8).
  exists σ, lb. rewrite E. split_and!; try done. intros d. exists (N.to_nat d). intros m Hm. specialize (G8 m). destruct (lb m); try exact I; subst now; lia.
Qed.
