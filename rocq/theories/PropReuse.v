(** An id can be used again once the timer has nothing left under it (C72). *)
From Verif Require Import Tactics Inv Own Life Count Quiet Timing Cases Frame Fifo Scen Crash Arrival Account Meanwhile Kept Live LiveEnd PropSched PropCancel PropRemove PropLive PropCalm PropChain PropEnding PropNext Sched Lost Stay PropOrphan PropLife PropAsk PropAdvance Chain PropExact PropUpdated.

(** * Specification *)

(** The states from the one ([s0]) in which the event handler has taken the call that adds [t] out of the queue, as long as there is no other call about its id. The scheduler has
    no task with this id any more and no call about it is waiting. There may have been any number of tasks with this id, they may have left a mark, and instances of them may still run. *)
Inductive reused (pf : profile) (t0 t1 : N) (t : task) (s0 : sys) : sys -> Prop :=
| reu_add c h k : reachable pf t0 t1 s0 -> hpc s0 = HAdd1 t c h k -> (forall y, with_scheduler s0 y -> t_id y <> t_id t) -> (forall e, e ∈ queue s0 -> ~ names (t_id t) e) -> reused pf t0 t1 t s0 s0
| reu_step lb s s' : reused pf t0 t1 t s0 s -> ~ calls (t_id t) lb -> step pf lb s = Some s' -> reused pf t0 t1 t s0 s'.
Lemma reused_reach pf t0 t1 t s0 s : reused pf t0 t1 t s0 s -> reachable pf t0 t1 s.
Proof. induction 1 as [? ? ? Hr|lb s s' _ IH _ Hs]; [done|by eapply reach_step]. Qed.

(** * The task is added, then nothing is asked of the id any more *)
Definition adding (i u : N) (s : sys) : Prop :=
  match hpc s with HAdd1 x _ _ _ | HAdd2 x _ _ => t_id x = i /\ t_uid x = u /\ forall y, with_scheduler s y -> t_id y <> i | _ => False end.
Definition on_way (i u : N) (s : sys) : Prop := (forall e, e ∈ queue s -> ~ names i e) /\ alone i u s /\ (adding i u s \/ off_id i s).
Lemma on_way_step pf t0 t1 lb s s' i u : reachable pf t0 t1 s -> step pf lb s = Some s' -> ~ calls i lb -> on_way i u s -> on_way i u s'.
Proof.
  intros Hr Hs Hc (Hq & Ha & Hh). pose proof (off_queue _ _ _ _ _ Hs Hc Hq) as Hq'. split; [done|]. destruct Hh as [Hh|Hoff].
  2: { split; [|right; exact (off_step _ _ _ _ _ _ _ Hr Hs Hc Hoff)]. intros x Hx Hi.
    destruct (came_from _ _ _ _ i x Hs (fun _ => off_on _ _ Hoff) Hx Hi) as (y & Hy & E1 & E2). rewrite <- E2. apply Ha; [done|congruence]. }
  destruct (match lb with LHandler => true | _ => false end) eqn:Hlb.
  2: { assert (hpc s' = hpc s) as Eh. { destruct (other_queue _ _ _ _ Hs) as (E & _); [by destruct lb|done]. }
    assert (forall y, with_scheduler s' y -> t_id y <> i) as Hno.
    { intros x Hx Hi. destruct (came_from _ _ _ _ i x Hs) as (y & Hy & E1 & E2); [by intros ->|done|done|]. assert (forall y, with_scheduler s y -> t_id y <> i) as Hno. { unfold adding in Hh. destruct (hpc s); try done; apply Hh. }
      apply (Hno y Hy). congruence. }
    split; [intros x Hx Hi; by destruct (Hno x Hx)|]. left. unfold adding in *. rewrite Eh. destruct (hpc s); try done; split_and!; try done; apply Hh. }
  destruct lb; try done. destruct (handler_tpc _ _ _ Hs) as (Et & _). unfold adding in Hh. destruct (hpc s) as [|x c h k|x c sl|?|?|?|?|?|?|?|] eqn:Eh; try done; destruct Hh as (Hi & Hu & Hno).
  - assert (wheel s' = wheel s) as Ew. { cbn [step] in Hs. unfold handler_step in Hs. rewrite Eh in Hs. repeat case_match; injection Hs as <-; inst_shape; fsimpl; try done; by destruct (hpub s). }
    assert (forall y, with_scheduler s' y -> t_id y <> i) as Hno' by (intros y; unfold with_scheduler; rewrite Et, Ew; apply Hno).
    split; [intros y Hy Hyi; by destruct (Hno' y Hy)|]. cbn [step] in Hs. unfold handler_step in Hs. rewrite Eh in Hs.
    destruct (get_next_exec_timestamp pf x) as [[o x']|] eqn:E; [|injection Hs as <-; right; split; done]. destruct (steady_next _ _ _ _ _ _ (conj Hi Hu) E) as [E1 E2]. destruct o as [z|].
    + destruct (let! a := _ in _) as [seed|]; injection Hs as <-; [left|right; split; done]. unfold adding. fsimpl. split_and!; done.
    + injection Hs as <-. right. split; [done|]. by rewrite (proj1 (complete_hpc _ _)).
  - cbn [step] in Hs. unfold handler_step in Hs. rewrite Eh in Hs.
    destruct (wheel s !! sl) as [m|] eqn:Em; injection Hs as <-; [|split; [|right; split; done]; intros y [Hy|Hy] Hyi; exfalso; apply (Hno y); [by left|done|by right|done]].
    split; [|right; split; done]. intros y [Hy|Hy] Hyi; [exfalso; apply (Hno y); [by left|done]|]. fsimpl_in Hy. apply elem_of_wheel_tasks in Hy as (sl' & g & k & H1 & H2).
    apply lookup_insert_Some in H1 as [[<- <-]|[_ H1]]; [|exfalso; apply (Hno y); [by eapply in_slot|done]]. unfold slot_add_task in H2. apply lookup_insert_Some in H2 as [[_ <-]|[_ H2]]; [done|]. exfalso. apply (Hno y); [by eapply in_slot|done].
Qed.
Lemma reused_way pf t0 t1 t s0 s : reused pf t0 t1 t s0 s -> on_way (t_id t) (t_uid t) s.
Proof.
  induction 1 as [c h k Hr Hh Hno Hq|lb s s' Hp IH Hc Hs]; [|exact (on_way_step _ _ _ _ _ _ _ _ (reused_reach _ _ _ _ _ _ Hp) Hs Hc IH)].
  split; [done|]. split; [intros y Hy Hi; by destruct (Hno y Hy)|]. left. unfold adding. by rewrite Hh.
Qed.
(** A handler that is about to change something under the id is about to add the task. *)
Lemma way_on pf t0 t1 s i u x : reachable pf t0 t1 s -> on_way i u s -> with_scheduler s x -> t_uid x = u -> handler_on (hpc s) <> Some i.
Proof.
  intros Hr (_ & _ & [Hh|Hoff]) Hx Hu; [|by apply off_on]. unfold adding in Hh. destruct (hpc s) eqn:Eh; try done. intros _. destruct Hh as (_ & H2 & _).
  apply (places _ _ _ _ x t Hr Hx); [right; rewrite Eh; left|congruence].
Qed.

(** * The task has neither been planned nor started before *)
Lemma add_from pf lb s s' t c h k : step pf lb s = Some s' -> hpc s' = HAdd1 t c h k -> hpc s = HAdd1 t c h k \/ EAdd t ∈ queue s \/ EInsert t ∈ queue s.
Proof.
  intros Hs. step_inv Hs; inst_shape; fsimpl; intros Hx; try discriminate Hx; auto.
  all: injection Hx as -> _ _ _; right; first [left; left|right; left].
Qed.
Lemma add_fresh pf t0 t1 s t : reachable pf t0 t1 s -> (EAdd t ∈ queue s \/ EInsert t ∈ queue s) \/ (exists c h k, hpc s = HAdd1 t c h k) -> np (t_uid t) s = 0 /\ turns (t_uid t) (log s) = 0.
Proof.
  revert s. apply (reach_ind pf t0 t1 (fun s => (EAdd t ∈ queue s \/ EInsert t ∈ queue s) \/ (exists c h k, hpc s = HAdd1 t c h k) -> np (t_uid t) s = 0 /\ turns (t_uid t) (log s) = 0)).
  { change (queue (init t0 t1)) with (@nil event). change (hpc (init t0 t1)) with HIdle. intros [[H|H]|(c & h & k & H)]; [by apply elem_of_nil in H..|discriminate H]. }
  intros lb s s' Hr IH Hs Hx.
  assert (forall s, EAdd t ∈ queue s \/ EInsert t ∈ queue s -> t ∈ (queue s ≫= ev_task)) as Hin by (intros s1 [Hy|Hy]; apply elem_of_list_bind; (eexists; split; [|exact Hy]); left).
  destruct Hx as [Hx|(c & h & k & Hx)].
  - destruct (addq_step _ _ _ _ _ Hs Hx) as [Hy|Hsub].
    + destruct (IH (or_introl Hy)) as [E1 E2]. destruct (coming_kept _ _ _ _ _ _ (t_uid t) t Hr Hs) as [E3 [E4|(_ & x & c & h & k & x' & sl & H1 & H2 & _)]]; [left; by apply Hin|done|split; congruence|exfalso].
      apply (places2 _ _ _ _ x t Hr); [by apply Hin|rewrite H1; left|done].
    + pose proof (submit_log _ _ _ _ _ Hs Hsub) as Hl. destruct Hsub as (Hlb & _ & Hnew). pose proof (f_new _ _ (finv_reach _ _ _ _ Hr) _ Hnew) as H1. pose proof (no_turns _ _ _ _ _ Hr Hnew) as H2. unfold np.
      assert (log s' = OSend (match lb with LAdd _ => EAdd t | LInsert _ => EInsert t | _ => EUpdate t end) :: log s) as ->; [|cbn [planned turns]; by rewrite H1, H2].
      destruct Hlb as [->|[->| ->]]; cbn [step] in Hs; unfold submit_insert, submit in Hs; (destruct (fresh_task t && _); [|discriminate Hs]); injection Hs as <-; done.
  - assert (np (t_uid t) s = 0 /\ turns (t_uid t) (log s) = 0) as [E1 E2]. { apply IH. destruct (add_from _ _ _ _ _ _ _ _ Hs Hx) as [?|?]; [right; eauto|by left]. }
    destruct (coming_kept _ _ _ _ _ _ (t_uid t) t Hr Hs) as [E3 [E4|(_ & x & c1 & h1 & k1 & x' & sl & _ & _ & H3)]]; [|done|split; congruence|rewrite Hx in H3; discriminate H3].
    destruct (add_from _ _ _ _ _ _ _ _ Hs Hx) as [Hy|Hy]; [right; rewrite Hy; left|left; by apply Hin].
Qed.
Lemma reused_sub pf t0 t1 t s0 s : reused pf t0 t1 t s0 s -> submitted t (log s).
Proof.
  induction 1 as [c h k Hr Hh Hno Hq|lb s s' Hp IH Hc Hs]; [|by eapply submitted_mono].
  destruct (src_reach _ _ _ _ Hr) as [_ Hx]. rewrite Hh in Hx. destruct c as [c|]; [destruct Hx as [Hx _]|]; (eexists; split; [exact Hx|]); [by right; left|by left].
Qed.
Lemma reused_bal pf t0 t1 t s0 s : reused pf t0 t1 t s0 s -> bal False 0 (t_id t) (t_uid t) s.
Proof.
  induction 1 as [c h k Hr Hh Hno Hq|lb s s' Hp IH Hc Hs].
  - destruct (add_fresh _ _ _ _ t Hr) as [E1 E2]; [eauto 10|]. apply (bal_add _ _ _ _ _ t c h k); [done|done|]. by rewrite E1, E2.
  - pose proof (reused_way _ _ _ _ _ _ Hp) as Hw. pose proof (reused_reach _ _ _ _ _ _ Hp) as Hr. eapply bal_step_at; [exact Hr|exact Hs|apply Hw| | |exact IH].
    + intros x Hx Hu Hon. by destruct (way_on _ _ _ _ _ _ _ Hr Hw Hx Hu).
    + intros x sl -> Hh Hi _. destruct Hw as (_ & _ & [Hh'|[_ Hh']]); [unfold adding in Hh'|]; by rewrite Hh in Hh'.
Qed.

(** * C72 *)
(** When the task is over, there was one start - or one start left out, if it has a parallel limit - for every date; either its countdown is used up or there is no further date. *)
Theorem C72_every_date pf t0 t1 t s0 s i : reused pf t0 t1 t s0 s -> count (t_freq t) <> Some 0 -> tpc s <> TDead -> hpc s <> HDead -> ended i (t_uid t) s -> (forall j, ODrop (t_uid t) j NoMark ∉ log s) ->
  exists l j, follows pf (iter_of (t_freq t)) l j /\ turns (t_uid t) (log s) = N.of_nat (length l) /\ (count (t_freq t) = Some (starts (t_uid t) (log s)) \/ exists j', iter_next pf j = Ret (None, j')).
Proof.
  intros Hp H0 Ht Hh Hx Hum. pose proof (reused_reach _ _ _ _ _ _ Hp) as Hr. destruct (ended_dates _ _ _ _ _ _ Hr (reused_sub _ _ _ _ _ _ Hp) H0 Hx) as (j & Hf & Hc). exists (planned (t_uid t) (log s)), j.
  split; [done|]. split; [|done]. rewrite <- (bal_ended _ _ _ _ _ _ (reused_bal _ _ _ _ _ _ Hp) Hx (ended_nowhere _ _ _ _ _ _ Hr Hx) Ht Hh Hum). unfold np. lia.
Qed.
Print Assumptions C72_every_date.
(** A task without parallel limit was started exactly as often as its schedule and its countdown say, whatever happened under its id before. *)
Theorem C72_over_exactly pf t0 t1 t s0 s i : reused pf t0 t1 t s0 s -> t_maxpar t = None -> count (t_freq t) <> Some 0 -> tpc s <> TDead -> hpc s <> HDead -> ended i (t_uid t) s ->
  exists l, demands pf t l /\ starts (t_uid t) (log s) = N.of_nat (length l).
Proof.
  intros Hp Hmp H0 Ht Hh Hx. pose proof (reused_reach _ _ _ _ _ _ Hp) as Hr. pose proof (reused_sub _ _ _ _ _ _ Hp) as Hsub. destruct (unlimited _ _ _ _ _ Hr Hsub Hmp) as [E Hum].
  destruct (C72_every_date _ _ _ _ _ _ _ Hp H0 Ht Hh Hx Hum) as (l & j & Hf & Hl & Hc). rewrite E in Hl. exists l. split; [|done]. exists j. split; [done|]. rewrite <- Hl. split; [|done].
  intros n Hn. eapply C04_at_most_n_starts; [done..|]. destruct (decide (n = 0)) as [->|?]; [done|lia].
Qed.
Print Assumptions C72_over_exactly.

(** ** In executions *)
Lemma reused_later pf t0 t1 σ lb t s0 n : exec pf t0 t1 σ lb -> reused pf t0 t1 t s0 (σ n) -> (forall k, (n <= k)%nat -> ~ calls (t_id t) (lb k)) -> forall k, (n <= k)%nat -> reused pf t0 t1 t s0 (σ k).
Proof. intros He Hp Hc k Hk. induction Hk as [|k Hk IH]; [done|]. eapply reu_step; [exact IH|by apply Hc|apply (ex_step _ _ _ _ _ He)]. Qed.
Lemma reused_placed pf t0 t1 t s0 s : reused pf t0 t1 t s0 s -> hpc s = HIdle -> placed (t_id t) (t_uid t) s \/ ended (t_id t) (t_uid t) s \/ unmarked (t_id t) (t_uid t) s \/ tpc s = TDead \/ hpc s = HDead.
Proof.
  intros Hp Hi. destruct (reused_way _ _ _ _ _ _ Hp) as (Hq & _ & _).
  destruct (reused_bal _ _ _ _ _ _ Hp) as [x [E _] Hy ?|x c h k [E _] Hy ?|x c sl [E _] Hy ?|d Hy ?|k Hy ?|x [E _] Hy ?|[] Hy Hne ?|? ? ?|[Hy|[?|?]]]; auto.
  - exfalso. destruct Hy as [Hy|Hy]; exact (Hq _ Hy E).
  - congruence.
  - congruence.
  - left. left. by exists d.
  - left. right. by exists k.
  - exfalso. destruct Hy as [Hy|[sl Hy]]; congruence.
Qed.
(** A task without parallel limit that is added under an id of which nothing is left, and is left alone then, is started any number of times; or exactly as often as its schedule and its
    countdown say, and is then gone; unless the timer is stopped or one of its threads dies. *)
Theorem C72_exactly pf t0 t1 σ lb t s0 n : exec pf t0 t1 σ lb -> weakly_fair pf by_handler σ lb -> strongly_fair pf by_scheduler σ lb ->
  t_maxpar t = None -> count (t_freq t) <> Some 0 -> reused pf t0 t1 t s0 (σ n) -> (forall k, (n <= k)%nat -> ~ calls (t_id t) (lb k)) ->
  forall a, exists m, (n <= m)%nat /\ (a <= starts (t_uid t) (log (σ m)) \/
    (exists l, demands pf t l /\ forall k, (m <= k)%nat -> starts (t_uid t) (log (σ k)) = N.of_nat (length l) /\ forall x, x ∈ Spec.held (σ k) -> t_uid x <> t_uid t) \/
    tpc (σ m) = TStopped \/ tpc (σ m) = TDead \/ hpc (σ m) = HDead).
Proof.
  intros He Hh Hs Hmp H0 Hp Hc a. pose proof (reused_later _ _ _ _ _ _ _ _ He Hp Hc) as Hl.
  assert (exists m, (n <= m)%nat /\ (a <= starts (t_uid t) (log (σ m)) \/ ended (t_id t) (t_uid t) (σ m) \/ tpc (σ m) = TStopped \/ tpc (σ m) = TDead \/ hpc (σ m) = HDead)) as (m & Hm & Hx).
  { destruct (handled _ _ _ _ _ He Hh _ n (queue (σ n)) [] ltac:(by rewrite app_nil_r) (le_n _)) as (m & Hm & [Hd|[Hi _]]); [exists m; auto 10|].
    pose proof (Hl m Hm) as Hpm. pose proof (reused_sub _ _ _ _ _ _ Hpm) as Hsub.
    destruct (reused_placed _ _ _ _ _ _ Hpm Hi) as [Hpl|[?|[Hu|[?|?]]]]; try (exists m; auto 10; fail).
    - destruct (starts_for_ever _ _ _ _ _ t m He Hh Hs Hsub Hmp) with (a := a) as (m' & Hm' & Hx); [|apply (reused_way _ _ _ _ _ _ Hpm)|done|].
      + intros k Hk Hy. destruct (placed_with _ _ _ Hy) as (x & Hx1 & E1 & E2). eapply way_on; [exact (exec_reach _ _ _ _ _ k He)|exact (reused_way _ _ _ _ _ _ (Hl k ltac:(lia)))|exact Hx1|exact E2].
      + exists m'. split; [lia|]. unfold off in Hx. tauto.
    - exfalso. destruct (unlimited _ _ _ _ _ (exec_reach _ _ _ _ _ m He) Hsub Hmp) as [_ Hy]. by destruct (Hy (t_id t)). }
  exists m. split; [done|]. destruct Hx as [?|[Hx|?]]; auto. pose proof (Hl m Hm) as Hpm. pose proof (exec_reach _ _ _ _ _ m He) as Hr.
  destruct (dead_dec (hpc (σ m))) as [?|Hhd]; [auto|].
  assert (tpc (σ m) = TDead \/ tpc (σ m) <> TDead) as [?|Htd] by (destruct (tpc (σ m)); first [by left|right; discriminate]); [auto|]. right. left.
  destruct (C72_over_exactly _ _ _ _ _ _ _ Hpm Hmp H0 Htd Hhd Hx) as (l & H1 & H2). exists l. split; [done|]. intros k Hk.
  destruct (nowhere_later _ _ _ _ _ _ _ _ He (ended_nowhere _ _ _ _ _ _ Hr Hx) Hk) as [Hno E']. split; [congruence|]. intros x Hin Eu. apply (held_uid _ x Hin). by rewrite Eu.
Qed.
Print Assumptions C72_exactly.
(** An interval task with a countdown of [c] is started exactly [c] times. *)
Theorem C72_calm_interval t0 t1 σ lb t c st s0 n : calm_exec t0 t1 σ lb -> weakly_fair Release by_handler σ lb -> strongly_fair Release by_scheduler σ lb ->
  t_maxpar t = None -> t_freq t = SecondsCountDown c st -> 1 <= c -> reused Release t0 t1 t s0 (σ n) -> (forall k, (n <= k)%nat -> ~ calls (t_id t) (lb k)) ->
  exists m, (n <= m)%nat /\ forall k, (m <= k)%nat -> starts (t_uid t) (log (σ k)) = c /\ forall x, x ∈ Spec.held (σ k) -> t_uid x <> t_uid t.
Proof.
  intros Hca Hh Hs Hmp Hf H1 Hp Hc. pose proof (calm_is_exec _ _ _ _ Hca) as He.
  destruct (C72_exactly _ _ _ _ _ t s0 n He Hh Hs Hmp) with (a := c + 1) as (m & Hm & Hx); [rewrite Hf; intros E; injection E as ->; lia|done..|].
  destruct (calm_going _ _ _ (calm_reach _ _ _ _ m Hca)) as (G1 & G2 & G3). destruct Hx as [Hx|[(l & (j & H2 & H3 & H4) & Hx)|[?|[?|?]]]]; try done.
  - pose proof (C04_at_most_n_starts _ _ _ _ _ c (exec_reach _ _ _ _ _ m He) (reused_sub _ _ _ _ _ _ (reused_later _ _ _ _ _ _ _ _ He Hp Hc m Hm)) ltac:(by rewrite Hf) H1). lia.
  - exists m. split; [done|]. destruct H4 as [H4|[j' H4]].
    + rewrite Hf in H4. injection H4 as ->. exact Hx.
    + exfalso. rewrite Hf in H2. apply next_none_cron in H4 as [x ->]. apply follows_kind in H2 as [_ H2]. by destruct H2 as [? ?]; [eauto|].
Qed.
Print Assumptions C72_calm_interval.
(** A repeated interval task is started any number of times. *)
Theorem C72_calm_starts_for_ever t0 t1 σ lb t st s0 n : calm_exec t0 t1 σ lb -> weakly_fair Release by_handler σ lb -> strongly_fair Release by_scheduler σ lb ->
  t_maxpar t = None -> t_freq t = SecondsRepeated st -> reused Release t0 t1 t s0 (σ n) -> (forall k, (n <= k)%nat -> ~ calls (t_id t) (lb k)) ->
  forall a, exists m, (n <= m)%nat /\ a <= starts (t_uid t) (log (σ m)).
Proof.
  intros Hca Hh Hs Hmp Hf Hp Hc a. pose proof (calm_is_exec _ _ _ _ Hca) as He.
  destruct (C72_exactly _ _ _ _ _ t s0 n He Hh Hs Hmp) with (a := a) as (m & Hm & Hx); [rewrite Hf; discriminate|done..|]. exists m. split; [done|].
  destruct (calm_going _ _ _ (calm_reach _ _ _ _ m Hca)) as (G1 & G2 & G3). destruct Hx as [Hx|[(l & (j & H2 & H3 & H4) & Hx)|[?|[?|?]]]]; try done. exfalso. rewrite Hf in H2, H4. destruct H4 as [H4|[j' H4]]; [discriminate H4|].
  apply next_none_cron in H4 as [x ->]. apply follows_kind in H2 as [_ H2]. by destruct H2 as [? ?]; [eauto|].
Qed.
Print Assumptions C72_calm_starts_for_ever.

(** ** The parallel limit *)
Definition by_task (u i : N) (lg : list obs) (rec : Z) : Prop := exists it ts, OLaunch u i rec it ts ∈ lg.
(** The full statement: if nothing is left under the id, not even a mark, no more than the limit of instances of the new task run at a time. *)
Definition C72_limit : Prop := forall pf t0 t1 t s0 s mx l, reused pf t0 t1 t s0 s -> flags s0 !! t_id t = None -> t_maxpar t = Some mx ->
  NoDup l -> (forall rec, rec ∈ l -> rec ∈ running (t_id t) (log s) /\ by_task (t_uid t) (t_id t) (log s) rec) -> N.of_nat (length l) <= mx.

Record lim (i K mx : N) (s : sys) : Prop := {
  li_max : nrun i s <= mx + K;
  li_none : flags s !! i = None -> nrun i s <= K /\ forall l ids x r, tpc s = TSpawn l ids x r -> t_id x <> i;
  li_num : forall m x, flags s !! i = Some m -> with_scheduler s x -> t_id x = i -> nrun i s <= m_num m + inflight i (tpc s) + K;
  li_spawn : forall l ids x r, tpc s = TSpawn l ids x r -> t_id x = i -> nrun i s < mx + K;
  li_hpc : match hpc s with HAdd1 x _ _ _ | HAdd2 x _ _ => t_id x = i -> flags s !! i = None | HAdd3 j _ _ => j = i -> flags s !! i = None | HRem2 j _ => j <> i | _ => True end
}.
(** Only the handler records a mark. *)
Lemma flags_none pf lb s s' i : step pf lb s = Some s' -> flags s !! i = None -> flags s' !! i = None \/ exists c sl, hpc s = HAdd3 i c sl /\ hpc s' = HIdle.
Proof.
  intros Hs E. destruct (num_kinds _ _ _ _ i Hs) as [K|l ids sl m1 m2 K1 K2 K3 K4 K5|c sl m1 K1 K2 K3 K4|ok K1 K2|e q fin rec st tr m1 m2 K1 K2 K3 K4 K5 K6 K7 K8]; try congruence; eauto.
  left. rewrite E in K. by destruct (flags s' !! i).
Qed.
Lemma lim_hpc pf t0 t1 lb s s' i : reachable pf t0 t1 s -> step pf lb s = Some s' -> (forall e, e ∈ queue s -> ~ names i e) ->
  match hpc s with HRem1 j _ => j <> i | _ => True end ->
  match hpc s with HAdd1 x _ _ _ | HAdd2 x _ _ => t_id x = i -> flags s !! i = None | HAdd3 j _ _ => j = i -> flags s !! i = None | HRem2 j _ => j <> i | _ => True end ->
  match hpc s' with HAdd1 x _ _ _ | HAdd2 x _ _ => t_id x = i -> flags s' !! i = None | HAdd3 j _ _ => j = i -> flags s' !! i = None | HRem2 j _ => j <> i | _ => True end.
Proof.
  intros Hr Hs Hq H1 Hh. pose proof (flags_none _ _ _ _ i Hs) as Hf.
  destruct (match lb with LHandler => true | _ => false end) eqn:Hlb.
  2: { assert (hpc s' = hpc s) as Eh. { destruct (other_queue _ _ _ _ Hs) as (E & _); [by destruct lb|done]. } rewrite Eh. rewrite Eh in Hf. clear - Hh Hf.
    destruct (hpc s); try done; intros Hi; (destruct (Hf (Hh Hi)) as [?|(? & ? & E1 & E2)]; [done|rewrite E1 in E2; discriminate E2]). }
  destruct lb; try done. cbn [step] in Hs. unfold handler_step in Hs. destruct (hpc s) as [|x c h k|x c sl|j c sl|x sl|j sl|x|x sl|j sl|j ok|] eqn:Eh.
  - destruct (queue s) as [|e q] eqn:Eq; [discriminate Hs|]. assert (~ names i e) as He by (apply Hq; left). clear Hf Hq.
    destruct e; cbn [dispatch] in Hs; injection Hs as <-; inst_cases; isimpl; fsimpl; try done.
    all: try (repeat case_match; try done; fail).
    all: try (intros <-; by destruct He).
    destruct (flags s !! tid); fsimpl; [done|]. intros <-. by destruct He.
  - destruct (get_next_exec_timestamp pf x) as [[o x']|] eqn:E; [|by injection Hs as <-]. apply next_exec_id in E as [E _]. destruct o as [z|].
    + destruct (let! a := _ in _) as [seed|]; injection Hs as <-; [|done]. fsimpl. cbn [t_id set_cylinder_line]. by rewrite E.
    + injection Hs as <-. by rewrite (proj1 (complete_hpc _ _)).
  - destruct (wheel s !! sl); injection Hs as <-; done.
  - injection Hs as <-. by rewrite (proj1 (complete_hpc _ _)).
  - by destruct (wheel s !! sl); injection Hs as <-; rewrite ?(proj1 (complete_hpc _ _)).
  - repeat case_match; injection Hs as <-; rewrite ?(proj1 (complete_hpc _ _)); done.
  - by injection Hs as <-.
  - repeat case_match; injection Hs as <-; rewrite ?(proj1 (complete_hpc _ _)); done.
  - destruct (wheel s !! sl); injection Hs as <-; exact H1.
  - injection Hs as <-. by rewrite (proj1 (complete_hpc _ _)).
  - discriminate Hs.
Qed.

Lemma lim_step pf t0 t1 lb s s' t K mx : reachable pf t0 t1 s -> step pf lb s = Some s' -> submitted t (log s) -> t_maxpar t = Some mx -> on_way (t_id t) (t_uid t) s -> on_way (t_id t) (t_uid t) s' ->
  lim (t_id t) K mx s -> lim (t_id t) K mx s'.
Proof.
  intros Hr Hs Hsub Hmx Hw Hw' [I1 I2 I3 I4 I5]. set (i := t_id t) in *. pose proof (reach_step _ _ _ _ _ _ Hr Hs) as Hr'.
  pose proof (nrun_step _ _ _ _ _ _ i Hr Hs) as Hn. pose proof (num_kinds _ _ _ _ i Hs) as Hk. pose proof (fly_kinds _ _ _ _ i Hs) as Hf.
  assert (forall x, with_scheduler s x -> t_id x = i -> t_maxpar x = Some mx) as Hlim.
  { intros x Hx Hi. assert (x ∈ Spec.held s) as Hin by (unfold Spec.held; rewrite !elem_of_app; destruct Hx; auto). destruct (ci_held s (cnt_reach _ _ _ _ Hr) x Hin) as (x1 & H1 & H2 & H3 & _ & H5 & _).
    assert (t_uid x = t_uid t) as Hu by (by apply Hw). assert (x1 = t) as -> by (apply (ci_uniq _ (cnt_reach _ _ _ _ Hr)); [done|done|congruence]). congruence. }
  assert (forall l ids x r, tpc s' = TSpawn l ids x r -> t_id x = i -> nrun i s' <= nrun i s /\ (tpc s' = tpc s \/ exists m, tpc s = TMaint l ids x /\ flags s !! i = Some m /\ m_num m < mx)) as Hsp.
  { intros l ids x r E Hi. split.
    - destruct Hn as [Hn|[(l1 & ids1 & x1 & r1 & E1 & E2 & E0 & E3)|(e & q & fin & rec & st & tr & _ & _ & _ & _ & _ & Hlt)]]; [lia|by destruct (E0 _ _ _ _ E)|lia].
    - destruct Hf as [F [F'|F']|l' ids' x' r' F1 F2 F3 F4|l' ids' x' r' F1 F2 F3|l' ids' x' r' e' F1 F2 F3|l' ids' sl F1 F2|x' F1 F2 F3 F4 F5 F6]; try congruence; auto; try (by destruct (proj1 (F' _ _ _ _) E)); try (by destruct (F5 _ _ _ _ E)).
      rewrite E in F2. injection F2 as <- <- <- <-. right. destruct F4 as [F4|(mx' & m & F4 & F5 & F6)]; rewrite (Hlim x) in F4; [discriminate F4|left; rewrite F1; left|done| |left; rewrite F1; left|done]. injection F4 as ->. eauto. }
  assert (nrun i s' <= mx + K) as J1.
  { destruct Hn as [Hn|[(l1 & ids1 & x1 & r1 & E1 & E2 & E0 & E3)|(e & q & fin & rec & st & tr & _ & _ & _ & _ & _ & Hlt)]]; [lia| |lia]. pose proof (I4 _ _ _ _ E1 E2). lia. }
  assert (flags s' !! i = None -> flags s !! i = None) as Hback.
  { intros E. destruct Hk as [Hk|l ids sl m1 m2 K1 K2 K3 K4 K5|c sl m1 K1 K2 K3 K4|ok K1 K2|e q fin rec st tr m1 m2 K1 K2 K3 K4 K5 K6 K7 K8]; try congruence; [|by rewrite K1 in I5]. rewrite E in Hk. by destruct (flags s !! i). }
  assert (flags s !! i = None -> nrun i s' <= K) as Hsmall.
  { intros E. destruct (I2 E) as [G1 G2]. destruct Hn as [Hn|[(l1 & ids1 & x1 & r1 & E1 & E2 & E0 & E3)|(e & q & fin & rec & st & tr & _ & _ & _ & _ & _ & Hlt)]]; [lia| |lia]. by destruct (G2 _ _ _ _ E1). }
  split; [done|..].
  - intros E. pose proof (Hback E) as E0. destruct (I2 E0) as [G1 G2]. split; [auto|]. intros l ids x r Et Hi. destruct (Hsp _ _ _ _ Et Hi) as [_ [G|(m & _ & G & _)]]; [|congruence]. rewrite G in Et. exact (G2 _ _ _ _ Et Hi).
  - intros m x Hm Hx Hi. destruct (flags s !! i) as [m0|] eqn:Em0; [|specialize (Hsmall eq_refl); lia].
    assert (exists y, with_scheduler s y /\ t_id y = i) as (y & Hy & Hyi).
    { destruct Hw as (_ & _ & [Had|Hoff]).
      - exfalso. unfold adding in Had. destruct (hpc s); try done; destruct Had as (Hd & _); specialize (I5 Hd); congruence.
      - destruct (came_from _ _ _ _ i x Hs (fun _ => off_on _ _ Hoff) Hx Hi) as (y & Hy & E1 & E2). exists y. split; [done|congruence]. }
    specialize (I3 _ _ eq_refl Hy Hyi).
    assert (forall x', tpc_task (tpc s) = [x'] -> t_id x' = i -> tpc_task (tpc s') = [] -> rest s' = rest s -> False) as Hlost.
    { intros x' F1 F2 F3 F4. assert (x ∈ rest s) as Hin. { rewrite <- F4. destruct Hx as [Hx|Hx]; [rewrite F3 in Hx; by apply elem_of_nil in Hx|]. unfold rest. rewrite !elem_of_app. auto. }
      assert (t_uid x = t_uid t) as U1 by (apply Hw'; done). assert (t_uid x' = t_uid t) as U2 by (apply Hw; [left; rewrite F1; left|done]).
      pose proof (proj1 (own_reach _ _ _ _ Hr)) as Hnd. unfold uids in Hnd. rewrite (held_rest s), fmap_app in Hnd. apply NoDup_app in Hnd as (_ & Hnd & _).
      apply (Hnd (t_uid x')); [rewrite F1; left|]. rewrite U2, <- U1. by apply elem_of_list_fmap_1. }
    assert ((inflight i (tpc s') = inflight i (tpc s) /\ nrun i s' <= nrun i s) \/ (inflight i (tpc s') = inflight i (tpc s) + 1 /\ nrun i s' = nrun i s + 1) \/
            (inflight i (tpc s) = 1 /\ inflight i (tpc s') = 0 /\ nrun i s' <= nrun i s /\ m_num m = m_num m0 + 1)) as Hfn.
    { destruct Hf as [F [F'|F']|l' ids' x' r' F1 F2 F3 F4|l' ids' x' r' F1 F2 F3|l' ids' x' r' e' F1 F2 F3|l' ids' sl F1 F2|x' F1 F2 F3 F4 F5 F6].
      - left. split; [done|]. destruct Hn as [Hn|[(l1 & ids1 & x1 & r1 & E1 & E2 & E0 & E3)|(e & q & fin & rec & st & tr & _ & _ & _ & _ & _ & Hlt)]]; [lia| |lia].
        rewrite E1 in F'. by destruct (E0 _ _ _ _ F').
      - left. split; [done|]. destruct Hn as [Hn|[(l1 & ids1 & x1 & r1 & E1 & E2 & E0 & E3)|(e & q & fin & rec & st & tr & _ & _ & _ & _ & _ & Hlt)]]; [lia| |lia].
        by destruct (proj2 (F' _ _ _ _) E1).
      - left. rewrite F1, F2. split; [done|]. destruct Hn as [Hn|[(l1 & ids1 & x1 & r1 & E1 & E2 & E0 & E3)|(e & q & fin & rec & st & tr & _ & _ & _ & _ & _ & Hlt)]]; [lia|congruence|lia].
      - left. split; [done|]. destruct Hn as [Hn|[(l1 & ids1 & x1 & r1 & E1 & E2 & E0 & E3)|(e & q & fin & rec & st & tr & _ & _ & _ & _ & _ & Hlt)]]; [lia| |lia].
        by destruct (E0 _ _ _ _ F2).
      - right; left. rewrite F1, F3. cbn [inflight]. rewrite F2, N.eqb_refl. split; [done|]. unfold nrun. rewrite <- F2, (launch_run _ _ _ _ _ _ _ _ _ Hs F1 F3). cbn [length]. lia.
      - right; right. rewrite F1, F2. cbn [inflight]. rewrite N.eqb_refl. do 2 (split; [done|]).
        destruct (mark_inc _ _ _ _ _ _ _ _ _ Hs F1 F2 Em0) as (m' & G1 & G2). rewrite Hm in G1. injection G1 as <-. split; [|done].
        destruct Hn as [Hn|[(l1 & ids1 & x1 & r1 & E1 & E2 & E0 & E3)|(e & q & fin & rec & st & tr & Elb & E1 & E2 & E3 & E4 & Hlt)]]; [lia|congruence|lia].
      - by destruct (Hlost x'). }
    destruct Hk as [Hk|l ids sl m1 m2 K1 K2 K3 K4 K5|c sl m1 K1 K2 K3 K4|ok K1 K2|e q fin rec st tr m1 m2 K1 K2 K3 K4 K5 K6 K7 K8].
    + rewrite Hm, Em0 in Hk. injection Hk as Hk. lia.
    + rewrite Em0 in K3. injection K3 as <-. rewrite Hm in K4. injection K4 as <-. lia.
    + rewrite K1 in I5. specialize (I5 eq_refl). congruence.
    + congruence.
    + rewrite Em0 in K5. injection K5 as <-. rewrite Hm in K6. injection K6 as <-.
      assert (nrun i s' < nrun i s) as Hlt. { unfold nrun. rewrite K7. pose proof (filter_ne_length _ _ (quit_running _ _ _ _ _ _ _ Hr K4)). lia. }
      assert (m_num m0 <= m_num m + 1) by (destruct K8 as [->|(_ & -> & _)]; lia). lia.
  - intros l ids x r E Hi. destruct (Hsp _ _ _ _ E Hi) as [H [F|(m & F & G & G1)]].
    + rewrite F in E. specialize (I4 _ _ _ _ E Hi). lia.
    + assert (with_scheduler s x) as Hx by (left; rewrite F; left). pose proof (I3 _ _ G Hx Hi) as H2. rewrite F in H2. cbn [inflight] in H2. lia.
  - eapply lim_hpc; [exact Hr|exact Hs|apply Hw| |done]. destruct Hw as (_ & _ & [Had|[_ Hoff]]); [unfold adding in Had|]; by destruct (hpc s).
Qed.
Lemma reused_lim pf t0 t1 t s0 s mx : reused pf t0 t1 t s0 s -> flags s0 !! t_id t = None -> t_maxpar t = Some mx -> lim (t_id t) (nrun (t_id t) s0) mx s.
Proof.
  intros Hp Hf Hmx. induction Hp as [c h k Hr Hh Hno Hq|lb s s' Hp IH Hc Hs].
  - split.
    + lia.
    + intros _. split; [done|]. intros l ids x r E. apply Hno. left. rewrite E. left.
    + congruence.
    + intros l ids x r E Hi. exfalso. apply (Hno x); [|done]. left. rewrite E. left.
    + by rewrite Hh.
  - eapply lim_step; [exact (reused_reach _ _ _ _ _ _ Hp)|exact Hs|exact (reused_sub _ _ _ _ _ _ Hp)|done|exact (reused_way _ _ _ _ _ _ Hp)| |exact IH].
    apply (reused_way pf t0 t1 t s0). by eapply reu_step.
Qed.
(** All instances with this id together are at most as many as the limit of the new task and those of the old task that ran when the new one was added. *)
Theorem C72_limit_shared pf t0 t1 t s0 s mx : reused pf t0 t1 t s0 s -> flags s0 !! t_id t = None -> t_maxpar t = Some mx ->
  N.of_nat (length (running (t_id t) (log s))) <= mx + N.of_nat (length (running (t_id t) (log s0))).
Proof. intros Hp Hf Hmx. exact (li_max _ _ _ _ (reused_lim _ _ _ _ _ _ _ Hp Hf Hmx)). Qed.
Print Assumptions C72_limit_shared.
(** So the limit holds if no instance of the old task ran any more. *)
Theorem C72_limit_partial pf t0 t1 t s0 s mx l : reused pf t0 t1 t s0 s -> flags s0 !! t_id t = None -> t_maxpar t = Some mx -> running (t_id t) (log s0) = [] ->
  NoDup l -> (forall rec, rec ∈ l -> rec ∈ running (t_id t) (log s) /\ by_task (t_uid t) (t_id t) (log s) rec) -> N.of_nat (length l) <= mx.
Proof.
  intros Hp Hf Hmx H0 Hl Hin. pose proof (C72_limit_shared _ _ _ _ _ _ _ Hp Hf Hmx) as H. rewrite H0 in H. cbn [length] in H.
  pose proof (submseteq_length _ _ (NoDup_submseteq _ _ Hl (fun rec Hrec => proj1 (Hin rec Hrec)))). lia.
Qed.
Print Assumptions C72_limit_partial.

(** ** Examples *)
Definition reub (t : task) (s : sys) : bool :=
  match hpc s, tpc_task (tpc s), wheel_tasks (wheel s), queue s with HAdd1 x _ _ _, [], [], [] => t_uid x =? t_uid t | _, _, _, _ => false end.
Lemma reu_scen pf t0 t1 acts1 acts2 t e (P : sys -> sys -> bool) : Do e ∈ acts1 -> e = LAdd t \/ e = LInsert t -> (forall lb, Do lb ∈ acts2 -> ~ calls (t_id t) lb) ->
  after pf t0 t1 acts1 (fun s0 => reub t s0 && match play pf acts2 s0 with Some s => P s0 s | None => false end) = true ->
  exists s0 s, reused pf t0 t1 t s0 s /\ P s0 s = true /\ forall Q : label -> Prop, free Q -> (forall lb, Do lb ∈ acts1 ++ acts2 -> Q lb) -> reaches Q pf (init t0 t1) s.
Proof.
  intros Hin He Hc. unfold after. rewrite init0_eq. destruct (play pf acts1 (init t0 t1)) as [s0|] eqn:E; [|intros H; discriminate H]. intros H. apply andb_true_iff in H as [Hb H].
  pose proof (play_reach _ _ _ _ _ E) as Hr. assert (submitted t (log s0)) as Hsub.
  { destruct He as [->| ->]; [exact (play_submitted pf acts1 _ s0 _ t E Hin (or_introl eq_refl))|exact (play_submitted pf acts1 _ s0 _ t E Hin (or_intror (or_introl eq_refl)))]. }
  destruct (play pf acts2 s0) as [s|] eqn:E2; [|discriminate H]. exists s0, s. split; [|split; [exact H|]].
  2: { intros Q HQ Hacts. eapply reaches_trans; [refine (play_reaches Q pf acts1 _ _ HQ _ E); intros lb Hlb; apply Hacts, elem_of_app; by left|].
    refine (play_reaches Q pf acts2 _ _ HQ _ E2); intros lb Hlb; apply Hacts, elem_of_app; by right. }
  assert (reused pf t0 t1 t s0 s0) as Hp.
  { unfold reub in Hb. destruct (hpc s0) as [|x c h k|?|?|?|?|?|?|?|?|] eqn:Eh; try discriminate Hb. destruct (tpc_task (tpc s0)) eqn:Et; [|discriminate Hb]. destruct (wheel_tasks (wheel s0)) eqn:Ew; [|discriminate Hb].
    destruct (queue s0) eqn:Eq; [|discriminate Hb]. apply N.eqb_eq in Hb.
    assert (x = t) as ->.
    { destruct (src_reach _ _ _ _ Hr) as [_ Hx]. rewrite Eh in Hx. apply (ci_uniq _ (cnt_reach _ _ _ _ Hr)); [|done|done]. destruct c as [c|]; [destruct Hx as [Hx _]|]; (eexists; split; [exact Hx|]); [by right; left|by left]. }
    apply (reu_add _ _ _ _ _ c h k); [done|done| |rewrite Eq; intros z Hz; by apply elem_of_nil in Hz].
    intros y [Hy|Hy]; [rewrite Et in Hy|rewrite Ew in Hy]; by apply elem_of_nil in Hy. }
  destruct (play_reaches (fun lb => ~ calls (t_id t) lb) pf acts2 s0 s) as (ls & Hls & Hrun); [split; [intros ch r now|]; intros []|done|done|].
  clear - Hp Hls Hrun. revert Hp Hrun. generalize s0 at 2 3. intros s1 Hp Hrun. revert s1 Hp Hrun. induction Hls as [|lb ls Hlb Hls IH]; intros s1 Hp Hrun; cbn [run] in Hrun; [by injection Hrun as <-|].
  destruct (step pf lb s1) as [s'|] eqn:Es; [|discriminate Hrun]. apply (IH s'); [by eapply reu_step|done].
Qed.
(** A task that is started every five seconds is started once, then removed while its instance runs; the id is used again. *)
Definition old_acts : list act := [Do (LInsert (every 1 11 5 100)); Handle; Ticks 7; Handle; Do (LRemove 11); Handle].
Ltac no_calls := intros lb H; rewrite !elem_of_cons, elem_of_nil in H; repeat destruct H as [H|H]; first [discriminate H|injection H as ->; intros []|destruct H].
(** The new task allows one instance at a time and was added without a chain. The end of the old instance makes room for a second one. *)
Definition one_new : task := limited 1 (every 2 11 5 107).
Definition two_run (s0 s : sys) : bool :=
  match flags s0 !! 11, running 11 (log s0), running 11 (log s) with None, [0%Z], [2%Z; 1%Z] => inb (OLaunch 2 11 1 14 114) (log s) && inb (OLaunch 2 11 2 18 118) (log s) | _, _, _ => false end.
Lemma two_at_once : exists s0 s, reused Release 100 100 one_new s0 s /\ flags s0 !! 11 = None /\ running 11 (log s0) = [0%Z] /\ running 11 (log s) = [2%Z; 1%Z] /\
  OLaunch 2 11 1 14 114 ∈ log s /\ OLaunch 2 11 2 18 118 ∈ log s.
Proof.
  destruct (reu_scen Release 100 100 (old_acts ++ [Do (LAdd one_new); Do LHandler]) [Handle; Ticks 8; Do (LFinish 0 115 None); Handle; Ticks 5] one_new (LAdd one_new) two_run) as (s0 & s & Hp & H & _);
    [do 6 right; left|by left|no_calls|vm_compute; reflexivity|].
  exists s0, s. split; [exact Hp|]. unfold two_run in H. destruct (flags s0 !! 11) as [?|]; [discriminate H|]. destruct (running 11 (log s0)) as [|[| |] [|]]; try discriminate H.
  split; [done|]. split; [done|]. clear Hp. destruct (running 11 (log s)) as [|[|[|[]|]|] [|[|[]|] [|]]]; try discriminate H. apply andb_true_iff in H as [H1 H2]. apply inb_ok in H1. apply inb_ok in H2. done.
Qed.
Theorem C72_limit_refuted : ~ C72_limit.
Proof.
  intros H. destruct two_at_once as (s0 & s & Hp & Hf & _ & Hr & H1 & H2). pose proof (H _ _ _ one_new s0 s 1 [2%Z; 1%Z] Hp Hf eq_refl) as E. change (t_id one_new) with 11 in E. change (t_uid one_new) with 2 in E. rewrite Hr in E. clear H Hp.
  assert (N.of_nat (length [2%Z; 1%Z]) <= 1) as Hx; [|cbn [length] in Hx; lia]. apply E; clear E.
  - apply NoDup_cons. split; [|apply NoDup_cons; split; [apply not_elem_of_nil|apply NoDup_nil_2]]. rewrite elem_of_list_singleton. discriminate.
  - intros rec Hrec. split; [done|]. rewrite !elem_of_cons, elem_of_nil in Hrec. destruct Hrec as [->|[->|[]]]; (eexists _, _; eassumption).
Qed.
Print Assumptions C72_limit_refuted.
(** If the old instance has ended before the new task is added, the second one has to wait. *)
Definition one_runs (s0 s : sys) : bool :=
  match flags s0 !! 11, running 11 (log s0), running 11 (log s) with None, [], [1%Z] => inb (OLaunch 2 11 1 14 114) (log s) && inb (OSkip 2 11 18 118) (log s) | _, _, _ => false end.
Example C72_limit_example : exists s0 s, reused Release 100 100 one_new s0 s /\ flags s0 !! 11 = None /\ running 11 (log s0) = [] /\ running 11 (log s) = [1%Z] /\
  OLaunch 2 11 1 14 114 ∈ log s /\ OSkip 2 11 18 118 ∈ log s.
Proof.
  destruct (reu_scen Release 100 100 (old_acts ++ [Do (LFinish 0 107 None); Handle; Do (LAdd one_new); Do LHandler]) [Handle; Ticks 13] one_new (LAdd one_new) one_runs) as (s0 & s & Hp & H & _);
    [do 8 right; left|by left|no_calls|vm_compute; reflexivity|].
  exists s0, s. split; [exact Hp|]. unfold one_runs in H. destruct (flags s0 !! 11) as [?|]; [discriminate H|]. destruct (running 11 (log s0)) as [|]; try discriminate H.
  split; [done|]. split; [done|]. clear Hp. destruct (running 11 (log s)) as [|[|[]|] [|]]; try discriminate H. apply andb_true_iff in H as [H1 H2]. apply inb_ok in H1. apply inb_ok in H2. done.
Qed.
(** The new task is to be started three times, every four seconds; seen at its end; and seen after its first start and continued for ever. *)
Definition three_new : task := ntimes 2 11 3 4 107.
Definition new_acts : list act := old_acts ++ [Do (LInsert three_new); Do LHandler].
Example C72_over_example : exists s0 s, reused Release 100 100 three_new s0 s /\ tpc s <> TDead /\ hpc s <> HDead /\ ended 11 2 s /\ demands Release three_new [119; 115; 111] /\ starts 2 (log s) = 3 /\ starts 1 (log s0) = 1.
Proof.
  destruct (reu_scen Release 100 100 new_acts [Handle; Ticks 20] three_new (LInsert three_new) (fun s0 s => inb (OEnd 2 11) (log s) && (starts 2 (log s) =? 3) && (starts 1 (log s0) =? 1) &&
    match tpc s with TDead => false | _ => true end && match hpc s with HDead => false | _ => true end)) as (s0 & s & Hp & H & _); [do 6 right; left|by right|no_calls|vm_compute; reflexivity|].
  exists s0, s. apply andb_true_iff in H as [H H5]. apply andb_true_iff in H as [H H4]. apply andb_true_iff in H as [H H3]. apply andb_true_iff in H as [H1 H2]. apply inb_ok in H1. apply N.eqb_eq in H2. apply N.eqb_eq in H3.
  split_and!; try done; [intros E; rewrite E in H4; discriminate H4|intros E; rewrite E in H5; discriminate H5|by left|].
  change [119; 115; 111] with [as_u64 119; as_u64 115; as_u64 111]. eexists. split; [dates_tac|]. split; [|by left]. intros n E. injection E as <-. by cbn.
Qed.
Example C72_example : exists σ lb s0, calm_exec 100 100 σ lb /\ weakly_fair Release by_handler σ lb /\ strongly_fair Release by_scheduler σ lb /\
  reused Release 100 100 three_new s0 (σ 0%nat) /\ (forall k, ~ calls 11 (lb k)) /\ starts 2 (log (σ 0%nat)) = 1 /\ starts 1 (log s0) = 1.
Proof.
  destruct (reu_scen Release 100 100 new_acts [Handle; Ticks 7] three_new (LInsert three_new) (fun s0 s => (starts 2 (log s) =? 1) && (starts 1 (log s0) =? 1))) as (s0 & s & Hp & H & Hcr); [do 6 right; left|by right|no_calls|vm_compute; reflexivity|].
  specialize (Hcr calm ltac:(split; [intros ch r now|]; split; discriminate)). apply andb_true_iff in H as [H1 H2]. apply N.eqb_eq in H1. apply N.eqb_eq in H2.
  destruct (fair_exists Release 100 100 (fun n => 115 + N.of_nat n) s (reused_reach _ _ _ _ _ _ Hp)) as (σ & lb & E & He & F1 & F2 & _ & _ & F5). exists σ, lb, s0.
  assert (forall n, inner (lb n)) as Hin. { intros n. specialize (F5 n). by destruct (lb n). }
  split. { split; [rewrite E; apply Hcr; intros l Hl|apply He|intros k; apply inner_calm, Hin]. change (new_acts ++ [Handle; Ticks 7]) with [Do (LInsert (every 1 11 5 100)); Handle; Ticks 7; Handle; Do (LRemove 11); Handle; Do (LInsert three_new); Do LHandler; Handle; Ticks 7] in Hl.
      clear - Hl. rewrite !elem_of_cons, elem_of_nil in Hl. repeat destruct Hl as [Hl|Hl]; try discriminate Hl; try (injection Hl as ->; split; discriminate); destruct Hl. }
  split; [done|]. split; [done|]. rewrite E. split; [done|]. split; [|done]. intros k Hk. specialize (Hin k). by destruct (lb k).
Qed.
