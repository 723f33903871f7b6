(** A task that was put in the place of another by an update is started as often as its schedule and its countdown say (C69). *)
From Verif Require Import Tactics Inv Own Life Count Quiet Timing Cases Frame Fifo Scen Crash Arrival Meanwhile Kept Live LiveEnd PropSched PropCancel PropRemove PropLive PropCalm PropChain PropEnding PropNext Sched Lost Stay PropOrphan PropLife PropAsk PropAdvance Chain PropExact.

(** * Specification *)

(** The step is a call about the task id [i]. *)
Definition calls (i : N) (lb : label) : Prop :=
  match lb with LAdd t | LInsert t | LUpdate t => t_id t = i | LRemove j | LAdvance j => j = i | _ => False end.
(** The states after the event handler has put [t] in the place of what the scheduler had under its id, as long as there is no other call about this id.
    All the scheduler had under this id was in the slot that the handler uses; it may be nothing. *)
Inductive replaced (pf : profile) (t0 t1 : N) (t : task) : sys -> Prop :=
| rep_upd s s' sl : reachable pf t0 t1 s -> hpc s = HUpd t sl -> (forall y, with_scheduler s y -> t_id y = t_id t -> sits s (t_id t) sl y) ->
    (forall e, e ∈ queue s -> ~ names (t_id t) e) -> step pf LHandler s = Some s' -> replaced pf t0 t1 t s'
| rep_step lb s s' : replaced pf t0 t1 t s -> ~ calls (t_id t) lb -> step pf lb s = Some s' -> replaced pf t0 t1 t s'.
Lemma replaced_reach pf t0 t1 t s : replaced pf t0 t1 t s -> reachable pf t0 t1 s.
Proof. induction 1 as [s s' sl Hr _ _ _ Hs|lb s s' _ IH _ Hs]; by eapply reach_step. Qed.

(** * Nothing is asked of the id any more *)
Definition off_id (i : N) (s : sys) : Prop :=
  (forall e, e ∈ queue s -> ~ names i e) /\
  match hpc s with HAdd1 t _ _ _ | HAdd2 t _ _ | HUpd t _ | HAdv2 t | HAdv3 t _ => t_id t <> i | HAdv1 j _ | HRem1 j _ => j <> i | _ => True end.
Lemma off_on i s : off_id i s -> handler_on (hpc s) <> Some i.
Proof. intros [_ H]. destruct (hpc s); cbn [handler_on]; congruence. Qed.
Lemma off_queue pf lb s s' i : step pf lb s = Some s' -> ~ calls i lb -> (forall e, e ∈ queue s -> ~ names i e) -> forall e, e ∈ queue s' -> ~ names i e.
Proof.
  intros Hs Hc Hq e He Hn. revert He Hc. step_inv Hs; inst_shape; fsimpl; intros He Hc; try (by apply (Hq e)).
  all: try (repeat case_match; try (by apply (Hq e)); fail).
  all: try (apply elem_of_app in He as [He|He]; [by apply (Hq e)|]; repeat (apply elem_of_cons in He as [->|He]; [cbn in Hn; cbn in Hc; tauto|]); by apply elem_of_nil in He).
  all: apply (Hq e); [by right|done].
Qed.
Lemma off_step pf t0 t1 lb s s' i : reachable pf t0 t1 s -> step pf lb s = Some s' -> ~ calls i lb -> off_id i s -> off_id i s'.
Proof.
  intros Hr Hs Hc [Hq Hh]. pose proof (wf_reach _ _ _ _ Hr) as Hwf. split; [exact (off_queue _ _ _ _ _ Hs Hc Hq)|].
  revert Hh. step_inv Hs; inst_shape; fsimpl; intros Hh; try done; try congruence.
  all: try (intros <-; eapply Hq; [left|]; done).
  all: try (cbn [t_id clear_cylinder_line set_cylinder_line]; by rewrite (wf_key s Hwf _ _ _ _ Heqo Heqo0)).
  destruct (steady_next _ (t_id t) (t_uid t) _ _ _ (conj eq_refl eq_refl) Heqr) as [E _]. cbn [t_id set_cylinder_line]. by rewrite E.
Qed.
Lemma replaced_off pf t0 t1 t s : replaced pf t0 t1 t s -> off_id (t_id t) s.
Proof.
  induction 1 as [s s' sl Hr Hh _ Hq Hs|lb s s' Hp IH Hc Hs]; [|exact (off_step _ _ _ _ _ _ _ (replaced_reach _ _ _ _ _ Hp) Hs Hc IH)].
  cbn [step] in Hs. unfold handler_step in Hs. rewrite Hh in Hs. injection Hs as <-. unfold off_id, complete. fsimpl. by destruct (hpub s).
Qed.

(** * The new task has neither been planned nor started *)
Lemma upd_from pf lb s s' t : step pf lb s = Some s' -> EUpdate t ∈ queue s' \/ (exists sl, hpc s' = HUpd t sl) ->
  (EUpdate t ∈ queue s \/ exists sl, hpc s = HUpd t sl) \/ t_uid t ∉ used s /\ log s' = OSend (EUpdate t) :: log s.
Proof.
  intros Hs Hx. revert Hx. step_inv Hs; inst_shape; fsimpl; intros [Hx|[sl0 Hx]]; try discriminate Hx; eauto.
  all: try (apply elem_of_app in Hx as [Hx|Hx]; [by auto|]; repeat (apply elem_of_cons in Hx as [Hx|Hx]; [try discriminate Hx|]); try (by apply elem_of_nil in Hx)).
  all: try (left; left; by right).
  - right. injection Hx as ->. apply andb_true_iff in Heqb as [_ Hb]. apply negb_true_iff, bool_decide_eq_false in Hb. done.
  - left. left. injection Hx as -> _. left.
Qed.
Lemma upd_fresh pf t0 t1 s t : reachable pf t0 t1 s -> EUpdate t ∈ queue s \/ (exists sl, hpc s = HUpd t sl) -> np (t_uid t) s = 0 /\ turns (t_uid t) (log s) = 0.
Proof.
  revert s. apply (reach_ind pf t0 t1 (fun s => EUpdate t ∈ queue s \/ (exists sl, hpc s = HUpd t sl) -> np (t_uid t) s = 0 /\ turns (t_uid t) (log s) = 0)).
  { change (queue (init t0 t1)) with (@nil event). change (hpc (init t0 t1)) with HIdle. intros [H|[sl H]]; [by apply elem_of_nil in H|discriminate H]. }
  intros lb s s' Hr IH Hs Hx. destruct (upd_from _ _ _ _ _ Hs Hx) as [Hy|[Hnew El]].
  - destruct (IH Hy) as [E1 E2]. destruct (coming_kept _ _ _ _ _ _ (t_uid t) t Hr Hs) as [E3 [E4|(_ & x & c & h & k & x' & sl & H1 & H2 & _)]]; [|done|split; congruence|exfalso].
    + destruct Hy as [Hy|[sl Hy]]; [left; apply elem_of_list_bind; exists (EUpdate t); split; [left|done]|right; rewrite Hy; left].
    + destruct Hy as [Hy|[sl' Hy]]; [|congruence]. apply (places2 _ _ _ _ x t Hr); [apply elem_of_list_bind; exists (EUpdate t); split; [left|done]|rewrite H1; left|done].
  - pose proof (f_new _ _ (finv_reach _ _ _ _ Hr) _ Hnew) as H1. pose proof (no_turns _ _ _ _ _ Hr Hnew) as H2. unfold np. rewrite El. cbn [planned turns]. by rewrite H1, H2.
Qed.

(** * The balance of the new task: it is started once without a date *)
Lemma upd_slot pf t0 t1 s t sl : reachable pf t0 t1 s -> hpc s = HUpd t sl -> exists m, wheel s !! sl = Some m.
Proof. intros Hr Hh. pose proof (wf_hpc s (wf_reach _ _ _ _ Hr)) as Hw. rewrite Hh in Hw. destruct (proj2 (slot_there _ _ _ _ sl Hr) Hw) as [m Hm]. by exists m. Qed.
Lemma replaced_alone pf t0 t1 t s : replaced pf t0 t1 t s -> alone (t_id t) (t_uid t) s.
Proof.
  intros H. pose proof (replaced_off _ _ _ _ _ H) as Hoff. revert Hoff. induction H as [s s' sl Hr Hh Hy Hq Hs|lb s s' Hp IH Hc Hs]; intros _ x Hx Hi.
  - destruct (handler_tpc _ _ _ Hs) as (E1 & _). cbn [step] in Hs. unfold handler_step in Hs. rewrite Hh in Hs. injection Hs as <-. destruct Hx as [Hx|Hx].
    + exfalso. rewrite E1 in Hx. by apply (sits_once _ _ _ _ _ _ _ x Hr (Hy x (or_introl Hx) Hi) Hx).
    + apply elem_of_wheel_tasks in Hx as (sl' & m & k & Hm & Hk). destruct (upd_slot _ _ _ _ _ _ Hr Hh) as [g Hg]. rewrite Hg in Hm.
      assert (<[sl:=slot_update_task g t]> (wheel s) !! sl' = Some m) as Hm'. { revert Hm. unfold complete. fsimpl. by destruct (hpub s). }
      apply lookup_insert_Some in Hm' as [[<- <-]|[Hne Hm']].
      * rewrite slot_update_eq in Hk. unfold slot_add_task in Hk. apply lookup_insert_Some in Hk as [[_ <-]|[Hne Hk]]; [done|]. pose proof (wf_key s (wf_reach _ _ _ _ Hr) _ _ _ _ Hg Hk). congruence.
      * exfalso. apply Hne. assert (k = t_id t) as -> by (rewrite <- Hi; symmetry; exact (wf_key s (wf_reach _ _ _ _ Hr) _ _ _ _ Hm' Hk)). assert (sits s (t_id t) sl' x) as Hsx by (by exists m).
        refine (own_wheel s _ _ _ _ _ _ (own_reach _ _ _ _ Hr) (Hy x _ Hi) Hsx eq_refl). right. by apply (Timing.sits_held _ _ _ _ Hsx).
  - destruct (came_from _ _ _ _ (t_id t) x Hs (fun _ => off_on _ _ (replaced_off _ _ _ _ _ Hp)) Hx Hi) as (y & Hy & E1 & E2). rewrite <- E2. apply (IH (replaced_off _ _ _ _ _ Hp)); [done|congruence].
Qed.
Lemma replaced_sub pf t0 t1 t s : replaced pf t0 t1 t s -> submitted t (log s).
Proof.
  induction 1 as [s s' sl Hr Hh Hy Hq Hs|lb s s' Hp (e & H1 & H2) Hc Hs]; [|exists e; split; [|done]; destruct (step_log _ _ _ _ Hs) as [l ->]; apply elem_of_app; by right].
  destruct (src_reach _ _ _ _ Hr) as [_ Hx]. rewrite Hh in Hx. exists (EUpdate t). split; [|by right; right]. destruct (step_log _ _ _ _ Hs) as [l ->]. apply elem_of_app. right. exact Hx.
Qed.
Lemma replaced_bal pf t0 t1 t s : replaced pf t0 t1 t s -> bal False 1 (t_id t) (t_uid t) s.
Proof.
  induction 1 as [s s' sl Hr Hh Hy Hq Hs|lb s s' Hp IH Hc Hs].
  - destruct (upd_fresh _ _ _ _ t Hr) as [E1 E2]; [eauto|]. cbn [step] in Hs. unfold handler_step in Hs. rewrite Hh in Hs.
    destruct (upd_slot _ _ _ _ _ _ Hr Hh) as [m Hm]. rewrite Hm in Hs.
    eapply bal_due.
    + left. exists sl, t. split; [|split; [done|reflexivity]]. injection Hs as <-. exists (slot_update_task m t). unfold complete. fsimpl. split; [by destruct (hpub s); fsimpl; rewrite lookup_insert|]. rewrite slot_update_eq. apply lookup_insert.
    + assert (np (t_uid t) s' = np (t_uid t) s /\ turns (t_uid t) (log s') = turns (t_uid t) (log s)) as [-> ->]; [|lia]. injection Hs as <-. unfold np, complete. fsimpl. by destruct (hpub s).
  - pose proof (replaced_off _ _ _ _ _ Hp) as Hoff. eapply bal_step_at; [exact (replaced_reach _ _ _ _ _ Hp)|exact Hs|exact (replaced_alone _ _ _ _ _ Hp)| | |exact IH].
    + intros x _ _ Hon. by destruct (off_on _ _ Hoff).
    + intros x sl -> Hh Hi _. destruct Hoff as [_ Hoff]. by rewrite Hh in Hoff.
Qed.

(** * C69 *)
(** When the task is over, there was one start more - or one start left out, if it has a parallel limit - than there were dates; either the countdown is used up or there is no further date. *)
Theorem C69_every_date pf t0 t1 t s i : replaced pf t0 t1 t s -> count (t_freq t) <> Some 0 -> tpc s <> TDead -> hpc s <> HDead -> ended i (t_uid t) s -> (forall j, ODrop (t_uid t) j NoMark ∉ log s) ->
  exists l j, follows pf (iter_of (t_freq t)) l j /\ turns (t_uid t) (log s) = N.of_nat (length l) + 1 /\ (count (t_freq t) = Some (starts (t_uid t) (log s)) \/ exists j', iter_next pf j = Ret (None, j')).
Proof.
  intros Hp H0 Ht Hh Hx Hum. pose proof (replaced_reach _ _ _ _ _ Hp) as Hr. destruct (ended_dates _ _ _ _ _ _ Hr (replaced_sub _ _ _ _ _ Hp) H0 Hx) as (j & Hf & Hc). exists (planned (t_uid t) (log s)), j.
  split; [done|]. split; [|done]. rewrite <- (bal_ended _ _ _ _ _ _ (replaced_bal _ _ _ _ _ Hp) Hx (ended_nowhere _ _ _ _ _ _ Hr Hx) Ht Hh Hum). unfold np. lia.
Qed.
Print Assumptions C69_every_date.

(** The full statement: the new task is started as often as its schedule and its countdown say. *)
Definition C69_as_often : Prop := forall pf t0 t1 t s i l, replaced pf t0 t1 t s -> t_maxpar t = None -> count (t_freq t) <> Some 0 -> tpc s <> TDead -> hpc s <> HDead -> ended i (t_uid t) s ->
  demands pf t l -> starts (t_uid t) (log s) = N.of_nat (length l).
(** It is started that often if this is what its countdown says; if its schedule has fewer dates than that or it has no countdown, it is started once more. *)
Lemma over_starts pf t0 t1 t s i l : replaced pf t0 t1 t s -> t_maxpar t = None -> count (t_freq t) <> Some 0 -> tpc s <> TDead -> hpc s <> HDead -> ended i (t_uid t) s -> demands pf t l ->
  count (t_freq t) = Some (N.of_nat (length l)) /\ starts (t_uid t) (log s) = N.of_nat (length l) \/
  count (t_freq t) <> Some (N.of_nat (length l)) /\ starts (t_uid t) (log s) = N.of_nat (length l) + 1.
Proof.
  intros Hp Hmp H0 Ht Hh Hx (i1 & Hf1 & Hle & Hl). pose proof (replaced_reach _ _ _ _ _ Hp) as Hr. pose proof (replaced_sub _ _ _ _ _ Hp) as Hsub.
  destruct (unlimited _ _ _ _ _ Hr Hsub Hmp) as [E Hum]. destruct (C69_every_date _ _ _ _ _ _ Hp H0 Ht Hh Hx Hum) as (l' & j & Hf2 & Hn & Hc). rewrite E in Hn.
  assert (forall c, count (t_freq t) = Some c -> starts (t_uid t) (log s) <= c) as Hmax.
  { intros c Hcc. eapply C04_at_most_n_starts; [done..|]. destruct (decide (c = 0)) as [->|?]; [done|lia]. }
  assert (forall la ia lb ib ix, follows pf (iter_of (t_freq t)) la ia -> follows pf (iter_of (t_freq t)) lb ib -> iter_next pf ia = Ret (None, ix) -> (length lb <= length la)%nat) as Hno.
  { intros la ia lb ib ix Ha Hb Hx1. destruct (Nat.le_gt_cases (length lb) (length la)) as [?|Hgt]; [done|exfalso]. destruct (follows_chain _ _ _ _ _ _ Ha Hb ltac:(lia)) as (z & -> & Hz).
    destruct z as [|d z _] using rev_ind; [cbn in Hgt; lia|]. apply follows_last in Hz as (d' & k & Hz). congruence. }
  destruct (decide (count (t_freq t) = Some (N.of_nat (length l)))) as [Ec|Ec]; [left|right]; (split; [done|]).
  - destruct Hc as [Hc|[j' Hj]]; [congruence|]. pose proof (Hno _ _ _ _ _ Hf2 Hf1 Hj). specialize (Hmax _ Ec). lia.
  - destruct Hl as [?|[i' Hi]]; [done|]. pose proof (Hno _ _ _ _ _ Hf1 Hf2 Hi) as H2. destruct Hc as [Hc|[j' Hj]]; [|pose proof (Hno _ _ _ _ _ Hf2 Hf1 Hj); lia].
    specialize (Hle _ Hc). assert (starts (t_uid t) (log s) <> N.of_nat (length l)) by congruence. lia.
Qed.
Theorem C69_as_often_partial pf t0 t1 t s i l : replaced pf t0 t1 t s -> t_maxpar t = None -> count (t_freq t) <> Some 0 -> tpc s <> TDead -> hpc s <> HDead -> ended i (t_uid t) s ->
  demands pf t l -> count (t_freq t) = Some (N.of_nat (length l)) -> starts (t_uid t) (log s) = N.of_nat (length l).
Proof. intros Hp Hmp H0 Ht Hh Hx Hd Hc. destruct (over_starts _ _ _ _ _ _ _ Hp Hmp H0 Ht Hh Hx Hd) as [[_ ?]|[? _]]; done. Qed.
Print Assumptions C69_as_often_partial.
Theorem C69_once_more pf t0 t1 t s i l : replaced pf t0 t1 t s -> t_maxpar t = None -> count (t_freq t) <> Some 0 -> tpc s <> TDead -> hpc s <> HDead -> ended i (t_uid t) s ->
  demands pf t l -> count (t_freq t) <> Some (N.of_nat (length l)) -> starts (t_uid t) (log s) = N.of_nat (length l) + 1.
Proof. intros Hp Hmp H0 Ht Hh Hx Hd Hc. destruct (over_starts _ _ _ _ _ _ _ Hp Hmp H0 Ht Hh Hx Hd) as [[? _]|[_ ?]]; done. Qed.
Print Assumptions C69_once_more.

(** ** In executions *)
Lemma replaced_later pf t0 t1 σ lb t n : exec pf t0 t1 σ lb -> replaced pf t0 t1 t (σ n) -> (forall k, (n <= k)%nat -> ~ calls (t_id t) (lb k)) -> forall k, (n <= k)%nat -> replaced pf t0 t1 t (σ k).
Proof. intros He Hp Hc k Hk. induction Hk as [|k Hk IH]; [done|]. eapply rep_step; [exact IH|by apply Hc|apply (ex_step _ _ _ _ _ He)]. Qed.
Lemma replaced_placed pf t0 t1 t s : replaced pf t0 t1 t s -> placed (t_id t) (t_uid t) s \/ ended (t_id t) (t_uid t) s \/ unmarked (t_id t) (t_uid t) s \/ tpc s = TDead \/ hpc s = HDead.
Proof.
  intros Hp. destruct (replaced_off _ _ _ _ _ Hp) as [Hq Hh].
  destruct (replaced_bal _ _ _ _ _ Hp) as [x [E _] Hy ?|x c h k [E _] Hy ?|x c sl [E _] Hy ?|d Hy ?|k Hy ?|x [E _] Hy ?|[] Hy Hne ?|? ? ?|[Hy|[?|?]]]; auto.
  - exfalso. destruct Hy as [Hy|Hy]; exact (Hq _ Hy E).
  - rewrite Hy in Hh. done.
  - rewrite Hy in Hh. done.
  - left. left. by exists d.
  - left. right. by exists k.
  - exfalso. destruct Hy as [Hy|[sl Hy]]; rewrite Hy in Hh; done.
Qed.
(** A task without parallel limit that has been put in the place of another and is left alone then is started any number of times; or as often as its countdown says or, if its schedule ends
    earlier, once more than there are dates; unless the timer is stopped or one of its threads dies. *)
Theorem C69_exactly pf t0 t1 σ lb t n : exec pf t0 t1 σ lb -> weakly_fair pf by_handler σ lb -> strongly_fair pf by_scheduler σ lb ->
  t_maxpar t = None -> count (t_freq t) <> Some 0 -> replaced pf t0 t1 t (σ n) -> (forall k, (n <= k)%nat -> ~ calls (t_id t) (lb k)) ->
  forall a, exists m, (n <= m)%nat /\ (a <= starts (t_uid t) (log (σ m)) \/
    (exists l j, follows pf (iter_of (t_freq t)) l j /\ (count (t_freq t) = Some (N.of_nat (length l) + 1) \/ exists j', iter_next pf j = Ret (None, j')) /\
      forall k, (m <= k)%nat -> starts (t_uid t) (log (σ k)) = N.of_nat (length l) + 1 /\ forall x, x ∈ Spec.held (σ k) -> t_uid x <> t_uid t) \/
    tpc (σ m) = TStopped \/ tpc (σ m) = TDead \/ hpc (σ m) = HDead).
Proof.
  intros He Hh Hs Hmp H0 Hp Hc a. pose proof (replaced_later _ _ _ _ _ _ _ He Hp Hc) as Hl.
  assert (exists m, (n <= m)%nat /\ (a <= starts (t_uid t) (log (σ m)) \/ ended (t_id t) (t_uid t) (σ m) \/ tpc (σ m) = TStopped \/ tpc (σ m) = TDead \/ hpc (σ m) = HDead)) as (m & Hm & Hx).
  { pose proof (replaced_sub _ _ _ _ _ Hp) as Hsub.
    destruct (replaced_placed _ _ _ _ _ Hp) as [Hpl|[?|[Hu|[?|?]]]]; try (exists n; auto 10; fail).
    - destruct (starts_for_ever _ _ _ _ _ t n He Hh Hs Hsub Hmp) with (a := a) as (m & Hm & Hx); [|exact (replaced_alone _ _ _ _ _ Hp)|done|].
      + intros k Hk _. apply off_on. exact (replaced_off _ _ _ _ _ (Hl k Hk)).
      + exists m. split; [done|]. unfold off in Hx. tauto.
    - exfalso. destruct (unlimited _ _ _ _ _ (exec_reach _ _ _ _ _ n He) Hsub Hmp) as [_ Hy]. by destruct (Hy (t_id t)). }
  exists m. split; [done|]. destruct Hx as [?|[Hx|?]]; auto. pose proof (Hl m Hm) as Hpm. pose proof (exec_reach _ _ _ _ _ m He) as Hr.
  destruct (dead_dec (hpc (σ m))) as [?|Hhd]; [auto|].
  assert (tpc (σ m) = TDead \/ tpc (σ m) <> TDead) as [?|Htd] by (destruct (tpc (σ m)); first [by left|right; discriminate]); [auto|]. right. left.
  destruct (unlimited _ _ _ _ _ Hr (replaced_sub _ _ _ _ _ Hpm) Hmp) as [E Hum].
  destruct (C69_every_date _ _ _ _ _ _ Hpm H0 Htd Hhd Hx Hum) as (l & j & H1 & H2 & H3). rewrite E in H2. exists l, j. split; [done|]. split; [by rewrite <- H2|]. intros k Hk.
  destruct (nowhere_later _ _ _ _ _ _ _ _ He (ended_nowhere _ _ _ _ _ _ Hr Hx) Hk) as [Hno E']. split; [congruence|]. intros x Hin Eu. apply (held_uid _ x Hin). by rewrite Eu.
Qed.
Print Assumptions C69_exactly.
(** An interval task with a countdown of [c] is started exactly [c] times. *)
Theorem C69_calm_interval t0 t1 σ lb t c st n : calm_exec t0 t1 σ lb -> weakly_fair Release by_handler σ lb -> strongly_fair Release by_scheduler σ lb ->
  t_maxpar t = None -> t_freq t = SecondsCountDown c st -> 1 <= c -> replaced Release t0 t1 t (σ n) -> (forall k, (n <= k)%nat -> ~ calls (t_id t) (lb k)) ->
  exists m, (n <= m)%nat /\ forall k, (m <= k)%nat -> starts (t_uid t) (log (σ k)) = c /\ forall x, x ∈ Spec.held (σ k) -> t_uid x <> t_uid t.
Proof.
  intros Hca Hh Hs Hmp Hf H1 Hp Hc. pose proof (calm_is_exec _ _ _ _ Hca) as He.
  destruct (C69_exactly _ _ _ _ _ t n He Hh Hs Hmp) with (a := c + 1) as (m & Hm & Hx); [rewrite Hf; intros E; injection E as ->; lia|done..|].
  destruct (calm_going _ _ _ (calm_reach _ _ _ _ m Hca)) as (G1 & G2 & G3). destruct Hx as [Hx|[(l & j & H2 & H3 & Hx)|[?|[?|?]]]]; try done.
  - pose proof (C04_at_most_n_starts _ _ _ _ _ c (exec_reach _ _ _ _ _ m He) (replaced_sub _ _ _ _ _ (replaced_later _ _ _ _ _ _ _ He Hp Hc m Hm)) ltac:(by rewrite Hf) H1). lia.
  - exists m. split; [done|]. destruct H3 as [H3|[j' H3]].
    + rewrite Hf in H3. injection H3 as ->. exact Hx.
    + exfalso. rewrite Hf in H2. apply next_none_cron in H3 as [x ->]. apply follows_kind in H2 as [_ H2]. by destruct H2 as [? ?]; [eauto|].
Qed.
Print Assumptions C69_calm_interval.
(** A repeated interval task is started any number of times. *)
Theorem C69_calm_starts_for_ever t0 t1 σ lb t st n : calm_exec t0 t1 σ lb -> weakly_fair Release by_handler σ lb -> strongly_fair Release by_scheduler σ lb ->
  t_maxpar t = None -> t_freq t = SecondsRepeated st -> replaced Release t0 t1 t (σ n) -> (forall k, (n <= k)%nat -> ~ calls (t_id t) (lb k)) ->
  forall a, exists m, (n <= m)%nat /\ a <= starts (t_uid t) (log (σ m)).
Proof.
  intros Hca Hh Hs Hmp Hf Hp Hc a. pose proof (calm_is_exec _ _ _ _ Hca) as He.
  destruct (C69_exactly _ _ _ _ _ t n He Hh Hs Hmp) with (a := a) as (m & Hm & Hx); [rewrite Hf; discriminate|done..|]. exists m. split; [done|].
  destruct (calm_going _ _ _ (calm_reach _ _ _ _ m Hca)) as (G1 & G2 & G3). destruct Hx as [Hx|[(l & j & H2 & H3 & Hx)|[?|[?|?]]]]; try done. exfalso. rewrite Hf in H2, H3. destruct H3 as [H3|[j' H3]]; [discriminate H3|].
  apply next_none_cron in H3 as [x ->]. apply follows_kind in H2 as [_ H2]. by destruct H2 as [? ?]; [eauto|].
Qed.
Print Assumptions C69_calm_starts_for_ever.

(** ** Examples *)
Definition updb (t : task) (s : sys) : bool :=
  match hpc s, tpc_task (tpc s), wheel_tasks (wheel s), queue s with
  | HUpd x sl, [], [_], [] => (t_uid x =? t_uid t) && match wheel s !! sl with Some m => match m !! t_id t with Some _ => true | None => false end | None => false end
  | _, _, _, _ => false
  end.
Lemma upd_scen pf t0 t1 acts1 acts2 t (P : sys -> bool) : Do (LUpdate t) ∈ acts1 -> (forall lb, Do lb ∈ acts2 -> ~ calls (t_id t) lb) ->
  after pf t0 t1 acts1 (fun s => updb t s && match step pf LHandler s with Some s1 => match play pf acts2 s1 with Some s2 => P s2 | None => false end | None => false end) = true ->
  exists s, replaced pf t0 t1 t s /\ P s = true /\ forall Q : label -> Prop, free Q -> (forall lb, Do lb ∈ acts1 ++ acts2 -> Q lb) -> reaches Q pf (init t0 t1) s.
Proof.
  intros Hin Hc. unfold after. rewrite init0_eq. destruct (play pf acts1 (init t0 t1)) as [s|] eqn:E; [|intros H; discriminate H]. intros H. apply andb_true_iff in H as [Hb H].
  pose proof (play_reach _ _ _ _ _ E) as Hr. pose proof (play_submitted pf acts1 _ s _ t E Hin (or_intror (or_intror eq_refl))) as Hsub.
  destruct (step pf LHandler s) as [s1|] eqn:Es; [|discriminate H]. destruct (play pf acts2 s1) as [s2|] eqn:E2; [|discriminate H]. exists s2. split; [|split; [exact H|]].
  2: { intros Q HQ Hacts. eapply reaches_trans; [refine (play_reaches Q pf acts1 _ _ HQ _ E); intros lb Hlb; apply Hacts, elem_of_app; by left|].
    eapply reaches_trans; [eapply reaches_step; [apply HQ|exact Es]|refine (play_reaches Q pf acts2 _ _ HQ _ E2); intros lb Hlb; apply Hacts, elem_of_app; by right]. }
  assert (replaced pf t0 t1 t s1) as Hp.
  { unfold updb in Hb. destruct (hpc s) eqn:Eh; try discriminate Hb. destruct (tpc_task (tpc s)) eqn:Et; [|discriminate Hb]. destruct (wheel_tasks (wheel s)) as [|x [|]] eqn:Ew; try discriminate Hb.
    destruct (queue s) eqn:Eq; [|discriminate Hb]. apply andb_true_iff in Hb as [H1 H3]. apply N.eqb_eq in H1.
    assert (t2 = t) as ->.
    { destruct (src_reach _ _ _ _ Hr) as [_ Hx]. rewrite Eh in Hx. apply (ci_uniq _ (cnt_reach _ _ _ _ Hr)); [|done|done]. exists (EUpdate t2). split; [exact Hx|by right; right]. }
    destruct (wheel s !! sl) as [m|] eqn:Em; [|discriminate H3]. destruct (m !! t_id t) as [z|] eqn:Ez; [|discriminate H3].
    apply (rep_upd _ _ _ _ s s1 sl); [done|done| |rewrite Eq; intros e He; by apply elem_of_nil in He|done].
    assert (z ∈ wheel_tasks (wheel s)) as Hz by (apply elem_of_wheel_tasks; eauto). rewrite Ew in Hz. apply elem_of_list_singleton in Hz as ->.
    intros y [Hy|Hy] _; [rewrite Et in Hy; by apply elem_of_nil in Hy|]. rewrite Ew in Hy. apply elem_of_list_singleton in Hy as ->. by exists m. }
  destruct (play_reaches (fun lb => ~ calls (t_id t) lb) pf acts2 s1 s2) as (ls & Hls & Hrun); [split; [intros ch r now|]; intros []|done|done|].
  clear - Hp Hls Hrun. revert s1 Hp Hrun. induction Hls as [|lb ls Hlb Hls IH]; intros s1 Hp Hrun; cbn [run] in Hrun; [by injection Hrun as <-|].
  destruct (step pf lb s1) as [s'|] eqn:Es; [|discriminate Hrun]. apply (IH s'); [by eapply rep_step|done].
Qed.
(** A task that is started every five seconds is replaced after two seconds by one whose cron schedule has two dates, 150 and 180. *)
Definition cron_new : task := Task 2 11 (CronExpressionRepeated two_dates) None 0 true None.
Definition cron_acts : list act := [Do (LInsert (every 1 11 5 100)); Handle; Ticks 2; Do (LUpdate cron_new); Do LHandler].
Lemma cron_over : exists s, replaced Release 100 100 cron_new s /\ tpc s <> TDead /\ hpc s <> HDead /\ ended 11 2 s /\ starts 2 (log s) = 3 /\ OLaunch 2 11 0 6 106 ∈ log s.
Proof.
  destruct (upd_scen Release 100 100 cron_acts [Ticks 90] cron_new (fun s => inb (ODrop 2 11 NoDate) (log s) && (starts 2 (log s) =? 3) && inb (OLaunch 2 11 0 6 106) (log s) &&
    match tpc s with TDead => false | _ => true end && match hpc s with HDead => false | _ => true end)) as (s & Hp & H & _); [right; right; right; left|intros lb H; by apply elem_of_list_singleton in H|vm_compute; reflexivity|].
  exists s. apply andb_true_iff in H as [H H5]. apply andb_true_iff in H as [H H4]. apply andb_true_iff in H as [H H3]. apply andb_true_iff in H as [H1 H2]. apply inb_ok in H1. apply inb_ok in H3. apply N.eqb_eq in H2.
  split_and!; try done; [intros E; rewrite E in H4; discriminate H4|intros E; rewrite E in H5; discriminate H5|by right].
Qed.
Theorem C69_as_often_refuted : ~ C69_as_often.
Proof.
  intros H. destruct cron_over as (s & Hp & Ht & Hh & He & Hn & _). pose proof (H _ _ _ cron_new s 11 [180; 150] Hp eq_refl ltac:(discriminate) Ht Hh He (C66_demands_cron cron_new eq_refl)) as E.
  change (t_uid cron_new) with 2 in E. rewrite Hn in E. discriminate E.
Qed.
Print Assumptions C69_as_often_refuted.
Example C69_once_more_example : exists s, replaced Release 100 100 cron_new s /\ tpc s <> TDead /\ hpc s <> HDead /\ ended 11 2 s /\ demands Release cron_new [180; 150] /\ starts 2 (log s) = 3 /\ OLaunch 2 11 0 6 106 ∈ log s.
Proof. destruct cron_over as (s & ? & ? & ? & ? & ? & ?). exists s. split_and!; try done. by apply C66_demands_cron. Qed.
(** It is replaced by a task to be started three times, every four seconds; seen after the first of these starts, which has the time of the old one, and continued for ever; and seen at its end. *)
Definition count_new : task := ntimes 2 11 3 4 102.
Definition count_acts : list act := [Do (LInsert (every 1 11 5 100)); Handle; Ticks 2; Do (LUpdate count_new); Do LHandler].
Example C69_over_example : exists s, replaced Release 100 100 count_new s /\ tpc s <> TDead /\ hpc s <> HDead /\ ended 11 2 s /\ demands Release count_new [114; 110; 106] /\ starts 2 (log s) = 3 /\ starts 1 (log s) = 0.
Proof.
  destruct (upd_scen Release 100 100 count_acts [Ticks 20] count_new (fun s => inb (OEnd 2 11) (log s) && (starts 2 (log s) =? 3) && (starts 1 (log s) =? 0) &&
    match tpc s with TDead => false | _ => true end && match hpc s with HDead => false | _ => true end)) as (s & Hp & H & _); [right; right; right; left|intros lb H; by apply elem_of_list_singleton in H|vm_compute; reflexivity|].
  exists s. apply andb_true_iff in H as [H H5]. apply andb_true_iff in H as [H H4]. apply andb_true_iff in H as [H H3]. apply andb_true_iff in H as [H1 H2]. apply inb_ok in H1. apply N.eqb_eq in H2. apply N.eqb_eq in H3.
  split_and!; try done; [intros E; rewrite E in H4; discriminate H4|intros E; rewrite E in H5; discriminate H5|by left|].
  change [114; 110; 106] with [as_u64 114; as_u64 110; as_u64 106]. eexists. split; [dates_tac|]. split; [|by left]. intros n E. injection E as <-. by cbn.
Qed.
Example C69_example : exists σ lb, calm_exec 100 100 σ lb /\ weakly_fair Release by_handler σ lb /\ strongly_fair Release by_scheduler σ lb /\
  replaced Release 100 100 count_new (σ 0%nat) /\ (forall k, ~ calls 11 (lb k)) /\ starts 2 (log (σ 0%nat)) = 1 /\ starts 1 (log (σ 0%nat)) = 0.
Proof.
  destruct (upd_scen Release 100 100 count_acts [Ticks 5] count_new (fun s => (starts 2 (log s) =? 1) && (starts 1 (log s) =? 0))) as (s & Hp & H & Hcr); [right; right; right; left|intros lb H; by apply elem_of_list_singleton in H|vm_compute; reflexivity|].
  specialize (Hcr calm ltac:(split; [intros ch r now|]; split; discriminate)). apply andb_true_iff in H as [H1 H2]. apply N.eqb_eq in H1. apply N.eqb_eq in H2.
  destruct (fair_exists Release 100 100 (fun n => 108 + N.of_nat n) s (replaced_reach _ _ _ _ _ Hp)) as (σ & lb & E & He & F1 & F2 & _ & _ & F5). exists σ, lb.
  assert (forall n, inner (lb n)) as Hin. { intros n. specialize (F5 n). by destruct (lb n). }
  split. { split; [rewrite E; apply Hcr; intros l Hl; change (count_acts ++ [Ticks 5]) with [Do (LInsert (every 1 11 5 100)); Handle; Ticks 2; Do (LUpdate count_new); Do LHandler; Ticks 5] in Hl; rewrite !elem_of_cons, elem_of_nil in Hl;
      repeat destruct Hl as [Hl|Hl]; try discriminate Hl; try (injection Hl as ->; split; discriminate); destruct Hl|apply He|intros k; apply inner_calm, Hin]. }
  split; [done|]. split; [done|]. rewrite E. split; [done|]. split; [|done]. intros k Hk. specialize (Hin k). by destruct (lb k).
Qed.

(* ------------------------------------------------------------------ *)
(** ** C70 An update is not lost *)
(** A task that the event handler has put into the wheel by an update is held until it is over, if there is no other call about its id. *)
Definition C70_not_lost : Prop := forall pf t0 t1 t s sl s1 ls s2, reachable pf t0 t1 s -> hpc s = HUpd t sl -> (forall e, e ∈ queue s -> ~ names (t_id t) e) -> step pf LHandler s = Some s1 ->
  Forall (fun lb => ~ calls (t_id t) lb) ls -> run pf ls s1 = Some s2 -> tpc s2 <> TDead -> hpc s2 <> HDead ->
  (exists x, x ∈ Spec.held s2 /\ t_uid x = t_uid t) \/ ended (t_id t) (t_uid t) s2 \/ unmarked (t_id t) (t_uid t) s2.
(** True if all the scheduler has under this id at that moment waits in the slot that the handler uses. *)
Lemma replaced_run pf t0 t1 t ls s s' : replaced pf t0 t1 t s -> Forall (fun lb => ~ calls (t_id t) lb) ls -> run pf ls s = Some s' -> replaced pf t0 t1 t s'.
Proof.
  intros Hp Hls. revert s Hp. induction Hls as [|lb ls Hlb Hls IH]; intros s1 Hp Hrun; cbn [run] in Hrun; [by injection Hrun as <-|].
  destruct (step pf lb s1) as [s2|] eqn:Es; [|discriminate Hrun]. apply (IH s2); [by eapply rep_step|done].
Qed.
Theorem C70_not_lost_partial pf t0 t1 t s sl s1 ls s2 : reachable pf t0 t1 s -> hpc s = HUpd t sl -> (forall e, e ∈ queue s -> ~ names (t_id t) e) -> step pf LHandler s = Some s1 ->
  (forall y, with_scheduler s y -> t_id y = t_id t -> sits s (t_id t) sl y) -> Forall (fun lb => ~ calls (t_id t) lb) ls -> run pf ls s1 = Some s2 -> tpc s2 <> TDead -> hpc s2 <> HDead ->
  (exists x, x ∈ Spec.held s2 /\ t_uid x = t_uid t) \/ ended (t_id t) (t_uid t) s2 \/ unmarked (t_id t) (t_uid t) s2.
Proof.
  intros Hr Hh Hq Hs Hy Hls Hrun Ht Hhd. assert (replaced pf t0 t1 t s1) as Hp by (by eapply rep_upd). pose proof (replaced_run _ _ _ _ _ _ _ Hp Hls Hrun) as Hp2.
  destruct (replaced_placed _ _ _ _ _ Hp2) as [Hx|[?|[?|[?|?]]]]; auto; try done. left. destruct (placed_with _ _ _ Hx) as (x & Hw & [_ E]). exists x. split; [|done]. unfold Spec.held. rewrite !elem_of_app. destruct Hw; auto.
Qed.
Print Assumptions C70_not_lost_partial.
(** Non-vacuous: the states of [C69_over_example] and [C69_example] are such states [s2]. *)
(** The scheduler is about to put the task [y] into the slot [sl]. *)
Definition parks_in (pf : profile) (s : sys) (y : task) (sl : N) : Prop :=
  exists l ids upd d y' sum, tpc s = TPark l ids y upd /\ get_next_exec_timestamp pf y = Ret (Some d, y') /\ add64 pf (park_distance d (l_ts l)) (l_next l) = Ret sum /\ sum mod SLOTS = sl.
(** Exactly: a waiting task is lost when the scheduler puts another one with the same id into its slot, and in no other step in which the event handler does not work on this id. *)
Theorem C70_lost_exactly pf t0 t1 lb s s' i sl x : reachable pf t0 t1 s -> step pf lb s = Some s' -> sits s i sl x -> (lb = LHandler -> handler_on (hpc s) <> Some i) -> tpc s' <> TDead ->
  nowhere (t_uid x) s' <-> exists ch rec now y, lb = LTimer ch rec now /\ parks_in pf s y sl /\ t_id y = i.
Proof.
  intros Hr Hs Hx Hn Hd.
  assert (forall y, with_scheduler s' y -> t_uid y = t_uid x -> ~ nowhere (t_uid x) s') as Hin.
  { intros y Hy E [_ Hno]. apply Hno. rewrite <- E. apply elem_of_list_fmap_1. unfold Spec.held. rewrite !elem_of_app. destruct Hy; auto. }
  assert (waits s s' i sl x -> ~ nowhere (t_uid x) s') as Hw.
  { intros [(x' & Hx' & _ & c & ->)|(l & ids & E & _)]; [refine (Hin (set_cylinder_line c x) _ eq_refl); right; by eapply Timing.sits_held|refine (Hin x _ eq_refl); left; rewrite E; left]. }
  split.
  - intros Hno. assert (Spec.touches i lb s \/ ~ Spec.touches i lb s) as [Ht|Ht].
    { destruct lb; try (by right; intros []); cbn [Spec.touches]; [|right; by apply Hn].
      destruct (tpc s) eqn:E; try (by right; intros (? & ? & ? & ? & H & _)). destruct (decide (t_id t = i)) as [Ei|Ei]; [left; eauto 10|right; intros (? & ? & ? & ? & H & Hi)]. injection H as -> -> -> ->. done. }
    2: { by destruct (Hw (frame_step _ _ _ _ _ _ _ _ _ Hr Hs Hx Ht Hd)). }
    assert ((exists ch rec now, lb = LTimer ch rec now) \/ lb = LHandler) as [(ch & rec & now & ->)| ->]; [by destruct lb; try (by destruct Ht); eauto 10| |by destruct (Hn eq_refl)].
    destruct Ht as (l & ids & y & upd & Hp & Hi). exists ch, rec, now, y. split; [done|]. split; [|done].
    assert (forall m, wheel s !! sl = Some m -> wheel s' !! sl = Some m -> False) as Hsame.
    { intros m Hm Hm'. destruct Hx as (g & Hg & Hk). refine (Hin x _ eq_refl Hno). right. apply elem_of_wheel_tasks. exists sl, m, i. split; [done|]. congruence. }
    pose proof Hx as (m & Hm & Hk). cbn [step] in Hs. unfold timer_step in Hs. rewrite Hp in Hs.
    destruct (get_next_exec_timestamp pf y) as [[[d|] y']|] eqn:Hnx.
    2: { exfalso. apply (Hsame m Hm). by injection Hs as <-. }
    2: { injection Hs as <-. done. }
    destruct (add64 pf (park_distance d (l_ts l)) (l_next l)) as [sum|] eqn:Hsum; [|injection Hs as <-; done].
    exists l, ids, upd, d, y', sum. split_and!; try done. destruct (decide (sum mod SLOTS = sl)) as [?|Hne]; [done|exfalso]. apply (Hsame m Hm).
    destruct (wheel s !! (sum mod SLOTS)); injection Hs as <-; [|done]. fsimpl. by rewrite lookup_insert_ne.
  - intros (ch & rec & now & y & -> & (l & ids & upd & d & y' & sum & Hp & Hnx & Hsum & <-) & Hi). pose proof Hx as (m & Hm & Hk). cbn [step] in Hs. unfold timer_step in Hs. rewrite Hp, Hnx, Hsum, Hm in Hs. injection Hs as <-.
    apply (uid_dropped s); [exact (own_reach _ _ _ _ Hr)|by eapply Meanwhile.sits_held|done|]. rewrite !uids_eq, Hp. fsimpl. cbn [tpc_task fmap list_fmap app].
    assert (t_id y' = t_id y /\ t_uid y' = t_uid y) as [E1 E2] by (exact (steady_next _ _ _ _ _ _ (conj eq_refl eq_refl) Hnx)).
    assert (slot_add_task m (set_cylinder_line (park_distance d (l_ts l) / SLOTS) y') = <[i := set_cylinder_line (park_distance d (l_ts l) / SLOTS) y']> m) as -> by (unfold slot_add_task; cbn [t_id set_cylinder_line]; by rewrite E1, Hi).
    pose proof (uids_wheel_put (wheel s) (sum mod SLOTS) m i x (set_cylinder_line (park_distance d (l_ts l) / SLOTS) y') Hm Hk) as Hput. cbn [t_uid set_cylinder_line] in Hput. rewrite E2 in Hput.
    rewrite <- Hput. by rewrite !Permutation_middle.
Qed.
Print Assumptions C70_lost_exactly.
(** A task that the scheduler has taken from the slot under the second hand goes back into that slot if and only if its next date is a multiple of an hour away, counted from the start of the
    iteration after which it was taken. *)
Theorem C70_hourly pf t0 t1 s y l ids upd d y' : reachable pf t0 t1 s -> tpc s = TPark l ids y upd -> get_next_exec_timestamp pf y = Ret (Some d, y') -> l_ts l <= d -> d - l_ts l + SLOTS < U64 ->
  parks_in pf s y (l_hand l) <-> (d - l_ts l + 1) mod SLOTS = 0.
Proof.
  intros Hr Hp Hnx Hle Hlt. destruct (wf_loop s (wf_reach _ _ _ _ Hr) l ltac:(by rewrite Hp)) as [E1 E2]. pose proof (wf_hand s (wf_reach _ _ _ _ Hr)) as E3.
  assert (hand s < SLOTS) as Hh by (rewrite E3; apply N.mod_lt; discriminate). assert (l_next l < SLOTS) as Hn by (rewrite E2; apply N.mod_lt; discriminate).
  assert (park_distance d (l_ts l) = d - l_ts l) as Ed. { unfold park_distance, checked_sub. by rewrite (proj2 (N.leb_le _ _) Hle). }
  assert (add64 pf (park_distance d (l_ts l)) (l_next l) = Ret (d - l_ts l + l_next l)) as Ea. { rewrite Ed. unfold add64. rewrite (proj2 (N.ltb_lt _ _)); [done|lia]. }
  assert ((d - l_ts l + l_next l) mod SLOTS = l_hand l <-> (d - l_ts l + 1) mod SLOTS = 0) as Hiff.
  { rewrite E1, E2, N.add_mod_idemp_r by discriminate. rewrite (N.add_comm (hand s)), N.add_assoc. rewrite <- (N.add_mod_idemp_l _ (hand s)) by discriminate.
    pose proof (N.mod_lt (d - l_ts l + 1) SLOTS ltac:(discriminate)) as Hz. set (z := (d - l_ts l + 1) mod SLOTS) in *. clearbody z. clear - Hz Hh. split.
    - intros Hm. destruct (N.lt_ge_cases (z + hand s) SLOTS) as [Hs|Hs]; [rewrite N.mod_small in Hm; lia|].
      assert (z + hand s - SLOTS = (z + hand s) mod SLOTS) as E by (apply (N.mod_unique _ _ 1); lia). rewrite <- E in Hm. clear E. lia.
    - intros ->. by rewrite N.add_0_l, N.mod_small. }
  rewrite <- Hiff. split.
  - intros (l' & ids' & upd' & d' & z & sum & Hp' & Hnx' & Hsum & Hm). rewrite Hp in Hp'. injection Hp' as <- <- <-. rewrite Hnx in Hnx'. injection Hnx' as <- <-. rewrite Ea in Hsum. by injection Hsum as <-.
  - intros Hm. exists l, ids, upd, d, y', (d - l_ts l + l_next l). done.
Qed.
Print Assumptions C70_hourly.

(** It is false: an hourly task is updated while the scheduler has it.  The new task is put into the slot from which the old one was taken, and is overwritten when the old one is put back.  The
    caller is told that the update was done, and the old task goes on. *)
Definition hourly_new : task := every 2 11 500 3600.
Definition hourly_acts : list act := [Do (LInsert (every 1 11 3600 100)); Handle; Ticks 3600] ++ replicate 9 (Do (LTimer 0 0 3701)) ++ [Do (LUpdate hourly_new); Do LHandler].
Definition lostb (u : N) (s : sys) : bool := bool_decide (uids s = [u]).
Lemma hourly_lost : exists s sl s1 ls s2, reachable Release 100 100 s /\ hpc s = HUpd hourly_new sl /\ queue s = [] /\ step Release LHandler s = Some s1 /\
  Forall (fun lb => ~ calls 11 lb) ls /\ run Release ls s1 = Some s2 /\ tpc s2 <> TDead /\ hpc s2 <> HDead /\ (forall x, x ∈ Spec.held s2 -> t_uid x <> 2) /\ starts 2 (log s2) = 0 /\ ~ ended 11 2 s2 /\ ~ unmarked 11 2 s2 /\
  (exists x, x ∈ Spec.held s2 /\ t_uid x = 1).
Proof.
  assert (after Release 100 100 hourly_acts (fun s => match hpc s with HUpd x sl => t_uid x =? 2 | _ => false end && match queue s with [] => true | _ => false end &&
    match step Release LHandler s with Some s1 => match play Release [Ticks 1] s1 with Some s2 => lostb 1 s2 && (starts 2 (log s2) =? 0) && forallb (fun o => match o with OEnd _ _ | ODrop _ _ _ => false | _ => true end) (log s2) &&
      match tpc s2 with TDead => false | _ => true end && match hpc s2 with HDead => false | _ => true end | None => false end | None => false end) = true) as H by (vm_compute; reflexivity).
  unfold after in H. rewrite init0_eq in H. destruct (play Release hourly_acts (init 100 100)) as [s|] eqn:E; [|discriminate H]. apply andb_true_iff in H as [H H3]. apply andb_true_iff in H as [H1 H2].
  pose proof (play_reach _ _ _ _ _ E) as Hr. assert (Do (LUpdate hourly_new) ∈ hourly_acts) as Hin by (unfold hourly_acts; rewrite !elem_of_app; right; right; left).
  pose proof (play_submitted Release hourly_acts _ s _ hourly_new E Hin (or_intror (or_intror eq_refl))) as Hsub.
  destruct (step Release LHandler s) as [s1|] eqn:Es; [|discriminate H3]. destruct (play Release [Ticks 1] s1) as [s2|] eqn:E2; [|discriminate H3].
  destruct (hpc s) eqn:Eh; try discriminate H1. apply N.eqb_eq in H1. destruct (queue s) eqn:Eq; [|discriminate H2].
  assert (t = hourly_new) as ->.
  { destruct (src_reach _ _ _ _ Hr) as [_ Hx]. rewrite Eh in Hx. apply (ci_uniq _ (cnt_reach _ _ _ _ Hr)); [|done|done]. exists (EUpdate t). split; [exact Hx|by right; right]. }
  destruct (play_reaches (fun lb => ~ calls 11 lb) Release [Ticks 1] s1 s2) as (ls & Hls & Hrun); [split; [intros ch r now|]; intros []|intros lb Hlb; by apply elem_of_list_singleton in Hlb|done|].
  apply andb_true_iff in H3 as [H3 G5]. apply andb_true_iff in H3 as [H3 G4]. apply andb_true_iff in H3 as [H3 G3]. apply andb_true_iff in H3 as [G1 G2]. apply bool_decide_eq_true in G1. apply N.eqb_eq in G2.
  rewrite forallb_forall in G3. exists s, sl, s1, ls, s2.
  split; [exact Hr|]. split; [exact Eh|]. split; [exact Eq|]. split; [exact Es|]. split; [exact Hls|]. split; [exact Hrun|]. clear E E2 Hin Hsub Hr Es Hrun Hls. split_and!; try (exact G2).
  - intros Ex. rewrite Ex in G4. discriminate G4.
  - intros Ex. rewrite Ex in G5. discriminate G5.
  - intros x Hx Ex. assert (t_uid x ∈ uids s2) as Hy by (by apply elem_of_list_fmap_1). rewrite G1, Ex in Hy. apply elem_of_list_singleton in Hy. discriminate Hy.
  - intros [Hx|Hx]; apply elem_of_list_In, G3 in Hx; discriminate Hx.
  - intros Hx. apply elem_of_list_In, G3 in Hx. discriminate Hx.
  - assert (1 ∈ uids s2) as Hy by (rewrite G1; left). apply elem_of_list_fmap in Hy as (x & Ex & Hx). by exists x.
Qed.
Theorem C70_not_lost_refuted : ~ C70_not_lost.
Proof.
  intros H. destruct hourly_lost as (s & sl & s1 & ls & s2 & Hr & Hh & Hq & Hs & Hls & Hrun & Ht & Hd & Hno & _ & Hne & Hnu & _).
  destruct (H _ _ _ hourly_new s sl s1 ls s2 Hr Hh) as [(x & Hx & Ex)|[?|?]]; try done; [rewrite Hq; intros e He; by apply elem_of_nil in He|by apply (Hno x)].
Qed.
Print Assumptions C70_not_lost_refuted.
(** The step of the loss. *)
Example C70_lost_example : exists s s' x y, reachable Release 100 100 s /\ step Release (LTimer 0 0 3701) s = Some s' /\ sits s 11 1 x /\ t_uid x = 2 /\ parks_in Release s y 1 /\ t_id y = 11 /\ tpc s' <> TDead /\
  exists l ids upd d y', tpc s = TPark l ids y upd /\ get_next_exec_timestamp Release y = Ret (Some d, y') /\ l_hand l = 1 /\ d - l_ts l + 1 = 3600.
Proof.
  assert (after Release 100 100 (hourly_acts ++ [Do LHandler] ++ replicate 4 (Do (LTimer 0 0 3701))) (fun s => match step Release (LTimer 0 0 3701) s with Some s' => match tpc s' with TDead => false | _ => true end | None => false end &&
    match wheel s !! 1 with Some m => match m !! 11 with Some x => t_uid x =? 2 | None => false end | None => false end && match tpc s with TPark l ids y upd => (t_id y =? 11) && (l_hand l =? 1) && match get_next_exec_timestamp Release y with Ret (Some d, _) => (d - l_ts l + 1 =? 3600) && match add64 Release (park_distance d (l_ts l)) (l_next l) with Ret sum => sum mod SLOTS =? 1 | Panic => false end | _ => false end | _ => false end) = true) as H by (vm_compute; reflexivity).
  apply after_reach in H as (s & Hr & H). apply andb_true_iff in H as [H H3]. apply andb_true_iff in H as [H1 H2]. destruct (step Release _ s) as [s'|] eqn:Es; [|discriminate H1].
  destruct (wheel s !! 1) as [m|] eqn:Em; [|discriminate H2]. destruct (m !! 11) as [x|] eqn:Ex; [|discriminate H2]. apply N.eqb_eq in H2. destruct (tpc s) eqn:Et; try discriminate H3.
  apply andb_true_iff in H3 as [H3 H4]. apply andb_true_iff in H3 as [H3 H5]. apply N.eqb_eq in H3. apply N.eqb_eq in H5. destruct (get_next_exec_timestamp Release t) as [[[d|] y']|] eqn:En; try discriminate H4.
  apply andb_true_iff in H4 as [H4 H6]. apply N.eqb_eq in H4. destruct (add64 _ _ _) as [sum|] eqn:Ea; [|discriminate H6]. apply N.eqb_eq in H6.
  exists s, s', x, t. split_and!; try done; [by exists m|by exists l, ids, upd, d, y', sum|intros E; rewrite E in H1; discriminate H1|by exists l, ids, upd, d, y'].
Qed.
