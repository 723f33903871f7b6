(** A task that is advanced is still started on each of its dates (C68). *)
From Verif Require Import Tactics Inv Own Life Count Quiet Timing Cases Frame Fifo Scen Crash Arrival Meanwhile Kept Live LiveEnd PropSched PropCancel PropRemove PropLive PropCalm PropChain PropEnding PropNext Sched Lost Stay PropOrphan PropLife PropAsk PropAdvance Chain PropExact.

(** * Specification *)

(** The event handler is about to read the second hand for an advance of [i], and it stands on the last slot. *)
Definition reads_last (i : N) (s : sys) : Prop := exists x, hpc s = HAdv2 x /\ t_id x = i /\ hand s + 1 = SLOTS.
(** States reached without such a step. *)
Inductive careful (pf : profile) (t0 t1 i : N) : sys -> Prop :=
| careful_init : careful pf t0 t1 i (init t0 t1)
| careful_step lb s s' : careful pf t0 t1 i s -> ~ (lb = LHandler /\ reads_last i s) -> step pf lb s = Some s' -> careful pf t0 t1 i s'.
Lemma careful_reach pf t0 t1 i s : careful pf t0 t1 i s -> reachable pf t0 t1 s.
Proof. induction 1 as [|lb s s' _ IH _ Hs]; [by exists []|]. exact (reach_step _ _ _ _ _ _ IH Hs). Qed.

(** * What is not lost stays *)
Lemma adv3_step pf lb s s' x sl : step pf lb s = Some s' -> hpc s' = HAdv3 x sl -> hpc s = HAdv3 x sl \/ (lb = LHandler /\ hpc s = HAdv2 x /\ sl = hand s + 1).
Proof.
  intros Hs. step_inv Hs; inst_shape; fsimpl; intros E; try discriminate E; try (left; congruence).
  right. by injection E as -> <-.
Qed.
Lemma careful_slot pf t0 t1 i s x sl : careful pf t0 t1 i s -> hpc s = HAdv3 x sl -> t_id x = i -> sl < SLOTS.
Proof.
  intros Hc. revert x sl. induction Hc as [|lb s s' Hc IH Hn Hs]; intros x sl Hh Hi; [change (hpc (init t0 t1)) with HIdle in Hh; discriminate Hh|].
  destruct (adv3_step _ _ _ _ _ _ Hs Hh) as [Hh0|(-> & Eh & ->)]; [by apply (IH x)|].
  pose proof (careful_reach _ _ _ _ _ Hc) as Hr. pose proof (wf_hand _ (wf_reach _ _ _ _ Hr)) as Hw.
  assert (hand s < SLOTS) as Hlt by (rewrite Hw; apply N.mod_lt; discriminate). destruct (decide (hand s + 1 = SLOTS)) as [E|?]; [|lia]. destruct Hn. split; [done|]. by exists x.
Qed.
Lemma careful_bal pf t0 t1 s t : careful pf t0 t1 (t_id t) s -> submitted t (log s) -> advanced_only t (log s) -> bal False 0 (t_id t) (t_uid t) s.
Proof.
  induction 1 as [|lb s s' Hc IH Hn Hs]. { change (log (init t0 t1)) with [OTick 0 t1]. intros (e & He & _) _. apply elem_of_list_singleton in He. discriminate He. }
  intros Hsub Hq. pose proof (careful_reach _ _ _ _ _ Hc) as Hr. pose proof (advanced_anti _ _ _ _ _ Hs Hq) as Hq0.
  destruct (bal_new _ _ _ False _ _ _ _ Hr Hs Hsub Hq) as [Hsub0|?]; [|done]. eapply bal_step; eauto. intros x sl _ Hh Hi Hle. pose proof (careful_slot _ _ _ _ _ _ _ Hc Hh Hi). lia.
Qed.
Lemma bal_held L e i u s : bal L e i u s -> (exists x, x ∈ Spec.held s /\ t_uid x = u) \/ L \/ ended i u s \/ unmarked i u s \/ tpc s = TDead \/ hpc s = HDead.
Proof.
  intros [x [_ E] Hx ?|x c h k [_ E] Hx ?|x c sl [_ E] Hx ?|d Hx ?|k Hx ?|x [_ E] Hx ?|Hl ? ? ?|? ? ?|[?|[?|?]]]; auto 10.
  - left. exists x. split; [|done]. unfold Spec.held. rewrite !elem_of_app. left. apply elem_of_list_bind. destruct Hx as [Hx|Hx]; (eexists; split; [|exact Hx]); apply elem_of_list_here.
  - left. exists x. split; [|done]. unfold Spec.held. rewrite !elem_of_app, Hx. right. left. apply elem_of_list_here.
  - left. exists x. split; [|done]. unfold Spec.held. rewrite !elem_of_app, Hx. right. left. apply elem_of_list_here.
  - left. destruct (due_with _ _ _ _ Hx) as (x & Hw & [_ E]). exists x. split; [|done]. unfold Spec.held. rewrite !elem_of_app. right. right. exact Hw.
  - left. destruct (started_with _ _ _ _ Hx) as (x & Hw & [_ E]). exists x. split; [|done]. unfold Spec.held. rewrite !elem_of_app. right. right. exact Hw.
  - left. exists x. split; [|done]. unfold Spec.held. rewrite !elem_of_app. right. left. destruct Hx as [->|[sl ->]]; apply elem_of_list_here.
Qed.

(* ------------------------------------------------------------------ *)
(** ** C68 Advancing a task costs it none of its starts *)
(** The full statement, first part: as long as the task has starts to come the timer holds it. *)
Definition C68_never_lost : Prop := forall pf t0 t1 s t, reachable pf t0 t1 s -> submitted t (log s) -> advanced_only t (log s) -> tpc s <> TDead -> hpc s <> HDead ->
  (exists x, x ∈ Spec.held s /\ t_uid x = t_uid t) \/ ended (t_id t) (t_uid t) s \/ unmarked (t_id t) (t_uid t) s.
(** It holds if the second hand is never read on the last slot. *)
Theorem C68_never_lost_partial pf t0 t1 s t : careful pf t0 t1 (t_id t) s -> submitted t (log s) -> advanced_only t (log s) -> tpc s <> TDead -> hpc s <> HDead ->
  (exists x, x ∈ Spec.held s /\ t_uid x = t_uid t) \/ ended (t_id t) (t_uid t) s \/ unmarked (t_id t) (t_uid t) s.
Proof. intros Hc Hsub Hq Ht Hh. destruct (bal_held _ _ _ _ _ (careful_bal _ _ _ _ _ Hc Hsub Hq)) as [?|[[]|[?|[?|[?|?]]]]]; auto; done. Qed.
Print Assumptions C68_never_lost_partial.
(** Every such reading loses the task: the date it was planned for passes without a start, and it is never started again. *)
Lemma last_read pf s s' i : reads_last i s -> step pf LHandler s = Some s' -> exists x, t_id x = i /\ hpc s' = HAdv3 x SLOTS.
Proof. intros (x & Hh & Hi & Hl) Hs. cbn [step] in Hs. unfold handler_step in Hs. rewrite Hh, Hl in Hs. injection Hs as <-. by exists x. Qed.
Theorem C68_last_slot_loses pf t0 t1 s s' t x : reachable pf t0 t1 s -> submitted t (log s) -> advanced_only t (log s) -> hpc s = HAdv3 x SLOTS -> t_id x = t_id t -> step pf LHandler s = Some s' ->
  tpc s <> TDead -> ~ unmarked (t_id t) (t_uid t) s ->
  (forall y, y ∈ Spec.held s' -> t_uid y <> t_uid t) /\ (forall j, ~ ended j (t_uid t) s') /\ N.of_nat (length (planned (t_uid t) (log s'))) = turns (t_uid t) (log s') + 1 /\
  forall ls s2, run pf ls s' = Some s2 -> starts (t_uid t) (log s2) = starts (t_uid t) (log s').
Proof.
  intros Hr Hsub Hq Hh Hi Hs Ht Hum. pose proof (reach_step _ _ _ _ _ _ Hr Hs) as Hr'.
  assert (x ∈ Spec.held s) as Hin by (unfold Spec.held; rewrite !elem_of_app, Hh; right; left; apply elem_of_list_here).
  pose proof (advanced_held _ _ _ (cnt_reach _ _ _ _ Hr) Hq Hin Hi) as Hu. pose proof Hs as Hst.
  cbn [step] in Hst. unfold handler_step in Hst. rewrite Hh in Hst. destruct (wheel s !! SLOTS) eqn:Ew. { exfalso. assert (SLOTS < SLOTS); [|lia]. eapply slot_there; [exact Hr|]. by rewrite Ew. }
  assert (nowhere (t_uid t) s') as Hno.
  { rewrite <- Hu. apply (uid_dropped s); [exact (own_reach _ _ _ _ Hr)|done|injection Hst as <-; unfold complete; fsimpl; by destruct (hpub s)|]. injection Hst as <-. apply handler_off; unfold complete; fsimpl; by (rewrite ?Hh; destruct (hpub s)). }
  assert (log s' = log s /\ tpc s' = tpc s /\ hpc s' = HIdle) as (El & Et & Eh) by (injection Hst as <-; unfold complete; fsimpl; by destruct (hpub s)).
  assert (forall j, ~ ended j (t_uid t) s') as Hne. { unfold ended. rewrite El. intros j Hj. apply (held_uid _ _ Hin). rewrite Hu. by eapply ended_nowhere. }
  assert (forall y, y ∈ Spec.held s' -> t_uid y <> t_uid t) as Hy. { intros y Hy E. apply (held_uid _ _ Hy). by rewrite E. }
  split; [done|]. split; [done|]. split; [|intros ls s2 Hrun; by eapply nowhere_run].
  rewrite <- El in Hsub, Hq. pose proof (bal_reach _ _ _ _ _ Hr' Hsub Hq) as Hb. destruct (bal_held _ _ _ _ _ Hb) as [(y & H1 & H2)|_]; [by destruct (Hy y)|].
  destruct Hb as [y [_ E] Hx ?|y c h k _ Hx ?|y c sl _ Hx ?|d Hx ?|k Hx ?|y _ Hx ?|? ? ? ?|Hx ? ?|[Hx|[Hx|Hx]]]; try done; try congruence.
  - exfalso. refine (Hy y _ E). unfold Spec.held. rewrite !elem_of_app. left. apply elem_of_list_bind. destruct Hx as [Hx|Hx]; (eexists; split; [|exact Hx]); apply elem_of_list_here.
  - exfalso. destruct (started_with _ _ _ _ Hx) as (y & Hw & [_ E]). refine (Hy y _ E). unfold Spec.held. rewrite !elem_of_app. right. right. exact Hw.
  - by destruct (Hne (t_id t)).
  - unfold unmarked in Hx. rewrite El in Hx. done.
Qed.
Print Assumptions C68_last_slot_loses.
(** A task every two hours, advanced once, in the last second of the first hour. *)
Definition advancedb (t : task) (lg : list obs) : bool :=
  forallb (fun o => match o with
    | OSend (EAdd t') | OSend (EInsert t') => negb (t_id t' =? t_id t) || (t_uid t' =? t_uid t)
    | OSend (EUpdate t') => negb (t_id t' =? t_id t)
    | OSend (ERemove i) => negb (i =? t_id t)
    | _ => true end) lg.
Lemma advancedb_ok pf t0 t1 s t : reachable pf t0 t1 s -> submitted t (log s) -> advancedb t (log s) = true -> advanced_only t (log s).
Proof.
  intros Hr Hs Hq e He Hn. unfold advancedb in Hq. rewrite forallb_forall in Hq. pose proof (Hq _ (proj1 (elem_of_list_In _ _) He)) as H.
  assert (forall t', submits t' e -> t_uid t' = t_uid t -> t' = t) as Hu by (intros t' Ht' E; eapply (ci_uniq s (cnt_reach _ _ _ _ Hr)); [by exists e|exact Hs|exact E]).
  unfold submits in Hu. destruct e; cbn in Hn, H; try done; try (rewrite Hn, N.eqb_refl in H; cbn in H; try done; apply N.eqb_eq in H).
  - left. f_equal. apply Hu; auto.
  - right. left. f_equal. apply Hu; auto.
  - right. right. by rewrite Hn.
Qed.
Definition overb (u : N) (lg : list obs) : bool := existsb (fun o => match o with OEnd u' _ | ODrop u' _ _ => u' =? u | _ => false end) lg.
Lemma overb_ok i u s : overb u (log s) = false -> ~ ended i u s /\ ~ unmarked i u s.
Proof.
  intros H. assert (forall o, o ∈ log s -> match o with OEnd u' _ | ODrop u' _ _ => u' <> u | _ => True end) as Hx.
  { intros o Ho. unfold overb in H. destruct o; try done; intros ->; rewrite <- not_true_iff_false in H; apply H; apply existsb_exists; eexists; (split; [by apply elem_of_list_In|]); cbn; apply N.eqb_refl. }
  split; [intros [Hy|Hy]; by apply (Hx _ Hy)|intros Hy; by apply (Hx _ Hy)].
Qed.
Definition last_second : list act := [Do (LInsert (every 1 11 7200 100)); Handle; Ticks 3599; Do (LAdvance 11); Handle].
Theorem C68_never_lost_refuted : ~ C68_never_lost.
Proof.
  intros H. set (t := every 1 11 7200 100).
  destruct (calm_scen 100 100 last_second (fun s => advancedb t (log s) && bool_decide (uids s = []) && negb (overb 1 (log s)))) as (s & Hcr & Hr & HP & Hs); [calm_acts last_second|vm_compute; reflexivity|].
  specialize (Hs t ltac:(left)). apply andb_true_iff in HP as [HP H3]. apply andb_true_iff in HP as [H1 H2]. apply (advancedb_ok _ _ _ _ _ Hr Hs) in H1. apply bool_decide_eq_true in H2. apply negb_true_iff in H3.
  destruct (calm_going _ _ _ Hcr) as (_ & ? & ?). destruct (overb_ok 11 1 s H3) as [? ?]. destruct (H _ _ _ s t Hr Hs H1) as [(x & Hx & Eu)|[?|?]]; try done.
  assert (t_uid x ∈ uids s) as Hy by (by apply elem_of_list_fmap_1). rewrite H2 in Hy. by apply elem_of_nil in Hy.
Qed.
Print Assumptions C68_never_lost_refuted.

(** The full statement, second part: when the task is over, there was a start on every date - or a start left out, if it has a parallel limit.  However often and whenever it was advanced. *)
Theorem C68_every_date pf t0 t1 s t i : reachable pf t0 t1 s -> submitted t (log s) -> advanced_only t (log s) -> count (t_freq t) <> Some 0 -> tpc s <> TDead -> hpc s <> HDead ->
  ended i (t_uid t) s -> (forall j, ODrop (t_uid t) j NoMark ∉ log s) ->
  exists l j, follows pf (iter_of (t_freq t)) l j /\ turns (t_uid t) (log s) = N.of_nat (length l) /\ (count (t_freq t) = Some (starts (t_uid t) (log s)) \/ exists j', iter_next pf j = Ret (None, j')).
Proof. apply every_date. Qed.
Print Assumptions C68_every_date.
Theorem C68_over_exactly pf t0 t1 s t i : reachable pf t0 t1 s -> t_maxpar t = None -> submitted t (log s) -> advanced_only t (log s) -> count (t_freq t) <> Some 0 -> tpc s <> TDead -> hpc s <> HDead ->
  ended i (t_uid t) s -> exists l, demands pf t l /\ starts (t_uid t) (log s) = N.of_nat (length l).
Proof.
  intros Hr Hmp Hsub Hq H0 Ht Hh Hx. destruct (unlimited _ _ _ _ _ Hr Hsub Hmp) as [E Hum]. destruct (C68_every_date _ _ _ _ _ _ Hr Hsub Hq H0 Ht Hh Hx Hum) as (l & j & Hf & Hl & Hc).
  rewrite E in Hl. exists l. split; [|done]. exists j. split; [done|]. rewrite <- Hl. split; [|done].
  intros n Hn. eapply C04_at_most_n_starts; [done..|]. destruct (decide (n = 0)) as [->|?]; [done|lia].
Qed.
Print Assumptions C68_over_exactly.

(** ** It comes to that, if the task is advanced finitely often *)
(** The event handler has no more advance of [i] to do. *)
Definition no_advance (i : N) (s : sys) : Prop := EAdvance i ∉ queue s /\ (forall sl, hpc s <> HAdv1 i sl) /\ (forall x, t_id x = i -> hpc s <> HAdv2 x).
Lemma no_advance_step pf t0 t1 lb s s' i : reachable pf t0 t1 s -> step pf lb s = Some s' -> lb <> LAdvance i -> no_advance i s -> no_advance i s'.
Proof.
  intros Hr Hs Hl (H1 & H2 & H3). pose proof (wf_key s (wf_reach _ _ _ _ Hr)) as Hk. clear Hr.
  unfold no_advance. split; [|split].
  - clear H2 H3 Hk. revert H1. step_inv Hs; inst_shape; fsimpl; rewrite ?elem_of_app, ?elem_of_cons; intros H1 Hx; try (by apply H1; auto).
    all: destruct Hx as [Hx|[Hx|Hx]]; [by apply H1|..]; try (by apply elem_of_nil in Hx); try discriminate Hx. injection Hx as ->. done.
  - intros sl Hh. clear Hl H3 Hk. revert Hh. step_inv Hs; inst_shape; fsimpl; intros Hh; try discriminate Hh; try (by apply (H2 sl)); try congruence.
    injection Hh as -> _. apply H1. left.
  - intros x Hx Hh. clear Hl. revert Hh. step_inv Hs; inst_shape; fsimpl; intros Hh; try discriminate Hh; try (by apply (H3 x)); try congruence.
    injection Hh as <-. apply (H2 sl). f_equal. symmetry. exact (Hk _ _ _ _ Heqo Heqo0).
Qed.
Lemma advance_sent pf lb s s' i : step pf lb s = Some s' -> lb <> LAdvance i -> sends (log s') = sends (log s) \/ exists e, sends (log s') = e :: sends (log s) /\ e <> EAdvance i.
Proof.
  intros Hs. step_inv Hs; inst_shape; fsimpl; intros Hl; rewrite ?sends_app; rewrite ?sends_inst by done; cbn [app sends]; try (by left).
  all: try (left; rewrite ?complete_log; fsimpl; destruct (hpub s); try destruct ok; done).
  all: try (rewrite (sends_inst lg) by done; by left).
  all: right; eexists; (split; [reflexivity|]); try discriminate. intros E. injection E as ->. done.
Qed.
Lemma no_advance_comes pf t0 t1 σ lb i n : exec pf t0 t1 σ lb -> weakly_fair pf by_handler σ lb -> (forall k, (n <= k)%nat -> lb k <> LAdvance i) ->
  exists m, (n <= m)%nat /\ (hpc (σ m) = HDead \/ hpc (σ m) = HIdle /\ pops (log (σ m)) = sends (log (σ n)) /\ forall k, (m <= k)%nat -> no_advance i (σ k)).
Proof.
  intros He Hh Hl. destruct (handled _ _ _ _ _ He Hh _ n (queue (σ n)) [] ltac:(by rewrite app_nil_r) (le_n _)) as (m & Hm & [Hd|[Hi Hp]]); exists m; (split; [done|]); [by left|right].
  rewrite <- (fifo_reach _ _ _ _ (exec_reach _ _ _ _ _ n He)) in Hp. split; [done|]. split; [done|].
  assert (exists l, sends (log (σ m)) = l ++ sends (log (σ n)) /\ EAdvance i ∉ l) as (l & El & Hx).
  { clear Hi Hp. induction Hm as [|k Hk (l & El & Hx)]; [exists []; split; [done|apply not_elem_of_nil]|].
    destruct (advance_sent _ _ _ _ i (ex_step _ _ _ _ _ He k) (Hl k Hk)) as [E|(e & E & Hne)]; rewrite E, El; [by exists l|]. exists (e :: l). split; [done|]. rewrite elem_of_cons. intros [?|?]; [congruence|done]. }
  rewrite (fifo_reach _ _ _ _ (exec_reach _ _ _ _ _ m He)), Hp in El. apply app_inv_tail in El.
  intros k Hk. induction Hk as [|k Hk IH].
  - split; [|rewrite Hi; split; discriminate]. intros Hq. apply Hx. rewrite <- El. by apply elem_of_reverse.
  - eapply no_advance_step; [exact (exec_reach _ _ _ _ _ k He)|apply (ex_step _ _ _ _ _ He)|apply Hl; lia|exact IH].
Qed.
(** The task is run again and again until it is over. *)
Lemma early_goes_on pf t0 t1 σ lb t n : exec pf t0 t1 σ lb -> weakly_fair pf by_handler σ lb -> strongly_fair pf by_scheduler σ lb ->
  (forall k, advanced_only t (log (σ k))) -> (forall k, careful pf t0 t1 (t_id t) (σ k)) -> (forall k, (n <= k)%nat -> lb k <> LAdvance (t_id t)) -> submitted t (log (σ n)) ->
  forall a, exists m, (n <= m)%nat /\ (a <= turns (t_uid t) (log (σ m)) \/ ended (t_id t) (t_uid t) (σ m) \/ unmarked (t_id t) (t_uid t) (σ m) \/ tpc (σ m) = TStopped \/ tpc (σ m) = TDead \/ hpc (σ m) = HDead).
Proof.
  intros He Hh Hs Hq Hc Hl Hsub a. destruct (no_advance_comes _ _ _ _ _ _ n He Hh Hl) as (m & Hm & [Hd|(Hi & Hp & Hno)]); [exists m; auto 10|].
  pose proof (exec_reach _ _ _ _ _ m He) as Hr. pose proof (submitted_later _ _ _ _ _ _ _ _ He Hm Hsub) as Hsm.
  assert (placed (t_id t) (t_uid t) (σ m) -> exists k, (m <= k)%nat /\ (a <= turns (t_uid t) (log (σ k)) \/ ended (t_id t) (t_uid t) (σ k) \/ unmarked (t_id t) (t_uid t) (σ k) \/ tpc (σ k) = TStopped \/ tpc (σ k) = TDead \/ hpc (σ k) = HDead)) as Hgo.
  { intros Hpl. destruct (turns_for_ever _ _ _ _ _ (t_id t) (t_uid t) m He Hh Hs) with (a := a) as (k & Hk & Hy); [| |done|].
    - intros k Hk Hy Hon. destruct (placed_with _ _ _ Hy) as (x & Hx1 & E1 & E2). destruct (advanced_by _ _ _ _ _ _ (exec_reach _ _ _ _ _ k He) (Hq k) Hx1 E2 Hon) as [sl Eh]. exact (proj1 (proj2 (Hno k Hk)) sl Eh).
    - intros x Hx1 Hi1. refine (advanced_held _ _ _ (cnt_reach _ _ _ _ Hr) (Hq m) _ Hi1). unfold Spec.held. rewrite !elem_of_app. tauto.
    - exists k. split; [lia|]. destruct Hy as [?|[[?|?]|[?|?]]]; auto 10. }
  destruct (careful_bal _ _ _ _ _ (Hc m) Hsm (Hq m)) as [x [_ E] Hx ?|x c h k _ Hx ?|x c sl _ Hx ?|d Hx ?|k Hx ?|x _ Hx ?|[] ? ? ?|? ? ?|[?|[?|?]]]; try (exists m; auto 10; fail).
  - exfalso. refine (taken_task _ _ _ _ t x Hr _ _ E).
    + destruct Hsub as (e & H1 & H2). exists e. split; [done|]. rewrite Hp. by apply elem_sends.
    + apply elem_of_list_bind. destruct Hx as [Hx|Hx]; (eexists; split; [|exact Hx]); apply elem_of_list_here.
  - rewrite Hi in Hx. discriminate Hx.
  - rewrite Hi in Hx. discriminate Hx.
  - destruct Hgo as (k & Hk & Hy); [left; by exists d|]. exists k. split; [lia|done].
  - destruct Hgo as (k' & Hk & Hy); [right; by exists k|]. exists k'. split; [lia|done].
  - rewrite Hi in Hx. by destruct Hx as [Hx|[sl Hx]].
Qed.
(** So it is started any number of times; or it is started exactly as often as its schedule and countdown say, and is then gone. *)
Theorem C68_exactly pf t0 t1 σ lb t n : exec pf t0 t1 σ lb -> weakly_fair pf by_handler σ lb -> strongly_fair pf by_scheduler σ lb ->
  t_maxpar t = None -> count (t_freq t) <> Some 0 -> (forall k, advanced_only t (log (σ k))) -> (forall k, careful pf t0 t1 (t_id t) (σ k)) -> (forall k, (n <= k)%nat -> lb k <> LAdvance (t_id t)) ->
  submitted t (log (σ n)) ->
  forall a, exists m, (n <= m)%nat /\ (a <= starts (t_uid t) (log (σ m)) \/
    (exists l, demands pf t l /\ forall k, (m <= k)%nat -> starts (t_uid t) (log (σ k)) = N.of_nat (length l) /\ forall x, x ∈ Spec.held (σ k) -> t_uid x <> t_uid t) \/
    tpc (σ m) = TStopped \/ tpc (σ m) = TDead \/ hpc (σ m) = HDead).
Proof.
  intros He Hh Hs Hmp H0 Hq Hc Hl Hsub a.
  assert (forall m, (n <= m)%nat -> ended (t_id t) (t_uid t) (σ m) -> (exists l, demands pf t l /\ forall k, (m <= k)%nat -> starts (t_uid t) (log (σ k)) = N.of_nat (length l) /\ forall x, x ∈ Spec.held (σ k) -> t_uid x <> t_uid t) \/
    tpc (σ m) = TDead \/ hpc (σ m) = HDead) as Hover.
  { intros m Hm Hx. pose proof (exec_reach _ _ _ _ _ m He) as Hr. destruct (dead_dec (hpc (σ m))) as [?|Hhd]; [auto|].
    assert (tpc (σ m) = TDead \/ tpc (σ m) <> TDead) as [?|Htd] by (destruct (tpc (σ m)); first [by left|right; discriminate]); [auto|]. left.
    destruct (C68_over_exactly _ _ _ _ _ _ Hr Hmp (submitted_later _ _ _ _ _ _ _ _ He Hm Hsub) (Hq m) H0 Htd Hhd Hx) as (l & Hd & El). exists l. split; [done|]. intros k Hk.
    destruct (nowhere_later _ _ _ _ _ _ _ _ He (ended_nowhere _ _ _ _ _ _ Hr Hx) Hk) as [Hno E]. split; [congruence|]. intros x Hin Eu. apply (held_uid _ x Hin). by rewrite Eu. }
  destruct (early_goes_on _ _ _ _ _ t n He Hh Hs Hq Hc Hl Hsub a) as (m & Hm & Hx). exists m. split; [done|].
  destruct (unlimited _ _ _ _ _ (exec_reach _ _ _ _ _ m He) (submitted_later _ _ _ _ _ _ _ _ He Hm Hsub) Hmp) as [E Hu]. rewrite E in Hx.
  destruct Hx as [?|[Hx|[Hx|?]]]; [auto|destruct (Hover m Hm Hx) as [?|[?|?]]; auto|by destruct (Hu _ Hx)|auto].
Qed.
Print Assumptions C68_exactly.
(** In particular an interval task with a countdown of [c] is started exactly [c] times. *)
Theorem C68_calm_interval t0 t1 σ lb t c st n : calm_exec t0 t1 σ lb -> weakly_fair Release by_handler σ lb -> strongly_fair Release by_scheduler σ lb ->
  t_maxpar t = None -> t_freq t = SecondsCountDown c st -> 1 <= c -> (forall k, advanced_only t (log (σ k))) -> (forall k, careful Release t0 t1 (t_id t) (σ k)) ->
  (forall k, (n <= k)%nat -> lb k <> LAdvance (t_id t)) -> submitted t (log (σ n)) ->
  exists m, (n <= m)%nat /\ forall k, (m <= k)%nat -> starts (t_uid t) (log (σ k)) = c /\ forall x, x ∈ Spec.held (σ k) -> t_uid x <> t_uid t.
Proof.
  intros Hc Hh Hs Hmp Hf H1 Hq Hca Hl Hsub. pose proof (calm_is_exec _ _ _ _ Hc) as He.
  destruct (C68_exactly _ _ _ _ _ t n He Hh Hs Hmp) with (a := c + 1) as (m & Hm & Hx); [rewrite Hf; intros E; injection E as ->; lia|done..|].
  destruct (calm_going _ _ _ (calm_reach _ _ _ _ m Hc)) as (? & ? & ?). destruct Hx as [Hx|[(l & Hd & Hx)|[?|[?|?]]]]; try done.
  - assert (count (t_freq t) = Some c) as Hn by (by rewrite Hf). pose proof (C04_at_most_n_starts _ _ _ _ _ c (exec_reach _ _ _ _ _ m He) (submitted_later _ _ _ _ _ _ _ _ He Hm Hsub) Hn H1). lia.
  - exists m. split; [done|]. by rewrite <- (interval_demands _ _ _ _ _ Hf Hd).
Qed.
Print Assumptions C68_calm_interval.
(** A task that repeats without end is started any number of times. *)
Theorem C68_calm_starts_for_ever t0 t1 σ lb t st n : calm_exec t0 t1 σ lb -> weakly_fair Release by_handler σ lb -> strongly_fair Release by_scheduler σ lb ->
  t_maxpar t = None -> t_freq t = SecondsRepeated st -> (forall k, advanced_only t (log (σ k))) -> (forall k, careful Release t0 t1 (t_id t) (σ k)) ->
  (forall k, (n <= k)%nat -> lb k <> LAdvance (t_id t)) -> submitted t (log (σ n)) -> forall a, exists m, (n <= m)%nat /\ a <= starts (t_uid t) (log (σ m)).
Proof.
  intros Hc Hh Hs Hmp Hf Hq Hca Hl Hsub a. pose proof (calm_is_exec _ _ _ _ Hc) as He.
  destruct (early_goes_on _ _ _ _ _ t n He Hh Hs Hq Hca Hl Hsub a) as (m & Hm & Hx). exists m. split; [done|]. pose proof (submitted_later _ _ _ _ _ _ _ _ He Hm Hsub) as Hsm. pose proof (exec_reach _ _ _ _ _ m He) as Hr.
  destruct (unlimited _ _ _ _ _ Hr Hsm Hmp) as [E Hu]. rewrite E in Hx. destruct (calm_going _ _ _ (calm_reach _ _ _ _ m Hc)) as (? & ? & ?).
  destruct Hx as [?|[Hx|[Hx|[?|[?|?]]]]]; try done; [by destruct (repeated_goes_on _ _ _ _ _ _ _ Hr Hsm Hf Hx)|by destruct (Hu _ Hx)].
Qed.
Print Assumptions C68_calm_starts_for_ever.

(** ** Examples *)
(** In the first hour the last slot is read by nobody. *)
Lemma hand_iters pf t0 t1 s : reachable pf t0 t1 s -> hand s = iters s mod SLOTS.
Proof. intros Hr. apply (wf_hand s (wf_reach _ _ _ _ Hr)). Qed.
Lemma first_hour pf t0 t1 i s : reachable pf t0 t1 s -> iters s + 1 < SLOTS -> careful pf t0 t1 i s.
Proof.
  revert s. apply (reach_ind pf t0 t1 (fun s => iters s + 1 < SLOTS -> careful pf t0 t1 i s)); [intros _; constructor|].
  intros lb s s' Hr IH Hs Hlt. pose proof (iters_step _ _ _ _ Hs) as Hle. assert (iters s + 1 < SLOTS) as Hlt0 by lia. apply (careful_step _ _ _ _ lb s); [by apply IH| |done].
  intros (_ & x & _ & _ & E). rewrite (hand_iters _ _ _ _ Hr), N.mod_small in E; lia.
Qed.
Lemma inner_advanced pf lb s s' t : step pf lb s = Some s' -> inner lb -> advanced_only t (log s) -> advanced_only t (log s').
Proof.
  intros Hs Hl Hq e Hin Hn. assert (OSend e ∈ log s \/ ~ names (t_id t) e) as [Hx|Hx]; [|by apply Hq|done].
  clear Hq Hn. revert Hin. step_inv Hs; try (by destruct Hl); clear Hl; inst_shape; intros Hin; fsimpl_in Hin; auto.
  all: repeat match goal with H : _ ∈ _ :: _ |- _ => apply elem_of_cons in H as [H|H]; [try discriminate H|] end; auto.
  all: try (apply elem_of_app in Hin as [Hin|Hin]; [rewrite Forall_forall in Hlg; by destruct (Hlg _ Hin)|]; repeat match goal with H : _ ∈ _ :: _ |- _ => apply elem_of_cons in H as [H|H]; [try discriminate H|] end; by left).
  all: try (repeat case_match; repeat match goal with H : _ ∈ _ :: _ |- _ => apply elem_of_cons in H as [H|H]; [try discriminate H|] end; auto; fail).
  all: right; injection Hin as ->; cbn; auto.
Qed.
Definition advb (i : N) (lg : list obs) : bool := existsb (fun o => match o with OSend (EAdvance j) => j =? i | _ => false end) lg.
Lemma advb_ok i lg : advb i lg = true -> OSend (EAdvance i) ∈ lg.
Proof. intros H. apply existsb_exists in H as (o & Ho & E). apply elem_of_list_In in Ho. destruct o; try discriminate E. destruct e; try discriminate E. apply N.eqb_eq in E as ->. done. Qed.
(** A task to be started three times, every five seconds.  It is advanced after two seconds and started early; the run below is seen after that start. *)
Definition early_acts : list act := [Do (LInsert (ntimes 1 11 3 5 100)); Handle; Ticks 2; Do (LAdvance 11); Handle; Ticks 2].
Example C68_example : exists σ lb, calm_exec 100 100 σ lb /\ weakly_fair Release by_handler σ lb /\ strongly_fair Release by_scheduler σ lb /\
  (forall k, advanced_only (ntimes 1 11 3 5 100) (log (σ k))) /\ (forall k, careful Release 100 100 11 (σ k)) /\ (forall k, lb k <> LAdvance 11) /\ submitted (ntimes 1 11 3 5 100) (log (σ 0%nat)) /\
  OSend (EAdvance 11) ∈ log (σ 0%nat) /\ starts 1 (log (σ 0%nat)) = 1 /\ iters (σ 0%nat) = 4.
Proof.
  set (t := ntimes 1 11 3 5 100).
  destruct (calm_scen 100 100 early_acts (fun s => advancedb t (log s) && (starts 1 (log s) =? 1) && (iters s =? 4) && match hpc s with HIdle => forallb (fun e => match e with EAdvance _ => false | _ => true end) (queue s) | _ => false end && advb 11 (log s)))
    as (s & Hcr & Hr & HP & Hs); [calm_acts early_acts|vm_compute; reflexivity|].
  specialize (Hs t ltac:(left)). apply andb_true_iff in HP as [HP H5]. apply andb_true_iff in HP as [HP H4]. apply andb_true_iff in HP as [HP H3]. apply andb_true_iff in HP as [H1 H2].
  apply (advancedb_ok _ _ _ _ _ Hr Hs) in H1. apply N.eqb_eq in H2. apply N.eqb_eq in H3.
  destruct (fair_exists Release 100 100 (fun n => 104 + N.of_nat n) s Hr) as (σ & lb & E & He & F1 & F2 & _ & _ & F5). exists σ, lb.
  assert (forall n, inner (lb n)) as Hin. { intros n. specialize (F5 n). by destruct (lb n). }
  assert (no_advance 11 s) as Hno.
  { destruct (hpc s) eqn:Eh; try discriminate H4. split; [|rewrite Eh; split; discriminate]. intros Hq. rewrite forallb_forall in H4. apply elem_of_list_In in Hq. discriminate (H4 _ Hq). }
  assert (forall k, lb k <> LAdvance 11) as Hla. { intros k Ek. specialize (Hin k). by rewrite Ek in Hin. }
  assert (forall k, no_advance 11 (σ k)) as Hnk. { induction k as [|k IH]; [by rewrite E|]. eapply no_advance_step; [exact (exec_reach _ _ _ _ _ k He)|apply (ex_step _ _ _ _ _ He)|apply Hla|exact IH]. }
  split. { split; [by rewrite E|apply He|]. intros n. specialize (Hin n). split; intros Ex; rewrite Ex in Hin; exact Hin. }
  split; [done|]. split; [done|]. split. { induction k as [|k IH]; [by rewrite E|]. eapply inner_advanced; [apply (ex_step _ _ _ _ _ He)|apply Hin|exact IH]. }
  split. { induction k as [|k IH]; [rewrite E; apply first_hour; [done|rewrite H3; done]|]. apply (careful_step _ _ _ _ (lb k) (σ k)); [exact IH| |apply (ex_step _ _ _ _ _ He)]. intros (_ & x & Hx & Hi & _). exact (proj2 (proj2 (Hnk k)) x Hi Hx). }
  split; [done|]. rewrite E. split; [done|]. split; [|done].
  by apply advb_ok.
Qed.
(** The end of that task: the early start took the place of the first one. *)
Definition early_over : list act := [Do (LInsert (ntimes 1 11 3 5 100)); Handle; Ticks 2; Do (LAdvance 11); Handle; Ticks 18].
Example C68_over_example : exists s, reachable Release 100 100 s /\ submitted (ntimes 1 11 3 5 100) (log s) /\ advanced_only (ntimes 1 11 3 5 100) (log s) /\ tpc s <> TDead /\ hpc s <> HDead /\
  ended 11 1 s /\ starts 1 (log s) = 3 /\ OLaunch 1 11 0 3 103 ∈ log s.
Proof.
  set (t := ntimes 1 11 3 5 100).
  destruct (calm_scen 100 100 early_over (fun s => advancedb t (log s) && inb (OEnd 1 11) (log s) && (starts 1 (log s) =? 3) && inb (OLaunch 1 11 0 3 103) (log s))) as (s & Hcr & Hr & HP & Hs); [calm_acts early_over|vm_compute; reflexivity|].
  specialize (Hs t ltac:(left)). apply andb_true_iff in HP as [HP H4]. apply andb_true_iff in HP as [HP H3]. apply andb_true_iff in HP as [H1 H2].
  apply (advancedb_ok _ _ _ _ _ Hr Hs) in H1. apply inb_ok in H2. apply inb_ok in H4. apply N.eqb_eq in H3. destruct (calm_going _ _ _ Hcr) as (? & ? & ?). exists s. split_and!; try done. by left.
Qed.
(** The loss on the last slot. *)
Example C68_loses_example : exists s s' x, reachable Release 100 100 s /\ submitted (every 1 11 7200 100) (log s) /\ advanced_only (every 1 11 7200 100) (log s) /\ hpc s = HAdv3 x SLOTS /\ t_id x = 11 /\
  step Release LHandler s = Some s' /\ tpc s <> TDead /\ ~ unmarked 11 1 s /\ starts 1 (log s) = 0.
Proof.
  set (t := every 1 11 7200 100). set (acts := [Do (LInsert t); Handle; Ticks 3599; Do (LAdvance 11); Do LHandler; Do LHandler; Do LHandler]).
  destruct (calm_scen 100 100 acts (fun s => advancedb t (log s) && negb (overb 1 (log s)) && (starts 1 (log s) =? 0) && match hpc s with HAdv3 x sl => (sl =? SLOTS) && (t_id x =? 11) | _ => false end &&
      match step Release LHandler s with Some _ => true | None => false end)) as (s & Hcr & Hr & HP & Hs); [calm_acts acts|vm_compute; reflexivity|].
  specialize (Hs t ltac:(left)). apply andb_true_iff in HP as [HP H5]. apply andb_true_iff in HP as [HP H4]. apply andb_true_iff in HP as [HP H3]. apply andb_true_iff in HP as [H1 H2].
  apply (advancedb_ok _ _ _ _ _ Hr Hs) in H1. apply negb_true_iff in H2. destruct (overb_ok 11 1 s H2) as [? ?]. apply N.eqb_eq in H3. destruct (calm_going _ _ _ Hcr) as (? & ? & ?).
  destruct (hpc s) eqn:Eh; try discriminate H4. apply andb_true_iff in H4 as [H4 Hid]. apply N.eqb_eq in H4 as ->. apply N.eqb_eq in Hid. destruct (step Release LHandler s) as [s'|] eqn:Es; [|discriminate H5].
  eexists s, s', _. split_and!; try done.
Qed.
