(** When a task leaves the timer, and why. *)
From Verif Require Import Tactics Inv Own Life Count Quiet Timing Arrival Phase Sched.

Lemma phase_gone u lg : phase u lg = Gone -> (exists i, OEnd u i ∈ lg) \/ (exists i w, ODrop u i w ∈ lg).
Proof.
  induction lg as [|o lg IH]; [done|].
  assert (phase u lg = Gone -> (exists i, OEnd u i ∈ o :: lg) \/ (exists i w, ODrop u i w ∈ o :: lg)) as Hx.
  { intros H. destruct (IH H) as [(i & Hi)|(i & w & Hi)]; [left; exists i|right; exists i, w]; by right. }
  destruct o; cbn [phase]; auto; case (N.eqb_spec uid u) as [->|Hne]; auto; try done.
  - left. exists tid. by left.
  - right. exists tid, w. by left.
Qed.

Lemma held_or_gone pf t0 t1 s t : reachable pf t0 t1 s -> submitted t (log s) -> quiet t (log s) ->
  near (t_uid t) (log s) -> tpc s <> TDead -> hpc s <> HDead ->
  (exists t', t' ∈ held s /\ t_uid t' = t_uid t /\ t_id t' = t_id t) \/
  (exists i, OEnd (t_uid t) i ∈ log s) \/ (exists i w, ODrop (t_uid t) i w ∈ log s).
Proof.
  intros Hr Hs Hq Hn Ht Hh. pose proof (only_quiet s t (cnt_reach _ _ _ _ Hr) Hs Hq) as Ho.
  pose proof (only_sole s t (cnt_reach _ _ _ _ Hr) Ho) as Hso.
  assert (forall t', t' ∈ held s -> t_id t' = t_id t -> exists t', t' ∈ held s /\ t_uid t' = t_uid t /\ t_id t' = t_id t) as Hx.
  { intros t' H1 H2. exists t'. split; [done|]. split; [|done]. by apply Hso. }
  pose proof (tinv_only _ _ _ _ _ Hr Ho Hn) as Hi. pose proof (pinv_only _ _ _ _ _ Hr Ho Hn) as Hp.
  pose proof (wf_reach _ _ _ _ Hr) as Hwf.
  destruct (phase (t_uid t) (log s)) as [|D|it ts|] eqn:E.
  - left. destruct (p_sub _ _ Hp Hs E) as [?|(t' & ? & ?)]; [done|]. apply (Hx t'); [by apply in_coming|done].
  - left. destruct (ti_exp _ _ _ Hi D) as [(sl & t' & H)|(t' & H1 & H2 & _)]; [by rewrite expect_phase, E|done| |].
    + apply (Hx t'); [by eapply in_wheel, sits_held|]. destruct H as (m & Hw & Hm). by eapply wf_key.
    + apply (Hx t'); [by apply in_tpc|done].
  - left. destruct (p_hand _ _ Hp it ts E Ht) as (t' & l & H1 & H2 & _). apply (Hx t'); [by apply in_tpc|done].
  - right. by apply phase_gone.
Qed.

(* ------------------------------------------------------------------ *)

(** No other Task value has the identity of [t]. *)
Definition uniq (t : task) (lg : list obs) : Prop := forall t0, submitted t0 lg -> t_uid t0 = t_uid t -> t0 = t.
Lemma uniq_anti pf lb s s' t : step pf lb s = Some s' -> uniq t (log s') -> uniq t (log s).
Proof. intros Hs H t0 H0. apply H. by eapply submitted_mono. Qed.
Lemma submitted_uniq pf t0 t1 s t : reachable pf t0 t1 s -> submitted t (log s) -> uniq t (log s).
Proof. intros Hr Hs t' H' E. by eapply (ci_uniq s (cnt_reach _ _ _ _ Hr)). Qed.

(** What the entries that discard a task say. *)
Definition gone_at (pf : profile) (t : task) (o : obs) (r : list obs) : Prop :=
  match o with
  | OEnd u _ => u = t_uid t -> exists n, count (t_freq t) = Some n /\ (1 <= n -> starts u r = n)
  | ODrop u _ NoMark => u = t_uid t -> t_maxpar t <> None
  | ODrop u _ NoDate => u = t_uid t ->
      exists i i', follows pf (iter_of (t_freq t)) (planned u r) i /\ iter_next pf i = Ret (None, i')
  | _ => True
  end.
Lemma gone_at_inst pf t lg l : Forall inst_obs lg -> each (gone_at pf t) l -> each (gone_at pf t) (lg ++ l).
Proof. induction 1 as [|[] lg Hx H IH]; try done; cbn; auto. Qed.

Lemma next_none pf t t' : get_next_exec_timestamp pf t = Ret (None, t') -> exists i', iter_next pf (iter_of (t_freq t)) = Ret (None, i').
Proof.
  unfold get_next_exec_timestamp, next_alarm_timestamp, res_bind.
  destruct (t_freq t); cbn [iter_of iter_next].
  1, 2: destruct (cron_step c) as [[z|] c']; intros; simplify_eq; eauto.
  all: unfold res_bind; destruct (ss_next pf s) as [[x s']|]; intros; simplify_eq; eauto.
Qed.

Lemma gone_at_step pf lb s s' t : own_inv s -> cnt_inv s -> finv pf s -> uniq t (log s) ->
  step pf lb s = Some s' -> each (gone_at pf t) (log s) -> each (gone_at pf t) (log s').
Proof.
  intros Ho Hc Hf Hu Hs He.
  assert (forall t', t' ∈ held s -> t_uid t' = t_uid t -> submitted t (log s)) as Hsub.
  { intros t' Hin E. destruct (ci_held s Hc t' Hin) as (t2 & H2 & E2 & _). by rewrite <- (Hu t2 H2 ltac:(congruence)). }
  assert (forall t' t'', t' ∈ held s -> t_uid t' = t_uid t -> get_next_exec_timestamp pf t' = Ret (None, t'') ->
     exists i i', follows pf (iter_of (t_freq t)) (planned (t_uid t) (log s)) i /\ iter_next pf i = Ret (None, i')) as Hdate.
  { intros t' t'' Hin E Hn. destruct (f_sub _ _ Hf t (Hsub t' Hin E)) as (i & Hfo & Hi).
    rewrite <- (Hi t' Hin E) in Hfo. destruct (next_none _ _ _ Hn) as [i' Hi']. eauto. }
  assert (forall t' mx, t' ∈ held s -> t_uid t' = t_uid t -> t_maxpar t' = Some mx -> t_maxpar t <> None) as Hmark.
  { intros t' mx Hin E Hm. destruct (ci_held s Hc t' Hin) as (t2 & H2 & E2 & _ & _ & E3 & _).
    rewrite <- (Hu t2 H2 ltac:(congruence)). congruence. }
  assert (forall l ids t' r t2, tpc s = TGate l ids t' r -> t_uid t' = t_uid t -> down_count_and_set_valid pf t' = Ret t2 -> t_valid t2 = false ->
     exists n, count (t_freq t) = Some n /\ (1 <= n -> starts (t_uid t') (log s) = n)) as Hend.
  { intros l ids t' r t2 Hp E Hd Hv.
    assert (t' ∈ held s) as Hin by (apply elem_held; left; rewrite Hp; cbn; apply elem_of_list_here).
    destruct (ci_held s Hc t' Hin) as (t3 & H3 & E3 & _ & _ & _ & _ & Hnone & Hsome).
    rewrite (Hu t3 H3 ltac:(congruence)) in *. 
    destruct (count (t_freq t)) as [n|] eqn:Ec.
    - exists n. split; [done|]. intros Hn1. destruct (Hsome n eq_refl Hn1) as (_ & c & Ec' & Hc1 & Heq).
      rewrite Hp in Heq. cbn [pend] in Heq. rewrite N.eqb_refl in Heq.
      assert (c = 1); [|lia].
      unfold down_count_and_set_valid, res_bind, down_count, sub64, res_bind in Hd.
      destruct (t_freq t'); cbn in Ec'; simplify_eq; replace (1 <=? c) with true in Hd by lia; simplify_eq; cbn in Hv.
      all: destruct (c - 1) eqn:E1; [lia|done].
    - exfalso. specialize (Hnone eq_refl). unfold down_count_and_set_valid, res_bind, down_count in Hd.
      destruct (t_freq t'); cbn in Hnone; simplify_eq; cbn in Hv; done. }
  clear Hf Hu Hsub Ho Hc.
  assert (forall t', t' ∈ tpc_task (tpc s) -> t' ∈ held s) as K1 by (intros; by apply in_tpc).
  assert (forall t', t' ∈ hpc_task (hpc s) -> t' ∈ held s) as K2 by (intros; by apply in_coming, coming_hpc).
  step_inv Hs; inst_shape; fsimpl; try assumption; try (apply gone_at_inst; [done|]); cbn [each gone_at]; auto.
  all: repeat case_match; cbn [each gone_at]; auto.
  - split; [|done]. intros E. eapply Hmark; [apply K1; cbn; apply elem_of_list_here|done|eassumption].
  - split; [|done]. intros E. eapply Hend; [reflexivity|done|eassumption|done].
  - split; [|done]. intros E. rewrite E. eapply Hdate; [apply K1; cbn; apply elem_of_list_here|done|eassumption].
  - split; [|done]. intros E. rewrite E. eapply Hdate; [apply K2; cbn; apply elem_of_list_here|done|eassumption].
  - split; [|done]. intros E. rewrite E. eapply Hdate; [apply K2; cbn; apply elem_of_list_here|done|eassumption].
Qed.

Lemma gone_at_reach pf t0 t1 s t : reachable pf t0 t1 s -> submitted t (log s) -> each (gone_at pf t) (log s).
Proof.
  intros Hr Hs. pose proof (submitted_uniq _ _ _ _ _ Hr Hs) as Hu. clear Hs.
  revert s Hr Hu. apply (reach_ind pf t0 t1 (fun s => uniq t (log s) -> each (gone_at pf t) (log s))).
  - intros _. cbn. auto.
  - intros lb s1 s2 Hr IH Hs Hu. pose proof (uniq_anti _ _ _ _ _ Hs Hu).
    eapply gone_at_step; eauto using own_reach, cnt_reach, finv_reach.
Qed.

Lemma starts_suffix u l1 l2 : starts u l2 <= starts u (l1 ++ l2).
Proof. rewrite starts_app. lia. Qed.

(** An interval schedule never runs out of dates. *)
Lemma follows_kind pf i l i' : follows pf i l i' -> (exists c, i = inl c) <-> exists c, i' = inl c.
Proof.
  induction 1 as [|l i1 d i2 Hf IH Hn]; [done|]. rewrite IH. destruct i1 as [c|s]; cbn in Hn.
  - destruct (cron_step c) as [o c']. simplify_eq. naive_solver.
  - unfold res_bind in Hn. destruct (ss_next pf s) as [[x s']|]; simplify_eq. naive_solver.
Qed.
Lemma next_none_cron pf i i' : iter_next pf i = Ret (None, i') -> exists c, i = inl c.
Proof. destruct i as [c|s]; [eauto|]. cbn. unfold res_bind. destruct (ss_next pf s) as [[]|]; intros; simplify_eq. Qed.


Theorem not_lost pf t0 t1 s t : reachable pf t0 t1 s -> submitted t (log s) -> quiet t (log s) ->
  near (t_uid t) (log s) -> tpc s <> TDead -> hpc s <> HDead ->
  (exists t', t' ∈ held s /\ t_uid t' = t_uid t) \/ finished pf t s.
Proof.
  intros Hr Hs Hq Hn Ht Hh. pose proof (gone_at_reach _ _ _ _ _ Hr Hs) as Hg.
  pose proof (cnt_reach _ _ _ _ Hr) as Hc.
  destruct (held_or_gone _ _ _ _ _ Hr Hs Hq Hn Ht Hh) as [(t' & ? & ? & _)|[(i & Hi)|(i & w & Hi)]]; [left; eauto| |].
  all: right; apply elem_of_list_split in Hi as (l1 & l2 & E); pose proof Hg as Hg'; rewrite E in Hg'; apply (each_split _ l1) in Hg'.
  - destruct (Hg' eq_refl) as (n & Hn1 & Hn2). apply (fin_count _ _ _ n); [done|]. intros H1. specialize (Hn2 H1).
    pose proof (ci_le s Hc t n Hs Hn1 H1) as Hle. rewrite E, starts_app in *. cbn [starts] in *. lia.
  - destruct w.
    + apply (fin_mark _ _ _ i); [|by apply Hg']. rewrite E. apply elem_of_app. right. by left.
    + destruct (Hg' eq_refl) as (i1 & i2 & Hf & Hx). destruct (next_none_cron _ _ _ Hx) as [c ->].
      cbn in Hx. destruct (cron_step c) as [o c'] eqn:Ec. simplify_eq. by eapply fin_dates.
Qed.

(** In particular: an interval task without a parallel limit. *)
Theorem interval_not_lost pf t0 t1 s t st : reachable pf t0 t1 s -> submitted t (log s) -> quiet t (log s) ->
  near (t_uid t) (log s) -> tpc s <> TDead -> hpc s <> HDead ->
  iter_of (t_freq t) = inr st -> t_maxpar t = None ->
  (exists t', t' ∈ held s /\ t_uid t' = t_uid t) \/
  exists n, count (t_freq t) = Some n /\ (1 <= n -> starts (t_uid t) (log s) = n).
Proof.
  intros Hr Hs Hq Hn Ht Hh Hi Hm. destruct (not_lost _ _ _ _ _ Hr Hs Hq Hn Ht Hh) as [?|[n H1 H2|i H1 H2|l c c' H1 H2]]; [by left|right; eauto|done|].
  exfalso. apply follows_kind in H1. rewrite Hi in H1. destruct H1 as [_ H1]. by destruct H1 as [? ?]; [eauto|].
Qed.

Lemma over_end pf t0 t1 s t i w : reachable pf t0 t1 s -> submitted t (log s) -> w = NoDate ->
  OEnd (t_uid t) i ∈ log s \/ ODrop (t_uid t) i w ∈ log s -> over pf t s.
Proof.
  intros Hr Hs -> Hi. pose proof (gone_at_reach _ _ _ _ _ Hr Hs) as Hg. pose proof (cnt_reach _ _ _ _ Hr) as Hc.
  destruct Hi as [Hi|Hi]; apply elem_of_list_split in Hi as (l1 & l2 & E); pose proof Hg as Hg'; rewrite E in Hg'; apply (each_split _ l1) in Hg'.
  - left. destruct (Hg' eq_refl) as (n & Hn1 & Hn2). exists n. split; [done|]. intros H1. specialize (Hn2 H1).
    pose proof (ci_le s Hc t n Hs Hn1 H1) as Hle. rewrite E, starts_app in *. cbn [starts] in *. lia.
  - right. destruct (Hg' eq_refl) as (i1 & i2 & Hf & Hx). destruct (next_none_cron _ _ _ Hx) as [c ->].
    cbn in Hx. destruct (cron_step c) as [o c'] eqn:Ec. simplify_eq. eauto.
Qed.
