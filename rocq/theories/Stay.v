(** A task that the event handler does not touch is run (started or, at its parallel limit, skipped) until its countdown or its schedule ends. *)
From Verif Require Import Tactics Inv Own Life Count Quiet Timing Cases Fifo Crash Arrival Frame Meanwhile Kept Live LiveEnd PropSched PropCancel.

(** * Its way round the wheel *)

(** The task [u] with the id [i]. *)
Definition steady (i u : N) (t : task) : Prop := t_id t = i /\ t_uid t = u.
(** The number of runs: starts, and starts left out because of the parallel limit. *)
Fixpoint turns (u : N) (lg : list obs) : N :=
  match lg with
  | [] => 0
  | OLaunch u' _ _ _ _ :: r | OSkip u' _ _ _ :: r => (if u' =? u then 1 else 0) + turns u r
  | _ :: r => turns u r
  end.
Lemma turns_app u l r : turns u (l ++ r) = turns u l + turns u r.
Proof. induction l as [|o l IH]; [done|]. destruct o; cbn [app turns]; lia. Qed.
Lemma turns_inst u lg : Forall inst_obs lg -> turns u lg = 0.
Proof. induction 1 as [|[] lg Hx H IH]; try done. Qed.
(** The timer has discarded it: its countdown is used up, or its schedule has no further date. *)
Definition ended (i u : N) (s : sys) : Prop := OEnd u i ∈ log s \/ ODrop u i NoDate ∈ log s.
(** Or it has a parallel limit and was due without a mark. *)
Definition unmarked (i u : N) (s : sys) : Prop := ODrop u i NoMark ∈ log s.
(** It is the only task with this id that the scheduler has. *)
Definition alone (i u : N) (s : sys) : Prop := forall t, t ∈ tpc_task (tpc s) \/ t ∈ wheel_tasks (wheel s) -> t_id t = i -> t_uid t = u.
(** It waits for iteration [d], or has been taken in this iteration and not yet been started. *)
Definition due_in (i u d : N) (s : sys) : Prop :=
  (exists sl t, sits s i sl t /\ steady i u t /\ when_at s i sl t = d) \/
  (exists l ids t, (tpc s = TMaint l ids t \/ exists r, tpc s = TSpawn l ids t r) /\ steady i u t /\ iters s = d).
(** It was started in iteration [k] and has not yet been put back. *)
Definition started_in (i u k : N) (s : sys) : Prop :=
  exists l ids t, ((exists r e, tpc s = TSend l ids t r e) \/ (exists r, tpc s = TGate l ids t r) \/ exists upd, tpc s = TPark l ids t upd) /\ steady i u t /\ iters s = k.

Lemma steady_cyl i u c t : steady i u (set_cylinder_line c t) <-> steady i u t.
Proof. by destruct t. Qed.
Lemma sits_once pf t0 t1 s i sl t x : reachable pf t0 t1 s -> sits s i sl t -> x ∈ tpc_task (tpc s) -> t_uid x <> t_uid t.
Proof.
  intros Hr (m & Hm & Hi) Hx E. destruct (own_reach _ _ _ _ Hr) as [Hn _]. rewrite uids_eq in Hn.
  apply NoDup_app in Hn as (_ & _ & Hn). apply NoDup_app in Hn as (_ & _ & Hn). apply NoDup_app in Hn as (_ & Hn & _).
  apply (Hn (t_uid x)); [apply elem_of_list_fmap; eauto|]. rewrite E. apply elem_of_list_fmap. exists t. split; [done|]. apply elem_of_wheel_tasks. eauto.
Qed.
(** Where the tasks with the id [i] come from. *)
Definition with_scheduler (s : sys) (t : task) : Prop := t ∈ tpc_task (tpc s) \/ t ∈ wheel_tasks (wheel s).
Lemma in_slot s sl m k t : wheel s !! sl = Some m -> m !! k = Some t -> with_scheduler s t.
Proof. intros H1 H2. right. apply elem_of_wheel_tasks. eauto. Qed.
Lemma came_from pf lb s s' i x : step pf lb s = Some s' -> (lb = LHandler -> handler_on (hpc s) <> Some i) -> with_scheduler s' x -> t_id x = i ->
  exists y, with_scheduler s y /\ t_id y = t_id x /\ t_uid y = t_uid x.
Proof.
  intros Hs Hn Hx Hi. assert (with_scheduler s x -> exists y, with_scheduler s y /\ t_id y = t_id x /\ t_uid y = t_uid x) as Hsame by eauto.
  destruct (match lb with LTimer _ _ _ | LHandler => true | _ => false end) eqn:Hlb.
  2: { apply Hsame. clear Hsame Hn Hi. destruct Hx as [Hx|Hx]; [left|right].
    - step_inv Hs; fsimpl_in Hx; try done; try (by apply elem_of_nil in Hx).
    - step_inv Hs; done. }
  destruct lb; try done; cbn [step] in Hs; clear Hlb.
  - clear Hn. destruct Hx as [Hx|Hx].
    + pc_inv Hs; fsimpl_in Hx; cbn [tpc_task] in Hx; try (by apply elem_of_nil in Hx); apply elem_of_list_singleton in Hx as ->.
      all: try (apply Hsame; left; match goal with H : tpc _ = _ |- _ => rewrite H end; apply elem_of_list_here).
      all: try (apply Hsame; eapply in_slot; eassumption).
      all: match goal with H : tpc _ = TGate _ _ ?y _, H' : down_count_and_set_valid _ _ = Ret _ |- _ => exists y; split; [left; rewrite H; apply elem_of_list_here|];
        unfold down_count_and_set_valid, res_bind in H'; case_match; [|done]; injection H' as <-; done end.
    + apply elem_of_wheel_tasks in Hx as (sl & m & k & Hm & Hk). pc_inv Hs; fsimpl_in Hm; try (apply Hsame; eapply in_slot; eassumption).
      all: apply lookup_insert_Some in Hm as [[<- <-]|[_ Hm]]; [|apply Hsame; eapply in_slot; eassumption].
      * assert (g0 = snd (slot_arrival_time_tasks g)) as -> by (by rewrite Heqp). apply slot_arrival_lookup in Hk as (y & Hk & ->). exists y. split; [eapply in_slot; eassumption|].
        unfold check_arrived. destruct (t_cyl y =? 0); done.
      * apply lookup_delete_Some in Hk as [_ Hk]. apply Hsame. eapply in_slot; eassumption.
      * apply lookup_delete_Some in Hk as [_ Hk]. apply Hsame. eapply in_slot; eassumption.
      * unfold slot_add_task in Hk. apply lookup_insert_Some in Hk as [[_ <-]|[_ Hk]]; [|apply Hsame; eapply in_slot; eassumption].
        match goal with H : tpc _ = TPark _ _ ?y _ |- _ => exists y; split; [left; rewrite H; apply elem_of_list_here|] end. apply next_exec_id in Heqr as (? & ? & _). done.
  - specialize (Hn eq_refl). destruct Hx as [Hx|Hx].
    + apply Hsame. left. by rewrite (proj1 (handler_frame _ _ _ Hs)) in Hx.
    + apply elem_of_wheel_tasks in Hx as (sl & m & k & Hm & Hk). apply Hsame. clear Hsame.
      assert (wheel s !! sl = Some m \/ exists m0, wheel s !! sl = Some m0 /\ (m0 !! k = Some x \/ handler_on (hpc s) = Some (t_id x))) as [H|(m0 & H1 & [H|H])]; [|eapply in_slot; eassumption|eapply in_slot; eassumption|congruence].
      clear Hn Hi. revert Hm. pc_inv Hs; inst_shape; repeat case_match; fsimpl; intros Hm; auto.
      all: apply lookup_insert_Some in Hm as [[<- <-]|[_ Hm]]; [|by left]; right; eexists; (split; [eassumption|]); unfold slot_add_task, slot_update_task, snd in Hk.
      all: repeat case_match; simplify_eq.
      all: first [apply lookup_delete_Some in Hk as [_ Hk]; by left|apply lookup_insert_Some in Hk as [[_ <-]|[_ Hk]]; [right; cbn [handler_on]; congruence|by left]].
Qed.
Lemma alone_step pf lb s s' i u : step pf lb s = Some s' -> (lb = LHandler -> handler_on (hpc s) <> Some i) -> alone i u s -> alone i u s'.
Proof. intros Hs Hn Ha x Hx Hi. destruct (came_from _ _ _ _ _ _ Hs Hn Hx Hi) as (y & Hy & E1 & E2). rewrite <- E2. apply Ha; [done|congruence]. Qed.
Lemma steady_next pf i u t o t' : steady i u t -> get_next_exec_timestamp pf t = Ret (o, t') -> steady i u t'.
Proof. intros (H1 & H2) Hx. pose proof (next_exec_id _ _ _ _ Hx) as (E1 & E2 & _). split; congruence. Qed.
Lemma steady_down pf i u t t' : steady i u t -> down_count_and_set_valid pf t = Ret t' -> steady i u t'.
Proof. intros (H1 & H2). unfold down_count_and_set_valid, res_bind. destruct (down_count pf (t_freq t)); [|discriminate]. intros Hx. by injection Hx as <-. Qed.
Lemma ended_step pf lb s s' i u : step pf lb s = Some s' -> ended i u s -> ended i u s'.
Proof. intros Hs. destruct (step_log _ _ _ _ Hs) as [l E]. unfold ended. rewrite E, !elem_of_app. tauto. Qed.
Lemma no_handler lb : (exists ch rec now, lb = LTimer ch rec now) \/ lb = LHandler \/ lb = LRoutinePanic \/ match lb with LTimer _ _ _ | LHandler | LRoutinePanic => False | _ => True end.
Proof. destruct lb; eauto 10. Qed.
Lemma hands_kept pf lb s s' : step pf lb s = Some s' -> match lb with LTimer _ _ _ | LRoutinePanic => False | _ => True end -> tpc s' = tpc s /\ iters s' = iters s.
Proof. intros Hs Hlb. step_inv Hs; try done; inst_shape; fsimpl; done. Qed.
(** Until it is started it waits for the same iteration. *)
Lemma due_step pf t0 t1 lb s s' i u d : reachable pf t0 t1 s -> step pf lb s = Some s' -> tpc s' <> TDead -> (lb = LHandler -> handler_on (hpc s) <> Some i) ->
  alone i u s -> due_in i u d s -> due_in i u d s' \/ (turns u (log s') = turns u (log s) + 1 /\ started_in i u d s') \/ unmarked i u s'.
Proof.
  intros Hr Hs Hd Hn Ha [(sl & t & Hon & Ht & Hw)|(l & ids & t & Hp & Ht & Hi)].
  - left. assert (~ Spec.touches i lb s) as Hnt.
    { destruct lb; cbn [Spec.touches]; try tauto. intros (l & ids & x & upd & Hx & Hix). assert (x ∈ tpc_task (tpc s)) as Hin by (rewrite Hx; apply elem_of_list_here).
      refine (sits_once _ _ _ _ _ _ _ _ Hr Hon Hin _). destruct Ht as (_ & ->). apply Ha; auto. }
    destruct (frame_step _ _ _ _ _ _ _ _ _ Hr Hs Hon Hnt Hd) as [(t' & Hon' & Hw' & c & ->)|(l & ids & Hp & Hw')].
    + left. exists sl, (set_cylinder_line c t). split; [done|]. split; [by apply steady_cyl|congruence].
    + right. exists l, ids, t. split; [by left|]. split; [done|congruence].
  - destruct (no_handler lb) as [(ch & rec & now & ->)|[->|[->|Hlb]]].
    + cbn [step] in Hs. destruct Hp as [Hp|[r Hp]].
      * unfold timer_step in Hs. rewrite Hp in Hs. destruct (decide _) in Hs; [|discriminate Hs]. pose proof Ht as [Ei Hu].
        destruct (t_maxpar t) as [mx|]; [destruct (flags s !! t_id t) as [m|]; [destruct (mx <=? m_num m)|]|]; injection Hs as <-.
        -- right. left. split; [fsimpl; cbn [turns]; rewrite Hu, N.eqb_refl; lia|]. exists l, ids, t. split; [right; right; by exists false|done].
        -- left. right. exists l, ids, t. split; [right; by exists rec|done].
        -- right. right. unfold unmarked. fsimpl. rewrite Hu, Ei. left.
        -- left. right. exists l, ids, t. split; [right; by exists rec|done].
      * right. left. unfold timer_step in Hs. rewrite Hp in Hs. destruct (get_maximum_running_time _ _ _) as [e|]; injection Hs as <-; [|done].
        pose proof Ht as (_ & Hu). split; [fsimpl; cbn [turns]; rewrite Hu, N.eqb_refl; lia|]. exists l, ids, t. split; [left; by exists r, e|]. done.
    + left. right. destruct (hands_kept _ _ _ _ Hs I) as [E1 E2]. exists l, ids, t. rewrite E1, E2. done.
    + exfalso. cbn [step] in Hs. unfold routine_panic in Hs. destruct Hp as [Hp|[r Hp]]; rewrite Hp in Hs; [discriminate Hs|injection Hs as <-]. by apply Hd.
    + left. right. destruct (hands_kept pf lb s s' Hs) as [E1 E2]; [by destruct lb|]. exists l, ids, t. rewrite E1, E2. done.
Qed.
(** Having been started it is put back. *)
Lemma started_step pf t0 t1 lb s s' i u k : reachable pf t0 t1 s -> step pf lb s = Some s' -> tpc s' <> TDead ->
  started_in i u k s -> started_in i u k s' \/ (exists d, due_in i u d s') \/ ended i u s'.
Proof.
  intros Hr Hs Hd (l & ids & t & Hp & Ht & Hi). destruct (no_handler lb) as [(ch & rec & now & ->)|[->|[->|Hlb]]].
  - cbn [step] in Hs. unfold timer_step in Hs. destruct Hp as [(r & e & Hp)|[[r Hp]|[upd Hp]]]; rewrite Hp in Hs.
    + injection Hs as <-. left. exists l, ids, t. split; [right; left; by exists r|done].
    + destruct (down_count_and_set_valid pf t) as [t'|] eqn:E; [|injection Hs as <-; done]. pose proof (steady_down _ _ _ _ _ Ht E) as Ht'. destruct (t_valid t'); injection Hs as <-.
      * left. exists l, ids, t'. split; [right; right; by exists true|done].
      * right. right. left. destruct Ht as (<- & <-). left.
    + destruct (get_next_exec_timestamp pf t) as [[o t']|] eqn:E; [|injection Hs as <-; done]. pose proof (steady_next _ _ _ _ _ _ Ht E) as Ht'.
      destruct o as [x|]; [|injection Hs as <-; right; right; right; destruct Ht as (<- & <-); left].
      destruct (add64 _ _ _) as [sum|]; [|injection Hs as <-; done].
      destruct (wheel s !! (sum mod SLOTS)) as [m|] eqn:Em.
      * injection Hs as <-. right. left. eexists. left. exists (sum mod SLOTS), (set_cylinder_line (park_distance x (l_ts l) / SLOTS) t'). split; [|split; [by apply steady_cyl|reflexivity]].
        eexists. fsimpl. rewrite lookup_insert. split; [reflexivity|]. unfold slot_add_task. destruct Ht' as (<- & _). apply lookup_insert.
      * exfalso. destruct (wf_wheel s (wf_reach _ _ _ _ Hr) (sum mod SLOTS)) as [_ Hx]. rewrite Em in Hx. destruct Hx as [? Hx]; [|done]. apply N.mod_lt. discriminate.
  - left. destruct (hands_kept _ _ _ _ Hs I) as [E1 E2]. exists l, ids, t. rewrite E1, E2. done.
  - exfalso. cbn [step] in Hs. unfold routine_panic in Hs. destruct Hp as [(r & e & Hp)|[[r Hp]|[upd Hp]]]; rewrite Hp in Hs; discriminate Hs.
  - left. destruct (hands_kept pf lb s s' Hs) as [E1 E2]; [by destruct lb|]. exists l, ids, t. rewrite E1, E2. done.
Qed.
Lemma due_le i u d s : due_in i u d s -> iters s <= d.
Proof. intros [(sl & t & _ & _ & <-)|(l & ids & t & _ & _ & ->)]; [apply when_at_ge|done]. Qed.

Definition placed (i u : N) (s : sys) : Prop := (exists d, due_in i u d s) \/ exists k, started_in i u k s.
Lemma placed_step pf t0 t1 lb s s' i u : reachable pf t0 t1 s -> step pf lb s = Some s' -> tpc s' <> TDead -> (lb = LHandler -> handler_on (hpc s) <> Some i) ->
  alone i u s -> placed i u s -> placed i u s' \/ ended i u s' \/ unmarked i u s'.
Proof.
  intros Hr Hs Hd Hn Ha [[d Hx]|[k Hx]].
  - destruct (due_step _ _ _ _ _ _ _ _ _ Hr Hs Hd Hn Ha Hx) as [?|[[_ ?]|?]]; [left; left; eauto|left; right; eauto|by right; right].
  - destruct (started_step _ _ _ _ _ _ _ _ _ Hr Hs Hd Hx) as [?|[?|?]]; [left; right|left; left|right; left]; eauto.
Qed.
Lemma starts_le pf t0 t1 σ lb u n m : exec pf t0 t1 σ lb -> (n <= m)%nat -> starts u (log (σ n)) <= starts u (log (σ m)).
Proof. intros He Hm. destruct (exec_log _ _ _ _ _ _ _ He Hm) as [l ->]. rewrite starts_app. lia. Qed.
Lemma turns_le pf t0 t1 σ lb u n m : exec pf t0 t1 σ lb -> (n <= m)%nat -> turns u (log (σ n)) <= turns u (log (σ m)).
Proof. intros He Hm. destruct (exec_log _ _ _ _ _ _ _ He Hm) as [l ->]. rewrite turns_app. lia. Qed.
Lemma turns_once_more pf t0 t1 σ lb i u n : exec pf t0 t1 σ lb -> weakly_fair pf by_handler σ lb -> strongly_fair pf by_scheduler σ lb ->
  (forall k, (n <= k)%nat -> placed i u (σ k) -> handler_on (hpc (σ k)) <> Some i) -> alone i u (σ n) -> placed i u (σ n) ->
  exists m, (n <= m)%nat /\ (turns u (log (σ n)) < turns u (log (σ m)) /\ alone i u (σ m) /\ placed i u (σ m) \/ (ended i u (σ m) \/ unmarked i u (σ m)) \/ off (tpc (σ m))).
Proof.
  intros He Hh Hs Hn.
  assert (forall n' d, (n <= n')%nat -> alone i u (σ n') -> due_in i u d (σ n') ->
    exists m, (n' <= m)%nat /\ (turns u (log (σ n')) < turns u (log (σ m)) /\ alone i u (σ m) /\ placed i u (σ m) \/ (ended i u (σ m) \/ unmarked i u (σ m)) \/ off (tpc (σ m)))) as Hdue.
  { intros n' d Hn' Ha Hx. destruct (ticks_again _ _ _ _ _ He Hh Hs (d + 1) n') as (m & Hm & [Hi|Ho]); [|exists m; auto].
    destruct (until (fun k => due_in i u d (σ k) /\ alone i u (σ k)) (fun k => turns u (log (σ n')) < turns u (log (σ k)) /\ alone i u (σ k) /\ placed i u (σ k) \/ (ended i u (σ k) \/ unmarked i u (σ k)) \/ off (tpc (σ k))) n' m) as [[Hd _]|(k & Hk & Hy)]; [|done|done|..].
    - intros k Hk [Hd Ha']. pose proof (Hn k ltac:(lia) ltac:(left; by exists d)) as Hn2. pose proof (ex_step _ _ _ _ _ He k) as Hst. destruct (off_dec (tpc (σ (S k)))) as [?|[_ Hnd]]; [by right; right; right|].
      pose proof (alone_step _ _ _ _ _ _ Hst (fun _ => Hn2) Ha') as Ha2.
      destruct (due_step _ _ _ _ _ _ _ _ _ (exec_reach _ _ _ _ _ k He) Hst Hnd (fun _ => Hn2) Ha' Hd) as [?|[[E ?]|?]]; [by left|right; left|by right; right; left; right].
      pose proof (turns_le _ _ _ _ _ u _ _ He Hk). split; [lia|]. split; [done|]. right. by exists d.
    - apply due_le in Hd. lia.
    - exists k. split; [lia|done]. }
  intros Ha [[d Hx]|[c Hx]]; [by apply (Hdue n d)|].
  destruct (ticks_again _ _ _ _ _ He Hh Hs (c + 1) n) as (m & Hm & [Hi|Ho]); [|exists m; auto].
  destruct (until (fun k => started_in i u c (σ k) /\ alone i u (σ k)) (fun k => (exists d, due_in i u d (σ k)) /\ alone i u (σ k) \/ (ended i u (σ k) \/ unmarked i u (σ k)) \/ off (tpc (σ k))) n m) as [[Hd _]|(k & Hk & Hy)]; [|done|done|..].
  - intros k Hk [Hd Ha']. pose proof (Hn k ltac:(lia) ltac:(right; by exists c)) as Hn2. pose proof (ex_step _ _ _ _ _ He k) as Hst. destruct (off_dec (tpc (σ (S k)))) as [?|[_ Hnd]]; [by right; right; right|].
    pose proof (alone_step _ _ _ _ _ _ Hst (fun _ => Hn2) Ha') as Ha2.
    destruct (started_step _ _ _ _ _ _ _ _ _ (exec_reach _ _ _ _ _ k He) Hst Hnd Hd) as [?|[?|?]]; [by left|right; by left|right; right; left; by left].
  - destruct Hd as (l & ids & t & _ & _ & Hd). lia.
  - destruct Hy as [[[d Hy] Ha']|Hy]; [|exists k; split; [lia|by right]]. destruct (Hdue k d ltac:(lia) Ha' Hy) as (m' & Hm' & [(H1 & H2)|H]); exists m'; (split; [lia|]); [left|by right].
    split; [|done]. pose proof (turns_le _ _ _ _ _ u n k He ltac:(lia)). lia.
Qed.
(** So it is run any number of times, until it ends, unless the scheduler stops or dies. *)
Lemma turns_for_ever pf t0 t1 σ lb i u n : exec pf t0 t1 σ lb -> weakly_fair pf by_handler σ lb -> strongly_fair pf by_scheduler σ lb ->
  (forall k, (n <= k)%nat -> placed i u (σ k) -> handler_on (hpc (σ k)) <> Some i) -> alone i u (σ n) -> placed i u (σ n) ->
  forall a, exists m, (n <= m)%nat /\ (a <= turns u (log (σ m)) \/ (ended i u (σ m) \/ unmarked i u (σ m)) \/ off (tpc (σ m))).
Proof.
  intros He Hh Hs Hn Ha Hp a.
  assert (exists m, (n <= m)%nat /\ (a <= turns u (log (σ m)) /\ alone i u (σ m) /\ placed i u (σ m) \/ (ended i u (σ m) \/ unmarked i u (σ m)) \/ off (tpc (σ m)))) as (m & Hm & Hx); [|exists m; split; [done|tauto]].
  induction a as [|a (m & Hm & [(H1 & H2 & H3)|H])] using N.peano_ind; [exists n; split; [done|left; split; [lia|done]]| |exists m; auto].
  destruct (turns_once_more _ _ _ _ _ i u m He Hh Hs (fun k Hk => Hn k ltac:(lia)) H2 H3) as (m' & Hm' & [(H4 & H5)|H]); exists m'; (split; [lia|]); [left; split; [lia|done]|by right].
Qed.

(* ------------------------------------------------------------------ *)
(** * A task that is left alone *)

(** It is on its way to the wheel. *)
Definition on_its_way (i u : N) (s : sys) : Prop :=
  exists t, steady i u t /\ (EAdd t ∈ queue s \/ EInsert t ∈ queue s \/ (exists c h k, hpc s = HAdd1 t c h k) \/ exists c sl, hpc s = HAdd2 t c sl).
Lemma quiet_untouched pf t0 t1 s t x : reachable pf t0 t1 s -> quiet t (log s) -> with_scheduler s x -> t_uid x = t_uid t -> t_id x = t_id t -> handler_on (hpc s) <> Some (t_id t).
Proof.
  intros Hr Hq Hx Hu Hi Hon. destruct (src_reach _ _ _ _ Hr) as [_ Hsrc].
  assert (forall y, hpc_task (hpc s) = [y] -> t_id y = t_id t -> False) as Hno.
  { intros y Hy Hiy. assert (y ∈ held s) as Hin by (unfold held; rewrite !elem_of_app, Hy, elem_of_list_singleton; auto).
    pose proof (quiet_held _ _ _ (cnt_reach _ _ _ _ Hr) Hq Hin Hiy) as Euy. destruct (own_reach _ _ _ _ Hr) as [Hn _]. rewrite uids_eq in Hn.
    apply NoDup_app in Hn as (_ & _ & Hn). apply NoDup_app in Hn as (_ & Hn & _). apply (Hn (t_uid y)); [rewrite Hy; apply elem_of_list_here|].
    rewrite <- fmap_app. apply elem_of_list_fmap. exists x. split; [congruence|]. by apply elem_of_app. }
  destruct (hpc s) eqn:Eh; cbn [handler_on] in Hon; try discriminate Hon; injection Hon as Hon; try (by eapply Hno; [reflexivity|]); cbn [hpc_src] in Hsrc; destruct (Hq _ Hsrc Hon); discriminate.
Qed.
Lemma handler_queue pf s s' e : handler_step pf s = Some s' -> e ∈ queue s -> e ∈ queue s' \/ (hpc s = HIdle /\ exists q, queue s = e :: q).
Proof.
  intros Hs He. destruct (hpc s) eqn:Eh; [destruct (queue s) as [|e' q] eqn:Eq; [by apply elem_of_nil in He|]; apply elem_of_cons in He as [->|He]; [right; split; [done|by exists q]|]|..]; left.
  { assert (queue s' = q) as -> by (pc_inv Hs; inst_shape; repeat case_match; fsimpl; congruence). done. }
  all: assert (queue s' = queue s) as -> by (pc_inv Hs; inst_shape; repeat case_match; fsimpl; congruence); done.
Qed.
Lemma way_step pf t0 t1 lb s s' i u : reachable pf t0 t1 s -> step pf lb s = Some s' -> hpc s' <> HDead -> on_its_way i u s -> on_its_way i u s' \/ placed i u s' \/ ended i u s'.
Proof.
  intros Hr Hs Hd (t & Ht & Hx). destruct (match lb with LHandler => true | _ => false end) eqn:Hlb.
  2: { left. exists t. split; [done|]. destruct (other_queue _ _ _ _ Hs) as (-> & _ & q & ->); [by destruct lb|]. rewrite !elem_of_app. tauto. }
  destruct lb; try done. cbn [step] in Hs. unfold handler_step in Hs. destruct Hx as [Hx|[Hx|[(c & h & k & Hx)|(c & sl & Hx)]]].
  3: { rewrite Hx in Hs. destruct (get_next_exec_timestamp pf t) as [[o t']|] eqn:E; [|injection Hs as <-; done]. pose proof (steady_next _ _ _ _ _ _ Ht E) as Ht'.
    destruct o as [x|]. 2: { injection Hs as <-. right. right. right. destruct Ht as (<- & <-). inst_shape. fsimpl. destruct (hpub s); left. }
    destruct (let! a := _ in _) as [seed|]; injection Hs as <-; [|done]. left. exists (set_cylinder_line (seed / SLOTS) t'). split; [by apply steady_cyl|]. right. right. right. by eexists _, _. }
  3: { rewrite Hx in Hs. destruct (wheel s !! sl) as [m|] eqn:Em.
    - injection Hs as <-. right. left. left. eexists. left. exists sl, t. split; [|split; [done|reflexivity]]. eexists. fsimpl. rewrite lookup_insert. split; [reflexivity|].
      unfold slot_add_task. destruct Ht as (<- & _). apply lookup_insert.
    - exfalso. pose proof (wf_hpc s (wf_reach _ _ _ _ Hr)) as Hw. rewrite Hx in Hw. destruct (wf_wheel s (wf_reach _ _ _ _ Hr) sl) as [_ Hy]. rewrite Em in Hy. by destruct (Hy Hw). }
  all: left.
  all: destruct (handler_queue pf s s' _ Hs Hx) as [Hy|(Hh & q & Hy)]; [exists t; auto|].
  all: rewrite Hh, Hy in Hs; injection Hs as <-; exists t; (split; [done|]); right; right; left; eexists _, _, _; reflexivity.
Qed.
Lemma placed_with i u s : placed i u s -> exists x, with_scheduler s x /\ steady i u x.
Proof.
  intros [[d [(sl & t & (m & Hm & Hi) & Ht & _)|(l & ids & t & Hp & Ht & _)]]|[k (l & ids & t & Hp & Ht & _)]]; exists t; (split; [|done]).
  - by eapply in_slot.
  - left. destruct Hp as [->|[r ->]]; apply elem_of_list_here.
  - left. destruct Hp as [(r & e & ->)|[[r ->]|[upd ->]]]; apply elem_of_list_here.
Qed.
Lemma quiet_placed pf t0 t1 s t : reachable pf t0 t1 s -> submitted t (log s) -> quiet t (log s) ->
  on_its_way (t_id t) (t_uid t) s \/ placed (t_id t) (t_uid t) s \/ (ended (t_id t) (t_uid t) s \/ unmarked (t_id t) (t_uid t) s) \/ tpc s = TDead \/ hpc s = HDead.
Proof.
  assert (steady (t_id t) (t_uid t) t) as Ht by done. intros Hr. revert s Hr.
  apply (reach_ind pf t0 t1 (fun s => submitted t (log s) -> quiet t (log s) -> on_its_way (t_id t) (t_uid t) s \/ placed (t_id t) (t_uid t) s \/ (ended (t_id t) (t_uid t) s \/ unmarked (t_id t) (t_uid t) s) \/ tpc s = TDead \/ hpc s = HDead)).
  { change (log (init t0 t1)) with [OTick 0 t1]. intros (e & He & _) _. apply elem_of_list_singleton in He. discriminate He. }
  intros lb s s' Hr IH Hs Hsub Hq. pose proof (quiet_anti _ _ _ _ _ Hs Hq) as Hq0. pose proof (reach_step _ _ _ _ _ _ Hr Hs) as Hr'.
  destruct (dead_dec (hpc s')) as [?|Hhd]; [auto|].
  assert (tpc s' = TDead \/ tpc s' <> TDead) as [?|Htd] by (destruct (tpc s'); first [by left|right; discriminate]); [auto|].
  assert (submitted t (log s) \/ on_its_way (t_id t) (t_uid t) s') as [Hs0|?]; [|specialize (IH Hs0 Hq0)|auto].
  { destruct Hsub as (e & He & Hsub). destruct (sent_step _ _ _ _ _ Hs He) as [?|Hin]; [left; by exists e|right]. exists t. split; [done|].
    destruct Hsub as [->|[->| ->]]; [auto..|]. destruct (Hq _ He eq_refl); discriminate. }
  destruct IH as [H|[H|[H|[H|H]]]].
  - destruct (way_step _ _ _ _ _ _ _ _ Hr Hs Hhd H) as [?|[?|?]]; auto.
  - assert (placed (t_id t) (t_uid t) s' \/ ended (t_id t) (t_uid t) s' \/ unmarked (t_id t) (t_uid t) s'); [|tauto]. refine (placed_step _ _ _ _ _ _ _ _ Hr Hs Htd _ _ H).
    + intros _. destruct (placed_with _ _ _ H) as (x & Hx & E1 & E2). by eapply quiet_untouched.
    + intros x Hx Hi. refine (quiet_held _ _ _ (cnt_reach _ _ _ _ Hr) Hq0 _ Hi). unfold held. rewrite !elem_of_app. tauto.
  - right. right. left. destruct H as [H|H]; [left; by eapply ended_step|right]. unfold unmarked. destruct (step_log _ _ _ _ Hs) as [l ->]. apply elem_of_app. by right.
  - by destruct (dead_stays _ _ _ _ Hs H).
  - by destruct (dead_step _ _ _ _ Hs H).
Qed.

(* ------------------------------------------------------------------ *)
(** * A task without parallel limit *)

(** It is neither skipped nor discarded for want of a mark. *)
Definition no_skip (u : N) (o : obs) : Prop := match o with OSkip u' _ _ _ | ODrop u' _ NoMark => u' <> u | _ => True end.
Lemma no_skip_inst u lg : Forall inst_obs lg -> Forall (no_skip u) lg.
Proof. intros H. eapply Forall_impl; [exact H|]. intros []; done. Qed.
Lemma no_skip_turns u lg : Forall (no_skip u) lg -> turns u lg = starts u lg.
Proof. induction 1 as [|o lg Hx H IH]; [done|]. destruct o; cbn [turns starts no_skip] in *; try lia. by rewrite (proj2 (N.eqb_neq _ _) Hx). Qed.
Lemma unlimited pf t0 t1 s t : reachable pf t0 t1 s -> submitted t (log s) -> t_maxpar t = None -> turns (t_uid t) (log s) = starts (t_uid t) (log s) /\ forall i, ~ unmarked i (t_uid t) s.
Proof.
  intros Hr Hsub Hm. assert (Forall (no_skip (t_uid t)) (log s)) as H.
  2: { split; [by apply no_skip_turns|]. intros i Hi. rewrite Forall_forall in H. by destruct (H _ Hi). }
  assert (forall t', submitted t' (log s) -> t_uid t' = t_uid t -> t_maxpar t' = None) as Hu.
  { intros t' Ht' E. by rewrite (ci_uniq s (cnt_reach _ _ _ _ Hr) t' t Ht' Hsub E). }
  clear Hsub Hm. revert s Hr Hu. apply (reach_ind pf t0 t1 (fun s => (forall t', submitted t' (log s) -> t_uid t' = t_uid t -> t_maxpar t' = None) -> Forall (no_skip (t_uid t)) (log s))).
  { change (log (init t0 t1)) with [OTick 0 t1]. intros _. by repeat constructor. }
  intros lb s s' Hr IH Hs Hu. assert (forall t', submitted t' (log s) -> t_uid t' = t_uid t -> t_maxpar t' = None) as Hu0. { intros t' Ht'. apply Hu. by eapply submitted_mono. }
  specialize (IH Hu0).
  assert (forall l ids x mx, tpc s = TMaint l ids x -> t_maxpar x = Some mx -> t_uid x <> t_uid t) as Hx.
  { intros l ids x mx E Hne Eu. assert (x ∈ held s) as Hin by (unfold held; rewrite !elem_of_app, E; right; right; left; apply elem_of_list_here).
    destruct (ci_held s (cnt_reach _ _ _ _ Hr) x Hin) as (x0 & H1 & H2 & H3 & H4 & H5 & _). rewrite (Hu0 x0 H1) in H5; congruence. }
  clear Hu Hu0 Hr. step_inv Hs; inst_shape; fsimpl; try done.
  all: rewrite ?Forall_app, ?Forall_cons; split_and?; try done; try (by apply no_skip_inst).
  all: try (repeat case_match; rewrite ?Forall_cons; split_and?; done).
  all: by eapply Hx.
Qed.
Lemma starts_for_ever pf t0 t1 σ lb t n : exec pf t0 t1 σ lb -> weakly_fair pf by_handler σ lb -> strongly_fair pf by_scheduler σ lb -> submitted t (log (σ n)) -> t_maxpar t = None ->
  (forall k, (n <= k)%nat -> placed (t_id t) (t_uid t) (σ k) -> handler_on (hpc (σ k)) <> Some (t_id t)) -> alone (t_id t) (t_uid t) (σ n) -> placed (t_id t) (t_uid t) (σ n) ->
  forall a, exists m, (n <= m)%nat /\ (a <= starts (t_uid t) (log (σ m)) \/ ended (t_id t) (t_uid t) (σ m) \/ off (tpc (σ m))).
Proof.
  intros He Hh Hs Hsub Hm Hn Ha Hp a. destruct (turns_for_ever _ _ _ _ _ _ _ n He Hh Hs Hn Ha Hp a) as (m & Hk & Hx). exists m. split; [done|].
  assert (submitted t (log (σ m))) as Hsm. { destruct Hsub as (e & H1 & H2). destruct (exec_log _ _ _ _ _ n m He Hk) as [l E]. exists e. split; [|done]. rewrite E. apply elem_of_app. by right. }
  destruct (unlimited _ _ _ _ _ (exec_reach _ _ _ _ _ m He) Hsm Hm) as [E Hu]. rewrite E in Hx. destruct Hx as [?|[[?|Hx]|?]]; auto. by destruct (Hu _ Hx).
Qed.
