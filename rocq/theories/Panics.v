(** When a thread of the timer panics. *)
From Verif Require Import Tactics Inv Own Life Count Quiet Sched Interval Clock Added.

Lemma add64_panic pf a b : add64 pf a b = Panic -> pf = Debug /\ U64 <= a + b.
Proof. unfold add64. destruct (a + b <? U64) eqn:E; [done|]. destruct pf; [intros _|done]. split; [done|lia]. Qed.

Lemma with_reach P pf t0 t1 s : reachable_with P pf t0 t1 s -> reachable pf t0 t1 s.
Proof. intros (ls & _ & H). by exists ls. Qed.
Lemma with_ind P pf t0 t1 (Q : sys -> Prop) :
  (forall n, Q (init_n n t0 t1)) ->
  (forall lb s s', reachable_with P pf t0 t1 s -> P lb -> Q s -> step pf lb s = Some s' -> Q s') ->
  forall s, reachable_with P pf t0 t1 s -> Q s.
Proof.
  intros H0 Hs s (ls & HP & Hr). revert s Hr.
  induction ls as [|lb ls IH] using rev_ind; intros s Hr.
  - cbn [run] in Hr. assert (s = init t0 t1) as -> by congruence. apply H0.
  - apply Forall_app in HP as [HP1 HP2]. apply Forall_cons in HP2 as [HP2 _].
    rewrite run_app in Hr. destruct (run pf ls (init t0 t1)) as [s1|] eqn:E; [|discriminate Hr].
    cbn [run] in Hr. destruct (step pf lb s1) as [s2|] eqn:E2; [|discriminate Hr].
    assert (s2 = s) as -> by congruence. apply (Hs lb s1 s); [exists ls; split; [exact HP1|exact E]|exact HP2|apply IH; [exact HP1|reflexivity]|exact E2].
Qed.

Lemma next_panic pf t : get_next_exec_timestamp pf t = Panic -> pf = Debug.
Proof.
  unfold get_next_exec_timestamp, next_alarm_timestamp, ss_next, res_bind. intros H. destruct (t_freq t); try (destruct (cron_step c); done).
  all: destruct (add64 pf (ss_start s) _) as [x|] eqn:E1; [|by apply add64_panic in E1 as [-> _]];
      destruct (add64 pf x 1) eqn:E2; [done|by apply add64_panic in E2 as [-> _]].
Qed.

(** The cases in which the scheduler thread panics. *)
Lemma timer_dies pf lb s s' : step pf lb s = Some s' -> tpc s <> TDead -> tpc s' = TDead ->
  lb = LRoutinePanic \/
  (exists l ids t r m, tpc s = TSpawn l ids t r /\ t_maxrun t = Some m /\ pf = Debug /\ U64 <= m + l_ts l) \/
  (exists l ids t r, tpc s = TGate l ids t r /\ count (t_freq t) = Some 0 /\ pf = Debug) \/
  (exists l ids t u, tpc s = TPark l ids t u /\ pf = Debug /\
     (get_next_exec_timestamp pf t = Panic \/ exists d t', get_next_exec_timestamp pf t = Ret (Some d, t') /\ U64 <= park_distance d (l_ts l) + l_next l)).
Proof.
  intros Hs H1 H2. step_inv Hs; revert H2; inst_shape; fsimpl; intros H2; try done; try (by rewrite H2 in H1).
  all: try (exfalso; revert H2 H1; unfold complete, drop_mark, abandon_opt; repeat case_match; fsimpl; done).
  - right; left. unfold get_maximum_running_time, res_bind in Heqr. destruct (t_maxrun t) as [m|] eqn:Em; [|done].
    destruct (add64 pf m (l_ts l)) eqn:Ea; [done|]. apply add64_panic in Ea as [-> ?]. eauto 10.
  - right; right; left. unfold down_count_and_set_valid, res_bind in Heqr. destruct (down_count pf (t_freq t)) eqn:Ed; [done|].
    do 4 eexists. split; [done|]. destruct (t_freq t); cbn in Ed |- *; unfold res_bind, sub64 in Ed; try done;
    destruct (1 <=? n) eqn:E; try done; destruct pf; try done; (split; [f_equal; lia|done]).
  - right; right; right. apply add64_panic in Heqr0 as [-> ?]. do 4 eexists. split; [done|]. split; [done|]. right. eauto.
  - right; right; right. do 4 eexists. split; [done|]. split; [|by left]. by eapply next_panic.
  - by left.
Qed.

(** The cases in which the event handler panics. *)
Lemma handler_dies pf lb s s' : step pf lb s = Some s' -> hpc s <> HDead -> hpc s' = HDead ->
  exists t c h k, hpc s = HAdd1 t c h k /\ pf = Debug /\ (get_next_exec_timestamp pf t = Panic \/
     exists d t', get_next_exec_timestamp pf t = Ret (Some d, t') /\ U64 <= add_distance d (gtime s) (t_id t) + h + 1).
Proof.
  intros Hs H1 H2. step_inv Hs; revert H2; inst_shape; fsimpl; intros H2; try done; try (by rewrite H2 in H1).
  all: try (exfalso; revert H2 H1; unfold complete, drop_mark, abandon_opt; repeat case_match; fsimpl; done).
  - do 4 eexists. split; [done|]. unfold res_bind in Heqr0. destruct (add64 pf _ h) eqn:E.
    + pose proof (add64_mod _ _ _ _ E). apply add64_panic in Heqr0 as [-> ?]. split; [done|]. right. do 2 eexists. split; [done|].
      assert (a <= add_distance n (gtime s) (t_id t) + h) by (subst a; apply N.mod_le; done). lia.
    + apply add64_panic in E as [-> ?]. split; [done|]. right. do 2 eexists. split; [done|]. lia.
  - do 4 eexists. split; [done|]. split; [by eapply next_panic|by left].
Qed.

Lemma release_alive t0 t1 s : reachable_with (fun lb => lb <> LRoutinePanic) Release t0 t1 s -> tpc s <> TDead /\ hpc s <> HDead.
Proof.
  revert s. apply (with_ind _ Release t0 t1 (fun s => tpc s <> TDead /\ hpc s <> HDead)).
  - intros n. split; discriminate.
  - intros lb s s' Hr HP [H1 H2] Hs. split; intros E.
    + destruct (timer_dies _ _ _ _ Hs H1 E) as [?|[H|[H|H]]]; [done|..]; by decompose [ex and] H.
    + destruct (handler_dies _ _ _ _ Hs H2 E) as (?&?&?&?&_&?&_). done.
Qed.

Lemma follows_cron pf c l i' : follows pf (inl c) l i' -> exists c', i' = inl c' /\ ci_next c' = ci_next c.
Proof.
  induction 1 as [|l i1 d i2 Hf (c1 & -> & E1) Hn]; [by exists c|].
  cbn in Hn. unfold cron_step in Hn. destruct (ci_done c1); [done|]. destruct (ci_next c1 (ci_prev c1)) eqn:E; simplify_eq.
  eexists; split; [done|]. done.
Qed.

Lemma next_of_iter pf t z i : iter_next pf (iter_of (t_freq t)) = Ret (z, i) ->
  exists t', get_next_exec_timestamp pf t = Ret (option_map as_u64 z, t').
Proof.
  unfold get_next_exec_timestamp, next_alarm_timestamp, res_bind. destruct (t_freq t); cbn [iter_of iter_next].
  1, 2: destruct (cron_step c); intros; simplify_eq; eauto.
  all: unfold res_bind; destruct (ss_next pf s) as [[? ?]|]; intros; simplify_eq; eauto.
Qed.

(** With safe parameters the next due time is computed without overflow. *)
Lemma next_safe pf t0 t1 s t : reachable pf t0 t1 s -> (forall t1, submitted t1 (log s) -> safe t1 (log s)) -> t ∈ held s ->
  exists o t', get_next_exec_timestamp pf t = Ret (o, t') /\ forall d, o = Some d -> d + SLOTS < U64.
Proof.
  intros Hr Hsafe Ht. destruct (ci_held _ (cnt_reach _ _ _ _ Hr) t Ht) as (a & Ha & Hu & _).
  destruct (f_sub _ _ (finv_reach _ _ _ _ Hr) a Ha) as (i & Hf & Hi). specialize (Hi t Ht (eq_sym Hu)).
  destruct (Hsafe a Ha) as (_ & _ & Hn).
  destruct (iter_of (t_freq a)) as [c|st] eqn:Ea.
  - destruct (follows_cron _ _ _ _ Hf) as (c' & -> & Ec).
    destruct (cron_step c') as [o c2] eqn:Ecs.
    assert (iter_next pf (iter_of (t_freq t)) = Ret (o, inl c2)) as Hin by (rewrite Hi; cbn; by rewrite Ecs).
    destruct (next_of_iter _ _ _ _ Hin) as (t' & E). do 2 eexists. split; [exact E|]. intros d Hd.
    destruct o as [z|]; [|done]. cbn in Hd. simplify_eq. unfold cron_step in Ecs. destruct (ci_done c'); [done|].
    destruct (ci_next c' (ci_prev c')) as [z'|] eqn:Ez; simplify_eq. rewrite Ec in Ez. apply Hn in Ez as [? ?].
    unfold as_u64, U64, SLOTS in *. lia.
  - destruct Hn as [Hfst Hfit]. destruct st as [st b stp]. cbn [ss_first ss_start ss_step] in *. subst b.
    unfold fits in Hfit. destruct (follows_secs _ _ _ _ _ (ltac:(lia) : st < U64) Hf) as [Hl ->].
    set (l := planned (t_uid a) (log s)) in *. set (x := st + N.of_nat (length l) * (stp + 1)) in *.
    assert (ss_next pf (match l with [] => SState st true stp | d :: _ => SState ((d + 1) mod U64) false stp end) = Ret (x, SState (x + 1) false stp)) as E.
    { unfold ss_next, add64, res_bind.
      destruct l as [|d l'] eqn:El; cbn [ss_start ss_first ss_step].
      - cbn [length] in x. assert (x = st) as Ex by (unfold x; cbn; lia). rewrite !N.add_0_r, Ex.
        replace (st <? U64) with true by lia. replace (st + 1 <? U64) with true; [done|]. symmetry. apply N.ltb_lt. unfold SLOTS in *. lia.
      - cbn [length times] in Hl. simplify_eq. 
        assert (x = st + N.of_nat (length l') * (stp + 1) + (stp + 1)) as Ex by (unfold x; cbn [length]; rewrite Nat2N.inj_succ; lia).
        set (y := st + N.of_nat (length l') * (stp + 1)) in *. unfold SLOTS in *. clearbody x y.
        rewrite (N.mod_small y) by lia. rewrite (N.mod_small (y + 1)) by lia.
        replace (y + 1 + stp) with x by lia.
        replace (x <? U64) with true by lia. replace (x + 1 <? U64) with true by lia. done. }
    assert (iter_next pf (iter_of (t_freq t)) = Ret (Some (as_i64 x), inr (SState (x + 1) false stp))) as Hin.
    { rewrite Hi. cbn [iter_next]. rewrite E. done. }
    destruct (next_of_iter _ _ _ _ Hin) as (t' & E'). do 2 eexists. split; [exact E'|]. cbn [option_map].
    intros d Hd. simplify_eq. rewrite as_roundtrip by (unfold SLOTS in *; lia). exact Hfit.
Qed.

Lemma planned_len u lg l : (length (planned u l) <= length (planned u (lg ++ l)))%nat.
Proof. induction lg as [|o lg IH]; cbn [app]; [done|]. destruct o; cbn [planned]; try case_match; cbn [length]; lia. Qed.

Lemma safe_anti t lg l : safe t (lg ++ l) -> safe t l.
Proof.
  intros (H1 & H2 & H3). split; [done|]. split.
  - intros m k ts Hm Hk. eapply H2; [done|]. apply elem_of_app. by right.
  - destruct (iter_of (t_freq t)); [done|]. destruct H3 as [? H3]. split; [done|]. unfold fits in *.
    pose proof (planned_len (t_uid t) lg l). nia.
Qed.

Lemma safe_alive pf t0 t1 s : reachable_with (fun lb => lb <> LRoutinePanic) pf t0 t1 s ->
  (forall t, submitted t (log s) -> safe t (log s)) -> tpc s <> TDead /\ hpc s <> HDead.
Proof.
  revert s. apply (with_ind _ pf t0 t1 (fun s => (forall t, submitted t (log s) -> safe t (log s)) -> tpc s <> TDead /\ hpc s <> HDead)).
  - intros n _. split; discriminate.
  - intros lb s s' Hr HP IH Hs Hsafe'.
    assert (forall t, submitted t (log s) -> safe t (log s)) as Hsafe.
    { intros t Ht. destruct (step_log _ _ _ _ Hs) as [lg Hlg]. apply (safe_anti t lg). rewrite <- Hlg. apply Hsafe'. by eapply submitted_mono. }
    destruct (IH Hsafe) as [H1 H2]. apply with_reach in Hr. clear IH Hsafe'.
    pose proof (cnt_reach _ _ _ _ Hr) as Hc. pose proof (clk_reach _ _ _ _ Hr) as Hk. pose proof (wf_reach _ _ _ _ Hr) as Hw.
    split; intros E.
    + destruct (timer_dies _ _ _ _ Hs H1 E) as [?|[H|[H|H]]]; [done|..].
      * destruct H as (l & ids & t & r & m & Et & Em & -> & Ho).
        destruct (ci_held _ Hc t) as (a & Ha & _ & _ & Hm & _). { apply elem_held. left. rewrite Et. constructor. }
        destruct (Hsafe a Ha) as (_ & Hx & _). rewrite <- Hm in Em.
        pose proof (ck_loop _ _ Hk l) as Hl. rewrite Et in Hl. specialize (Hx _ _ _ Em (Hl eq_refl)). lia.
      * destruct H as (l & ids & t & r & Et & Ec & ->).
        destruct (ci_held _ Hc t) as (a & Ha & _ & _ & _ & _ & _ & Hn & Hx). { apply elem_held. left. rewrite Et. constructor. }
        destruct (Hsafe a Ha) as (Hz & _ & _). destruct (count (t_freq a)) as [n|] eqn:En; [|rewrite Hn in Ec; done].
        destruct (Hx n eq_refl) as (_ & c & E1 & E2 & _); [destruct n; [done|lia]|]. rewrite E1 in Ec. simplify_eq.
      * destruct H as (l & ids & t & u & Et & -> & Hx).
        destruct (next_safe Debug t0 t1 s t Hr Hsafe) as (o & t' & En & Hd). { apply elem_held. left. rewrite Et. constructor. }
        rewrite En in Hx. destruct Hx as [Hx|(d & t2 & Hx & Hov)]; [done|]. simplify_eq. specialize (Hd _ eq_refl).
        pose proof (wf_loop _ Hw l) as Hl. rewrite Et in Hl. destruct (Hl eq_refl) as [_ Eh]; rewrite Eh in Hov.
        assert (park_distance d (l_ts l) <= d + 1) by (unfold park_distance, checked_sub; repeat case_match; simplify_eq; lia).
        assert ((hand s + 1) mod SLOTS < SLOTS) by (by apply N.mod_lt). unfold SLOTS, U64 in *. lia.
    + destruct (handler_dies _ _ _ _ Hs H2 E) as (t & c & h & k & Et & -> & Hx).
      destruct (next_safe Debug t0 t1 s t Hr Hsafe) as (o & t' & En & Hd). { apply elem_held. right. apply elem_rest_hpc. rewrite Et. constructor. }
      rewrite En in Hx. destruct Hx as [Hx|(d & t2 & Hx & Hov)]; [done|]. simplify_eq. specialize (Hd _ eq_refl).
      pose proof (wf_hpc _ Hw) as Hl. rewrite Et in Hl. destruct Hl as [-> _].
      assert (k mod SLOTS < SLOTS) by (by apply N.mod_lt).
      assert (add_distance d (gtime s) (t_id t) <= d \/ add_distance d (gtime s) (t_id t) < SLOTS) as [?|?].
      { unfold add_distance, checked_sub. repeat case_match; simplify_eq; [left; lia|right; by apply N.mod_lt]. }
      all: unfold SLOTS, U64 in *; lia.
Qed.
