(** The parallel limit: C07, C08. *)
From Verif Require Import Tactics Inv Own Life Count Quiet Scen Cases Inst Ended Origin Account.

(** The id of [t] was submitted once. *)
Definition sole (t : task) (lg : list obs) : Prop := submitted t lg /\ forall t', submitted t' lg -> t_id t' = t_id t -> t' = t.
Lemma sole_once t lg : sole t lg -> once (t_id t) lg.
Proof. intros [H1 H2] a b Ha Hb Ea Eb. transitivity t; [by apply H2|symmetry; by apply H2]. Qed.
Lemma sole_bound t mx lg : sole t lg -> t_maxpar t = Some mx -> bound (t_id t) mx lg.
Proof. intros [H1 H2] Hm a Ha Ea. by rewrite (H2 a Ha Ea). Qed.
Lemma quiet_sole t lg : submitted t lg -> quiet t lg -> sole t lg.
Proof.
  intros Hs Hq. split; [done|]. intros t' (e & He & Hsub) Hi. unfold submits in Hsub.
  assert (names (t_id t) e) as Hn by (destruct Hsub as [->|[->| ->]]; done).
  destruct (Hq e He Hn) as [->| ->]; destruct Hsub as [?|[?|?]]; congruence.
Qed.
Lemma sole_anti pf lb s s' t : step pf lb s = Some s' -> submitted t (log s) -> sole t (log s') -> sole t (log s).
Proof. intros Hs Ht [_ H]. split; [done|]. intros t' Ht'. apply H. by eapply submitted_mono. Qed.
Lemma sole_run pf ls s s' t : run pf ls s = Some s' -> submitted t (log s) -> sole t (log s') -> sole t (log s).
Proof.
  intros H Ht [_ Hx]. destruct (run_log _ _ _ _ H) as [l El]. split; [done|]. intros t' (e & He & Hs). apply Hx. exists e. split; [|done].
  rewrite El. apply elem_of_app. by right.
Qed.

(* ------------------------------------------------------------------ *)
(** ** C07 The parallel limit is never exceeded *)

(** [running i lg]: the instances of the id [i] that were started and have not ended (Spec.v). *)
Theorem C07_limit_holds pf t0 t1 s t mx : reachable pf t0 t1 s -> sole t (log s) -> t_maxpar t = Some mx -> N.of_nat (length (running (t_id t) (log s))) <= mx.
Proof. intros Hr Ht Hm. exact (pi_max _ _ _ (par_reach _ _ _ _ _ _ Hr (sole_once _ _ Ht) (sole_bound _ _ _ Ht Hm))). Qed.
Print Assumptions C07_limit_holds.

(** The instances counted are different ones. *)
Theorem C07_counted_once pf t0 t1 s i : reachable pf t0 t1 s -> NoDup (running i (log s)).
Proof. exact (running_nodup pf t0 t1 s i). Qed.
Print Assumptions C07_counted_once.

(** The limit is reached and a further start is skipped. *)
Example C07_example : exists s, reachable Debug 100 100 s /\ sole (limited 2 (every 1 11 5 100)) (log s) /\ running 11 (log s) = [1%Z; 0%Z] /\ OSkip 1 11 16 116 ∈ log s.
Proof.
  destruct (scen_alone Debug 100 100 [Do (LAdd (limited 2 (every 1 11 5 100))); Handle; Ticks 7; Handle; Ticks 5; Handle; Ticks 5; Handle] (limited 2 (every 1 11 5 100))
    (fun s => bool_decide (running 11 (log s) = [1%Z; 0%Z]) && existsb (same (OSkip 1 11 16 116)) (log s))) as (s & (Hr & Hs & Hq & _) & HP); [left; left|vm_compute; reflexivity|].
  apply andb_true_iff in HP as [H1 H2]. apply bool_decide_eq_true in H1. apply existsb_exists in H2 as (o & Ho & E). apply same_ok in E. subst o.
  exists s. split; [exact Hr|]. split; [exact (quiet_sole _ _ Hs Hq)|]. split; [exact H1|]. by apply elem_of_list_In.
Qed.

(* ------------------------------------------------------------------ *)
(** ** C08 Parallel slots are always given back *)

(** Between two ticks ([TCheck]), when all instances of the task have ended, its count is 0. *)
Definition C08_given_back : Prop := forall pf t0 t1 s t mx m l, reachable pf t0 t1 s -> sole t (log s) -> t_maxpar t = Some mx ->
  flags s !! t_id t = Some m -> tpc s = TCheck l -> running (t_id t) (log s) = [] -> m_num m = 0.

(** False: the instance ends before the scheduler has counted it. *)
Definition mark_is (i n : N) (s : sys) : bool := bool_decide (m_num <$> flags s !! i = Some n).
Definition at_check (s : sys) : bool := match tpc s with TCheck _ => true | _ => false end.
Definition none_runs (i : N) (s : sys) : bool := match running i (log s) with [] => true | _ => false end.
Definition T : act := Do (LTimer 0 0 0).
Theorem C08_given_back_refuted : ~ C08_given_back.
Proof.
  intros H.
  destruct (scen_alone Debug 100 100 [Do (LAdd (limited 1 (every 1 11 5 100))); Handle; Ticks 6; T; T; T; T; T; T; T; T; Do (LFinish 0 106 None); Handle; Ticks 1]
    (limited 1 (every 1 11 5 100)) (fun s => mark_is 11 1 s && at_check s && none_runs 11 s)) as (s & (Hr & Hs & Hq & _) & HP); [left; left|vm_compute; reflexivity|].
  apply andb_true_iff in HP as [HP H3]. apply andb_true_iff in HP as [H1 H2].
  unfold mark_is in H1. apply bool_decide_eq_true in H1. destruct (flags s !! 11) as [m|] eqn:Em; [|discriminate H1]. injection H1 as H1.
  unfold at_check in H2. destruct (tpc s) eqn:Et; try discriminate H2. unfold none_runs in H3. destruct (running 11 (log s)) eqn:Er; [|discriminate H3].
  specialize (H _ _ _ _ _ _ _ _ Hr (quiet_sole _ _ Hs Hq) eq_refl Em Et Er). rewrite H1 in H. discriminate H.
Qed.
Print Assumptions C08_given_back_refuted.

(** False too when the user drops the chain and then an instance finishes. *)
Theorem C08_given_back_refuted2 : ~ C08_given_back.
Proof.
  intros H.
  destruct (scen_alone Debug 100 100 [Do (LInsert (limited 1 (every 1 11 5 100))); Handle; Ticks 7; Handle; Do (LChainDrop 1); Do (LFinish 0 106 None); Handle; Ticks 1]
    (limited 1 (every 1 11 5 100)) (fun s => mark_is 11 1 s && at_check s && none_runs 11 s)) as (s & (Hr & Hs & Hq & _) & HP); [right; left|vm_compute; reflexivity|].
  apply andb_true_iff in HP as [HP H3]. apply andb_true_iff in HP as [H1 H2].
  unfold mark_is in H1. apply bool_decide_eq_true in H1. destruct (flags s !! 11) as [m|] eqn:Em; [|discriminate H1]. injection H1 as H1.
  unfold at_check in H2. destruct (tpc s) eqn:Et; try discriminate H2. unfold none_runs in H3. destruct (running 11 (log s)) eqn:Er; [|discriminate H3].
  specialize (H _ _ _ _ _ _ _ _ Hr (quiet_sole _ _ Hs Hq) eq_refl Em Et Er). rewrite H1 in H. discriminate H.
Qed.
Print Assumptions C08_given_back_refuted2.

(** What holds: those two are the only ways.  [forgets i s] (Account.v): the event handler is about to handle the end of an
    instance of [i] whose start is not yet counted, or a finish after the chain was dropped. *)
Inductive tidy (pf : profile) (t0 t1 i : N) : sys -> Prop :=
| tidy_init : tidy pf t0 t1 i (init t0 t1)
| tidy_step lb s s' : tidy pf t0 t1 i s -> ~ (lb = LHandler /\ forgets i s) -> step pf lb s = Some s' -> tidy pf t0 t1 i s'.
Lemma tidy_reach pf t0 t1 i s : tidy pf t0 t1 i s -> reachable pf t0 t1 s.
Proof. induction 1 as [|lb s s' _ IH _ Hs]; [by exists []|]. exact (reach_step _ _ _ _ _ _ IH Hs). Qed.
Lemma tidy_exact pf t0 t1 i mx s m x : tidy pf t0 t1 i s -> once i (log s) -> bound i mx (log s) -> flags s !! i = Some m -> x ∈ held s -> t_id x = i ->
  m_num m + inflight i (tpc s) = nrun i s.
Proof.
  intros Ht. revert m x. induction Ht as [|lb s s' Ht IH Hn Hs]; intros m x Ho Hb Hm Hx Hi.
  - change (flags (init t0 t1)) with (∅ : gmap N mark) in Hm. rewrite lookup_empty in Hm. discriminate Hm.
  - destruct (leak_step _ _ _ _ _ _ _ _ _ _ (tidy_reach _ _ _ _ _ Ht) Ho Hb Hs Hm Hx Hi) as [(_ & ? & ? & ?)|(m0 & y & H1 & H2 & H3 & H4 & H5)]; [lia|].
    pose proof (IH m0 y (once_anti _ _ _ _ _ Hs Ho) (bound_anti _ _ _ _ _ _ Hs Hb) H1 H2 H3). destruct H5 as [H5|H5]; [lia|done].
Qed.
(** Missing: executions in which a place was forgotten; tasks no longer held. *)
Theorem C08_given_back_partial pf t0 t1 s t mx m l x : tidy pf t0 t1 (t_id t) s -> sole t (log s) -> t_maxpar t = Some mx ->
  flags s !! t_id t = Some m -> x ∈ held s -> t_id x = t_id t -> tpc s = TCheck l -> m_num m = N.of_nat (length (running (t_id t) (log s))).
Proof.
  intros Hr Ht Hm Hf Hx Hi Hc. pose proof (tidy_exact _ _ _ _ _ _ _ _ Hr (sole_once _ _ Ht) (sole_bound _ _ _ Ht Hm) Hf Hx Hi) as H.
  rewrite Hc in H. cbn [inflight] in H. unfold nrun in H. lia.
Qed.
Print Assumptions C08_given_back_partial.
(** Then a start is refused only while as many instances run as allowed. *)
Theorem C08_refused_only_at_limit pf t0 t1 s t mx m l ids x : tidy pf t0 t1 (t_id t) s -> sole t (log s) -> t_maxpar t = Some mx ->
  tpc s = TMaint l ids x -> t_id x = t_id t -> flags s !! t_id t = Some m -> mx <= m_num m -> N.of_nat (length (running (t_id t) (log s))) = mx.
Proof.
  intros Hr Ht Hm Hc Hi Hf Hle. assert (x ∈ held s) as Hx by (apply elem_held; left; rewrite Hc; left).
  pose proof (tidy_exact _ _ _ _ _ _ _ _ Hr (sole_once _ _ Ht) (sole_bound _ _ _ Ht Hm) Hf Hx Hi) as H.
  pose proof (C07_limit_holds _ _ _ _ _ _ (tidy_reach _ _ _ _ _ Hr) Ht Hm). rewrite Hc in H. cbn [inflight] in H. unfold nrun in H. lia.
Qed.
Print Assumptions C08_refused_only_at_limit.

(** A forgotten place is never found again: once the count exceeds the running instances by the limit, the task does not start any more. *)
Definition stuck (i mx : N) (s : sys) : Prop :=
  ~ awaited i s /\ (forall l ids x r, tpc s = TSpawn l ids x r -> t_id x <> i) /\
  (forall m x, flags s !! i = Some m -> x ∈ held s -> t_id x = i -> mx + nrun i s <= m_num m + inflight i (tpc s)).
Lemma stuck_step pf t0 t1 t mx lb s s' : reachable pf t0 t1 s -> step pf lb s = Some s' -> submitted t (log s) -> sole t (log s') -> t_maxpar t = Some mx -> stuck (t_id t) mx s -> stuck (t_id t) mx s'.
Proof.
  intros Hr Hs Hsub Ht Hm (S1 & S2 & S3). pose proof (sole_once _ _ Ht) as Ho. pose proof (sole_bound _ _ _ Ht Hm) as Hb.
  pose proof (bound_anti _ _ _ _ _ _ Hs Hb) as Hb0. split; [|split].
  - intros Ha. destruct (awaited_step _ _ _ _ _ Hs Ha) as [?|(t' & Ht' & Hi)]; [done|].
    assert (t' = t) as -> by (apply (proj2 Ht); [by eapply submit_log|done]). destruct Ht' as (_ & _ & Hn). apply Hn. exact (ci_used s (cnt_reach _ _ _ _ Hr) _ Hsub).
  - intros l ids x r E Hi. destruct (spawn_kind _ _ _ _ _ _ _ _ _ _ _ _ Hr Hb0 Hs E Hi) as [_ [F|(F & Hx & m & G & G1)]].
    + rewrite F in E. exact (S2 _ _ _ _ E Hi).
    + pose proof (S3 _ _ G Hx Hi) as H. rewrite F in H. cbn [inflight] in H. lia.
  - intros m x Hf Hx Hi. destruct (leak_step _ _ _ _ _ _ _ _ _ _ Hr Ho Hb Hs Hf Hx Hi) as [(H1 & _)|(m0 & y & H1 & H2 & H3 & H4 & _)].
    + destruct (num_kinds _ _ _ _ (t_id t) Hs) as [K|l ids sl m1 m2 K1 K2 K3 K4 K5|c sl m1 K1 K2 K3 K4|ok K1 K2|e q fin rec st tr m1 m2 K1 K2 K3 K4 K5 K6 K7 K8]; try congruence.
      * rewrite Hf, H1 in K. discriminate K.
      * destruct S1. right. by rewrite K1.
    + pose proof (S3 _ _ H1 H2 H3). lia.
Qed.
Theorem C08_blocked_for_good pf t0 t1 s t mx m l ls s' : reachable pf t0 t1 s -> submitted t (log s) -> t_maxpar t = Some mx -> flags s !! t_id t = Some m -> tpc s = TCheck l ->
  mx + N.of_nat (length (running (t_id t) (log s))) <= m_num m -> run pf ls s = Some s' -> sole t (log s') -> starts (t_uid t) (log s') = starts (t_uid t) (log s).
Proof.
  intros Hr Hsub Hm Hf Hc Hle Hrun Ht.
  assert (stuck (t_id t) mx s) as Hst.
  { split; [|split].
    - intros Ha. pose proof (sole_run _ _ _ _ _ Hrun Hsub Ht) as Ht0.
      destruct (wi_await _ _ (wait_reach _ _ _ _ _ _ Hr (sole_once _ _ Ht0) (sole_bound _ _ _ Ht0 Hm)) Ha) as (? & _). congruence.
    - intros l1 ids x r E. congruence.
    - intros m0 x E _ _. rewrite Hf in E. injection E as <-. rewrite Hc. cbn [inflight]. unfold nrun. lia. }
  clear m l Hf Hc Hle. revert s Hr Hsub Hst Hrun. induction ls as [|lb ls IH]; intros s Hr Hsub Hst Hrun; cbn [run] in Hrun; [by simplify_eq|].
  destruct (step pf lb s) as [s1|] eqn:Hs; [|discriminate Hrun].
  pose proof (submitted_mono _ _ _ _ _ Hs Hsub) as Hsub1. pose proof (sole_run _ _ _ _ _ Hrun Hsub1 Ht) as Ht1.
  rewrite (IH s1 (reach_step _ _ _ _ _ _ Hr Hs) Hsub1 (stuck_step _ _ _ _ _ _ _ _ Hr Hs Hsub Ht1 Hm Hst) Hrun).
  destruct (starts_step _ _ _ _ Hs) as [(l & ids & x & r & E & _ & _ & E2 & _)|[E _]]; [|by rewrite E]. rewrite E2. cbn [starts].
  destruct (t_uid x =? t_uid t) eqn:Eu; [|lia]. apply N.eqb_eq in Eu. exfalso.
  assert (x ∈ held s) as Hx by (apply elem_held; left; rewrite E; left).
  destruct (ci_held s (cnt_reach _ _ _ _ Hr) x Hx) as (x1 & H1 & H2 & H3 & _).
  assert (x1 = t) as -> by (apply (ci_uniq s (cnt_reach _ _ _ _ Hr)); [done|done|congruence]).
  destruct Hst as (_ & S2 & _). apply (S2 _ _ _ _ E). congruence.
Qed.
Print Assumptions C08_blocked_for_good.

(** The forgotten place of the first refutation: the only start the task ever has. *)
Example C08_blocked_example : exists s m l, reachable Debug 100 100 s /\ sole (limited 1 (every 1 11 5 100)) (log s) /\ flags s !! 11 = Some m /\ tpc s = TCheck l /\
  1 + N.of_nat (length (running 11 (log s))) <= m_num m /\ starts 1 (log s) = 1.
Proof.
  destruct (scen_alone Debug 100 100 [Do (LAdd (limited 1 (every 1 11 5 100))); Handle; Ticks 6; T; T; T; T; T; T; T; T; Do (LFinish 0 106 None); Handle; Ticks 1]
    (limited 1 (every 1 11 5 100)) (fun s => mark_is 11 1 s && at_check s && none_runs 11 s && (starts 1 (log s) =? 1))) as (s & (Hr & Hs & Hq & _) & HP); [left; left|vm_compute; reflexivity|].
  apply andb_true_iff in HP as [HP H4]. apply andb_true_iff in HP as [HP H3]. apply andb_true_iff in HP as [H1 H2].
  unfold mark_is in H1. apply bool_decide_eq_true in H1. destruct (flags s !! 11) as [m|] eqn:Em; [|discriminate H1]. injection H1 as H1.
  unfold at_check in H2. destruct (tpc s) eqn:Et; try discriminate H2. unfold none_runs in H3. destruct (running 11 (log s)) eqn:Er; [|discriminate H3].
  exists s, m, l. split; [exact Hr|]. split; [exact (quiet_sole _ _ Hs Hq)|]. split; [done|]. split; [done|]. split; [rewrite ?Er, H1; discriminate|]. by apply N.eqb_eq.
Qed.

(** Executions in which nothing is forgotten, by evaluation: each act is a step whose label may depend on the state. *)
Definition ends_of (i : N) (e : event) : option (bool * Z) :=
  match e with
  | ECancel j r | ETimeout j r => if j =? i then Some (false, r) else None
  | EFinish j r _ _ => if j =? i then Some (true, r) else None
  | _ => None
  end.
Definition forgetsb (i : N) (s : sys) : bool :=
  match hpc s, queue s, flags s !! i with
  | HIdle, e :: _, Some m =>
      match ends_of i e with
      | Some (fin, _) => (m_num m =? 0) || (fin && match m_chain m with Some (cid, _) => bool_decide (chain_state s cid = Some DROPPED) | None => false end)
      | None => false
      end
  | _, _, _ => false
  end.
Lemma forgetsb_ok i s : forgets i s -> forgetsb i s = true.
Proof.
  intros [e q fin rec st m H1 H2 H3 H4 H5 H6|e q rec st m cid l H1 H2 H3 H4 H5 H6 H7]; unfold forgetsb; rewrite H1, H2, H5.
  - assert (exists p, ends_of i e = Some p) as [[b r] ->] by (destruct H3; cbn; rewrite N.eqb_refl; eauto). by rewrite H6.
  - assert (exists r, ends_of i e = Some (true, r)) as [r ->] by (inversion H3; subst; cbn; rewrite N.eqb_refl; eauto). rewrite H6, bool_decide_true by done. by rewrite orb_true_r.
Qed.
Definition is_handler (lb : label) : bool := match lb with LHandler => true | _ => false end.
Fixpoint tidy_play (pf : profile) (i : N) (l : list (sys -> label)) (s : sys) : option sys :=
  match l with
  | [] => Some s
  | f :: r => if is_handler (f s) && forgetsb i s then None else match step pf (f s) s with Some s' => tidy_play pf i r s' | None => None end
  end.
Lemma tidy_play_ok pf t0 t1 i l s s' : tidy pf t0 t1 i s -> tidy_play pf i l s = Some s' -> tidy pf t0 t1 i s'.
Proof.
  revert s. induction l as [|f l IH]; intros s Ht H; cbn [tidy_play] in H; [by injection H as <-|].
  destruct (is_handler (f s) && forgetsb i s) eqn:E; [discriminate H|]. destruct (step pf (f s) s) as [s1|] eqn:Hs; [|discriminate H].
  refine (IH s1 _ H). refine (tidy_step _ _ _ _ _ _ _ Ht _ Hs). intros [E1 E2]. apply forgetsb_ok in E2. rewrite E1, E2 in E. discriminate E.
Qed.
Lemma tidy_play_log pf i l s s' : tidy_play pf i l s = Some s' -> exists lg, log s' = lg ++ log s.
Proof.
  revert s. induction l as [|f l IH]; intros s H; cbn [tidy_play] in H; [injection H as <-; by exists []|].
  destruct (_ && _); [discriminate H|]. destruct (step pf (f s) s) as [s1|] eqn:Hs; [|discriminate H].
  destruct (IH s1 H) as [l1 ->]. destruct (step_log _ _ _ _ Hs) as [l2 ->]. exists (l1 ++ l2). by rewrite app_assoc.
Qed.
Lemma tidy_play_sub pf i t l s s' : tidy_play pf i ((fun _ => LInsert t) :: l) s = Some s' -> submitted t (log s').
Proof.
  intros H. cbn [tidy_play is_handler andb] in H. destruct (step pf (LInsert t) s) as [s1|] eqn:Hs; [|discriminate H].
  destruct (tidy_play_log _ _ _ _ _ H) as [lg ->].
  assert (OSend (EInsert t) ∈ log s1) as Hin.
  { cbn [step] in Hs. unfold submit_insert, submit, option_map in Hs. destruct (_ && _); [|discriminate Hs]. injection Hs as <-. fsimpl. left. }
  exists (EInsert t). split; [apply elem_of_app; by right|]. unfold submits. auto.
Qed.
Lemma tidy_after pf t0 t1 t l (P : sys -> bool) : match tidy_play pf (t_id t) ((fun _ => LInsert t) :: l) (init0 t0 t1) with Some s => quietb t (log s) && P s | None => false end = true ->
  exists s, tidy pf t0 t1 (t_id t) s /\ sole t (log s) /\ P s = true.
Proof.
  rewrite init0_eq. destruct (tidy_play pf (t_id t) _ (init t0 t1)) as [s|] eqn:E; [|intros H; discriminate H]. intros H. apply andb_true_iff in H as [H1 H2].
  pose proof (tidy_play_ok _ _ _ _ _ _ _ (tidy_init _ _ _ _) E) as Ht. pose proof (tidy_play_sub _ _ _ _ _ _ E) as Hs.
  exists s. split; [exact Ht|]. split; [|exact H2]. exact (quiet_sole _ _ Hs (quietb_ok _ _ _ _ _ (tidy_reach _ _ _ _ _ Ht) Hs H1)).
Qed.
Definition tk (s : sys) : label := LTimer 0 (fresh_rec s) (clock s + 1).
Definition hd (s : sys) : label := LHandler.
Definition c08_acts : list (sys -> label) :=
  repeat hd 4 ++ repeat tk (5 * 6 + 12) ++ [hd] ++ repeat tk (5 * 4 + 12) ++ [hd; fun _ => LFinish 0 112 None; hd].
Example C08_example : exists s m l x, tidy Debug 100 100 11 s /\ sole (limited 2 (every 1 11 5 100)) (log s) /\ flags s !! 11 = Some m /\ x ∈ held s /\ t_id x = 11 /\ tpc s = TCheck l /\
  running 11 (log s) = [1%Z] /\ m_num m = 1.
Proof.
  destruct (tidy_after Debug 100 100 (limited 2 (every 1 11 5 100)) c08_acts (fun s => mark_is 11 1 s && at_check s && bool_decide (running 11 (log s) = [1%Z]) && existsb (fun x => t_id x =? 11) (held s)))
    as (s & Ht & Hs & HP); [vm_compute; reflexivity|].
  apply andb_true_iff in HP as [HP H4]. apply andb_true_iff in HP as [HP H3]. apply andb_true_iff in HP as [H1 H2].
  unfold mark_is in H1. apply bool_decide_eq_true in H1. destruct (flags s !! 11) as [m|] eqn:Em; [|discriminate H1]. injection H1 as H1.
  unfold at_check in H2. destruct (tpc s) eqn:Et; try discriminate H2. apply bool_decide_eq_true in H3. apply existsb_exists in H4 as (x & Hx & E). apply N.eqb_eq in E.
  exists s, m, l, x. split; [exact Ht|]. split; [exact Hs|]. split; [done|]. split; [by apply elem_of_list_In|]. done.
Qed.
