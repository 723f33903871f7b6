(** A waiting task is affected only by operations on its own id. *)
From Verif Require Import Tactics Inv Own Life Count Quiet Timing Cases.

Lemma on_insert w sl0 m0 m' i sl t : w !! sl0 = Some m0 -> on w i sl t -> m' !! i = m0 !! i -> on (<[sl0 := m']> w) i sl t.
Proof.
  intros Hw (m & Hsl & Hm) E. destruct (decide (sl = sl0)) as [->|].
  - exists m'. rewrite lookup_insert. split; [done|]. rewrite E. congruence.
  - exists m. by rewrite lookup_insert_ne.
Qed.

Lemma wait_same s s' i sl t : sits s' i sl t -> when_at s' i sl t = when_at s i sl t -> waits s s' i sl t.
Proof. intros H1 H2. left. exists t. split; [done|]. split; [done|]. by exists (t_cyl t); destruct t. Qed.

Lemma when_frame s s' i sl t : tpc s' = tpc s -> iters s' = iters s -> hand s' = hand s -> when_at s' i sl t = when_at s i sl t.
Proof. intros H1 H2 H3. unfold when_at, next_scan. by rewrite H1, H2, H3. Qed.

Ltac pc_inv H :=
  unfold timer_step, handler_step, dispatch, slot_remove_task in H; destruct_inner H; try discriminate H; try (injection H as H; subst).

Lemma handler_frame pf s s' : handler_step pf s = Some s' -> tpc s' = tpc s /\ iters s' = iters s /\ hand s' = hand s.
Proof. intros Hs. pc_inv Hs; inst_shape; repeat case_match; fsimpl; done. Qed.
Lemma frame_handler pf s s' i sl t : sits s i sl t -> handler_on (hpc s) <> Some i -> handler_step pf s = Some s' -> waits s s' i sl t.
Proof.
  intros Hon Hn Hs. destruct (handler_frame _ _ _ Hs) as (E1 & E2 & E3).
  apply wait_same; [|by apply when_frame]. clear E1 E2 E3. revert Hn. pc_inv Hs; inst_shape; repeat case_match; fsimpl; intros Hn; try done.
  all: cbn [handler_on] in Hn; unfold slot_add_task, slot_update_task, snd; try (eapply on_insert; [eassumption|done|]).
  all: repeat case_match; simplify_eq; try done.
  all: try (rewrite lookup_insert_ne by congruence; done).
  all: try (rewrite lookup_delete_ne by congruence; done).
Qed.

Lemma when_next s s' i sl t : next_scan s' = next_scan s -> iters s' = iters s -> hand s' = hand s ->
  (sl = hand s -> i ∈ ids_of (tpc s') <-> i ∈ ids_of (tpc s)) -> when_at s' i sl t = when_at s i sl t.
Proof.
  intros H1 H2 H3 H4. unfold when_at. rewrite H1, H2, H3.
  destruct (decide (i ∈ ids_of (tpc s') /\ sl = hand s)) as [[Ha Hb]|Ha]; destruct (decide (i ∈ ids_of (tpc s) /\ sl = hand s)) as [[Hc Hd]|Hc]; try done; naive_solver.
Qed.
Lemma elem_delete_ne {A} (l : list A) n x y : l !! n = Some y -> x <> y -> x ∈ delete n l <-> x ∈ l.
Proof.
  intros Hl Hne. transitivity (x ∈ y :: delete n l); [rewrite elem_of_cons; naive_solver|]. by rewrite <- (delete_Permutation l n y Hl).
Qed.
Lemma elem_arrived m i t : (forall k t, m !! k = Some t -> t_id t = k) -> m !! i = Some t -> t_valid t = true ->
  i ∈ fst (slot_arrival_time_tasks m) <-> t_cyl t = 0.
Proof.
  intros Hk Hm Hv. cbn. rewrite elem_of_list_fmap. split.
  - intros ([k t'] & -> & Hin). apply elem_of_list_filter in Hin as [Ha Hin]. apply elem_of_map_to_list in Hin. cbn in *.
    rewrite (Hk _ _ Hin) in Hm. simplify_eq. unfold check_arrived in Ha. destruct (t_cyl t =? 0) eqn:E; [lia|done].
  - intros E. exists (i, t). cbn. split; [by rewrite (Hk _ _ Hm)|]. apply elem_of_list_filter. split; [|by apply elem_of_map_to_list].
    cbn. unfold check_arrived, is_can_running. by rewrite E, Hv.
Qed.

Lemma frame_timer pf ch rec now s s' i sl t : wf s -> (forall t, t ∈ wheel_tasks (wheel s) -> t_valid t = true) -> sits s i sl t ->
  (forall l ids t upd, tpc s = TPark l ids t upd -> t_id t <> i) -> timer_step pf ch rec now s = Some s' -> tpc s' <> TDead -> waits s s' i sl t.
Proof.
  intros Hwf Hval Hon Hn Hs Hd.
  assert (forall w, wheel s' = wheel s -> next_scan s' = next_scan s -> iters s' = iters s -> hand s' = hand s ->
    ids_of (tpc s') = ids_of (tpc s) -> w = s' -> waits s w i sl t) as Hsame.
  { intros w E1 E2 E3 E4 E5 ->. apply wait_same; [by rewrite E1|]. apply when_next; try done. by rewrite E5. }
  pose proof (wf_loop s Hwf) as Hl. pose proof (wf_hand s Hwf) as Hh.
  revert Hsame Hd. pc_inv Hs; fsimpl; intros Hsame Hd.
  all: match goal with H : tpc _ = _ |- _ => rename H into Ht end.
  all: try (apply Hsame; unfold next_scan; fsimpl; rewrite ?Ht; done).
  all: destruct (Hl _ eq_refl) as [Hl1 Hl2]; rewrite ?Hl1 in *; clear Hsame Hl Hd.
  - destruct (decide (sl = hand s)) as [->|Hne].
    + left. destruct Hon as (m & Hm & Hi). rewrite Heqo in Hm. simplify_eq. assert (t_valid t = true) as Hv by (apply Hval; rewrite elem_of_wheel_tasks; eauto).
      pose proof (elem_arrived m i t (fun k t H => wf_key s Hwf _ _ _ _ Heqo H) Hi Hv) as Ha. rewrite Heqp in Ha. cbn [fst] in Ha.
      exists (snd (check_arrived t)). split; [|split].
      * exists g0. fsimpl. rewrite lookup_insert. split; [done|]. assert (g0 = snd (slot_arrival_time_tasks m)) as -> by (by rewrite Heqp).
        cbn. by rewrite lookup_fmap, Hi.
      * unfold when_at, next_scan. fsimpl. rewrite Ht. cbn [ids_of].
        rewrite (decide_False (P := i ∈ [] /\ _)) by (intros [Hx _]; by apply elem_of_nil in Hx).
        unfold check_arrived. destruct (t_cyl t =? 0) eqn:E.
        -- rewrite decide_True by (split; [apply Ha; lia|done]). cbn [snd]. rewrite Hh, due_here. lia.
        -- rewrite decide_False by (intros [Hx _]; apply Ha in Hx; lia). cbn [snd t_cyl set_cylinder_line]. rewrite Hh. apply due_rev. lia.
      * unfold check_arrived. destruct (t_cyl t =? 0); cbn [snd]; [exists (t_cyl t); by destruct t|eauto].
    + apply wait_same.
      * destruct Hon as (m & Hm & Hi). exists m. fsimpl. by rewrite lookup_insert_ne.
      * unfold when_at, next_scan. fsimpl. rewrite Ht. rewrite !decide_False by naive_solver. apply due_next; [|by rewrite <- Hh].
        destruct Hon as (m & Hm & _). apply (wf_wheel s Hwf). by rewrite Hm.
  - destruct (decide (i = n0 /\ sl = hand s)) as [[-> ->]|Hne].
    + right. destruct Hon as (m & Hm & Hi). simplify_eq. exists l, (delete ch (n :: ids)). split; [done|]. fsimpl. unfold when_at. rewrite decide_True; [done|].
      rewrite Ht. split; [|done]. by eapply elem_of_list_lookup_2.
    + apply wait_same.
      * destruct (decide (sl = hand s)) as [->|].
        -- eapply on_insert; [done..|]. apply lookup_delete_ne. naive_solver.
        -- destruct Hon as (m & Hm & Hi). exists m. fsimpl. by rewrite lookup_insert_ne.
      * apply when_next; unfold next_scan; fsimpl; rewrite ?Ht; try done. intros ->. eapply elem_delete_ne; [done|]. naive_solver.
  - destruct (decide (i = n0 /\ sl = hand s)) as [[-> ->]|Hne].
    + destruct Hon as (m & Hm & Hi). simplify_eq.
    + apply wait_same.
      * destruct (decide (sl = hand s)) as [->|].
        -- eapply on_insert; [done..|]. apply lookup_delete_ne. naive_solver.
        -- destruct Hon as (m & Hm & Hi). exists m. fsimpl. by rewrite lookup_insert_ne.
      * apply when_next; unfold next_scan; fsimpl; rewrite ?Ht; try done. intros ->. eapply elem_delete_ne; [done|]. naive_solver.
  - destruct (wf_wheel s Hwf (hand s)) as [_ Hx]. rewrite Heqo0 in Hx. destruct Hx as [? Hx]; [|done]. rewrite Hh. apply slots_lt.
  - apply wait_same.
    + eapply on_insert; [done..|]. unfold slot_add_task. apply lookup_insert_ne. intros E. apply (Hn _ _ _ _ eq_refl).
      apply next_exec_id in Heqr as (E1 & _). cbn in E. congruence.
    + apply when_next; unfold next_scan; fsimpl; rewrite ?Ht; done.
  - apply wait_same; [done|]. unfold when_at, next_scan. fsimpl. rewrite Ht. cbn [ids_of].
    rewrite !decide_False by (intros [Hx _]; by apply elem_of_nil in Hx). done.
Qed.

Lemma frame_step pf t0 t1 lb s s' i sl t : reachable pf t0 t1 s -> step pf lb s = Some s' -> sits s i sl t -> ~ touches i lb s -> tpc s' <> TDead -> waits s s' i sl t.
Proof.
  intros Hr Hs Hon Hn Hd. destruct (match lb with LTimer _ _ _ | LHandler | LRoutinePanic => true | _ => false end) eqn:Hlb.
  - destruct lb; try done; cbn [step touches] in *.
    + eapply frame_timer; eauto using wf_reach; [|naive_solver]. intros t' Ht'.
      destruct (ci_held s (cnt_reach _ _ _ _ Hr) t') as (? & _ & _ & _ & _ & _ & Hv & _); [|done]. unfold held. rewrite !elem_of_app. auto.
    + unfold routine_panic in Hs. destruct (tpc s); by simplify_eq.
    + by eapply frame_handler.
  - assert (tpc s' = tpc s /\ wheel s' = wheel s /\ iters s' = iters s /\ hand s' = hand s) as (E1 & E2 & E3 & E4) by (clear -Hs Hlb; step_inv Hs; try done).
    apply wait_same; [by rewrite E2|by apply when_frame].
Qed.

(** The mark of [i] changes only in operations on [i]. *)
Lemma frame_mark pf lb s s' i : step pf lb s = Some s' -> ~ touches_mark i lb s -> flags s' !! i = flags s !! i.
Proof.
  intros Hs. unfold touches_mark. destruct (match lb with LTimer _ _ _ | LHandler => true | _ => false end) eqn:Hlb.
  - destruct lb; try done; cbn [step] in Hs.
    + intros Hn. pc_inv Hs; fsimpl; try done; apply lookup_insert_ne; intros ->; apply Hn; eauto 10.
    + pc_inv Hs; inst_cases; isimpl; repeat case_match; fsimpl; intros Hn; try done; unfold handler_marks in Hn;
        repeat match goal with H : hpc _ = _ |- _ => rewrite H in Hn | H : queue _ = _ |- _ => rewrite H in Hn end.
      all: first [apply lookup_insert_ne; congruence|apply lookup_delete_ne; congruence].
  - intros _. step_inv Hs; done.
Qed.
