(** Properties of advance_task and update_task: C20, C21, C22, C23. *)
From Verif Require Import Tactics Inv Own Life Count Quiet Timing Cases Frame Meanwhile Inst Ended Scen PropLife PropInst PropSched PropOps.

Ltac hstep Hs Hh := cbn [step] in Hs; unfold handler_step in Hs; rewrite Hh in Hs.
(** Splits off one handler step. *)
Ltac hnext Hr Hp Hm s1 s2 :=
  let Hr1 := fresh "Hr1" in let Hp1 := fresh "Hp1" in let Hk := fresh "Hk" in let Hf := fresh "Hf" in let Hc := fresh "Hc" in let Hpub := fresh "Hpub" in
  let q := fresh "qq" in let Hq := fresh "Hq" in let I1 := fresh "I1" in let I2 := fresh "I2" in let I3 := fresh "I3" in let I4 := fresh "I4" in let Hs := fresh "Hs" in
  let Hr2 := fresh "Hr2" in let Hp2 := fresh "Hp2" in let Ht := fresh "Ht" in let Hn := fresh "Hn" in
  destruct (handles_inv _ _ _ _ _ _ _ Hr Hp Hm) as (s1 & s2 & Hr1 & Hp1 & Hk & Hf & Hc & Hpub & [q Hq] & I1 & I2 & I3 & I4 & Hs & Hr2 & Hp2 & Ht & Hn).

Lemma slot_there pf t0 t1 s sl : reachable pf t0 t1 s -> is_Some (wheel s !! sl) <-> sl < SLOTS.
Proof. intros Hr. apply (wf_wheel s (wf_reach _ _ _ _ Hr)). Qed.
Lemma hand_of pf t0 t1 s : reachable pf t0 t1 s -> hand s = iters s mod SLOTS.
Proof. intros Hr. apply (wf_hand s (wf_reach _ _ _ _ Hr)). Qed.
Lemma next_scan_or s : next_scan s = iters s \/ next_scan s = iters s + 1.
Proof. unfold next_scan. case_match; auto. Qed.
Lemma when_next_slot pf t0 t1 s i t : reachable pf t0 t1 s -> t_cyl t = 0 -> hand s + 1 < SLOTS -> when_at s i (hand s + 1) t = iters s + 1.
Proof.
  intros Hr Hc Hlt. unfold when_at. rewrite decide_False by (intros [_ ?]; lia). rewrite Hc.
  assert (hand s + 1 = (iters s + 1) mod SLOTS) as E.
  { pose proof (hand_of _ _ _ _ Hr) as Hh. rewrite Hh in *. unfold SLOTS in *. rewrite <- N.add_mod_idemp_l by lia. by rewrite (N.mod_small (iters s mod 3600 + 1)). }
  destruct (next_scan_or s) as [->| ->].
  - rewrite <- due_next; [rewrite E, due_here; lia|done|]. rewrite <- (hand_of _ _ _ _ Hr). lia.
  - rewrite E, due_here. lia.
Qed.

(** The first three steps of advance_task on a task that waits in the slot its mark names. *)
Lemma advance_upto pf t0 t1 s i q m t n s' : reachable pf t0 t1 s -> hpc s = HIdle -> queue s = EAdvance i :: q -> flags s !! i = Some m ->
  sits s i (m_slot m) t -> ~ processing i (tpc s) -> handles pf i (S (S (S n))) s s' -> iters s' = iters s ->
  exists s1, reachable pf t0 t1 s1 /\ ~ processing i (tpc s1) /\ hpc s1 = HAdv3 (set_cylinder_line 0 t) (hand s + 1) /\ iters s1 = iters s /\
    (forall sl x, holds s1 i sl x <-> sl <> m_slot m /\ holds s i sl x) /\ flags s1 !! i = Some m /\ (exists q1, queue s1 = q ++ q1) /\ handles pf i n s1 s'.
Proof.
  intros Hr Hh Hq Hm Hon Hp Hn Hi.
  hnext Hr Hp Hn a b. hstep Hs Hc. rewrite Hh, Hq0, Hq in Hs. cbn [app dispatch] in Hs. fsimpl_in Hs. rewrite Hf, Hm in Hs.
  assert (hpc b = HAdv1 i (m_slot m) /\ wheel b = wheel a /\ flags b = flags a /\ queue b = q ++ qq) as (Eh & Ew & Ef & Eq) by (simplify_eq; done). clear Hs.
  assert (holds a i (m_slot m) t) as Ha by (apply Hk, sits_holds, Hon).
  hnext Hr2 Hp2 Hn0 c d. assert (holds c i (m_slot m) t) as [y (g & Hg & Hy)] by (apply Hk0; by apply (holds_same a b i Ew)).
  hstep Hs Hc0. rewrite Eh, Hg in Hs. unfold slot_remove_task in Hs. rewrite Hy in Hs.
  assert (hpc d = HAdv2 (set_cylinder_line 0 t) /\ wheel d = <[m_slot m := delete i g]> (wheel c) /\ flags d = flags c /\ queue d = queue c) as (Eh' & Ew' & Ef' & Eq') by (simplify_eq; done). clear Hs.
  hnext Hr3 Hp3 Hn1 e f. hstep Hs Hc1. rewrite Eh' in Hs.
  assert (hpc f = HAdv3 (set_cylinder_line 0 t) (hand e + 1) /\ wheel f = wheel e /\ flags f = flags e /\ queue f = queue e) as (Eh2 & Ew2 & Ef2 & Eq2) by (simplify_eq; done). clear Hs.
  exists f. assert (iters f = iters s) as Ei by lia. split_and!; try done.
  - rewrite Eh2. rewrite (hand_of _ _ _ _ Hr4), (hand_of _ _ _ _ Hr). assert (iters e = iters s) as -> by lia. done.
  - intros sl x. rewrite (holds_same e f i Ew2), Hk1, (holds_del c d i _ g Hg Ew'), Hk0, (holds_same a b i Ew), Hk. done.
  - by rewrite Ef2, Hf1, Ef', Hf0, Ef, Hf.
  - exists (qq ++ qq0 ++ qq1). by rewrite Eq2, Hq2, Eq', Hq1, Eq, !app_assoc.
Qed.

(* ------------------------------------------------------------------ *)
(** ** C20 An advanced task runs in the next tick *)
(** The full statement: even if the event handler is not interrupted at all. *)
Definition C20_runs_in_next_tick : Prop := forall pf t0 t1 s i q m t s', reachable pf t0 t1 s -> hpc s = HIdle -> queue s = EAdvance i :: q ->
  flags s !! i = Some m -> sits s i (m_slot m) t -> run pf [LHandler; LHandler; LHandler; LHandler] s = Some s' ->
  exists sl t', sits s' i sl t' /\ t_uid t' = t_uid t /\ when_at s' i sl t' = iters s + 1.
Definition nobody (s : sys) : bool := match wheel_tasks (wheel s) with [] => true | _ => false end.
Lemma nobody_ok s i sl t : nobody s = true -> ~ sits s i sl t.
Proof.
  unfold nobody. intros H (m & Hm & Hi). assert (t ∈ wheel_tasks (wheel s)) as Hin by (apply elem_of_wheel_tasks; eauto).
  destruct (wheel_tasks (wheel s)); [by apply elem_of_nil in Hin|done].
Qed.
(** With the second hand on the last slot, 3599, the task is put nowhere. *)
Theorem C20_runs_in_next_tick_refuted : ~ C20_runs_in_next_tick.
Proof.
  intros H.
  destruct (after_reach Debug 100 100 [Do (LAdd (every 1 11 7200 100)); Handle; Ticks 3599; Do (LAdvance 11)]
    (fun s => match hpc s, queue s, flags s !! 11, wheel s !! 1 with
      | HIdle, [EAdvance 11], Some m, Some g => (m_slot m =? 1) && bool_decide (is_Some (g !! 11)) &&
          match run Debug [LHandler; LHandler; LHandler; LHandler] s with Some s' => nobody s' | None => false end
      | _, _, _, _ => false end)) as (s & Hr & HP); [vm_compute; reflexivity|].
  destruct (hpc s) eqn:Eh; try discriminate HP. destruct (queue s) as [|e q] eqn:Eq; [discriminate HP|].
  destruct e as [| | | | | | | | |j]; try discriminate HP. 
  assert (j = 11 /\ q = []) as [-> ->] by (clear -HP; repeat (case_match; try discriminate HP); auto).
  destruct (flags s !! 11) as [m|] eqn:Em; [|discriminate HP]. destruct (wheel s !! 1) as [g|] eqn:Eg; [|discriminate HP].
  apply andb_true_iff in HP as [HP0 HP]. apply andb_true_iff in HP0 as [HP0 HP1]. apply N.eqb_eq in HP0. apply bool_decide_eq_true in HP1 as [t Ht].
  destruct (run Debug _ s) as [s'|] eqn:Es; [|discriminate HP].
  destruct (H Debug 100 100 s 11 [] m t s' Hr Eh Eq Em) as (sl & t' & Hs & _); [rewrite HP0; by exists g|done|]. by eapply nobody_ok.
Qed.
Print Assumptions C20_runs_in_next_tick_refuted.
(** That happens to every task: on slot 3599 the task is lost, it is never started again. *)
Theorem C20_lost_on_last_slot pf t0 t1 s i q m t s' ls s'' : reachable pf t0 t1 s -> hpc s = HIdle -> queue s = EAdvance i :: q -> flags s !! i = Some m ->
  sits s i (m_slot m) t -> ~ processing i (tpc s) -> handles pf i 4 s s' -> iters s' = iters s -> hand s + 1 = SLOTS ->
  run pf ls s' = Some s'' -> starts (t_uid t) (log s'') = starts (t_uid t) (log s').
Proof.
  intros Hr Hh Hq Hm Hon Hp Hn Hi Hlast Hrun.
  destruct (advance_upto _ _ _ _ _ _ _ _ _ _ Hr Hh Hq Hm Hon Hp Hn Hi) as (a & Hra & Hpa & Ea & Ia & Ka & Fa & Qa & Hna).
  hnext Hra Hpa Hna b c. inversion Hn0; subst.
  eapply nowhere_run; [|exact Hrun]. hstep Hs Hc. rewrite Ea, Hlast in Hs.
  destruct (wheel b !! SLOTS) eqn:Ew. { exfalso. assert (SLOTS < SLOTS); [|lia]. eapply slot_there; [exact Hr1|]. by rewrite Ew. }
  simplify_eq. pose proof (own_reach _ _ _ _ Hr1) as [Hnd Hu]. 
  assert (t_uid t ∈ uids b) as Hin by (rewrite uids_eq, Hc, Ea, !elem_of_app; right; left; cbn; left).
  split; [fsimpl; by apply Hu|]. rewrite uids_eq in Hnd |- *. fsimpl. rewrite Hc, Ea in Hnd. cbn [hpc_task fmap list_fmap app] in Hnd |- *.
  rewrite <- Permutation_middle in Hnd. by apply NoDup_cons in Hnd as [? _].
Qed.
Print Assumptions C20_lost_on_last_slot.
(** On every other slot: as long as the tick is not over when the handler is done, the task is set for the next tick. *)
Theorem C20_runs_in_next_tick_partial pf t0 t1 s i q m t s' : reachable pf t0 t1 s -> hpc s = HIdle -> queue s = EAdvance i :: q -> flags s !! i = Some m ->
  sits s i (m_slot m) t -> ~ processing i (tpc s) -> handles pf i 4 s s' -> iters s' = iters s -> hand s + 1 < SLOTS ->
  hpc s' = HIdle /\ sits s' i (hand s + 1) (set_cylinder_line 0 t) /\ when_at s' i (hand s + 1) (set_cylinder_line 0 t) = iters s + 1 /\
  (forall sl x, holds s' i sl x -> sl = hand s + 1 \/ sl <> m_slot m /\ holds s i sl x) /\ flags s' !! i = Some m.
Proof.
  intros Hr Hh Hq Hm Hon Hp Hn Hi Hlt.
  destruct (advance_upto _ _ _ _ _ _ _ _ _ _ Hr Hh Hq Hm Hon Hp Hn Hi) as (a & Hra & Hpa & Ea & Ia & Ka & Fa & Qa & Hna).
  hnext Hra Hpa Hna b c. inversion Hn0; subst. hstep Hs Hc. rewrite Ea in Hs.
  destruct (wheel b !! (hand s + 1)) as [g|] eqn:Ew. 2: { exfalso. apply (slot_there _ _ _ _ _ Hr1) in Hlt as [? ?]. congruence. }
  assert (t_id t = i) as Hid. { destruct Hon as (g0 & ? & ?). by eapply (wf_key s (wf_reach _ _ _ _ Hr)). }
  assert (hpc s' = HIdle /\ wheel s' = <[hand s + 1 := <[i := set_cylinder_line 0 t]> g]> (wheel b) /\ flags s' = flags b) as (E1 & E2 & E3).
  { simplify_eq. unfold slot_add_task. done. }
  assert (hand s' = hand s) as Ehd by (rewrite (hand_of _ _ _ _ Hr2), (hand_of _ _ _ _ Hr); congruence).
  split_and!; try done.
  - exists (<[i := set_cylinder_line 0 t]> g). by rewrite E2, !lookup_insert.
  - rewrite <- Ehd. rewrite <- Hi. apply (when_next_slot pf t0 t1); [done|done|]. by rewrite Ehd.
  - intros sl x. rewrite (holds_put b s' i _ g _ Ew E2), Hk, Ka. tauto.
  - by rewrite E3, Hf.
Qed.
Print Assumptions C20_runs_in_next_tick_partial.
(** And there it is taken to be run, if nothing else is done to it. *)
Theorem C20_taken_in_next_tick pf t0 t1 s i q m t s' ls s'' : reachable pf t0 t1 s -> hpc s = HIdle -> queue s = EAdvance i :: q -> flags s !! i = Some m ->
  sits s i (m_slot m) t -> ~ processing i (tpc s) -> handles pf i 4 s s' -> iters s' = iters s -> hand s + 1 < SLOTS ->
  untouched pf i ls s' -> run pf ls s' = Some s'' -> iters s + 1 < iters s'' ->
  exists ls1 ls2 s1 l ids c, ls = ls1 ++ ls2 /\ run pf ls1 s' = Some s1 /\ tpc s1 = TMaint l ids (set_cylinder_line c t) /\ iters s1 = iters s + 1.
Proof.
  intros Hr Hh Hq Hm Hon Hp Hn Hi Hlt Hu Hrun Hlate.
  destruct (C20_runs_in_next_tick_partial _ _ _ _ _ _ _ _ _ Hr Hh Hq Hm Hon Hp Hn Hi Hlt) as (_ & Hon' & Hw & _).
  destruct (handles_run _ _ _ _ _ Hn) as [l0 Hl0].
  destruct (C40_waits_for_its_iteration _ _ _ _ _ _ _ _ _ (reach_run _ _ _ _ _ _ Hr Hl0) Hon' Hu Hrun) as [(Hx & _)|(ls1 & ls2 & s1 & l & ids & c & H1 & H2 & H3 & H4)].
  - lia.
  - exists ls1, ls2, s1, l, ids, c. rewrite H4. done.
Qed.
Print Assumptions C20_taken_in_next_tick.
Ltac one_slot s sl HP m g t Em Eg Ht :=
  destruct (flags s !! 11) as [m|] eqn:Em; [|discriminate HP]; destruct (wheel s !! sl) as [g|] eqn:Eg; [|discriminate HP].
(** A task that would run an hour and more from now. *)
Example C20_example : exists s m t s', reachable Debug 100 100 s /\ hpc s = HIdle /\ queue s = [EAdvance 11] /\ flags s !! 11 = Some m /\
  sits s 11 (m_slot m) t /\ ~ processing 11 (tpc s) /\ handles Debug 11 4 s s' /\ iters s' = iters s /\ hand s + 1 < SLOTS /\ when_at s 11 (m_slot m) t = 7201.
Proof.
  destruct (after_reach Debug 100 100 [Do (LAdd (every 1 11 7200 100)); Handle; Ticks 5; Do (LAdvance 11)]
    (fun s => match hpc s, queue s, flags s !! 11, wheel s !! 1, tpc s with
      | HIdle, [EAdvance 11], Some m, Some g, TCheck _ => (m_slot m =? 1) && match g !! 11 with Some t => when_at s 11 1 t =? 7201 | None => false end &&
          match run Debug [LHandler; LHandler; LHandler; LHandler] s with Some s' => (iters s' =? iters s) && (hand s + 1 <? SLOTS) | None => false end
      | _, _, _, _, _ => false end)) as (s & Hr & HP); [vm_compute; reflexivity|].
  destruct (hpc s) eqn:Eh; try discriminate HP. destruct (queue s) as [|e q] eqn:Eq; [discriminate HP|].
  destruct e as [| | | | | | | | |j]; try discriminate HP. 
  assert (j = 11 /\ q = []) as [-> ->] by (clear -HP; repeat (case_match; try discriminate HP); auto).
  destruct (flags s !! 11) as [m|] eqn:Em; [|discriminate HP]. destruct (wheel s !! 1) as [g|] eqn:Eg; [|discriminate HP]. destruct (tpc s) eqn:Et; try discriminate HP.
  apply andb_true_iff in HP as [HP0 HP]. apply andb_true_iff in HP0 as [HP0 HP1]. apply N.eqb_eq in HP0. destruct (g !! 11) as [t|] eqn:Ht; [|discriminate HP1]. apply N.eqb_eq in HP1.
  destruct (run Debug _ s) as [s'|] eqn:Es; [|discriminate HP]. apply andb_true_iff in HP as [HP2 HP]. apply N.eqb_eq in HP2. apply N.ltb_lt in HP. rewrite <- HP0 in *.
  exists s, m, t, s'. split_and!; try done; try (by exists g); [intros Hx; by rewrite Et in Hx|].
  cbn [run] in Es. destruct (step Debug LHandler s) as [s1|] eqn:S1; [|discriminate Es]. destruct (step Debug LHandler s1) as [s2|] eqn:S2; [|discriminate Es].
  destruct (step Debug LHandler s2) as [s3|] eqn:S3; [|discriminate Es]. destruct (step Debug LHandler s3) as [s4|] eqn:S4; [|discriminate Es]. simplify_eq.
  repeat (eapply handles_S; [apply mw_refl|eassumption|]). apply handles_0.
Qed.

(* ------------------------------------------------------------------ *)
(** ** C21 An advanced task can still be removed *)
(** The full statement: advance and remove are carried out one after the other, the scheduler does not interfere. *)
Definition C21_removable : Prop := forall pf t0 t1 s i q m t s', reachable pf t0 t1 s -> hpc s = HIdle -> queue s = EAdvance i :: ERemove i :: q ->
  flags s !! i = Some m -> sits s i (m_slot m) t -> (forall sl x, holds s i sl x -> sl = m_slot m) -> ~ processing i (tpc s) ->
  handles pf i 7 s s' -> iters s' = iters s -> hand s + 1 < SLOTS -> forall sl x, ~ sits s' i sl x.
(** advance_task does not update the mark, so remove_task looks into the old slot. *)
Lemma advance_remove pf t0 t1 s i q m t s' : reachable pf t0 t1 s -> hpc s = HIdle -> queue s = EAdvance i :: ERemove i :: q ->
  flags s !! i = Some m -> sits s i (m_slot m) t -> (forall sl x, holds s i sl x -> sl = m_slot m) -> ~ processing i (tpc s) ->
  handles pf i 7 s s' -> iters s' = iters s -> hand s + 1 < SLOTS ->
  flags s' !! i = None /\ hpc s' = HIdle /\ forall sl x, holds s' i sl x <-> sl <> m_slot m /\ sl = hand s + 1 /\ exists c, x = set_cylinder_line c t.
Proof.
  intros Hr Hh Hq Hm Hon Huniq Hp Hn Hi Hlt.
  destruct (advance_upto _ _ _ _ _ _ _ _ _ _ Hr Hh Hq Hm Hon Hp Hn Hi) as (a & Hra & Hpa & Ea & Ia & Ka & Fa & [q1 Qa] & Hna).
  hnext Hra Hpa Hna b c. hstep Hs Hc. rewrite Ea in Hs.
  destruct (wheel b !! (hand s + 1)) as [g|] eqn:Ew. 2: { exfalso. apply (slot_there _ _ _ _ _ Hr1) in Hlt as [? ?]. congruence. }
  assert (t_id t = i) as Hid. { destruct Hon as (g0 & ? & ?). by eapply (wf_key s (wf_reach _ _ _ _ Hr)). }
  assert (hpc c = HIdle /\ wheel c = <[hand s + 1 := <[i := set_cylinder_line 0 t]> g]> (wheel b) /\ flags c = flags b /\ queue c = queue b) as (E1 & E2 & E3 & E4).
  { simplify_eq. unfold slot_add_task. done. } clear Hs.
  hnext Hr2 Hp2 Hn0 d e. hstep Hs Hc0. rewrite E1, Hq1, E4, Hq0, Qa in Hs. cbn [app dispatch] in Hs. fsimpl_in Hs. rewrite Hf0, E3, Hf, Fa in Hs.
  assert (hpc e = HRem1 i (m_slot m) /\ wheel e = wheel d /\ flags e = flags d) as (F1 & F2 & F3) by (simplify_eq; done). clear Hs.
  hnext Hr3 Hp3 Hn1 f h. hstep Hs Hc1. rewrite F1 in Hs. unfold slot_remove_task in Hs.
  destruct (wheel f !! m_slot m) as [g1|] eqn:Ew1.
  2: { exfalso. destruct Hon as (g0 & Hg0 & _). assert (m_slot m < SLOTS) as Hx by (apply (slot_there _ _ _ _ _ Hr); by rewrite Hg0). apply (slot_there _ _ _ _ _ Hr4) in Hx as [? ?]. congruence. }
  assert (hpc h = HRem2 i true /\ wheel h = <[m_slot m := delete i g1]> (wheel f) /\ flags h = flags f) as (G1 & G2 & G3) by (simplify_eq; done). clear Hs.
  hnext Hr5 Hp5 Hn2 k l. hstep Hs Hc2. rewrite G1 in Hs. clear Hid. inversion Hn3; subst.
  assert (hpc s' = HIdle /\ wheel s' = wheel k /\ flags s' = delete i (flags k)) as (K1 & K2 & K3) by (simplify_eq; done).
  split; [by rewrite K3, lookup_delete|]. split; [done|]. intros sl x.
  rewrite (holds_same k s' i K2), Hk2, (holds_del f h i _ g1 Ew1 G2), Hk1, (holds_same d e i F2), Hk0, (holds_put b c i _ g _ Ew E2), Hk, Ka.
  split.
  - intros [H1 [[-> [cc H2]]|(H2 & H3 & H4)]]; [|by apply Huniq in H4]. split; [done|]. split; [done|]. exists (t_cyl x). by eapply like_eq.
  - intros (H1 & -> & cc & ->). split; [done|]. left. split; [done|]. by exists 0.
Qed.
(** Not so: the task is removed exactly if its old slot happens to be the next one. *)
Theorem C21_removable_partial pf t0 t1 s i q m t s' : reachable pf t0 t1 s -> hpc s = HIdle -> queue s = EAdvance i :: ERemove i :: q ->
  flags s !! i = Some m -> sits s i (m_slot m) t -> (forall sl x, holds s i sl x -> sl = m_slot m) -> ~ processing i (tpc s) ->
  handles pf i 7 s s' -> iters s' = iters s -> hand s + 1 < SLOTS ->
  flags s' !! i = None /\ ((forall sl x, ~ sits s' i sl x) <-> m_slot m = hand s + 1).
Proof.
  intros Hr Hh Hq Hm Hon Hu Hp Hn Hi Hlt. destruct (advance_remove _ _ _ _ _ _ _ _ _ Hr Hh Hq Hm Hon Hu Hp Hn Hi Hlt) as (H1 & _ & H2).
  split; [done|]. split.
  - intros Hno. destruct (decide (m_slot m = hand s + 1)) as [|Hne]; [done|]. exfalso.
    assert (holds s' i (hand s + 1) t) as [c Hc]; [apply H2; split; [done|]; split; [done|]; exists (t_cyl t); by destruct t|]. by eapply Hno.
  - intros E sl x Hx. apply sits_holds, H2 in Hx as (? & ? & _). congruence.
Qed.
Print Assumptions C21_removable_partial.
(** If not, it stays, set for the next tick, and without a mark no later remove_task finds it (C11_unknown_id). *)
Theorem C21_stays pf t0 t1 s i q m t s' : reachable pf t0 t1 s -> hpc s = HIdle -> queue s = EAdvance i :: ERemove i :: q ->
  flags s !! i = Some m -> sits s i (m_slot m) t -> (forall sl x, holds s i sl x -> sl = m_slot m) -> ~ processing i (tpc s) ->
  handles pf i 7 s s' -> iters s' = iters s -> hand s + 1 < SLOTS -> m_slot m <> hand s + 1 ->
  flags s' !! i = None /\ exists c, sits s' i (hand s + 1) (set_cylinder_line c t).
Proof.
  intros Hr Hh Hq Hm Hon Hu Hp Hn Hi Hlt Hne. destruct (advance_remove _ _ _ _ _ _ _ _ _ Hr Hh Hq Hm Hon Hu Hp Hn Hi Hlt) as (H1 & _ & H2).
  split; [done|]. apply (H2 (hand s + 1) t). split; [done|]. split; [done|]. exists (t_cyl t). by destruct t.
Qed.
Print Assumptions C21_stays.
(** Such a state. *)
Definition c21_acts : list act := [Do (LAdd (every 1 11 20 100)); Handle; Ticks 5; Do (LAdvance 11); Do (LRemove 11)].
Example C21_example : exists s m t s', reachable Debug 100 100 s /\ hpc s = HIdle /\ queue s = [EAdvance 11; ERemove 11] /\ flags s !! 11 = Some m /\
  sits s 11 (m_slot m) t /\ (forall sl x, holds s 11 sl x -> sl = m_slot m) /\ ~ processing 11 (tpc s) /\
  handles Debug 11 7 s s' /\ iters s' = iters s /\ hand s + 1 < SLOTS /\ m_slot m <> hand s + 1.
Proof.
  destruct (after_reach Debug 100 100 c21_acts
    (fun s => match hpc s, queue s, flags s !! 11, wheel s !! 21, tpc s with
      | HIdle, [EAdvance 11; ERemove 11], Some m, Some g, TCheck _ => (m_slot m =? 21) && bool_decide (is_Some (g !! 11)) && (length (wheel_tasks (wheel s)) =? 1)%nat &&
          match run Debug (replicate 7 LHandler) s with Some s' => (iters s' =? iters s) && (hand s =? 5) | None => false end
      | _, _, _, _, _ => false end)) as (s & Hr & HP); [vm_compute; reflexivity|].
  destruct (hpc s) eqn:Eh; try discriminate HP. 
  assert (queue s = [EAdvance 11; ERemove 11]) as Eq by (clear -HP; repeat (case_match; try discriminate HP); auto). rewrite Eq in HP. 
  destruct (flags s !! 11) as [m|] eqn:Em; [|discriminate HP]. destruct (wheel s !! 21) as [g|] eqn:Eg; [|discriminate HP]. destruct (tpc s) eqn:Et; try discriminate HP.
  apply andb_true_iff in HP as [HP0 HP]. apply andb_true_iff in HP0 as [HP0 HP2]. apply andb_true_iff in HP0 as [HP0 HP1]. apply N.eqb_eq in HP0. apply bool_decide_eq_true in HP1 as [t Ht].
  apply Nat.eqb_eq in HP2. destruct (run Debug _ s) as [s'|] eqn:Es; [|discriminate HP]. apply andb_true_iff in HP as [HP3 HP]. apply N.eqb_eq in HP3, HP.
  exists s, m, t, s'. split_and!; try done; rewrite ?HP0, ?HP; try done; try (by exists g).
  - intros sl x [c (m' & Hm' & Hx)]. 
    assert (t ∈ wheel_tasks (wheel s)) as H1 by (apply elem_of_wheel_tasks; eauto). assert (set_cylinder_line c x ∈ wheel_tasks (wheel s)) as H2 by (apply elem_of_wheel_tasks; eauto).
    pose proof (wheel_tasks_lookup _ _ _ Eg) as Hw. rewrite (slot_tasks_lookup _ _ _ Ht) in Hw. rewrite Hw in HP2. cbn in HP2.
    destruct (decide (sl = 21)) as [|Hne]; [done|]. exfalso. assert (set_cylinder_line c x ∈ wheel_tasks (delete 21 (wheel s))) as H3.
    { apply elem_of_wheel_tasks. exists sl, m', 11. by rewrite lookup_delete_ne. }
    rewrite app_length in HP2. destruct (wheel_tasks (delete 21 (wheel s))); [by apply elem_of_nil in H3|]. cbn in HP2. lia.
  - intros Hx. by rewrite Et in Hx.
  - by apply handles_rep.
Qed.
Theorem C21_removable_refuted : ~ C21_removable.
Proof.
  intros H. destruct C21_example as (s & m & t & s' & H1 & H2 & H3 & H4 & H5 & H6 & H7 & H8 & H9 & H10 & H11).
  destruct (C21_stays _ _ _ _ _ _ _ _ _ H1 H2 H3 H4 H5 H6 H7 H8 H9 H10 H11) as [_ [c Hc]].
  exact (H _ _ _ _ _ _ _ _ _ H1 H2 H3 H4 H5 H6 H7 H8 H9 H10 _ _ Hc).
Qed.
Print Assumptions C21_removable_refuted.

(* ------------------------------------------------------------------ *)
(** ** C22 Update replaces the task in place *)
(** The full statement: the old task waits when the event is taken; other threads may do anything ([l1]) until the update is carried out.
    From then on the old task is not started again. *)
Definition C22_replaces : Prop := forall pf t0 t1 s t' q m t l1 s1 l2 s2, reachable pf t0 t1 s -> hpc s = HIdle -> queue s = EUpdate t' :: q ->
  flags s !! t_id t' = Some m -> sits s (t_id t') (m_slot m) t -> Forall not_handler l1 -> run pf (LHandler :: l1 ++ [LHandler]) s = Some s1 ->
  run pf l2 s1 = Some s2 -> starts (t_uid t) (log s2) = starts (t_uid t) (log s1).
(** The update leaves everything else alone. *)
Theorem C22_others_untouched pf t0 t1 s t sl s' : reachable pf t0 t1 s -> hpc s = HUpd t sl -> step pf LHandler s = Some s' ->
  (forall j sl' x, j <> t_id t -> (sits s' j sl' x <-> sits s j sl' x)) /\ s' = set_hpub None (set_hpc HIdle (set_wheel (wheel s') s)).
Proof.
  intros Hr Hh Hs. hstep Hs Hh.
  assert (hpub s = None) as Hpub.
  { pose proof (hpub_reach _ _ _ _ Hr) as Hx. unfold hpub_ok in Hx. rewrite Hh in Hx. exact Hx. }
  split.
  - intros j sl' x Hne. simplify_eq. fsimpl. destruct (wheel s !! sl) as [g|] eqn:Eg; [|done]. rewrite slot_update_eq. unfold slot_add_task, on.
    destruct (decide (sl' = sl)) as [->|]; [|by rewrite lookup_insert_ne]. rewrite lookup_insert, Eg.
    split; intros (m & ? & Hm); simplify_eq; eexists; (split; [done|]); [by rewrite lookup_insert_ne in Hm|by rewrite lookup_insert_ne].
  - injection Hs as <-. unfold complete. fsimpl. rewrite Hpub. destruct s; reflexivity.
Qed.
Print Assumptions C22_others_untouched.
(** If the scheduler does not have the task in its hands meanwhile: the new task is in the place of the old one, it is the only one with
    its id, and the old one is never started again. *)
Theorem C22_replaces_partial pf t0 t1 s t' q m t s' : reachable pf t0 t1 s -> hpc s = HIdle -> queue s = EUpdate t' :: q ->
  flags s !! t_id t' = Some m -> sits s (t_id t') (m_slot m) t -> ~ processing (t_id t') (tpc s) -> handles pf (t_id t') 2 s s' ->
  hpc s' = HIdle /\ sits s' (t_id t') (m_slot m) t' /\ flags s' !! t_id t' = Some m /\
  ((forall sl x, holds s (t_id t') sl x -> sl = m_slot m) -> forall sl x, sits s' (t_id t') sl x -> sl = m_slot m /\ x = t') /\
  forall ls s'', run pf ls s' = Some s'' -> starts (t_uid t) (log s'') = starts (t_uid t) (log s').
Proof.
  intros Hr Hh Hq Hm Hon Hp Hn.
  hnext Hr Hp Hn a b. hstep Hs Hc. rewrite Hh, Hq0, Hq in Hs. cbn [app dispatch] in Hs. fsimpl_in Hs. rewrite Hf, Hm in Hs.
  assert (hpc b = HUpd t' (m_slot m) /\ wheel b = wheel a /\ flags b = flags a) as (Eh & Ew & Ef) by (simplify_eq; done). clear Hs.
  assert (holds a (t_id t') (m_slot m) t) as Ha by (apply Hk, sits_holds, Hon).
  hnext Hr2 Hp2 Hn0 c d. assert (holds c (t_id t') (m_slot m) t) as [y Hy] by (apply Hk0; by apply (holds_same a b _ Ew)).
  inversion Hn1; subst. clear Hn Hn0 Hn1.
  assert (sits c (t_id t') (m_slot m) (set_cylinder_line y t)) as (g & Hg & Hy2) by done.
  hstep Hs Hc0. rewrite Eh, Hg, slot_update_eq in Hs. unfold slot_add_task in Hs.
  assert (hpc s' = HIdle /\ wheel s' = <[m_slot m := <[t_id t' := t']> g]> (wheel c) /\ flags s' = flags c /\ queue s' = queue c /\ used s' = used c) as (F1 & F2 & F3 & F4 & F5) by (simplify_eq; done).
  split; [done|]. assert (sits s' (t_id t') (m_slot m) t') as Hnew. { exists (<[t_id t' := t']> g). by rewrite F2, !lookup_insert. }
  split; [done|]. split; [by rewrite F3, Hf0, Ef, Hf|]. split.
  - intros Huniq sl x Hx. assert (sl = m_slot m) as ->; [|split; [done|by eapply sits_fun]].
    apply sits_holds, (holds_put c s' _ _ g _ Hg F2) in Hx as [[-> _]|[_ Hx]]; [done|]. eapply Huniq, Hk. apply (holds_same a b _ Ew). by apply Hk0 in Hx.
  - intros ls s'' Hrun. eapply nowhere_run; [|exact Hrun]. change (t_uid t) with (t_uid (set_cylinder_line y t)).
    eapply (uid_dropped c); [by eapply own_reach|by eapply sits_held|done|].
    rewrite !uids_eq, F1, F4, F2, Ht0, Hc0, Eh. cbn [hpc_task fmap list_fmap app].
    apply perm_swap_in, (uids_wheel_put _ _ _ _ _ t' Hg Hy2).
Qed.
Print Assumptions C22_replaces_partial.
(** Otherwise the old task goes on, and the new one, too. *)
Theorem C22_replaces_refuted : ~ C22_replaces.
Proof.
  intros H. set (u := every 2 11 50 103). set (l1 := replicate 4 (LTimer 0 0 0)).
  destruct (after_reach Debug 100 100 [Do (LAdd (every 1 11 3 100)); Handle; Ticks 4; Do (LUpdate u)]
    (fun s => match hpc s, queue s, flags s !! 11, wheel s !! 4 with
      | HIdle, e :: _, Some m, Some g => match e with EUpdate t' => (t_id t' =? 11) | _ => false end && (m_slot m =? 4) && match g !! 11 with Some t => (t_uid t =? 1) | None => false end &&
          match run Debug (LHandler :: l1 ++ [LHandler]) s with
          | Some s1 => match play Debug [Ticks 5] s1 with Some s2 => (starts 1 (log s1) =? 0) && (starts 1 (log s2) =? 2) | None => false end
          | None => false end
      | _, _, _, _ => false end)) as (s & Hr & HP); [vm_compute; reflexivity|].
  destruct (hpc s) eqn:Eh; try discriminate HP. destruct (queue s) as [|e q] eqn:Eq; [discriminate HP|].
  destruct (flags s !! 11) as [m|] eqn:Em; [|discriminate HP]. destruct (wheel s !! 4) as [g|] eqn:Eg; [|discriminate HP].
  apply andb_true_iff in HP as [HP0 HP]. apply andb_true_iff in HP0 as [HP0 HP2]. apply andb_true_iff in HP0 as [HP0 HP1]. apply N.eqb_eq in HP1.
  destruct e as [| | |t'| | | | | |]; try discriminate HP0. apply N.eqb_eq in HP0.
  destruct (g !! 11) as [t|] eqn:Et; [|discriminate HP2]. apply N.eqb_eq in HP2.
  destruct (run Debug _ s) as [s1|] eqn:E1; [|discriminate HP]. destruct (play Debug [Ticks 5] s1) as [s2|] eqn:E2; [|discriminate HP].
  apply andb_true_iff in HP as [HP3 HP4]. apply N.eqb_eq in HP3, HP4. destruct (play_run _ _ _ _ E2) as [l2 Hl2].
  assert (starts (t_uid t) (log s2) = starts (t_uid t) (log s1)) as Hx; [|rewrite HP2, HP3, HP4 in Hx; discriminate Hx].
  refine (H Debug 100 100 s t' q m t l1 s1 l2 s2 Hr Eh Eq _ _ _ E1 Hl2); rewrite ?HP0; [exact Em|rewrite HP1; exists g; split; [exact Eg|exact Et]|].
  repeat constructor.
Qed.
Print Assumptions C22_replaces_refuted.
(** The event in the queue that carries the submitted task [u]. *)
Lemma queued_is pf t0 t1 s e t u : reachable pf t0 t1 s -> submitted u (log s) -> e ∈ queue s -> submits t e -> t_uid t = t_uid u -> t = u.
Proof.
  intros Hr Hu He Ht E. refine (ci_uniq s (cnt_reach _ _ _ _ Hr) t u _ Hu E). exists e. split; [|done].
  by apply (src_reach _ _ _ _ Hr).
Qed.
(** A waiting task with another one beside it, and an update for it. *)
Definition c22_new : task := every 2 11 500 100.
Lemma c22_state : exists s m t s', reachable Debug 100 100 s /\ hpc s = HIdle /\ queue s = [EUpdate c22_new] /\ flags s !! 11 = Some m /\
  sits s 11 (m_slot m) t /\ ~ processing 11 (tpc s) /\ handles Debug 11 2 s s' /\ (forall sl x, holds s 11 sl x -> sl = m_slot m) /\
  t_uid t = 1 /\ iters s' = 5 /\ m_slot m = 21 /\ (exists x, sits s 12 31 x) /\ when_at s' 11 21 c22_new = 21 /\ steady 100 (log s').
Proof.
  destruct (scen_sub Debug 100 100 [Do (LAdd (every 1 11 20 100)); Do (LAdd (every 3 12 30 100)); Handle; Ticks 5; Do (LUpdate c22_new)] 4 (LUpdate c22_new) c22_new
    (fun s => match hpc s, queue s, flags s !! 11, wheel s !! 21, wheel s !! 31, tpc s with
      | HIdle, [e], Some m, Some g, Some g2, TCheck _ => match e with EUpdate t' => (t_uid t' =? 2) | _ => false end && (m_slot m =? 21) &&
          match g !! 11, g2 !! 12 with Some t, Some _ => (t_uid t =? 1) | _, _ => false end && bool_decide ((t_id <$> wheel_tasks (wheel s)) ≡ₚ [11; 12]) &&
          match run Debug (replicate 2 LHandler) s with
          | Some s1 => (iters s1 =? 5) && (when_at s1 11 21 c22_new =? 21) && steadyb 100 (log s1)
          | None => false end
      | _, _, _, _, _, _ => false end)) as (s & Hr & Hsub & HP); [reflexivity|auto|vm_compute; reflexivity|].
  destruct (hpc s) eqn:Eh; try discriminate HP. destruct (queue s) as [|e [|? ?]] eqn:Eq; [discriminate HP| |discriminate HP].
  destruct (flags s !! 11) as [m|] eqn:Em; [|discriminate HP]. destruct (wheel s !! 21) as [g|] eqn:Eg; [|discriminate HP]. destruct (wheel s !! 31) as [g2|] eqn:Eg2; [|discriminate HP].
  destruct (tpc s) eqn:Et; try discriminate HP.
  apply andb_true_iff in HP as [HP0 HP]. apply andb_true_iff in HP0 as [HP0 HP3]. apply andb_true_iff in HP0 as [HP0 HP2]. apply andb_true_iff in HP0 as [HP0 HP1]. apply N.eqb_eq in HP1.
  destruct e as [| | |t'| | | | | |]; try discriminate HP0. apply N.eqb_eq in HP0.
  assert (t' = c22_new) as -> by (eapply queued_is; [done|done|rewrite Eq; left|by right; right|done]).
  destruct (g !! 11) as [t|] eqn:Ex; [|discriminate HP2]. destruct (g2 !! 12) as [t2|] eqn:Ex2; [|discriminate HP2]. apply N.eqb_eq in HP2.
  destruct (run Debug _ s) as [s1|] eqn:E1; [|discriminate HP]. apply andb_true_iff in HP as [HP HP4]. apply andb_true_iff in HP as [HP5 HP6]. apply N.eqb_eq in HP5, HP6.
  exists s, m, t, s1. split_and!; try done; rewrite ?HP1; try (by exists g).
  - intros Hx. by rewrite Et in Hx.
  - by apply handles_rep.
  - intros sl x [c (m' & Hm' & Hx)]. apply bool_decide_eq_true in HP3.
    rewrite (wheel_tasks_lookup _ _ _ Eg), (slot_tasks_lookup _ _ _ Ex) in HP3. cbn in HP3.
    assert (t_id t = 11) as Hid by (exact (wf_key s (wf_reach _ _ _ _ Hr) _ _ _ _ Eg Ex)). rewrite Hid in HP3. apply Permutation_cons_inv in HP3.
    destruct (decide (sl = 21)) as [|Hne]; [done|]. exfalso. assert (set_cylinder_line c x ∈ wheel_tasks (delete 21 (wheel s))) as H3.
    { apply elem_of_wheel_tasks. exists sl, m', 11. by rewrite lookup_delete_ne. }
    assert (11 ∈ [12]) as Hbad; [|by apply elem_of_list_singleton in Hbad]. rewrite <- HP3. apply elem_of_list_fmap. exists (set_cylinder_line c x).
    split; [exact (eq_sym (wf_key s (wf_reach _ _ _ _ Hr) _ _ _ _ Hm' Hx))|]. apply elem_of_app. by right.
  - exists t2, g2. done.
  - by apply steadyb_ok.
Qed.
Example C22_example : exists s m t s', reachable Debug 100 100 s /\ hpc s = HIdle /\ queue s = [EUpdate c22_new] /\ flags s !! 11 = Some m /\
  sits s 11 (m_slot m) t /\ ~ processing 11 (tpc s) /\ handles Debug 11 2 s s' /\ (forall sl x, holds s 11 sl x -> sl = m_slot m) /\
  t_uid t = 1 /\ exists x, sits s 12 31 x.
Proof. destruct c22_state as (s & m & t & s' & H). exists s, m, t, s'. naive_solver. Qed.

(* ------------------------------------------------------------------ *)
(** ** C23 An updated task follows its own schedule *)
(** The full statement, for an update that is carried out undisturbed under a steady clock: [d] is the first due time of the new task; it is run
    in that second or, like an added task, in the next one. *)
Definition C23_own_schedule : Prop := forall pf t0 t1 b s t' q m t s' d x, reachable pf t0 t1 s -> hpc s = HIdle -> queue s = EUpdate t' :: q ->
  flags s !! t_id t' = Some m -> sits s (t_id t') (m_slot m) t -> (forall sl x, holds s (t_id t') sl x -> sl = m_slot m) -> ~ processing (t_id t') (tpc s) ->
  handles pf (t_id t') 2 s s' -> steady b (log s') -> get_next_exec_timestamp pf t' = Ret (Some d, x) -> b + iters s' < d ->
  b + when_at s' (t_id t') (m_slot m) t' = d \/ b + when_at s' (t_id t') (m_slot m) t' = d + 1.
(** A task with a period of 20 s, updated by one that is due in 500 s: it will be run after 20 s. *)
Theorem C23_own_schedule_refuted : ~ C23_own_schedule.
Proof.
  intros H. destruct c22_state as (s & m & t & s' & H1 & H2 & H3 & H4 & H5 & H6 & H7 & H8 & H9 & H10 & H11 & H12 & H13 & H14).
  assert (exists x, get_next_exec_timestamp Debug c22_new = Ret (Some 600, x)) as [x Hd] by (eexists; vm_compute; reflexivity).
  destruct (H Debug 100 100 100 s c22_new [] m t s' 600 x H1 H2 H3 H4 H5 H8 H6 H7 H14 Hd) as [Hx|Hx]; [lia| |]; change (t_id c22_new) with 11 in Hx; rewrite H11, H13 in Hx; discriminate Hx.
Qed.
Print Assumptions C23_own_schedule_refuted.
(** What happens instead, always: the new task is run when the second hand next comes to the slot of the old one.  If the old task was to be run
    in this revolution, that is exactly when the old one was to be run. *)
Theorem C23_own_schedule_partial pf t0 t1 s t' sl t s' : reachable pf t0 t1 s -> hpc s = HUpd t' sl -> sits s (t_id t') sl t -> step pf LHandler s = Some s' ->
  sits s' (t_id t') sl t' /\ (t_cyl t = 0 -> when_at s' (t_id t') sl t' = when_at s (t_id t') sl t) /\ when_at s' (t_id t') sl t' <= iters s + SLOTS.
Proof.
  intros Hr Hh Hon Hs.
  assert (t_cyl t' = 0) as Hc.
  { assert (submitted t' (log s)) as Hsub. { destruct (src_reach _ _ _ _ Hr) as [_ Hx]. rewrite Hh in Hx. exists (EUpdate t'). split; [exact Hx|by right; right]. }
    apply (submitted_fresh _ _ _ _ _ Hr) in Hsub. unfold fresh_task in Hsub. rewrite !andb_true_iff in Hsub. destruct Hsub as [[_ Hsub] _]. by apply N.eqb_eq. }
  destruct (handler_tpc _ _ _ Hs) as (E1 & E2 & E3). hstep Hs Hh. destruct Hon as (g & Hg & Ht). rewrite Hg, slot_update_eq in Hs. unfold slot_add_task in Hs.
  split; [|split].
  - exists (<[t_id t' := t']> g). simplify_eq. fsimpl. by rewrite !lookup_insert.
  - intros Hc0. unfold when_at, next_scan. rewrite E1, E2, E3, Hc, Hc0. done.
  - unfold when_at. rewrite E1, E2, E3, Hc. case_decide as Hd; [lia|].
    assert (sl < SLOTS) as Hsl by (apply (slot_there _ _ _ _ _ Hr); by rewrite Hg).
    unfold due. pose proof (gap_lt sl (next_scan s')) as Hgap. destruct (next_scan_or s') as [E| E]; rewrite E, E2 in *; lia.
Qed.
Print Assumptions C23_own_schedule_partial.
(** From its first run on, its own due times are used: the first run re-arms it for the first due time [d] of its own schedule. *)
Theorem C23_then_own_due_times pf t0 t1 s l ids t' upd ch rec now s' d x : reachable pf t0 t1 s -> tpc s = TPark l ids t' upd ->
  get_next_exec_timestamp pf t' = Ret (Some d, x) -> step pf (LTimer ch rec now) s = Some s' -> tpc s' <> TDead ->
  OPark (t_uid t') (t_id t') (iters s) (l_ts l) d ∈ log s'.
Proof.
  intros Hr Ht Hn Hs Hd. cbn [step] in Hs. unfold timer_step in Hs. rewrite Ht, Hn in Hs.
  destruct (add64 _ _ _) as [sum|] eqn:E; [|simplify_eq; done].
  destruct (wheel s !! (sum mod SLOTS)) as [g|] eqn:Eg; [simplify_eq; fsimpl; left|].
  exfalso. destruct (proj2 (slot_there _ _ _ _ (sum mod SLOTS) Hr)) as [? Hx]; [apply slots_lt|congruence].
Qed.
Print Assumptions C23_then_own_due_times.
Example C23_example : exists s t sl s' t', reachable Debug 100 100 s /\ hpc s = HUpd t' sl /\ sits s (t_id t') sl t /\ step Debug LHandler s = Some s' /\ t_cyl t = 0.
Proof.
  destruct (after_reach Debug 100 100 [Do (LAdd (every 1 11 20 100)); Handle; Ticks 5; Do (LUpdate c22_new); Do LHandler]
    (fun s => match hpc s, wheel s !! 21 with HUpd t' 21, Some g => (t_id t' =? 11) && match g !! 11 with Some t => (t_cyl t =? 0) | None => false end | _, _ => false end)) as (s & Hr & HP); [vm_compute; reflexivity|].
  destruct (hpc s) eqn:Eh; try discriminate HP. destruct (wheel s !! 21) as [g|] eqn:Eg; [|repeat (case_match; try discriminate HP)].
  assert (sl = 21) as -> by (clear -HP; repeat (case_match; try discriminate HP); done). apply andb_true_iff in HP as [HP0 HP]. apply N.eqb_eq in HP0.
  destruct (g !! 11) as [x|] eqn:Ex; [|discriminate HP]. apply N.eqb_eq in HP.
  eexists s, x, 21, _, t. split; [done|]. split; [done|]. rewrite HP0. split; [by exists g|]. split; [|done]. cbn [step]. unfold handler_step. rewrite Eh. reflexivity.
Qed.
