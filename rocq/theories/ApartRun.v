(** A part of a timer goes its own way: every execution, seen from some of
    the ids, is an execution of a timer which never heard of the others. *)
From Verif Require Import Tactics Inv Own Life Count Quiet Cases Inst Ended Chain Scen Apart.

Lemma dispatch_frame e y : tpc (dispatch e y) = tpc y /\ spc (dispatch e y) = spc y /\ used (dispatch e y) = used y.
Proof. destruct e; cbn [dispatch]; repeat case_match; inst_shape; fsimpl; done. Qed.
Lemma ended_idle fin tid rec st y z : ended fin tid rec st y z -> hpc z = HIdle /\ hpub z = None.
Proof. by destruct 1. Qed.
Lemma appended_idle tid hb y z : appended tid hb y z -> hpc z = HIdle /\ hpub z = None.
Proof. by destruct 1. Qed.
Definition dispatched (A : part) (tp : timer_pc) (sp : sweeper_pc) (us : gset N) (e : event) (y : sys) : Prop :=
  hand_in A (hpc (dispatch e y)) (hpc (dispatch e (part_of A tp HIdle (hpub y) sp us y))) /\
  dispatch e (part_of A tp HIdle (hpub y) sp us y) =
    part_of A tp (hpc (dispatch e (part_of A tp HIdle (hpub y) sp us y))) (if handler_in A (hpc (dispatch e y)) then hpub (dispatch e y) else None) sp us (dispatch e y).
Lemma dispatch_in A tp sp us e y : event_in A e = true -> (forall i, mark_in A i y) -> (forall p, hpub y = Some p -> pid A (pub_id p) = true) ->
  (forall i hb, e = EAppend i hb -> prec A (hb_rec hb) = pid A i /\ hb_tid hb = i) -> dispatched A tp sp us e y.
Proof.
  intros He Hm Hpub Ha. unfold dispatched.
  assert (forall fin tid rec st z z', pid A tid = true -> ended fin tid rec st y z -> ended fin tid rec st (part_of A tp HIdle (hpub y) sp us y) z' ->
    hand_in A (hpc z) (hpc z') /\ z' = part_of A tp (hpc z') (if handler_in A (hpc z) then hpub z else None) sp us z) as He1.
  { intros fin tid rec st z z' Hp H1 H2. pose proof (ended_part A tp HIdle sp us _ _ _ _ _ _ Hp (Hm tid) Hpub H1) as H3. pose proof (ended_fun _ _ _ _ _ _ _ H2 H3) as ->.
    destruct (ended_idle _ _ _ _ _ _ H1) as [-> _]. done. }
  assert (forall i, pid A i = true -> flags (part_of A tp HIdle (hpub y) sp us y) !! i = flags y !! i) as Hfl by (intros i Hi; change (flags (part_of A tp HIdle (hpub y) sp us y)) with (keep (pid A) (flags y)); by rewrite keep_t).
  destruct e; cbn [dispatch event_in] in *.
  - change (set_motiv false (part_of A tp HIdle (hpub y) sp us y)) with (part_of A tp HIdle (hpub (set_motiv false y)) sp us (set_motiv false y)).
    rewrite part_complete by exact Hpub. split; reflexivity.
  - fsimpl. cbn [hand_in handler_in]. rewrite He. split; reflexivity.
  - fsimpl. cbn [hand_in handler_in]. rewrite He. split; reflexivity.
  - rewrite Hfl by done. destruct (flags y !! t_id t) as [m|].
    + fsimpl. cbn [hand_in handler_in]. rewrite He. split; reflexivity.
    + rewrite part_complete by exact Hpub. split; reflexivity.
  - rewrite Hfl by done. destruct (flags y !! tid) as [m|]; fsimpl; cbn [hand_in handler_in]; rewrite He; split; reflexivity.
  - eapply He1; [exact He|apply cancel_cases..].
  - eapply He1; [exact He|apply cancel_cases..].
  - eapply He1; [exact He|apply finish_cases..].
  - destruct (Ha _ _ eq_refl) as [Hr Ht]. rewrite He in Hr.
    pose proof (appended_part A tp HIdle sp us _ _ _ _ He (Hm tid) Ht Hr Hpub (append_cases tid hb y)) as H3. pose proof (appended_fun _ _ _ _ _ (append_cases tid hb _) H3) as E.
    destruct (appended_idle _ _ _ _ (append_cases tid hb y)) as [E1 _]. rewrite E1, E. split; reflexivity.
  - rewrite Hfl by done. destruct (flags y !! tid) as [m|].
    + fsimpl. cbn [hand_in handler_in]. rewrite He. split; reflexivity.
    + rewrite part_complete by exact Hpub. split; reflexivity.
Qed.
Lemma dispatch_out A tp sp us e y : event_in A e = false -> (forall i, mark_in A i y) -> (forall p, hpub y = Some p -> pid A (pub_id p) = false) ->
  (forall i hb, e = EAppend i hb -> prec A (hb_rec hb) = pid A i /\ hb_tid hb = i) -> hpc y = HIdle ->
  hand_in A (hpc (dispatch e y)) HIdle /\ handler_in A (hpc (dispatch e y)) = false /\
  part_of A tp HIdle None sp us (dispatch e y) = part_of A tp HIdle None sp us y.
Proof.
  intros He Hm Hpub Ha Hi.
  assert (forall fin tid rec st z, pid A tid = false -> ended fin tid rec st y z ->
    hand_in A (hpc z) HIdle /\ handler_in A (hpc z) = false /\ part_of A tp HIdle None sp us z = part_of A tp HIdle None sp us y) as He1.
  { intros fin tid rec st z Hp H1. rewrite (ended_out A tp HIdle None sp us _ _ _ _ _ _ Hp (Hm tid) Hpub H1).
    destruct (ended_idle _ _ _ _ _ _ H1) as [-> _]. done. }
  destruct e; cbn [dispatch event_in] in *; try discriminate He.
  - fsimpl. cbn [hand_in handler_in]. rewrite He. done.
  - fsimpl. cbn [hand_in handler_in]. rewrite He. done.
  - destruct (flags y !! t_id t) as [m|].
    + fsimpl. cbn [hand_in handler_in]. rewrite He. done.
    + rewrite part_complete_out by exact Hpub. done.
  - destruct (flags y !! tid) as [m|]; fsimpl; cbn [hand_in handler_in]; rewrite He; done.
  - eapply He1; [exact He|apply cancel_cases..].
  - eapply He1; [exact He|apply cancel_cases..].
  - eapply He1; [exact He|apply finish_cases..].
  - destruct (Ha _ _ eq_refl) as [Hr Ht]. rewrite He in Hr.
    rewrite (appended_out A tp HIdle None sp us _ _ _ _ He (Hm tid) Ht Hr Hpub (append_cases tid hb y)).
    destruct (appended_idle _ _ _ _ (append_cases tid hb y)) as [E1 _]. rewrite E1. done.
  - destruct (flags y !! tid) as [m|].
    + fsimpl. cbn [hand_in handler_in]. rewrite He. done.
    + rewrite part_complete_out by exact Hpub. done.
Qed.

Lemma next_scan_in A s tp hp hb sp us : timer_in A (tpc s) tp -> next_scan (part_of A tp hp hb sp us s) = next_scan s.
Proof.
  intros H. unfold next_scan. parts. destruct (tpc s); cbn [timer_in] in H.
  all: try (destruct H as (ids' & _ & ->)); try (by subst tp); try (by destruct (pid A _)).
  - done.
  - by destruct H as [->|(l & ids & ->)].
Qed.
Lemma drop_in A tp hp hb sp us old i y : pid A i = true -> (forall m c l, old = Some m -> m_chain m = Some (c, l) -> pch A c = pid A i) ->
  drop_mark old (part_of A tp hp hb sp us y) = part_of A tp hp hb sp us (drop_mark old y).
Proof.
  intros Hi Hc. unfold drop_mark, abandon_opt. parts. destruct old as [m|]; [|done]. destruct (m_chain m) as [[c l]|] eqn:E; [|done]. cbn [fmap option_fmap option_map fst].
  rewrite keep_alter; [done|]. rewrite <- Hi. by eapply Hc.
Qed.
Lemma drop_out A tp hp hb sp us old i y : pid A i = false -> (forall m c l, old = Some m -> m_chain m = Some (c, l) -> pch A c = pid A i) ->
  part_of A tp hp hb sp us (drop_mark old y) = part_of A tp hp hb sp us y.
Proof.
  intros Hi Hc. unfold drop_mark, abandon_opt. parts. destruct old as [m|]; [|done]. destruct (m_chain m) as [[c l]|] eqn:E; [|done]. cbn [fmap option_fmap option_map fst].
  rewrite keep_alter_f; [done|]. rewrite <- Hi. by eapply Hc.
Qed.
Lemma follow_handler pf A s s1 x : seen A s x -> step pf LHandler s = Some s1 ->
  wf s -> belong s -> hpub_ok s -> chain_inv s -> parted A (log s) -> follows pf A s1 x.
Proof.
  intros (tp & hp & hb & sp & us & -> & Htp & Hhp & Hhb & Hsp & Hus) Hs Hwf Hb Hok Hch Hp. cbn [step] in Hs.
  assert (forall i m c l, flags s !! i = Some m -> m_chain m = Some (c, l) -> pch A c = pid A i) as Hmc.
  { intros i m c l H1 H2. apply (ins_in A (log s)); [done|]. apply (ch_mark s Hch). by exists m, l. }
  assert (forall i, mark_in A i s) as Hmi.
  { intros i m c l H1 H2. split; [by eapply Hmc|]. intros r Hr. apply (launched_in A (log s)); [done|]. by eapply (be_list s Hb). }
  unfold hpub_ok in Hok. unfold handler_step in Hs. destruct (hpc s) as [|t c h k|t c sl|i c sl|t sl|i sl|t|t sl|i sl|i ok|] eqn:Eh; cbn [hand_in handler_in] in Hhp, Hhb.
  - subst hp hb. destruct (queue s) as [|e q] eqn:Eq; [discriminate Hs|]. injection Hs as <-. set (y := emit (OPop e) (set_hpub (public_of e) (set_queue q s))).
    assert (forall i b, e = EAppend i b -> prec A (hb_rec b) = pid A i /\ hb_tid b = i) as Ha.
    { intros i b ->. destruct (be_app s Hb i b) as [H1 H2]; [rewrite Eq; left|]. split; [|done]. by apply (launched_in A (log s)). }
    assert (forall p, hpub y = Some p -> pid A (pub_id p) = event_in A e) as Hpub.
    { intros p E. change (hpub y) with (public_of e) in E. destruct e; try discriminate E; injection E as <-; cbn [pub_id event_in]; try done. by destruct (Ha _ _ eq_refl) as [_ ->]. }
    destruct (dispatch_frame e y) as (F1 & F2 & F3).
    destruct (event_in A e) eqn:Ee.
    + destruct (dispatch_in A tp sp us e y Ee Hmi Hpub Ha) as [D1 D2].
      eapply (follows_step _ _ _ _ LHandler); [reflexivity| |].
      * cbn [step]. unfold handler_step. parts. rewrite Eq. cbn [List.filter]. rewrite Ee. reflexivity.
      * match goal with |- seen A _ ?z => assert (z = dispatch e (part_of A tp HIdle (hpub y) sp us y)) as -> end.
        { f_equal. unfold y. parts. by rewrite Ee. }
        eapply seen_same; [by rewrite F1|exact D1|reflexivity|by rewrite F2|by rewrite F3|exact D2].
    + destruct (dispatch_out A tp sp us e y Ee Hmi Hpub Ha) as (D1 & D2 & D3); [exact Eh|].
      apply follows_not. eapply (seen_same A _ _ us tp HIdle None sp); [by rewrite F1|exact D1|by rewrite D2|by rewrite F2|by rewrite F3|].
      rewrite D3. unfold y. parts. rewrite Eq. cbn [List.filter]. by rewrite Ee.
  - (* HAdd1 *)
    assert (forall o t', get_next_exec_timestamp pf t = Ret (o, t') -> t_id t' = t_id t) as Hid by (intros o t' E; by eapply next_exec_id).
    assert (forall c', c = Some c' -> pch A c' = pid A (t_id t)) as Hc'.
    { intros c' ->. apply (ins_in A (log s)); [done|]. apply (ch_hand s Hch). by rewrite Eh. }
    destruct (pid A (t_id t)) eqn:Ep; subst hp hb.
    + destruct (get_next_exec_timestamp pf t) as [[[ex|] t']|] eqn:Eg.
      * destruct (let! a := add64 pf (add_distance ex (gtime s) (t_id t)) h in add64 pf a 1) as [seed|] eqn:Ea; injection Hs as <-.
        -- eapply (follows_step _ _ _ _ LHandler); [reflexivity| |].
           ++ cbn [step]. unfold handler_step. parts. rewrite Eg, Ea. reflexivity.
           ++ eapply (seen_same A _ _ us tp (HAdd2 (set_cylinder_line (seed / SLOTS) t') c (seed mod SLOTS)) (hpub s) sp); fsimpl; cbn [hand_in handler_in t_id set_cylinder_line]; try (pose proof (Hid _ _ eq_refl) as ->); rewrite ?Ep; try done. parts. by rewrite Ep.
        -- eapply (follows_step _ _ _ _ LHandler); [reflexivity| |].
           ++ cbn [step]. unfold handler_step. parts. rewrite Eg, Ea. reflexivity.
           ++ eapply (seen_same A _ _ us tp HDead None sp); fsimpl; cbn [hand_in handler_in]; try done; [by left|]. parts. by rewrite Hok.
      * injection Hs as <-. eapply (follows_step _ _ _ _ LHandler); [reflexivity| |].
        -- cbn [step]. unfold handler_step. parts. rewrite Eg. reflexivity.
        -- eapply (seen_same A _ _ us tp HIdle None sp); fsimpl; cbn [hand_in handler_in]; try done. rewrite <- (part_complete A tp HIdle) by (unfold abandon_opt; fsimpl; congruence). unfold complete, abandon_opt. parts. rewrite Hok, Ep. destruct c as [c|]; [|done]. rewrite keep_alter; [done|]. by apply Hc'.
      * injection Hs as <-. eapply (follows_step _ _ _ _ LHandler); [reflexivity| |].
        -- cbn [step]. unfold handler_step. parts. rewrite Eg. reflexivity.
        -- eapply (seen_same A _ _ us tp HDead None sp); fsimpl; cbn [hand_in handler_in]; try done; [by left|]. parts. by rewrite Hok.
    + apply follows_not. destruct (get_next_exec_timestamp pf t) as [[[ex|] t']|] eqn:Eg.
      * destruct (let! a := add64 pf (add_distance ex (gtime s) (t_id t)) h in add64 pf a 1) as [seed|] eqn:Ea; injection Hs as <-.
        -- eapply (seen_same A _ _ us tp HIdle None sp); fsimpl; cbn [hand_in handler_in t_id set_cylinder_line]; try (pose proof (Hid _ _ eq_refl) as ->); rewrite ?Ep; try done. parts. by rewrite Ep.
        -- eapply (seen_same A _ _ us tp HIdle None sp); fsimpl; cbn [hand_in handler_in]; try done. by right.
      * injection Hs as <-. eapply (seen_same A _ _ us tp HIdle None sp); fsimpl; cbn [hand_in handler_in]; try done.
        rewrite part_complete_out by (unfold abandon_opt; fsimpl; congruence). unfold abandon_opt. parts. rewrite Ep. destruct c as [c|]; [|done]. rewrite keep_alter_f; [done|]. by apply Hc'.
      * injection Hs as <-. eapply (seen_same A _ _ us tp HIdle None sp); fsimpl; cbn [hand_in handler_in]; try done. by right.
  - (* HAdd2 *)
    injection Hs as <-. destruct (pid A (t_id t)) eqn:Ep; subst hp hb.
    + eapply (follows_step _ _ _ _ LHandler); [reflexivity|reflexivity|].
      eapply (seen_same A _ _ us tp (HAdd3 (t_id t) c sl) None sp); destruct (wheel s !! sl) as [m|] eqn:Ew; fsimpl; cbn [hand_in handler_in]; rewrite ?Ep; try done.
      * rewrite next_scan_in by done. parts. rewrite keepw_lookup, Ew. cbn [fmap option_fmap option_map]. parts. rewrite Ep, keepw_insert, Hok. unfold slot_add_task. by rewrite keep_insert.
      * parts. rewrite keepw_lookup, Ew, Hok. reflexivity.
    + apply follows_not. eapply (seen_same A _ _ us tp HIdle None sp); destruct (wheel s !! sl) as [m|] eqn:Ew; fsimpl; cbn [hand_in handler_in]; rewrite ?Ep; try done.
      parts. rewrite Ep. erewrite keepw_same; [reflexivity|exact Ew|]. unfold slot_add_task. by rewrite keep_insert_f.
  - (* HAdd3 *)
    injection Hs as <-. destruct (pid A i) eqn:Ep; subst hp hb.
    + eapply (follows_step _ _ _ _ LHandler); [reflexivity|reflexivity|].
      eapply (seen_same A _ _ us tp HIdle None sp); fsimpl; cbn [hand_in handler_in]; try done.
      rewrite <- (part_complete A tp (HAdd3 i c sl)) by (unfold drop_mark, abandon_opt; fsimpl; congruence). f_equal.
      rewrite <- (drop_in A _ _ _ _ _ _ i) by (done || (intros; by eapply Hmc)). parts. rewrite keep_t, keep_insert by done. reflexivity.
    + apply follows_not. eapply (seen_same A _ _ us tp HIdle None sp); fsimpl; cbn [hand_in handler_in]; try done.
      rewrite part_complete_out by (unfold drop_mark, abandon_opt; fsimpl; congruence). rewrite (drop_out A _ _ _ _ _ _ i) by (done || (intros; by eapply Hmc)). parts. by rewrite keep_insert_f.
  - (* HUpd *)
    injection Hs as <-. rewrite Hok in Hhb. destruct (pid A (t_id t)) eqn:Ep; subst hp hb.
    + eapply (follows_step _ _ _ _ LHandler); [reflexivity|reflexivity|].
      eapply (seen_same A _ _ us tp HIdle None sp); fsimpl; cbn [hand_in handler_in]; try done.
      rewrite <- (part_complete A tp (HUpd t sl)) by (fsimpl; congruence). f_equal. parts. rewrite keepw_lookup, Hok. destruct (wheel s !! sl) as [m|] eqn:Ew; [|done]. cbn [fmap option_fmap option_map].
      rewrite keepw_insert, !slot_update_eq. unfold slot_add_task. by rewrite keep_insert.
    + apply follows_not. eapply (seen_same A _ _ us tp HIdle None sp); fsimpl; cbn [hand_in handler_in]; try done.
      rewrite part_complete_out by (fsimpl; congruence). parts. destruct (wheel s !! sl) as [m|] eqn:Ew; [|done]. erewrite keepw_same; [reflexivity|exact Ew|]. rewrite slot_update_eq. unfold slot_add_task. by rewrite keep_insert_f.
  - (* HAdv1 *)
    rewrite Hok in Hhb. unfold slot_remove_task in Hs. destruct (wheel s !! sl) as [m|] eqn:Ew.
    + assert (forall t, m !! i = Some t -> t_id t = i) as Hk by (intros t; by apply (wf_key s Hwf sl)).
      destruct (pid A i) eqn:Ep; subst hp hb.
      * eapply (follows_step _ _ _ _ LHandler (match m !! i with Some t => set_hpc (HAdv2 (clear_cylinder_line t)) (set_wheel (<[sl := delete i (keep (pid A) m)]> (keep_wheel (pid A) (wheel s))) (part_of A tp (HAdv1 i sl) None sp us s)) | None => complete false (set_wheel (<[sl := delete i (keep (pid A) m)]> (keep_wheel (pid A) (wheel s))) (part_of A tp (HAdv1 i sl) None sp us s)) end)); [reflexivity| |].
        -- cbn [step]. unfold handler_step, slot_remove_task. parts. rewrite keepw_lookup, Ew. cbn [fmap option_fmap option_map]. rewrite keep_t by done. by destruct (m !! i).
        -- destruct (m !! i) as [t|] eqn:Em; injection Hs as <-.
           ++ eapply (seen_same A _ _ us tp (HAdv2 (clear_cylinder_line t)) None sp); fsimpl; cbn [hand_in handler_in]; change (t_id (clear_cylinder_line t)) with (t_id t); try (pose proof (Hk _ eq_refl) as ->); rewrite ?Ep, ?Hok; try done. parts. by rewrite keepw_insert, keep_delete.
           ++ eapply (seen_same A _ _ us tp HIdle None sp); fsimpl; cbn [hand_in handler_in]; try done. rewrite <- (part_complete A tp (HAdv1 i sl)) by (fsimpl; congruence). f_equal. parts. by rewrite keepw_insert, keep_delete, Hok.
      * apply follows_not. assert (keep_wheel (pid A) (<[sl := delete i m]> (wheel s)) = keep_wheel (pid A) (wheel s)) as Ekw by (eapply keepw_same; [exact Ew|by apply keep_delete_f]).
        destruct (m !! i) as [t|] eqn:Em; injection Hs as <-.
        -- eapply (seen_same A _ _ us tp HIdle None sp); fsimpl; cbn [hand_in handler_in]; change (t_id (clear_cylinder_line t)) with (t_id t); try (pose proof (Hk _ eq_refl) as ->); rewrite ?Ep; try done. parts. by rewrite Ekw.
        -- eapply (seen_same A _ _ us tp HIdle None sp); fsimpl; cbn [hand_in handler_in]; try done. rewrite part_complete_out by (fsimpl; congruence). parts. by rewrite Ekw.
    + injection Hs as <-. destruct (pid A i) eqn:Ep; subst hp hb.
      * eapply (follows_step _ _ _ _ LHandler); [reflexivity| |].
        -- cbn [step]. unfold handler_step. parts. rewrite keepw_lookup, Ew. reflexivity.
        -- eapply (seen_same A _ _ us tp HIdle None sp); fsimpl; cbn [hand_in handler_in]; try done. rewrite <- (part_complete A tp (HAdv1 i sl)) by congruence. rewrite Hok. reflexivity.
      * apply follows_not. eapply (seen_same A _ _ us tp HIdle None sp); fsimpl; cbn [hand_in handler_in]; try done. by rewrite part_complete_out by congruence.
  - (* HAdv2 *)
    injection Hs as <-. rewrite Hok in Hhb. destruct (pid A (t_id t)) eqn:Ep; subst hp hb.
    + eapply (follows_step _ _ _ _ LHandler); [reflexivity|reflexivity|].
      eapply (seen_same A _ _ us tp (HAdv3 t (hand s + 1)) None sp); fsimpl; cbn [hand_in handler_in]; rewrite ?Ep, ?Hok; done.
    + apply follows_not. eapply (seen_same A _ _ us tp HIdle None sp); fsimpl; cbn [hand_in handler_in]; rewrite ?Ep; done.
  - (* HAdv3 *)
    rewrite Hok in Hhb. destruct (wheel s !! sl) as [m|] eqn:Ew; injection Hs as <-.
    + destruct (pid A (t_id t)) eqn:Ep; subst hp hb.
      * eapply (follows_step _ _ _ _ LHandler); [reflexivity| |].
        -- cbn [step]. unfold handler_step. parts. rewrite keepw_lookup, Ew. cbn [fmap option_fmap option_map]. reflexivity.
        -- eapply (seen_same A _ _ us tp HIdle None sp); fsimpl; cbn [hand_in handler_in]; try done. rewrite <- (part_complete A tp (HAdv3 t sl)) by (fsimpl; congruence). f_equal. parts. rewrite keepw_insert, Hok. unfold slot_add_task. by rewrite keep_insert.
      * apply follows_not. eapply (seen_same A _ _ us tp HIdle None sp); fsimpl; cbn [hand_in handler_in]; try done. rewrite part_complete_out by (fsimpl; congruence). parts. erewrite keepw_same; [reflexivity|exact Ew|]. unfold slot_add_task. by rewrite keep_insert_f.
    + destruct (pid A (t_id t)) eqn:Ep; subst hp hb.
      * eapply (follows_step _ _ _ _ LHandler); [reflexivity| |].
        -- cbn [step]. unfold handler_step. parts. rewrite keepw_lookup, Ew. reflexivity.
        -- eapply (seen_same A _ _ us tp HIdle None sp); fsimpl; cbn [hand_in handler_in]; try done. rewrite <- (part_complete A tp (HAdv3 t sl)) by congruence. rewrite Hok. reflexivity.
      * apply follows_not. eapply (seen_same A _ _ us tp HIdle None sp); fsimpl; cbn [hand_in handler_in]; try done. by rewrite part_complete_out by congruence.
  - (* HRem1 *)
    destruct (wheel s !! sl) as [m|] eqn:Ew; injection Hs as <-.
    + destruct (pid A i) eqn:Ep; subst hp hb.
      * eapply (follows_step _ _ _ _ LHandler); [reflexivity| |].
        -- cbn [step]. unfold handler_step. parts. rewrite keepw_lookup, Ew. cbn [fmap option_fmap option_map]. reflexivity.
        -- eapply (seen_same A _ _ us tp (HRem2 i true) (hpub s) sp); fsimpl; cbn [hand_in handler_in]; rewrite ?Ep; try done. unfold slot_remove_task. parts. cbn [snd]. by rewrite keepw_insert, keep_delete.
      * apply follows_not. eapply (seen_same A _ _ us tp HIdle None sp); fsimpl; cbn [hand_in handler_in]; rewrite ?Ep; try done. parts. erewrite keepw_same; [reflexivity|exact Ew|]. unfold slot_remove_task. cbn [snd]. by rewrite keep_delete_f.
    + destruct (pid A i) eqn:Ep; subst hp hb.
      * eapply (follows_step _ _ _ _ LHandler); [reflexivity| |].
        -- cbn [step]. unfold handler_step. parts. rewrite keepw_lookup, Ew. reflexivity.
        -- eapply (seen_same A _ _ us tp (HRem2 i false) (hpub s) sp); fsimpl; cbn [hand_in handler_in]; rewrite ?Ep; done.
      * apply follows_not. eapply (seen_same A _ _ us tp HIdle None sp); fsimpl; cbn [hand_in handler_in]; rewrite ?Ep; done.
  - (* HRem2 *)
    injection Hs as <-. assert (forall p, hpub s = Some p -> pub_id p = i) as Hpi by (intros p E; rewrite Hok in E; by injection E as <-).
    destruct (pid A i) eqn:Ep; subst hp hb.
    + eapply (follows_step _ _ _ _ LHandler); [reflexivity|reflexivity|].
      eapply (seen_same A _ _ us tp HIdle None sp); fsimpl; cbn [hand_in handler_in]; try done.
      rewrite <- (part_complete A tp (HRem2 i ok)) by (unfold drop_mark, abandon_opt; fsimpl; intros p E; by rewrite (Hpi p E)). f_equal.
      rewrite <- (drop_in A _ _ _ _ _ _ i) by (done || (intros; by eapply Hmc)). parts. rewrite keep_t, keep_delete by done. reflexivity.
    + apply follows_not. eapply (seen_same A _ _ us tp HIdle None sp); fsimpl; cbn [hand_in handler_in]; try done.
      rewrite part_complete_out by (unfold drop_mark, abandon_opt; fsimpl; intros p E; by rewrite (Hpi p E)). rewrite (drop_out A _ _ _ _ _ _ i) by (done || (intros; by eapply Hmc)). parts. by rewrite keep_delete_f.
  - discriminate Hs.
Qed.

(* ------------------------------------------------------------------ *)
(** * Whole executions *)

(** A round of the sweeper is over because of its budget while something of
    the part is due. *)
Definition cut_short (P : N -> bool) (s : sys) : Prop :=
  exists nw u, spc s = SRound nw 0 /\ u ∈ heap s /\ P (u_tid u) = true /\ u_deadline u <= nw.
Lemma follow pf t0 t1 A lb s s1 x : reachable pf t0 t1 s -> step pf lb s = Some s1 -> parted A (log s1) -> ~ cut_short (pid A) s ->
  seen A s x -> follows pf A s1 x.
Proof.
  intros Hr Hs Hp1 Hcut Hx.
  assert (parted A (log s)) as Hp.
  { destruct (step_log _ _ _ _ Hs) as [lg El]. destruct Hp1 as [H1 H2]. split.
    - intros u i r it ts H. apply (H1 u i r it ts). rewrite El. apply elem_of_app. by right.
    - intros t (e & H & He). apply H2. exists e. split; [|done]. rewrite El. apply elem_of_app. by right. }
  pose proof (wf_reach _ _ _ _ Hr) as Hwf. pose proof (belong_reach _ _ _ _ Hr) as Hb. pose proof (hpub_reach _ _ _ _ Hr) as Hpub.
  pose proof (chain_reach _ _ _ _ Hr) as Hc. pose proof (rec_reach _ _ _ _ Hr) as Hrec. clear Hr.
  destruct lb.
  1-7: by eapply follow_call.
  1-4: by eapply follow_chain.
  1-3: by eapply follow_inst.
  1-2: by eapply follow_timer.
  - by eapply follow_handler.
  - by eapply follow_inst.
  - by eapply follow_inst.
  - eapply follow_sweep; [done..|]. intros nw u H1 H2 H3. apply N.nle_gt. intros H4. apply Hcut. exists nw, u. by split_and!.
  - eapply follow_sweep; [done..|]. intros nw u H1 H2 H3. apply N.nle_gt. intros H4. apply Hcut. exists nw, u. by split_and!.
Qed.
Lemma keepw_init f n : keep_wheel f (init_task_wheel n) = init_task_wheel n.
Proof. apply map_eq. intros i. rewrite keepw_lookup, init_wheel_lookup. case_bool_decide; [|done]. cbn [fmap option_fmap option_map]. by rewrite keep_empty. Qed.
Lemma seen_init_n A n t0 t1 : seen A (init_n n t0 t1) (init_n n t0 t1).
Proof.
  apply (seen_same A _ _ ∅ (tpc (init_n n t0 t1)) HIdle None SSleep); try reflexivity.
  unfold part_of, init_n. fsimpl. rewrite keepw_init, !keep_empty. unfold keep_waiters. by rewrite map_filter_empty.
Qed.
Lemma seen_init A t0 t1 : seen A (init t0 t1) (init t0 t1).
Proof. exact (seen_init_n A (N.to_nat SLOTS) t0 t1). Qed.

(** No round on the way is cut short. *)
Definition uncut (pf : profile) (P : N -> bool) (t0 t1 : N) (ls : list label) : Prop :=
  forall l1 l2 s, ls = l1 ++ l2 -> run pf l1 (init t0 t1) = Some s -> ~ cut_short P s.
Lemma run_snoc pf ls lb s s' : run pf (ls ++ [lb]) s = Some s' -> exists s1, run pf ls s = Some s1 /\ step pf lb s1 = Some s'.
Proof.
  revert s. induction ls as [|l ls IH]; intros s H; cbn [app run] in *.
  - destruct (step pf lb s) as [s1|] eqn:E; [|discriminate H]. exists s. split; [done|]. by rewrite E.
  - destruct (step pf l s); [|discriminate H]. auto.
Qed.
Lemma run_app pf l1 l2 s s1 : run pf l1 s = Some s1 -> run pf (l1 ++ l2) s = run pf l2 s1.
Proof.
  revert s. induction l1 as [|l l1 IH]; intros s H; cbn [app run] in *; [by injection H as ->|].
  destruct (step pf l s); [auto|discriminate H].
Qed.
Lemma part_run pf t0 t1 A ls : forall s, run pf ls (init t0 t1) = Some s -> parted A (log s) -> uncut pf (pid A) t0 t1 ls ->
  exists ls' s', Forall (fun lb => call_in A lb = true) ls' /\ run pf ls' (init t0 t1) = Some s' /\ seen A s s'.
Proof.
  induction ls as [|lb ls IH] using rev_ind; intros s Hs Hp Hu.
  - cbn [run] in Hs. injection Hs as <-. exists [], (init t0 t1). split; [constructor|]. split; [exact eq_refl|]. apply seen_init.
  - apply run_snoc in Hs as (s1 & H1 & H2).
    assert (parted A (log s1)) as Hp1.
    { destruct (step_log _ _ _ _ H2) as [lg El]. destruct Hp as [G1 G2]. split.
      - intros u i r it ts H. apply (G1 u i r it ts). rewrite El. apply elem_of_app. by right.
      - intros t (e & H & He). apply G2. exists e. split; [|exact He]. rewrite El. apply elem_of_app. by right. }
    destruct (IH s1 H1 Hp1) as (ls' & x & F & Hx & Hseen).
    { intros l1 l2 s0 E. apply (Hu l1 (l2 ++ [lb])). rewrite E. symmetry. apply app_assoc. }
    assert (~ cut_short (pid A) s1) as Hc by (eapply (Hu ls [lb]); [reflexivity|exact H1]).
    assert (reachable pf t0 t1 s1) as Hr by (exists ls; exact H1).
    destruct (follow _ _ _ _ _ _ _ _ Hr H2 Hp Hc Hseen) as (ls2 & x1 & F2 & Hx1 & Hs1).
    exists (ls' ++ ls2), x1. split; [apply Forall_app; split; [exact F|exact F2]|]. split; [|exact Hs1]. rewrite (run_app _ _ _ _ _ Hx). exact Hx1.
Qed.

(** ** Few timeouts at a time *)
(** The number of timeouts the sweeper handed out in rounds begun at [nw]. *)
Definition swept_at (nw : N) (lg : list obs) : N :=
  N.of_nat (length (List.filter (fun o => match o with OSweep _ _ _ n => n =? nw | _ => false end) lg)).
Lemma swept_app nw l1 l2 : swept_at nw (l1 ++ l2) = swept_at nw l1 + swept_at nw l2.
Proof. unfold swept_at. rewrite lfilter_app, app_length. lia. Qed.
Lemma round_budget pf t0 t1 s : reachable pf t0 t1 s -> forall nw k, spc s = SRound nw k -> k <= 200 /\ 200 - k <= swept_at nw (log s).
Proof.
  revert s. apply (reach_ind pf t0 t1 (fun s => forall nw k, spc s = SRound nw k -> k <= 200 /\ 200 - k <= swept_at nw (log s))).
  - intros nw k H. change (spc (init t0 t1)) with SSleep in H. discriminate H.
  - intros lb s s' _ IH Hs nw k. destruct (step_log _ _ _ _ Hs) as [lg El].
    assert (swept_at nw (log s) <= swept_at nw (log s')) as Hm by (rewrite El, swept_app; lia). clear El.
    revert Hm. step_inv Hs; inst_shape; fsimpl; intros Hm E; try (destruct (IH _ _ E); lia); try discriminate E.
    + congruence.
    + injection E as <- <-. split; [lia|]. change (200 - 200) with 0. lia.
    + injection E as <- <-.
      destruct (IH _ _ eq_refl) as [I1 I2].
      match goal with H : (k0 =? 0) = false |- _ => apply N.eqb_neq in H end.
      unfold swept_at in *. cbn [List.filter]. rewrite N.eqb_refl. cbn [length]. lia.
Qed.
Lemma few_uncut pf t0 t1 P ls s : run pf ls (init t0 t1) = Some s -> (forall nw, swept_at nw (log s) < 200) -> uncut pf P t0 t1 ls.
Proof.
  intros Hs Hf l1 l2 s0 -> H0 (nw & u & Hr & _). rewrite (run_app _ _ _ _ _ H0) in Hs. destruct (run_log _ _ _ _ Hs) as [lg El].
  assert (reachable pf t0 t1 s0) as Hr0 by (exists l1; exact H0). clear Hs H0.
  destruct (round_budget _ _ _ _ Hr0 _ _ Hr) as [_ H]. specialize (Hf nw). rewrite El, swept_app in Hf. lia.
Qed.
