(** In which iteration a waiting task is started. *)
From Verif Require Import Tactics Inv Own Life Count Quiet.

(* ------------------------------------------------------------------ *)
(** * Specification *)


(** The iteration in which the task [u] is to be started, going by the log (newest
    entry first): set when the task is put on the wheel, cleared by a run (start or
    skip) and by discarding it.  A task parked in iteration [it], clock second [ts],
    with next due time [d], is expected d - ts + 1 iterations later, or 2 iterations
    later if [d] has passed. *)
Fixpoint expect (u : N) (lg : list obs) : option N :=
  match lg with
  | [] => None
  | OPark u' _ it ts d :: r =>
      if u' =? u then Some (it + 1 + (if ts <=? d then d - ts else 1)) else expect u r
  | OAdded u' _ n sl c :: r => if u' =? u then Some (due n sl c) else expect u r
  | OLaunch u' _ _ _ _ :: r | OSkip u' _ _ _ :: r | OEnd u' _ :: r | ODrop u' _ _ :: r =>
      if u' =? u then None else expect u r
  | _ :: r => expect u r
  end.


(* ------------------------------------------------------------------ *)

Lemma gap_lt sl n : gap sl n < SLOTS.
Proof. unfold gap, SLOTS. lia. Qed.
Lemma due_ge n sl c : n <= due n sl c.
Proof. unfold due, SLOTS. lia. Qed.
Lemma due_here n c : due n (n mod SLOTS) c = n + SLOTS * c.
Proof. unfold due, gap, SLOTS. lia. Qed.
Lemma due_next n sl c : sl < SLOTS -> sl <> n mod SLOTS -> due (n + 1) sl c = due n sl c.
Proof. unfold due, gap, SLOTS. lia. Qed.
Lemma due_rev n c : 0 < c -> due (n + 1) (n mod SLOTS) (c - 1) = due n (n mod SLOTS) c.
Proof. unfold due, gap, SLOTS. lia. Qed.
Lemma due_mod n sl c : sl < SLOTS -> due n sl c mod SLOTS = sl.
Proof. unfold due, gap, SLOTS. lia. Qed.
Lemma due_park k d : due (k + 1) ((d + (k mod SLOTS + 1) mod SLOTS) mod SLOTS) (d / SLOTS) = k + 1 + d.
Proof. unfold due, gap, SLOTS. lia. Qed.

Lemma expect_inst u lg l : Forall inst_obs lg -> expect u (lg ++ l) = expect u l.
Proof. induction 1 as [|[] lg Hx H IH]; try done. Qed.

Definition before_start (p : timer_pc) : bool :=
  match p with TMaint _ _ _ | TSpawn _ _ _ _ => true | _ => false end.

Definition when (s : sys) (i sl : N) (t : task) : N :=
  if decide (i ∈ ids_of (tpc s)) then iters s else due (next_scan s) sl (t_cyl t).

(** tasks on their way to the wheel *)
Definition coming (s : sys) : list task := (queue s ≫= ev_task) ++ hpc_task (hpc s).

Record tinv (u i : N) (s : sys) : Prop := {
  ti_wheel : forall sl t', sits s i sl t' -> tpc s <> TDead -> expect u (log s) = Some (when s i sl t');
  ti_timer : forall t', t' ∈ tpc_task (tpc s) -> t_id t' = i ->
     expect u (log s) = if before_start (tpc s) then Some (iters s) else None;
  ti_gone : forall t', t' ∈ tpc_task (tpc s) -> t_id t' ∉ ids_of (tpc s);
  ti_arr : i ∈ ids_of (tpc s) -> exists t', sits s i (hand s) t' /\ t_cyl t' = 0;
  ti_nodup : NoDup (ids_of (tpc s));
  ti_new : forall t', t' ∈ coming s -> t_id t' = i -> expect u (log s) = None;
  ti_used : u ∉ used s -> expect u (log s) = None;
  ti_le : forall D, expect u (log s) = Some D -> iters s <= D;
  ti_exp : forall D, expect u (log s) = Some D -> tpc s <> TDead ->
     (exists sl t', sits s i sl t') \/
     (exists t', t' ∈ tpc_task (tpc s) /\ t_id t' = i /\ before_start (tpc s) = true)
}.

Lemma tinv_frame u i s s' :
  tinv u i s ->
  (forall sl t, sits s' i sl t <-> sits s i sl t) -> tpc s' = tpc s -> iters s' = iters s -> hand s' = hand s ->
  (forall t', t' ∈ coming s' -> t_id t' = i ->
     (exists t0, t0 ∈ coming s /\ t_id t0 = i) \/ expect u (log s) = None) ->
  used s ⊆ used s' -> expect u (log s') = expect u (log s) ->
  tinv u i s'.
Proof.
  intros [H1 H2 H3 H4 H5 H6 H7 H8 H9] Hw Hp Hi Hh Hc Hu He.
  split; unfold when, next_scan in *; rewrite ?Hp, ?Hi, ?Hh, ?He in *; auto.
  - intros sl t' Hs. apply Hw in Hs. auto.
  - intros Hin. destruct (H4 Hin) as (t' & Hs & ?). exists t'. by rewrite Hw.
  - intros t' Ht' Hid. destruct (Hc t' Ht' Hid) as [(t0 & ? & ?)|?]; eauto.
  - intros D HD Hd. destruct (H9 D HD Hd) as [(sl & t' & ?)|?]; [left|right; done]. exists sl, t'. by apply Hw.
Qed.

Lemma sits_held s i sl t : sits s i sl t -> t ∈ wheel_tasks (wheel s).
Proof. intros (m & Hw & Hm). apply elem_of_wheel_tasks. eauto. Qed.

Lemma own4 s t1 t2 : own_inv s -> t_uid t1 = t_uid t2 ->
  (t1 ∈ coming s -> t2 ∈ tpc_task (tpc s) -> False) /\
  (t1 ∈ coming s -> t2 ∈ wheel_tasks (wheel s) -> False) /\
  (t1 ∈ tpc_task (tpc s) -> t2 ∈ wheel_tasks (wheel s) -> False) /\
  (t1 ∈ hpc_task (hpc s) -> t2 ∈ (queue s ≫= ev_task) -> False).
Proof.
  intros [Hn _] He. unfold uids, held, coming in *.
  rewrite !fmap_app in Hn.
  assert (forall (A : list task) t, t ∈ A -> t_uid t ∈ t_uid <$> A) as Hin by (intros; by apply elem_of_list_fmap_1).
  apply NoDup_app in Hn as (_ & Hn1 & Hn).
  apply NoDup_app in Hn as (_ & Hn2 & Hn).
  apply NoDup_app in Hn as (_ & Hn3 & Hn).
  setoid_rewrite elem_of_app in Hn1. setoid_rewrite elem_of_app in Hn1. setoid_rewrite elem_of_app in Hn2.
  setoid_rewrite elem_of_app. repeat split.
  - intros [H|H] H2; [eapply Hn1|eapply Hn2]; [by apply Hin| |by apply Hin|]; rewrite He; auto.
  - intros [H|H] H2; [eapply Hn1|eapply Hn2]; [by apply Hin| |by apply Hin|]; rewrite He; auto.
  - intros H H2. eapply Hn3; [by apply Hin|]. rewrite He; auto.
  - intros H H2. eapply Hn1; [by apply Hin|]. rewrite <- He; auto.
Qed.

Lemma own_wheel s i j sl sl' t t' : own_inv s -> sits s i sl t -> sits s j sl' t' -> t_uid t = t_uid t' -> sl = sl'.
Proof.
  intros [Hn _] (m & Hw & Hm) (m' & Hw' & Hm') He.
  destruct (decide (sl = sl')) as [|Hne]; [done|exfalso].
  unfold uids, held in Hn. rewrite !fmap_app in Hn.
  apply NoDup_app in Hn as (_ & _ & Hn). apply NoDup_app in Hn as (_ & _ & Hn). apply NoDup_app in Hn as (_ & _ & Hn).
  rewrite (wheel_tasks_lookup _ _ _ Hw), fmap_app in Hn. apply NoDup_app in Hn as (_ & Hn & _).
  apply (Hn (t_uid t)).
  - apply elem_of_list_fmap_1, elem_of_slot_tasks. eauto.
  - rewrite He. apply elem_of_list_fmap_1, elem_of_wheel_tasks. exists sl', m', j.
    split; [|done]. by rewrite lookup_delete_ne.
Qed.

Lemma on_add w sl0 m0 t0 i sl t : w !! sl0 = Some m0 ->
  on (<[sl0 := slot_add_task m0 t0]> w) i sl t <->
  (i = t_id t0 /\ sl = sl0 /\ t = t0) \/ (~ (i = t_id t0 /\ sl = sl0) /\ on w i sl t).
Proof.
  intros Hw. unfold on, slot_add_task. destruct (decide (sl = sl0)) as [->|Hne].
  - setoid_rewrite lookup_insert. destruct (decide (i = t_id t0)) as [->|Hi].
    + split.
      * intros (m & Hm & H). injection Hm as <-. rewrite lookup_insert in H. naive_solver.
      * intros [(_ & _ & ->)|[Hn _]]; [|naive_solver]. eexists. split; [done|]. by rewrite lookup_insert.
    + split.
      * intros (m & ? & H); simplify_eq. rewrite lookup_insert_ne in H by done. naive_solver.
      * intros [?|(_ & m & H1 & H2)]; [naive_solver|]. simplify_eq. eexists. rewrite lookup_insert_ne by done. eauto.
  - setoid_rewrite lookup_insert_ne; [|done]. naive_solver.
Qed.
Lemma on_del w sl0 m0 j i sl t : w !! sl0 = Some m0 ->
  on (<[sl0 := delete j m0]> w) i sl t <-> (~ (i = j /\ sl = sl0) /\ on w i sl t).
Proof.
  intros Hw. unfold on. destruct (decide (sl = sl0)) as [->|Hne].
  - setoid_rewrite lookup_insert. split.
    + intros (m & ? & H); simplify_eq. apply lookup_delete_Some in H. naive_solver.
    + intros (Hn & m & H1 & H2). simplify_eq. eexists. split; [done|]. apply lookup_delete_Some. naive_solver.
  - setoid_rewrite lookup_insert_ne; [|done]. naive_solver.
Qed.
Lemma on_scan w sl0 m0 i sl t : w !! sl0 = Some m0 ->
  on (<[sl0 := snd (slot_arrival_time_tasks m0)]> w) i sl t <->
  (sl <> sl0 /\ on w i sl t) \/ (sl = sl0 /\ exists t0, on w i sl t0 /\ t = snd (check_arrived t0)).
Proof.
  intros Hw. unfold on. destruct (decide (sl = sl0)) as [->|Hne].
  - setoid_rewrite lookup_insert. split.
    + intros (m & ? & H); simplify_eq. apply slot_arrival_lookup in H. naive_solver.
    + intros [?|(_ & t0 & (m & H1 & H2) & ->)]; [naive_solver|]. simplify_eq. eexists. split; [done|].
      cbn. rewrite lookup_fmap, H2. done.
  - setoid_rewrite lookup_insert_ne; [|done]. naive_solver.
Qed.

(** Which ids a scan returns. *)
Lemma arrival_ids m i : (forall k t, m !! k = Some t -> t_id t = k) ->
  i ∈ fst (slot_arrival_time_tasks m) <-> exists t, m !! i = Some t /\ t_cyl t = 0 /\ t_valid t = true.
Proof.
  intros Hk. cbn [slot_arrival_time_tasks fst].
  assert (forall t, fst (check_arrived t) = true <-> t_cyl t = 0 /\ t_valid t = true) as Hca.
  { intros t. unfold check_arrived, is_can_running. destruct (t_cyl t =? 0) eqn:E; cbn.
    - apply N.eqb_eq in E. destruct (t_valid t); naive_solver.
    - apply N.eqb_neq in E. naive_solver. }
  rewrite elem_of_list_fmap. split.
  - intros ([k t] & -> & H). apply elem_of_list_filter in H as [Ha H]. apply elem_of_map_to_list in H. cbn in *.
    exists t. rewrite (Hk _ _ H). split; [done|]. by apply Hca.
  - intros (t & H & Hc). exists (i, t). cbn. split; [by rewrite (Hk _ _ H)|].
    apply elem_of_list_filter. split; [by apply Hca|]. by apply elem_of_map_to_list.
Qed.
Lemma arrival_nodup m : (forall k t, m !! k = Some t -> t_id t = k) -> NoDup (fst (slot_arrival_time_tasks m)).
Proof.
  intros Hk. cbn [slot_arrival_time_tasks fst].
  apply NoDup_fmap_2_strong.
  - intros [k1 t1] [k2 t2] H1 H2 He. apply elem_of_list_filter in H1 as [_ H1], H2 as [_ H2].
    apply elem_of_map_to_list in H1, H2. cbn in He.
    pose proof (Hk _ _ H1). pose proof (Hk _ _ H2). assert (k1 = k2) by congruence. congruence.
  - apply NoDup_filter, NoDup_map_to_list.
Qed.

(** Exactly the task [u] has the id [i]. *)
Definition sole (u i : N) (s : sys) : Prop := forall t', t' ∈ held s -> (t_id t' = i <-> t_uid t' = u).

Lemma in_tpc s t : t ∈ tpc_task (tpc s) -> t ∈ held s.
Proof. intros. apply elem_held. auto. Qed.
Lemma in_wheel s t : t ∈ wheel_tasks (wheel s) -> t ∈ held s.
Proof. intros. apply elem_held. auto using elem_rest_wheel. Qed.
Lemma in_coming s t : t ∈ coming s -> t ∈ held s.
Proof. unfold coming. intros [?|?]%elem_of_app; apply elem_held; auto using elem_rest_queue, elem_rest_hpc. Qed.

Lemma sole_wheel_coming u i s sl t t' : own_inv s -> sole u i s -> sits s i sl t -> t_id t = i ->
  t' ∈ coming s -> t_id t' = i -> False.
Proof.
  intros Ho Hs Hw Hi Hc Hi'. assert (t ∈ wheel_tasks (wheel s)) by eauto using sits_held.
  assert (t_uid t' = t_uid t) as E.
  { transitivity u; [|symmetry]; apply Hs; auto using in_wheel, in_coming. }
  edestruct (own4 s t' t Ho E) as (_ & Hx & _). auto.
Qed.
Lemma sole_wheel_tpc u i s sl t t' : own_inv s -> sole u i s -> sits s i sl t -> t_id t = i ->
  t' ∈ tpc_task (tpc s) -> t_id t' = i -> False.
Proof.
  intros Ho Hs Hw Hi Hc Hi'. assert (t ∈ wheel_tasks (wheel s)) by eauto using sits_held.
  assert (t_uid t' = t_uid t) as E.
  { transitivity u; [|symmetry]; apply Hs; auto using in_wheel, in_tpc. }
  destruct (own4 s t' t Ho E) as (_ & _ & Hx & _). auto.
Qed.
Lemma sole_coming_tpc u i s t t' : own_inv s -> sole u i s -> t ∈ coming s -> t_id t = i ->
  t' ∈ tpc_task (tpc s) -> t_id t' = i -> False.
Proof.
  intros Ho Hs Hc Hi Hc' Hi'.
  assert (t_uid t = t_uid t') as E.
  { transitivity u; [|symmetry]; apply Hs; auto using in_coming, in_tpc. }
  destruct (own4 s t t' Ho E) as (Hx & _). auto.
Qed.

Lemma sits_id s i sl t : wf s -> sits s i sl t -> t_id t = i.
Proof. intros Hwf (m & Hw & Hm). eapply wf_key; eauto. Qed.
Lemma sits_lt s i sl t : wf s -> sits s i sl t -> sl < SLOTS.
Proof. intros Hwf (m & Hw & Hm). eapply wf_wheel; eauto. Qed.
Lemma sits_valid s i sl t : cnt_inv s -> sits s i sl t -> t_valid t = true.
Proof.
  intros Hc Hs. destruct (ci_held s Hc t) as (t0 & H); [by eapply in_wheel, sits_held|]. naive_solver.
Qed.

Lemma expect_other u o l :
  (match o with
   | OPark u' _ _ _ _ | OAdded u' _ _ _ _ | OLaunch u' _ _ _ _ | OSkip u' _ _ _ | OEnd u' _ | ODrop u' _ _ => u' <> u
   | _ => True end) ->
  expect u (o :: l) = expect u l.
Proof. destruct o; cbn [expect]; try done; intros H; apply N.eqb_neq in H; by rewrite H. Qed.

(** A step of the scheduler with another task. *)
Lemma tinv_others u i s s' :
  tinv u i s -> tpc s <> TDead ->
  (forall sl t', sits s' i sl t' <-> sits s i sl t') ->
  (forall t', t' ∈ tpc_task (tpc s) -> t_id t' <> i) ->
  (forall t', t' ∈ tpc_task (tpc s') -> t_id t' <> i /\ t_id t' ∉ ids_of (tpc s')) ->
  ids_of (tpc s') = ids_of (tpc s) -> next_scan s' = next_scan s -> iters s' = iters s -> hand s' = hand s ->
  coming s' = coming s -> used s' = used s -> expect u (log s') = expect u (log s) ->
  tinv u i s'.
Proof.
  intros [Hw Ht Hg Ha Hn Hnew Hu Hle Hexp] Hd Hs Htp Htp' Hids Hns Hit Hh Hc Hus He.
  split; unfold when in *; rewrite ?Hids, ?Hns, ?Hit, ?Hh, ?Hc, ?Hus, ?He in *; auto.
  - intros sl t' Hs'. apply Hs in Hs'. auto.
  - intros t' Ht' Hi. by destruct (Htp' t' Ht').
  - intros t' Ht'. by destruct (Htp' t' Ht').
  - intros Hin. destruct (Ha Hin) as (t' & Hs' & Hc'). exists t'. by rewrite Hs.
  - intros D HD _. destruct (Hexp D HD Hd) as [(sl & t' & ?)|(t' & Ht' & Hi & _)].
    + left. exists sl, t'. by apply Hs.
    + by apply Htp in Ht'.
Qed.

(** A step of the scheduler with the task itself, off the wheel. *)
Lemma tinv_self u i s s' :
  (forall sl t', ~ sits s' i sl t') -> (forall t', t' ∈ coming s' -> t_id t' <> i) -> i ∉ ids_of (tpc s') ->
  (forall t', t' ∈ tpc_task (tpc s') -> t_id t' ∉ ids_of (tpc s')) -> NoDup (ids_of (tpc s')) ->
  (forall t', t' ∈ tpc_task (tpc s') -> t_id t' = i ->
     expect u (log s') = if before_start (tpc s') then Some (iters s') else None) ->
  used s' = used s -> u ∈ used s ->
  (forall D, expect u (log s') = Some D -> iters s' <= D /\
     (tpc s' <> TDead -> exists t', t' ∈ tpc_task (tpc s') /\ t_id t' = i /\ before_start (tpc s') = true)) ->
  tinv u i s'.
Proof.
  intros Hw Hnew Ha Hg Hn Ht Hus Hu Hexp. split; auto.
  - intros sl t' Hs. by apply Hw in Hs.
  - done.
  - intros t' Hc Hi. by apply Hnew in Hc.
  - by rewrite Hus.
  - intros D HD. by apply Hexp.
  - intros D HD Hd. right. destruct (Hexp D HD) as [_ Hx]; auto.
Qed.

(** The scheduler died. *)
Lemma tinv_dead u i s s' :
  tinv u i s -> tpc s' = TDead -> iters s' = iters s -> coming s' = coming s -> used s' = used s ->
  (expect u (log s') = expect u (log s) \/ expect u (log s') = None) ->
  tinv u i s'.
Proof.
  intros [Hw Ht Hg Ha Hn Hnew Hu Hle Hexp] Hd Hit Hc Hus He.
  split; unfold when in *; rewrite ?Hd, ?Hit, ?Hc, ?Hus in *; cbn [tpc_task ids_of]; try done.
  - intros t' H%elem_of_nil. done.
  - intros t' H%elem_of_nil. done.
  - intros H%elem_of_nil. done.
  - constructor.
  - intros. destruct He as [->|He]; eauto.
  - intros. destruct He as [->|He]; eauto.
  - intros D HD. destruct He as [He|He]; rewrite He in HD; [auto|done].
Qed.

Section timer.
Context (u i : N) (pf : profile) (s : sys) (Hwf : wf s) (Ho : own_inv s) (Hc : cnt_inv s) (Hso : sole u i s) (Hi : tinv u i s).

(** Facts about the task in the scheduler's hands. *)
Lemma other_task t : tpc_task (tpc s) = [t] -> t_uid t <> u -> t_id t <> i.
Proof. intros Ht Hne He. apply Hne, Hso; [by apply in_tpc, cons_elem|done]. Qed.
Lemma self_task t : tpc_task (tpc s) = [t] -> t_uid t = u ->
  t_id t = i /\ (forall sl t', ~ sits s i sl t') /\ (forall t', t' ∈ coming s -> t_id t' <> i) /\ i ∉ ids_of (tpc s) /\ u ∈ used s.
Proof.
  intros Ht He. pose proof (cons_elem _ _ Ht) as Hin.
  assert (t_id t = i) as Hid by (apply Hso; auto using in_tpc).
  split; [done|]. split; [|split; [|split]].
  - intros sl t' Hs. eapply sole_wheel_tpc; eauto using sits_id.
  - intros t' Hco Hi'. eapply sole_coming_tpc; eauto.
  - rewrite <- Hid. eapply ti_gone; eauto.
  - rewrite <- He. apply Ho. apply elem_of_list_fmap_1. by apply in_tpc.
Qed.

(** The task in hand goes on being in hand, or is dropped. *)
Lemma tinv_hold t s' :
  tpc_task (tpc s) = [t] -> tpc s <> TDead -> tpc s' <> TDead -> wheel s' = wheel s ->
  ids_of (tpc s') = ids_of (tpc s) -> next_scan s' = next_scan s -> iters s' = iters s -> hand s' = hand s ->
  coming s' = coming s -> used s' = used s ->
  (tpc_task (tpc s') = [] \/ exists t', tpc_task (tpc s') = [t'] /\ t_uid t' = t_uid t /\ t_id t' = t_id t) ->
  (t_uid t <> u -> expect u (log s') = expect u (log s)) ->
  (t_uid t = u -> match tpc_task (tpc s') with
                  | [] => expect u (log s') = None
                  | _ => expect u (log s') = if before_start (tpc s') then Some (iters s') else None end) ->
  tinv u i s'.
Proof.
  intros Ht Hd Hd' Hw Hids Hns Hit Hh Hco Hus Htp He1 He2.
  assert (forall t', t' ∈ tpc_task (tpc s') -> t_uid t' = t_uid t /\ t_id t' = t_id t) as Htp'.
  { intros t' Hin. destruct Htp as [E|(t2 & E & ? & ?)]; rewrite E in Hin.
    - by apply elem_of_nil in Hin.
    - apply elem_of_list_singleton in Hin as ->. done. }
  destruct (decide (t_uid t = u)) as [E|E].
  - destruct (self_task t Ht E) as (Hid & Hns' & Hnc & Hni & Hu).
    apply (tinv_self u i s); auto.
    + intros sl t'. rewrite Hw. apply Hns'.
    + rewrite Hco. apply Hnc.
    + by rewrite Hids.
    + intros t' Hin. destruct (Htp' t' Hin) as [_ ->]. rewrite Hids, Hid. done.
    + rewrite Hids. apply Hi.
    + intros t' Hin _. specialize (He2 E). destruct (tpc_task (tpc s')); [by apply elem_of_nil in Hin|done].
    + intros D HD. specialize (He2 E). destruct Htp as [E1|(t2 & E1 & ? & ?)]; rewrite E1 in *; [congruence|].
      rewrite He2 in HD. destruct (before_start (tpc s')); [|done]. simplify_eq. split; [lia|].
      intros _. exists t2. split; [constructor|]. split; [congruence|done].
  - pose proof (other_task t Ht E) as Hid.
    apply (tinv_others u i s); auto.
    + by rewrite Hw.
    + intros t' Hin. rewrite Ht in Hin. by apply elem_of_list_singleton in Hin as ->.
    + intros t' Hin. destruct (Htp' t' Hin) as [_ ->]. split; [done|]. rewrite Hids.
      eapply ti_gone; eauto. by apply cons_elem.
Qed.

Lemma tinv_timer ch rec now s' : timer_step pf ch rec now s = Some s' -> near u (log s') -> tinv u i s'.
Proof.
  pose proof Hi as [Hw Ht Hg Ha Hn Hnew Hu Hle Hexp].
  intros H Hnear. unfold timer_step in H. destruct (tpc s) eqn:Hpc.
  - (* TCheck *)
    simplify_eq. destruct (motiv s).
    + split; unfold when, next_scan, coming in *; fsimpl; rewrite ?Hpc in *; try assumption; try done;
        try (intros; by apply Hw); try (intros; eapply Hexp; done).
    + split; unfold when, next_scan, coming in *; fsimpl; rewrite ?Hpc in *; try assumption; try done;
        try (intros; by apply Hw); try (intros; eapply Hexp; done).
  - (* TStore *)
    simplify_eq. split; unfold when, next_scan, coming in *; fsimpl; rewrite ?Hpc in *; try assumption; try done;
        try (intros; by apply Hw); try (intros; eapply Hexp; done).
  - (* TScan *)
    destruct (wf_loop s Hwf l) as [Hl _]; [by rewrite Hpc|]. rewrite Hl in H.
    pose proof (wf_hand s Hwf) as Hhand.
    destruct (wheel s !! hand s) as [m|] eqn:Hm.
    2: { exfalso. destruct (wf_wheel s Hwf (hand s)) as [_ Hx]. rewrite Hm in Hx.
         rewrite Hhand in Hx. destruct (Hx (slots_lt _)) as [? ?]. done. }
    destruct (slot_arrival_time_tasks m) as [ids m'] eqn:Har.
    assert (ids = fst (slot_arrival_time_tasks m)) as -> by (by rewrite Har).
    assert (m' = snd (slot_arrival_time_tasks m)) as -> by (by rewrite Har). clear Har.
    simplify_eq.
    assert (forall k t, m !! k = Some t -> t_id t = k) as Hk by (intros; eapply wf_key; eauto).
    assert (next_scan s = iters s) as Hns by (unfold next_scan; by rewrite Hpc).
    split; unfold when, coming in *; fsimpl; rewrite ?Hpc in *; cbn [tpc_task ids_of next_scan tpc] in *; try assumption.
    + (* wheel *)
      intros sl t' Hs _. unfold next_scan. fsimpl.
      apply (on_scan _ _ _ _ _ _ Hm) in Hs as [[Hne Hs]|[-> (t0 & Hs & ->)]].
      * rewrite (Hw _ _ Hs) by done. f_equal.
        rewrite decide_False by (intros ?%elem_of_nil; done). rewrite Hns.
        rewrite decide_False.
        -- symmetry. apply due_next; [by eapply sits_lt|]. rewrite <- Hhand. done.
        -- intros Hin. apply (arrival_ids m i Hk) in Hin as (t2 & Ht2 & _).
           apply Hne. symmetry. eapply (own_wheel s i i (hand s) sl t2 t'); eauto; [by exists m|].
           transitivity u; [|symmetry]; apply Hso; eauto using in_wheel, sits_held, sits_id.
           ++ eapply in_wheel, sits_held. by exists m.
      * rewrite (Hw _ _ Hs) by done. f_equal.
        rewrite decide_False by (intros ?%elem_of_nil; done). rewrite Hns.
        destruct Hs as (m1 & Hm1 & Ht0). rewrite Hm in Hm1. simplify_eq.
        unfold check_arrived. destruct (t_cyl t0 =? 0) eqn:Ec.
        -- apply N.eqb_eq in Ec. rewrite decide_True.
           ++ rewrite Ec. rewrite Hhand at 1. rewrite due_here. lia.
           ++ apply (arrival_ids m1 i Hk). exists t0. split; [done|]. split; [done|].
              eapply sits_valid; eauto. by exists m1.
        -- apply N.eqb_neq in Ec. rewrite decide_False.
           ++ cbn [snd set_cylinder_line t_cyl]. rewrite Hhand. symmetry. apply due_rev. lia.
           ++ intros (t2 & ? & ? & _)%(arrival_ids m1 i Hk). simplify_eq.
    + intros t' Hin%elem_of_nil. done.
    + intros Hin. apply (arrival_ids m i Hk) in Hin as (t' & Hmi & Hcyl & _).
      exists t'. split; [|done]. apply (on_scan _ _ _ _ _ _ Hm). right. split; [done|]. exists t'. split; [by exists m|].
      unfold check_arrived. rewrite Hcyl. done.
    + by apply arrival_nodup.
    + intros D HD _. left. destruct (Hexp D HD) as [(sl & t' & Hs)|(t' & Hin & _)]; [done| |by apply elem_of_nil in Hin].
      destruct (decide (sl = hand s)) as [->|Hne].
      * exists (hand s), (snd (check_arrived t')). apply (on_scan _ _ _ _ _ _ Hm). right. eauto.
      * exists sl, t'. apply (on_scan _ _ _ _ _ _ Hm). left. eauto.
  - (* TLoop *)
    destruct (wf_loop s Hwf l) as [Hl _]; [by rewrite Hpc|]. rewrite Hl in H.
    destruct ids as [|i0 ids0].
    { simplify_eq. split; unfold when, next_scan, coming in *; fsimpl; rewrite ?Hpc in *; try assumption; try done;
        try (intros; by apply Hw); try (intros; eapply Hexp; done). }
    remember (i0 :: ids0) as ids eqn:Eids. clear Eids.
    destruct (ids !! ch) as [j|] eqn:Hch; [|done].
    destruct (wheel s !! hand s) as [m|] eqn:Hm.
    2: { exfalso. destruct (wf_wheel s Hwf (hand s)) as [_ Hx]. rewrite Hm in Hx.
         rewrite (wf_hand s Hwf) in Hx. destruct (Hx (slots_lt _)) as [? ?]. done. }
    cbn [ids_of] in *.
    assert (ids ≡ₚ j :: delete ch ids) as Hperm by (by apply delete_Permutation).
    assert (NoDup (j :: delete ch ids)) as Hnd by (by rewrite <- Hperm).
    apply NoDup_cons in Hnd as [Hj Hnd].
    assert (forall sl t', sits s i sl t' -> i ∈ ids -> sl = hand s) as Huni.
    { intros sl t' Hs Hin. destruct (Ha Hin) as (t2 & Hs2 & _). eapply own_wheel; eauto.
      transitivity u; [|symmetry]; apply Hso; eauto using in_wheel, sits_held, sits_id. }
    unfold slot_remove_task in H.
    destruct (decide (j = i)) as [->|Hji].
    + assert (i ∈ ids) as Hin by (rewrite Hperm; constructor).
      destruct (Ha Hin) as (t' & Hs' & Hcyl). pose proof Hs' as (m1 & Hm1 & Ht'). rewrite Hm in Hm1. simplify_eq.
      rewrite Ht' in H. simplify_eq.
      assert (t_id t' = i) as Hid by (by eapply sits_id).
      assert (t_uid t' = u) as Huid by (apply Hso; eauto using in_wheel, sits_held).
      apply (tinv_self u i s); fsimpl; cbn [ids_of tpc_task before_start]; try done.
      * intros sl t2 Hs2. apply (on_del _ _ _ _ _ _ _ Hm) in Hs2 as [Hne Hs2].
        apply Hne. split; [done|]. eauto.
      * intros t2 Hco Hi2. eapply (sole_wheel_coming u i s (hand s) t' t2); eauto.
      * intros t2 ->%elem_of_list_singleton. by rewrite Hid.
      * intros _ _ _. rewrite (Hw _ _ Hs') by done. unfold when. rewrite Hpc. cbn [ids_of]. by rewrite decide_True.
      * rewrite <- Huid. apply Ho, elem_of_list_fmap_1. eauto using in_wheel, sits_held.
      * intros D HD. split; [auto|]. intros _. exists t'. split; [constructor|done].
    + assert (forall sl t', on (<[hand s := delete j m]> (wheel s)) i sl t' <-> sits s i sl t') as Hon.
      { intros sl t'. rewrite (on_del _ _ _ _ _ _ _ Hm). naive_solver. }
      assert (i ∈ ids <-> i ∈ delete ch ids) as Hini.
      { rewrite Hperm at 1. rewrite elem_of_cons. naive_solver. }
      assert (exists p', s' = set_tpc p' (set_wheel (<[hand s := delete j m]> (wheel s)) s) /\ ids_of p' = delete ch ids /\
               (forall t', t' ∈ tpc_task p' -> t_id t' = j) /\ p' <> TDead /\ next_scan s' = next_scan s) as (p' & -> & Hp1 & Hp2 & Hp3 & Hp4).
      { destruct (m !! j) as [t|] eqn:Hmj; simplify_eq; eexists; (split; [reflexivity|]); unfold next_scan; fsimpl; rewrite Hpc; cbn [ids_of tpc_task];
          repeat split; try done.
        - intros t' ->%elem_of_list_singleton. eapply wf_key; eauto.
        - intros t' ?%elem_of_nil. done. }
      split; unfold when in *; rewrite ?Hp4, ?Hp1; fsimpl; rewrite ?Hp1; try assumption.
      * intros sl t' Hs _. apply Hon in Hs. rewrite (Hw _ _ Hs) by done. rewrite Hpc. cbn [ids_of].
        f_equal. destruct (decide (i ∈ ids)); [rewrite decide_True by tauto|rewrite decide_False by tauto]; done.
      * intros t' Ht' Hid. apply Hp2 in Ht'. congruence.
      * intros t' Ht'. apply Hp2 in Ht' as ->. done.
      * intros Hin. destruct (Ha (proj2 Hini Hin)) as (t' & Hs' & ?). exists t'. by rewrite Hon.
      * intros D HD _. left. destruct (Hexp D HD) as [(sl & t' & Hs)|(t' & Hin & _)]; [done| |by apply elem_of_nil in Hin].
        exists sl, t'. by apply Hon.
  - (* TMaint *)
    destruct (decide (insts s !! rec = None)); [|done].
    destruct (t_maxpar t) as [mx|]; [destruct (flags s !! t_id t) as [m|]; [destruct (mx <=? m_num m)|]|]; simplify_eq.
    all: apply (tinv_hold t); rewrite ?Hpc; try done; unfold next_scan; fsimpl; rewrite ?Hpc; cbn [tpc_task ids_of before_start]; try done; eauto.
    all: try (intros; apply expect_other; done).
    + cbn [expect]. intros ->. by rewrite N.eqb_refl.
    + intros E. eapply Ht; [constructor|]. apply Hso; [apply in_tpc; rewrite Hpc; constructor|done].
    + cbn [expect]. intros ->. by rewrite N.eqb_refl.
    + intros E. eapply Ht; [constructor|]. apply Hso; [apply in_tpc; rewrite Hpc; constructor|done].
  - (* TSpawn *)
    destruct (get_maximum_running_time pf t (l_ts l)); simplify_eq.
    + apply (tinv_hold t); rewrite ?Hpc; try done; unfold next_scan; fsimpl; rewrite ?Hpc; cbn [tpc_task ids_of before_start]; try done; eauto.
      * intros; apply expect_other; done.
      * cbn [expect]. intros ->. by rewrite N.eqb_refl.
    + eapply tinv_dead; try done. fsimpl. cbn [expect]. destruct (t_uid t =? u); auto.
  - (* TSend *)
    simplify_eq.
    apply (tinv_hold t); rewrite ?Hpc; try done; unfold next_scan; fsimpl; rewrite ?Hpc; cbn [tpc_task ids_of before_start]; try done; eauto.
    + unfold coming. fsimpl. rewrite bind_app. cbn. by rewrite app_nil_r.
    + intros E. cbn [expect]. eapply Ht; [constructor|]. apply Hso; [apply in_tpc; rewrite Hpc; constructor|done].
  - (* TGate *)
    assert (t_uid t = u -> expect u (log s) = None) as Hex.
    { intros E. eapply Ht; [constructor|]. apply Hso; [apply in_tpc; rewrite Hpc; constructor|done]. }
    destruct (down_count_and_set_valid pf t) as [t'|] eqn:Hdc; [destruct (t_valid t')|]; simplify_eq.
    + apply down_count_same in Hdc as (D1 & D2 & _).
      apply (tinv_hold t); rewrite ?Hpc; try done; unfold next_scan; fsimpl; rewrite ?Hpc; cbn [tpc_task ids_of before_start]; try done; eauto.
    + apply (tinv_hold t); rewrite ?Hpc; try done; unfold next_scan; fsimpl; rewrite ?Hpc; cbn [tpc_task ids_of before_start]; try done; eauto.
      * intros; apply expect_other; done.
      * cbn [expect]. intros ->. by rewrite N.eqb_refl.
    + eapply tinv_dead; try done. auto.
  - (* TPark *)
    destruct (wf_loop s Hwf l) as [_ Hl]; [by rewrite Hpc|].
    assert (t_uid t = u -> expect u (log s) = None) as Hex.
    { intros E. eapply Ht; [constructor|]. apply Hso; [apply in_tpc; rewrite Hpc; constructor|done]. }
    destruct (get_next_exec_timestamp pf t) as [[[exec|] t']|] eqn:Hnx.
    2: { simplify_eq. apply (tinv_hold t); rewrite ?Hpc; try done; unfold next_scan; fsimpl; rewrite ?Hpc; cbn [tpc_task ids_of before_start]; try done; eauto.
         - intros; apply expect_other; done.
         - cbn [expect]. intros ->. by rewrite N.eqb_refl. }
    2: { simplify_eq. eapply tinv_dead; try done. auto. }
    destruct (add64 pf (park_distance exec (l_ts l)) (l_next l)) as [sum|] eqn:Hsum.
    2: { simplify_eq. eapply tinv_dead; try done. auto. }
    destruct (wheel s !! (sum mod SLOTS)) as [m|] eqn:Hm.
    2: { exfalso. destruct (wf_wheel s Hwf (sum mod SLOTS)) as [_ Hx]. rewrite Hm in Hx.
         destruct (Hx (slots_lt _)) as [? ?]. done. }
    apply core_next in Hnx as (C1 & C2 & _).
    simplify_eq.
    destruct (decide (t_uid t = u)) as [E|E].
    + destruct (self_task t) as (Hid & Hns & Hnc & Hni & Huu); [by rewrite Hpc|done|].
      rewrite Hpc in Hni. cbn [ids_of] in Hni.
      set (t2 := set_cylinder_line (park_distance exec (l_ts l) / SLOTS) t') in *.
      assert (t_id t2 = i) as Hid2 by (cbn; congruence).
      assert (forall sl t3, on (<[sum mod SLOTS := slot_add_task m t2]> (wheel s)) i sl t3 <-> sl = sum mod SLOTS /\ t3 = t2) as Hon.
      { intros sl t3. rewrite (on_add _ _ _ _ _ _ _ Hm). naive_solver. }
      assert (sum = park_distance exec (l_ts l) + l_next l) as ->.
      { fsimpl_in Hnear. specialize (Hnear (t_id t) (iters s) (l_ts l) exec).
        rewrite E in Hnear. specialize (Hnear (elem_of_list_here _ _)).
        pose proof (slots_lt (hand s + 1)) as Hln. rewrite <- Hl in Hln. clear Hl.
        assert (park_distance exec (l_ts l) + l_next l < U64).
        { unfold park_distance, checked_sub. unfold SLOTS, U64 in *. destruct (l_ts l <=? exec); lia. }
        rewrite add64_small in Hsum by done. by simplify_eq. }
      assert (due (iters s + 1) ((park_distance exec (l_ts l) + l_next l) mod SLOTS) (t_cyl t2) =
              iters s + 1 + (if l_ts l <=? exec then exec - l_ts l else 1)) as Hdue.
      { unfold t2. cbn [t_cyl set_cylinder_line]. rewrite Hl, (wf_hand s Hwf), due_park.
        unfold park_distance, checked_sub. destruct (l_ts l <=? exec); done. }
      split; unfold when, next_scan, coming in *; fsimpl; rewrite ?Hpc in *; cbn [ids_of tpc_task expect] in *; rewrite ?E, ?N.eqb_refl; try assumption.
      * intros sl t3 Hs _. apply Hon in Hs as [-> ->]. rewrite decide_False by done. by rewrite Hdue.
      * intros t3 ?%elem_of_nil. done.
      * intros t3 ?%elem_of_nil. done.
      * done.
      * intros t3 Hco Hi3. exfalso. by eapply Hnc.
      * done.
      * intros D HD. simplify_eq. lia.
      * intros D HD _. left. eexists _, _. by apply Hon.
    + apply (tinv_others u i s); rewrite ?Hpc; try done; unfold next_scan; fsimpl; rewrite ?Hpc; cbn [tpc_task ids_of].
      * intros sl t3. rewrite (on_add _ _ _ _ _ _ _ Hm). cbn [t_id set_cylinder_line]. rewrite C2.
        assert (t_id t <> i) by (apply other_task; by rewrite ?Hpc). naive_solver.
      * intros t3 ->%elem_of_list_singleton. apply other_task; by rewrite ?Hpc.
      * intros t3 ?%elem_of_nil. done.
      * done.
      * by apply expect_other.
  - (* TMark *)
    destruct (mark_locked s tid); [done|].
    destruct (flags s !! tid) as [m|]; simplify_eq.
    all: split; unfold when, next_scan, coming in *; fsimpl; rewrite ?Hpc in *; try assumption; try done;
        try (intros; by apply Hw); try (intros; eapply Hexp; done).
    all: cbn [tpc_task]; intros; by apply elem_of_nil in H.
  - (* TLapse *)
    simplify_eq. split; unfold when, next_scan, coming in *; fsimpl; rewrite ?Hpc in *; cbn [expect ids_of tpc_task before_start] in *; try assumption; try done.
    + intros sl t' Hs _. rewrite (Hw _ _ Hs) by done. rewrite !decide_False by (intros ?%elem_of_nil; done). done.
    + intros Hin%elem_of_nil. done.
    + intros D HD. destruct (Hexp D HD) as [(sl & t' & Hs)|(t' & Hin & _)]; [done| |by apply elem_of_nil in Hin].
      rewrite (Hw _ _ Hs) in HD by done. rewrite decide_False in HD by (intros ?%elem_of_nil; done). simplify_eq. apply due_ge.
    + intros D HD _. destruct (Hexp D HD) as [?|?]; auto.
  - done.
  - done.
Qed.
End timer.

Lemma quiet_not_named t lg e : quiet t lg -> sent e lg -> (forall t', e <> EAdd t') -> (forall t', e <> EInsert t') ->
  ~ names (t_id t) e.
Proof. intros Hq Hs H1 H2 Hn. destruct (Hq e Hs Hn) as [->| ->]; naive_solver. Qed.

Section handler.
Context (t : task) (pf : profile) (s : sys) (Hwf : wf s) (Ho : own_inv s) (Hc : cnt_inv s) (Hsrc : src_inv s)
  (Hq : quiet t (log s)) (Hso : sole (t_uid t) (t_id t) s) (Hi : tinv (t_uid t) (t_id t) s).

Lemma coming_hpc t' : t' ∈ hpc_task (hpc s) -> t' ∈ coming s.
Proof. unfold coming. rewrite elem_of_app. auto. Qed.

Lemma tinv_handler s' : handler_step pf s = Some s' -> tinv (t_uid t) (t_id t) s'.
Proof.
  intros H. destruct Hsrc as [_ Hh]. pose proof (wf_hpc s Hwf) as Hwh. unfold handler_step in H. destruct (hpc s) eqn:Hpc.
  - (* HIdle *)
    destruct (queue s) as [|e q] eqn:Hqu; [done|]. simplify_eq.
    assert (forall t', t' ∈ (q ≫= ev_task) ++ ev_task e -> t_id t' = t_id t -> exists t0, t0 ∈ coming s /\ t_id t0 = t_id t) as Hco.
    { intros t' Hin Hid. exists t'. split; [|done]. unfold coming. rewrite Hqu, Hpc. cbn.
      rewrite !elem_of_app in *. naive_solver. }
    eapply tinv_frame; [exact Hi|..].
    all: destruct e; cbn [dispatch]; fsimpl; repeat case_match; inst_shape; unfold coming; fsimpl; try done.
    all: cbn [hpc_task]; rewrite ?app_nil_r.
    all: try (intros t' Hin Hid; left; apply (Hco t'); [|done]; cbn [ev_task]; rewrite ?app_nil_r; try exact Hin; rewrite elem_of_app; auto; fail).
    all: rewrite ?expect_inst by done; done.
  - (* HAdd1 *)
    assert (t0 ∈ coming s) as Hin by (apply coming_hpc; rewrite Hpc; constructor).
    destruct (get_next_exec_timestamp pf t0) as [[[exec|] t']|] eqn:Hnx.
    + destruct (let! a := add64 pf (add_distance exec (gtime s) (t_id t0)) h in add64 pf a 1) as [seed|]; simplify_eq.
      * apply core_next in Hnx as (C1 & C2 & _).
        eapply tinv_frame; [exact Hi|..]; try done. unfold coming. fsimpl. cbn [hpc_task].
        intros t2 Ht2 Hid. left. apply elem_of_app in Ht2 as [Ht2|Ht2].
        -- exists t2. rewrite elem_of_app. auto.
        -- apply elem_of_list_singleton in Ht2 as ->. exists t0. split; [exact Hin|]. cbn in Hid. congruence.
      * eapply tinv_frame; [exact Hi|..]; try done. unfold coming. fsimpl. cbn [hpc_task].
        intros t2 Ht2 Hid. left. exists t2. rewrite app_nil_r in Ht2. rewrite elem_of_app. auto.
    + simplify_eq.
      eapply tinv_frame; [exact Hi|..]; try done; unfold coming; fsimpl; cbn [hpc_task].
      * intros t2 Ht2 Hid. left. exists t2. rewrite app_nil_r in Ht2. rewrite elem_of_app. auto.
      * transitivity (expect (t_uid t) (ODrop (t_uid t0) (t_id t0) NoDate :: log s)).
        { destruct (hpub s); done. }
        cbn [expect]. case_match; [|done]. symmetry. eapply ti_new; eauto. apply Hso; [by apply in_coming|].
        by apply N.eqb_eq.
    + simplify_eq.
      eapply tinv_frame; [exact Hi|..]; try done. unfold coming. fsimpl. cbn [hpc_task].
      intros t2 Ht2 Hid. left. exists t2. rewrite app_nil_r in Ht2. rewrite elem_of_app. auto.
  - (* HAdd2 *)
    assert (t0 ∈ coming s) as Hin by (apply coming_hpc; rewrite Hpc; constructor).
    destruct (wheel s !! sl) as [m|] eqn:Hm.
    2: { exfalso. destruct (wf_wheel s Hwf sl) as [_ Hx]. rewrite Hm in Hx. cbn in Hwh.
         destruct (Hx Hwh) as [? ?]. done. }
    simplify_eq.
    destruct (decide (t_uid t0 = t_uid t)) as [E|E].
    + assert (t_id t0 = t_id t) as Hid by (apply Hso; [by apply in_coming|done]).
      assert (forall sl' t', ~ sits s (t_id t) sl' t') as Hno.
      { intros sl' t' Hs. eapply (sole_wheel_coming _ _ s sl' t' t0); eauto using sits_id. }
      assert (forall sl' t', on (<[sl := slot_add_task m t0]> (wheel s)) (t_id t) sl' t' <-> sl' = sl /\ t' = t0) as Hon.
      { intros sl' t'. rewrite (on_add _ _ _ _ _ _ _ Hm). naive_solver. }
      assert (t_id t ∉ ids_of (tpc s)) as Hni.
      { intros Hx. destruct (ti_arr _ _ _ Hi Hx) as (t' & Hs & _). by apply Hno in Hs. }
      pose proof Hi as [Hw Ht Hg Ha Hn Hnew Hu Hle Hexp].
      split; unfold when, next_scan in *; fsimpl; try assumption.
      * intros sl' t' Hs _. apply Hon in Hs as [-> ->]. rewrite decide_False by done. cbn [expect]. by rewrite E, N.eqb_refl.
      * intros t' Ht' Hid'. exfalso. eapply (sole_coming_tpc _ _ s t0 t'); eauto.
      * done.
      * unfold coming. fsimpl. cbn [hpc_task]. intros t' Ht' Hid'. exfalso. rewrite app_nil_r in Ht'.
        assert (t_uid t0 = t_uid t') as Eu.
        { rewrite E. symmetry. apply Hso; [|done]. apply in_coming. unfold coming. rewrite elem_of_app. auto. }
        eapply (own4 s t0 t' Ho Eu); [|exact Ht']. rewrite Hpc. constructor.
      * intros Hnu. exfalso. apply Hnu. apply Ho. rewrite <- E. apply elem_of_list_fmap_1. by apply in_coming.
      * cbn [expect]. rewrite E, N.eqb_refl. intros D HD. simplify_eq. pose proof (due_ge (match tpc s with TCheck _ | TStore _ | TScan _ | TStopped => iters s | _ => iters s + 1 end) sl (t_cyl t0)). etransitivity; [|exact H]. destruct (tpc s); lia.
      * intros D HD _. left. eexists _, _. by apply Hon.
    + eapply tinv_frame; [exact Hi|..]; try done; fsimpl.
      * intros sl' t'. rewrite (on_add _ _ _ _ _ _ _ Hm).
        assert (t_id t0 <> t_id t). { intros Ex. apply E, Hso; [by apply in_coming|done]. } naive_solver.
      * unfold coming. fsimpl. cbn [hpc_task]. intros t2 Ht2 Hid. left. exists t2. rewrite app_nil_r in Ht2. rewrite elem_of_app. auto.
      * by apply expect_other.
  - (* HAdd3 *)
    simplify_eq. eapply tinv_frame; [exact Hi|..]; try done; fsimpl.
    + unfold coming. fsimpl. cbn [hpc_task]. intros t2 Ht2 Hid. left. exists t2. rewrite app_nil_r in Ht2. rewrite elem_of_app. auto.
    + destruct (hpub s); done.
  - (* HUpd *)
    cbn in Hh. apply (quiet_not_named t) in Hh; [|done..]. cbn in Hh, Hwh.
    destruct (wheel s !! sl) as [m|] eqn:Hm; simplify_eq.
    all: eapply tinv_frame; [exact Hi|..]; try done; fsimpl.
    all: try (unfold coming; fsimpl; cbn [hpc_task]; intros t2 Ht2 Hid; left; exists t2; rewrite app_nil_r in Ht2; rewrite elem_of_app; auto; fail).
    all: try (destruct (hpub s); done).
    intros sl' t'. rewrite slot_update_eq, (on_add _ _ _ _ _ _ _ Hm). naive_solver.
  - (* HAdv1 *)
    cbn in Hh. apply (quiet_not_named t) in Hh; [|done..]. cbn in Hh, Hwh. unfold slot_remove_task in H.
    destruct (wheel s !! sl) as [m|] eqn:Hm; [destruct (m !! tid) as [t0|] eqn:Hmt|]; simplify_eq.
    all: eapply tinv_frame; [exact Hi|..]; try done; fsimpl.
    all: try (unfold coming; fsimpl; cbn [hpc_task]; intros t2 Ht2 Hid; left; exists t2; rewrite app_nil_r in Ht2; rewrite elem_of_app; auto; fail).
    all: try (destruct (hpub s); done).
    all: try (intros sl' t'; rewrite (on_del _ _ _ _ _ _ _ Hm); naive_solver).
    unfold coming; fsimpl; cbn [hpc_task]. intros t2 [Ht2|Ht2]%elem_of_app Hid.
    + left. exists t2. rewrite elem_of_app; auto.
    + exfalso. apply elem_of_list_singleton in Ht2 as ->. cbn in Hid. apply Hh. rewrite <- Hid. symmetry. eapply wf_key; eauto.
  - (* HAdv2 *)
    simplify_eq. eapply tinv_frame; [exact Hi|..]; try done; fsimpl.
    unfold coming; fsimpl. rewrite Hpc. cbn [hpc_task]. eauto.
  - (* HAdv3 *)
    cbn in Hh. apply (quiet_not_named t) in Hh; [|done..]. cbn in Hh, Hwh.
    destruct (wheel s !! sl) as [m|] eqn:Hm; simplify_eq.
    all: eapply tinv_frame; [exact Hi|..]; try done; fsimpl.
    all: try (unfold coming; fsimpl; cbn [hpc_task]; intros t2 Ht2 Hid; left; exists t2; rewrite app_nil_r in Ht2; rewrite elem_of_app; auto; fail).
    all: try (destruct (hpub s); done).
    intros sl' t'. rewrite (on_add _ _ _ _ _ _ _ Hm). naive_solver.
  - (* HRem1 *)
    cbn in Hh. apply (quiet_not_named t) in Hh; [|done..]. cbn in Hh, Hwh. unfold slot_remove_task in H.
    destruct (wheel s !! sl) as [m|] eqn:Hm; simplify_eq.
    all: eapply tinv_frame; [exact Hi|..]; try done; fsimpl.
    all: try (unfold coming; fsimpl; cbn [hpc_task]; intros t2 Ht2 Hid; left; exists t2; rewrite app_nil_r in Ht2; rewrite elem_of_app; auto; fail).
    intros sl' t'; rewrite (on_del _ _ _ _ _ _ _ Hm); naive_solver.
  - (* HRem2 *)
    simplify_eq. eapply tinv_frame; [exact Hi|..]; try done; fsimpl.
    + unfold coming. fsimpl. cbn [hpc_task]. intros t2 Ht2 Hid. left. exists t2. rewrite app_nil_r in Ht2. rewrite elem_of_app. auto.
    + destruct (hpub s); [destruct ok|]; done.
  - done.
Qed.
End handler.
