(** Accounting of the running instances of one task id: the parallel limit. *)
From Verif Require Import Tactics Inv Own Life Count Cases Inst Ended.

Definition noacc (o : obs) : Prop := match o with OLaunch _ _ _ _ _ | OQuit _ _ => False | _ => True end.
Lemma running_app i lg l : Forall noacc lg -> running i (lg ++ l) = running i l.
Proof. induction 1 as [|o lg Ho _ IH]; [done|]. destruct o; cbn in *; done. Qed.
Lemma pub_noacc b p : Forall noacc (pub_entries b p).
Proof. unfold pub_entries. repeat case_match; repeat constructor. Qed.
Lemma running_quit i tid rec l : running i (OQuit tid rec :: l) = if tid =? i then filter (fun x => x <> rec) (running i l) else running i l.
Proof. done. Qed.
Lemma elem_running i r lg : r ∈ running i lg -> exists u it ts, OLaunch u i r it ts ∈ lg.
Proof.
  induction lg as [|o lg IH]; [by intros ?%elem_of_nil|]. intros H.
  assert (r ∈ running i lg -> exists u it ts, OLaunch u i r it ts ∈ o :: lg) as Hr.
  { intros H1. destruct (IH H1) as (u & it & ts & ?). exists u, it, ts. by right. }
  destruct o; cbn [running] in H; auto.
  - destruct (_ =? i) eqn:E; [|auto]. apply N.eqb_eq in E. subst. apply elem_of_cons in H as [->|H]; [|auto]. eexists _, _, _. left.
  - destruct (_ =? i); [|auto]. apply elem_of_list_filter in H as [_ H]. auto.
Qed.
Lemma running_at i r lg : (exists u it ts, OLaunch u i r it ts ∈ lg) -> OQuit i r ∉ lg -> r ∈ running i lg.
Proof.
  intros (u & it & ts & H) Hq. induction lg as [|o lg IH]; [by apply elem_of_nil in H|].
  apply not_elem_of_cons in Hq as [Hne Hq].
  apply elem_of_cons in H as [<-|H].
  - cbn. rewrite N.eqb_refl. left.
  - specialize (IH H Hq). destruct o; cbn [running]; try done.
    + case_match; [by right|done].
    + case_match; [|done]. apply elem_of_list_filter. split; [|done]. intros ->. match goal with H : (_ =? _) = true |- _ => apply N.eqb_eq in H; subst end. done.
Qed.
Lemma filter_ne_length (r : Z) l : r ∈ l -> (length (filter (fun x => x <> r) l) < length l)%nat.
Proof.
  induction l as [|a l IH]; [by intros ?%elem_of_nil|]. intros H. rewrite filter_cons. case_decide as Hd.
  - apply elem_of_cons in H as [->|H]; [done|]. cbn. specialize (IH H). lia.
  - cbn. pose proof (filter_length (fun x => x <> r) l). lia.
Qed.
Lemma filter_ne_length1 (r : Z) l : NoDup l -> r ∈ l -> length l = S (length (filter (fun x => x <> r) l)).
Proof.
  induction 1 as [|a l Ha _ IH]; [by intros ?%elem_of_nil|]. intros H. rewrite filter_cons. case_decide as Hd.
  - apply elem_of_cons in H as [->|H]; [done|]. cbn. by rewrite (IH H).
  - assert (a = r) as -> by (destruct (decide (a = r)); [done|by destruct Hd]). cbn. f_equal. clear IH H Hd. induction l as [|b l IH]; [done|].
    apply not_elem_of_cons in Ha as [Hb Ha]. rewrite filter_cons, decide_True by congruence. cbn. by rewrite <- IH.
Qed.

(** The number of running instances. *)
Definition nrun (i : N) (s : sys) : N := N.of_nat (length (running i (log s))).
(** An instance was started and is not yet counted. *)
Definition inflight (i : N) (p : timer_pc) : N :=
  match p with
  | TSend _ _ t _ _ | TGate _ _ t _ | TPark _ _ t true => if t_id t =? i then 1 else 0
  | TMark _ _ j _ true => if j =? i then 1 else 0
  | _ => 0
  end.
Lemma quit_running pf t0 t1 s tid rec tr : reachable pf t0 t1 s -> quit_one_task_handler tid rec (trace s) = Some tr -> rec ∈ running tid (log s).
Proof.
  intros Hr Hq. pose proof (rec_reach _ _ _ _ Hr) as Hi.
  assert ((tid, rec) ∈ trace_recs (trace s)) as Hin by (rewrite (quit_recs _ _ _ _ Hq); left).
  apply running_at.
  - destruct (ri_at s Hi tid rec) as (x & Hx & <-); [unfold places; rewrite !elem_of_app; auto|].
    destruct (ri_inst s Hi rec (i_tid x) (i_uid x)) as (it & ts & H); [by rewrite Hx|]. eauto.
  - intros Hq2. apply elem_quits in Hq2. pose proof (ri_nodup s Hi) as Hn. unfold places in Hn.
    rewrite !fmap_app in Hn. apply NoDup_app in Hn as (_ & _ & Hn). apply NoDup_app in Hn as (_ & _ & Hn). apply NoDup_app in Hn as (_ & Hn & _).
    apply (Hn rec); apply elem_of_list_fmap; by exists (tid, rec).
Qed.
(** A task with the id [i] is on its way to the wheel, or its mark not yet recorded. *)
Definition awaited (i : N) (s : sys) : Prop :=
  (exists t, (EAdd t ∈ queue s \/ EInsert t ∈ queue s) /\ t_id t = i) \/
  match hpc s with HAdd1 t _ _ _ | HAdd2 t _ _ => t_id t = i | HAdd3 j _ _ => j = i | _ => False end.
(** The id [i] is submitted once, namely with the task [t], which has the parallel limit [mx]. *)
Definition once (i : N) (lg : list obs) : Prop := forall t t', submitted t lg -> submitted t' lg -> t_id t = i -> t_id t' = i -> t = t'.

(** What a step does to the list of running instances, ... *)
Inductive run_kind (lb : label) (s s' : sys) : Prop :=
| rk_launch l ids x r : tpc s = TSpawn l ids x r -> (forall l ids x r, tpc s' <> TSpawn l ids x r) -> (forall i, running i (log s') = if t_id x =? i then r :: running i (log s) else running i (log s)) -> run_kind lb s s'
| rk_quit e q fin tid rec st tr : lb = LHandler -> hpc s = HIdle -> queue s = e :: q -> ending e fin tid rec st -> quit_one_task_handler tid rec (trace s) = Some tr ->
    (forall i, running i (log s') = if tid =? i then filter (fun x => x <> rec) (running i (log s)) else running i (log s)) -> run_kind lb s s'
| rk_none : (forall i, running i (log s') = running i (log s)) -> run_kind lb s s'.
Lemma run_kinds pf lb s s' : step pf lb s = Some s' -> run_kind lb s s'.
Proof.
  intros Hs. step_inv Hs; inst_cases; isimpl.
  all: try (apply rk_none; intros; fsimpl; repeat case_match; reflexivity).
  all: try (eapply rk_launch; [eassumption|fsimpl; intros; discriminate|]; intros; reflexivity).
  all: try (eapply rk_quit; [reflexivity|eassumption|eassumption|constructor|eassumption|]; intros; reflexivity).
Qed.
(** ... to the count in the mark of [i], ... *)
Inductive num_kind (i : N) (s s' : sys) : Prop :=
| nk_same : m_num <$> flags s' !! i = m_num <$> flags s !! i -> num_kind i s s'
| nk_inc l ids sl m m' : tpc s = TMark l ids i sl true -> tpc s' = TLoop l ids -> flags s !! i = Some m -> flags s' !! i = Some m' -> m_num m' = m_num m + 1 -> num_kind i s s'
| nk_new c sl m : hpc s = HAdd3 i c sl -> hpc s' = HIdle -> flags s' !! i = Some m -> m_num m = 0 -> num_kind i s s'
| nk_gone ok : hpc s = HRem2 i ok -> flags s' !! i = None -> num_kind i s s'
| nk_end e q fin rec st tr m m' : hpc s = HIdle -> queue s = e :: q -> ending e fin i rec st -> quit_one_task_handler i rec (trace s) = Some tr ->
    flags s !! i = Some m -> flags s' !! i = Some m' -> running i (log s') = filter (fun x => x <> rec) (running i (log s)) ->
    m_num m' = m_num m - 1 \/ (fin = true /\ m_num m' = m_num m /\ exists cid l, m_chain m = Some (cid, l) /\ (chain_state s cid = Some DROPPED \/ rec ∉ l)) -> num_kind i s s'.
Lemma eqb_then {A} i (x a b : A) : x = (if i =? i then a else b) -> x = a.
Proof. by rewrite N.eqb_refl. Qed.
Lemma num_kinds pf lb s s' i : step pf lb s = Some s' -> num_kind i s s'.
Proof.
  intros Hs. step_inv Hs; inst_cases; isimpl.
  all: try (apply nk_same; fsimpl; reflexivity).
  all: match goal with |- num_kind ?i ?s ?x => match x with
    | context [<[?k := _]> (flags s)] => destruct (decide (k = i)) as [->|Hne]
    | context [delete ?k (flags s)] => destruct (decide (k = i)) as [->|Hne]
    end end.
  all: try (apply nk_same; fsimpl; by rewrite lookup_insert_ne).
  all: try (apply nk_same; fsimpl; by rewrite lookup_delete_ne).
  all: try (eapply nk_gone; [eassumption|]; fsimpl; apply lookup_delete).
  all: try (eapply nk_new; [eassumption|reflexivity|fsimpl; apply lookup_insert|reflexivity]).
  all: try (match goal with H : flags ?s !! _ = Some _ |- _ => apply nk_same; fsimpl; rewrite lookup_insert, H; reflexivity end).
  all: try (eapply nk_inc; [eassumption|reflexivity|eassumption|fsimpl; apply lookup_insert|reflexivity]).
  all: eapply nk_end; [eassumption|eassumption|constructor|eassumption|eassumption|fsimpl; apply lookup_insert|eapply (eqb_then i); fsimpl; reflexivity|]; try (by left).
  all: right; split; [done|]; split; [done|]; eexists _, _; split; [eassumption|]; [by left|right].
  all: intros Hin; match goal with H : take_rec _ _ _ = None |- _ => apply take_rec_none in H; apply H; by rewrite list_fmap_id end.
Qed.
(** ... and to the start not yet counted. *)
Inductive fly_kind (i : N) (s s' : sys) : Prop :=
| fk_same : inflight i (tpc s') = inflight i (tpc s) -> (tpc s' = tpc s \/ forall l ids x r, tpc s' <> TSpawn l ids x r /\ (tpc s = TSpawn l ids x r -> t_id x <> i)) -> fly_kind i s s'
| fk_spawn l ids x r : tpc s = TMaint l ids x -> tpc s' = TSpawn l ids x r -> t_id x = i -> (t_maxpar x = None \/ exists mx m, t_maxpar x = Some mx /\ flags s !! i = Some m /\ m_num m < mx) -> fly_kind i s s'
| fk_other l ids x r : inflight i (tpc s') = inflight i (tpc s) -> tpc s' = TSpawn l ids x r -> t_id x <> i -> fly_kind i s s'
| fk_launch l ids x r e : tpc s = TSpawn l ids x r -> t_id x = i -> tpc s' = TSend l ids x r e -> fly_kind i s s'
| fk_mark l ids sl : tpc s = TMark l ids i sl true -> tpc s' = TLoop l ids -> fly_kind i s s'
| fk_lost x : tpc_task (tpc s) = [x] -> t_id x = i -> tpc_task (tpc s') = [] -> rest s' = rest s -> (forall l ids x r, tpc s' <> TSpawn l ids x r) -> inflight i (tpc s') = 0 -> fly_kind i s s'.
Lemma fly_kinds pf lb s s' i : step pf lb s = Some s' -> fly_kind i s s'.
Proof.
  intros Hs. step_inv Hs; inst_shape.
  all: try (apply fk_same; [reflexivity|left; reflexivity]).
  all: try (apply fk_same; [fsimpl; rewrite Heqt; reflexivity|right; fsimpl; rewrite Heqt; intros; split; discriminate]).
  all: try match goal with H : tpc _ = TMark _ _ _ _ ?u |- _ => is_var u; destruct u end.
  all: match goal with H : tpc _ = ?x |- _ => match x with
    | context [?t] => match type of t with task => destruct (decide (t_id t = i)) as [Hi|Hi] end
    | TMark _ _ ?t _ _ => destruct (decide (t = i)) as [Hi|Hi]
    end end.
  all: try (by (eapply fk_spawn; [eassumption|reflexivity|done|left])).
  all: try (by (eapply fk_spawn; [eassumption|reflexivity|done|right]; eexists _, _; split; [eassumption|]; subst; split; [eassumption|]; apply N.leb_gt)).
  all: try (eapply fk_other; [fsimpl; rewrite Heqt; reflexivity|reflexivity|done]).
  all: try (by (eapply fk_launch; [eassumption|done|reflexivity])).
  all: try (by (eapply fk_mark; [subst; eassumption|reflexivity])).
  all: try (by (eapply fk_lost; [rewrite Heqt; reflexivity|done|reflexivity|reflexivity|fsimpl; intros; discriminate|reflexivity])).
  all: apply fk_same; [|right; fsimpl; rewrite Heqt; intros; split; [discriminate|first [discriminate|intros [=]; by subst]]]; fsimpl; rewrite Heqt; cbn [inflight].
  all: try (rewrite (proj2 (N.eqb_neq _ _) Hi); by repeat case_match).
  all: try (apply down_count_same in Heqr as (_ & E & _); by rewrite E).
  all: reflexivity.
Qed.
(** Nothing is known of an id nobody submitted. *)
Definition named (i : N) (s : sys) : Prop := flags s !! i <> None \/ (exists c sl, hpc s = HAdd3 i c sl) \/ running i (log s) <> [] \/ inflight i (tpc s) <> 0.
Lemma hadd3_step pf lb s s' i c sl : step pf lb s = Some s' -> hpc s' = HAdd3 i c sl -> hpc s = HAdd3 i c sl \/ exists t, hpc s = HAdd2 t c sl /\ t_id t = i.
Proof. intros Hs. step_inv Hs; inst_shape; fsimpl; intros; simplify_eq; eauto. Qed.
Lemma named_step pf lb s s' i : step pf lb s = Some s' -> named i s' -> named i s \/ exists t, t ∈ held s /\ t_id t = i.
Proof.
  intros Hs [H|[(c & sl & H)|[H|H]]]; unfold named.
  - destruct (num_kinds _ _ _ _ i Hs) as [E|l ids sl m m' E1 E2 E3 E4 E5|c sl m E1 E2 E3 E4|ok E1 E2|e q fin rec st tr m m' E1 E2 E3 E4 E5 E6 E7 E8]; left.
    + left. destruct (flags s !! i); [done|]. destruct (flags s' !! i); done.
    + left. congruence.
    + right; left. eauto.
    + done.
    + left. congruence.
  - destruct (hadd3_step _ _ _ _ _ _ _ Hs H) as [E|(t & E & Hi)]; [left; right; left; eauto|]. right. exists t. split; [|done].
    unfold held. rewrite E, !elem_of_app. right; left. left.
  - destruct (run_kinds _ _ _ _ Hs) as [l ids x r E1 E0 E2|e q fin tid rec st tr Elb E1 E2 E3 E4 E5|E]; rewrite ?E2, ?E5, ?E in H; auto.
    + destruct (t_id x =? i) eqn:Ei; [|auto]. right. exists x. split; [|by apply N.eqb_eq]. unfold held. rewrite E1, !elem_of_app. right; right; left; left.
    + left. right. right. left. intros Hn. rewrite Hn in H. by case_match.
  - destruct (fly_kinds _ _ _ _ i Hs) as [F _|l' ids' x' r' F1 F2 F3 F4|l' ids' x' r' F1 F2 F3|l' ids' x' r' e' F1 F2 F3|l' ids' sl F1 F2|x' F1 F2 F3 F4 F5 F6].
    + left. rewrite <- F. auto.
    + by rewrite F2 in H.
    + left. rewrite <- F1. auto.
    + right. exists x'. split; [|done]. unfold held. rewrite F1, !elem_of_app. right; right; left; left.
    + by rewrite F2 in H.
    + done.
Qed.
Lemma named_reach pf t0 t1 s i : reachable pf t0 t1 s -> named i s -> exists t, submitted t (log s) /\ t_id t = i.
Proof.
  revert s. apply (reach_ind pf t0 t1 (fun s => named i s -> exists t, submitted t (log s) /\ t_id t = i)).
  - intros [H|[(c & sl & H)|[H|H]]]; exfalso; [by apply H|discriminate H|by apply H|by apply H].
  - intros lb s s' Hr IH Hs Hn. destruct (named_step _ _ _ _ _ Hs Hn) as [H|(t & Ht & Hi)].
    + destruct (IH H) as (t & Ht & Hi). exists t. split; [by eapply submitted_mono|done].
    + destruct (ci_held s (cnt_reach _ _ _ _ Hr) t Ht) as (t2 & H2 & _ & E & _). exists t2. split; [by eapply submitted_mono|congruence].
Qed.

Lemma split_id pf t0 t1 s i a b x y : reachable pf t0 t1 s -> once i (log s) -> held s ≡ₚ a ++ b -> x ∈ a -> y ∈ b -> t_id x = i -> t_id y = i -> False.
Proof.
  intros Hr Ho Hp Hx Hy Ex Ey.
  assert (x ∈ held s) as Hx' by (rewrite Hp, elem_of_app; auto). assert (y ∈ held s) as Hy' by (rewrite Hp, elem_of_app; auto).
  destruct (ci_held s (cnt_reach _ _ _ _ Hr) x Hx') as (a1 & A1 & A2 & A3 & _).
  destruct (ci_held s (cnt_reach _ _ _ _ Hr) y Hy') as (b1 & B1 & B2 & B3 & _).
  assert (a1 = b1) as -> by (apply Ho; congruence).
  pose proof (proj1 (own_reach _ _ _ _ Hr)) as Hn. unfold uids in Hn. rewrite Hp, fmap_app in Hn. apply NoDup_app in Hn as (_ & Hn & _).
  apply (Hn (t_uid x)); [by apply elem_of_list_fmap_1|]. rewrite <- A2, B2. by apply elem_of_list_fmap_1.
Qed.
Lemma once_anti pf lb s s' i : step pf lb s = Some s' -> once i (log s') -> once i (log s).
Proof. intros Hs Ho t t' H1 H2. apply Ho; by eapply submitted_mono. Qed.
Definition bound (i mx : N) (lg : list obs) : Prop := forall t, submitted t lg -> t_id t = i -> t_maxpar t = Some mx.
Lemma bound_anti pf lb s s' i mx : step pf lb s = Some s' -> bound i mx (log s') -> bound i mx (log s).
Proof. intros Hs Ho t H1. apply Ho. by eapply submitted_mono. Qed.
Lemma first_submit pf t0 t1 lb s s' t : reachable pf t0 t1 s -> step pf lb s = Some s' -> is_submit lb s t -> once (t_id t) (log s') -> ~ named (t_id t) s /\ (forall x, x ∈ held s -> t_id x <> t_id t).
Proof.
  intros Hr Hs Hsub Ho.
  pose proof (submit_log _ _ _ _ _ Hs Hsub) as Ht.
  assert (forall x, submitted x (log s) -> t_id x <> t_id t) as Hn.
  { intros x Hx E. assert (x = t) as -> by (apply Ho; [by eapply submitted_mono|done|done|done]).
    destruct Hsub as (_ & _ & Hf). apply Hf. exact (ci_used s (cnt_reach _ _ _ _ Hr) _ Hx). }
  split.
  - intros H. destruct (named_reach _ _ _ _ _ Hr H) as (x & Hx & E). exact (Hn x Hx E).
  - intros x Hx E. destruct (ci_held s (cnt_reach _ _ _ _ Hr) x Hx) as (x1 & H1 & _ & H3 & _). apply (Hn x1 H1). congruence.
Qed.
Lemma addq_step pf lb s s' t : step pf lb s = Some s' -> EAdd t ∈ queue s' \/ EInsert t ∈ queue s' -> (EAdd t ∈ queue s \/ EInsert t ∈ queue s) \/ is_submit lb s t.
Proof.
  intros Hs Hq. revert Hq. step_inv Hs; inst_shape; fsimpl; intros Hq.
  all: try (left; by auto).
  all: try (by (left; destruct Hq; [left|right]; right)).
  all: rewrite !elem_of_app, !elem_of_list_singleton in Hq.
  all: destruct Hq as [[Hq|Hq]|[Hq|Hq]]; simplify_eq; try (left; by auto).
  all: right; unfold is_submit.
  all: apply andb_prop in Heqb as [Hf Hb]; apply negb_true_iff, bool_decide_eq_false in Hb; split; auto.
Qed.
Lemma awaited_step pf lb s s' i : step pf lb s = Some s' -> awaited i s' -> awaited i s \/ exists t, is_submit lb s t /\ t_id t = i.
Proof.
  intros Hs [(t & Hq & Hi)|Hh].
  - destruct (addq_step _ _ _ _ _ Hs Hq); [left; left; eauto|eauto].
  - unfold awaited. revert Hh. step_inv Hs; inst_shape; fsimpl; intros Hh; simplify_eq; try done; auto.
    1-2: left; left; exists t; split; [|done]; first [left; left|right; left].
  apply next_exec_id in Heqr as [Heqr _]. left; right. cbn. congruence.
Qed.
(** The mark counts the instance whose start the scheduler completes. *)
Lemma mark_inc pf lb s s' l ids i sl m : step pf lb s = Some s' -> tpc s = TMark l ids i sl true -> tpc s' = TLoop l ids -> flags s !! i = Some m ->
  exists m', flags s' !! i = Some m' /\ m_num m' = m_num m + 1.
Proof.
  intros Hs E1 E2 E3. revert E2. step_inv Hs; inst_shape; fsimpl; intros; simplify_eq; try congruence.
  all: rewrite ?lookup_insert; eexists; split; [reflexivity|reflexivity].
Qed.

Lemma nrun_step pf t0 t1 lb s s' i : reachable pf t0 t1 s -> step pf lb s = Some s' ->
  nrun i s' = nrun i s \/
  (exists l ids x r, tpc s = TSpawn l ids x r /\ t_id x = i /\ (forall l ids x r, tpc s' <> TSpawn l ids x r) /\ nrun i s' = nrun i s + 1) \/
  (exists e q fin rec st tr, lb = LHandler /\ hpc s = HIdle /\ queue s = e :: q /\ ending e fin i rec st /\ quit_one_task_handler i rec (trace s) = Some tr /\ nrun i s' < nrun i s).
Proof.
  intros Hr Hs. unfold nrun. destruct (run_kinds _ _ _ _ Hs) as [l ids x r E1 E0 E2|e q fin tid rec st tr Elb E1 E2 E3 E4 E5|E].
  - rewrite E2. destruct (t_id x =? i) eqn:Ei; [|auto]. apply N.eqb_eq in Ei. right; left. exists l, ids, x, r. do 3 (split; [done|]). cbn [length]. lia.
  - rewrite E5. destruct (tid =? i) eqn:Ei; [|auto]. apply N.eqb_eq in Ei. subst. right; right. exists e, q, fin, rec, st, tr. do 5 (split; [done|]).
    pose proof (filter_ne_length _ _ (quit_running _ _ _ _ _ _ _ Hr E4)). lia.
  - rewrite E. auto.
Qed.

(** As long as a limited task submitted once has no mark, it has no instance. *)
Record wait_inv (i : N) (s : sys) : Prop := {
  wi_await : awaited i s -> flags s !! i = None /\ nrun i s = 0 /\ inflight i (tpc s) = 0 /\ (forall l ids x r, tpc s = TSpawn l ids x r -> t_id x <> i);
  wi_add : forall c sl, hpc s = HAdd3 i c sl -> forall t, EAdd t ∈ queue s \/ EInsert t ∈ queue s -> t_id t <> i
}.
Lemma first_facts pf t0 t1 i lb s s' t : reachable pf t0 t1 s -> step pf lb s = Some s' -> once i (log s') -> is_submit lb s t -> t_id t = i ->
  flags s !! i = None /\ nrun i s = 0 /\ inflight i (tpc s) = 0 /\ (forall l ids x r, tpc s = TSpawn l ids x r -> t_id x <> i) /\ (forall c sl, hpc s <> HAdd3 i c sl) /\ (forall x, x ∈ held s -> t_id x <> i).
Proof.
  intros Hr Hs Ho Ht Hi. subst i. destruct (first_submit _ _ _ _ _ _ _ Hr Hs Ht Ho) as [Hn1 Hn2]. unfold named in Hn1. repeat split.
  - destruct (flags s !! t_id t) eqn:E; [|done]. destruct Hn1. auto.
  - unfold nrun. destruct (running (t_id t) (log s)) eqn:E; [done|]. destruct Hn1. right; right; left. done.
  - destruct (decide (inflight (t_id t) (tpc s) = 0)); [done|]. destruct Hn1. auto.
  - intros l ids x r E. apply Hn2. unfold held. rewrite E, !elem_of_app. right; right; left; left.
  - intros c sl E. destruct Hn1. right; left. eauto.
  - done.
Qed.
Lemma limit_held pf t0 t1 i mx s x : reachable pf t0 t1 s -> bound i mx (log s) -> x ∈ held s -> t_id x = i -> t_maxpar x = Some mx.
Proof.
  intros Hr Hb Hx Hi. destruct (ci_held s (cnt_reach _ _ _ _ Hr) x Hx) as (x1 & H1 & _ & H3 & _ & H5 & _). rewrite <- H5. apply Hb; [done|congruence].
Qed.
(** A start of a limited task: the mark showed a free place. *)
Lemma spawn_kind pf t0 t1 i mx lb s s' l ids x r : reachable pf t0 t1 s -> bound i mx (log s) -> step pf lb s = Some s' -> tpc s' = TSpawn l ids x r -> t_id x = i ->
  nrun i s' <= nrun i s /\ (tpc s' = tpc s \/ (tpc s = TMaint l ids x /\ x ∈ held s /\ exists m, flags s !! i = Some m /\ m_num m < mx)).
Proof.
  intros Hr Hb Hs E Hi. split.
  - destruct (nrun_step _ _ _ _ _ _ i Hr Hs) as [Hn|[(l1 & ids1 & x1 & r1 & E1 & E2 & E0 & E3)|(e & q & fin & rec & st & tr & _ & _ & _ & _ & _ & Hlt)]]; [lia| |lia].
    by destruct (E0 _ _ _ _ E).
  - destruct (fly_kinds _ _ _ _ i Hs) as [F [F'|F']|l' ids' x' r' F1 F2 F3 F4|l' ids' x' r' F1 F2 F3|l' ids' x' r' e' F1 F2 F3|l' ids' sl F1 F2|x' F1 F2 F3 F4 F5 F6];
      try congruence; auto; try (by destruct (proj1 (F' _ _ _ _) E)); try (by destruct (F5 _ _ _ _ E)).
    rewrite E in F2. simplify_eq. right. assert (x' ∈ held s) as Hx by (unfold held; rewrite F1, !elem_of_app; right; right; left; left).
    do 2 (split; [done|]). destruct F4 as [F4|(mx' & m & F4 & F5 & F6)]; rewrite (limit_held _ _ _ _ _ _ _ Hr Hb Hx eq_refl) in F4; simplify_eq. eauto.
Qed.
Lemma wait_step pf t0 t1 i mx lb s s' : reachable pf t0 t1 s -> once i (log s') -> bound i mx (log s') -> wait_inv i s -> step pf lb s = Some s' -> wait_inv i s'.
Proof.
  intros Hr Ho Hb [I4 I5] Hs.
  pose proof (once_anti _ _ _ _ _ Hs Ho) as Ho0. pose proof (bound_anti _ _ _ _ _ _ Hs Hb) as Hb0. split.
  - intros Ha.
    assert (flags s !! i = None /\ nrun i s = 0 /\ inflight i (tpc s) = 0 /\ (forall l ids x r, tpc s = TSpawn l ids x r -> t_id x <> i)) as (A1 & A2 & A4 & A3).
    { destruct (awaited_step _ _ _ _ _ Hs Ha) as [H|(t & Ht & Hi)]; [auto|]. destruct (first_facts _ _ _ _ _ _ _ _ Hr Hs Ho Ht Hi) as (? & ? & ? & ? & _). auto. }
    split; [|split; [|split]].
    + destruct (flags s' !! i) as [m|] eqn:Em; [|done]. exfalso.
      destruct (num_kinds _ _ _ _ i Hs) as [K|l ids sl m1 m2 K1 K2 K3 K4 K5|c sl m1 K1 K2 K3 K4|ok K1 K2|e q fin rec st tr m1 m2 K1 K2 K3 K4 K5 K6 K7 K8]; try congruence.
      * rewrite A1, Em in K. discriminate K.
      * destruct Ha as [(t & Hq & Hi)|Ha]; [|by rewrite K2 in Ha].
        destruct (addq_step _ _ _ _ _ Hs Hq) as [H|H].
        -- by apply (I5 _ _ K1 t).
        -- destruct (first_facts _ _ _ _ _ _ _ _ Hr Hs Ho H Hi) as (_ & _ & _ & _ & G & _). by apply (G c sl).
    + destruct (nrun_step _ _ _ _ _ _ i Hr Hs) as [Hn|[(l1 & ids1 & x1 & r1 & E1 & E2 & E0 & E3)|(e & q & fin & rec & st & tr & _ & _ & _ & _ & _ & Hlt)]]; [lia| |lia]. by destruct (A3 _ _ _ _ E1).
    + destruct (fly_kinds _ _ _ _ i Hs) as [F _|l' ids' x' r' F1 F2 F3 F4|l' ids' x' r' F1 F2 F3|l' ids' x' r' e' F1 F2 F3|l' ids' sl F1 F2|x' F1 F2 F3 F4 F5 F6].
      * congruence.
      * by rewrite F2.
      * congruence.
      * by destruct (A3 _ _ _ _ F1).
      * by rewrite F2.
      * done.
    + intros l ids x r E Hi. destruct (spawn_kind _ _ _ _ _ _ _ _ _ _ _ _ Hr Hb0 Hs E Hi) as [_ [F|(F & _ & m & G & _)]].
      * rewrite F in E. by apply (A3 _ _ _ _ E).
      * congruence.
  - intros c sl E t Hq Hi.
    destruct (addq_step _ _ _ _ _ Hs Hq) as [H|H].
    + destruct (hadd3_step _ _ _ _ _ _ _ Hs E) as [G|(x & G & Hx)]; [by apply (I5 _ _ G t)|].
      apply (split_id _ _ _ _ i (queue s ≫= ev_task) (hpc_task (hpc s) ++ tpc_task (tpc s) ++ wheel_tasks (wheel s)) t x Hr Ho0); [done| |rewrite G; left|done|done].
      apply elem_of_list_bind. destruct H; (eexists; split; [|eassumption]; left).
    + destruct (first_facts _ _ _ _ _ _ _ _ Hr Hs Ho H Hi) as (_ & _ & _ & _ & G & G').
      destruct (hadd3_step _ _ _ _ _ _ _ Hs E) as [?|(x & G1 & Hx)]; [by apply (G c sl)|].
      apply (G' x); [|done]. unfold held. rewrite G1, !elem_of_app. right; left; left.
Qed.
Lemma wait_reach pf t0 t1 i mx s : reachable pf t0 t1 s -> once i (log s) -> bound i mx (log s) -> wait_inv i s.
Proof.
  revert s. apply (reach_ind pf t0 t1 (fun s => once i (log s) -> bound i mx (log s) -> wait_inv i s)).
  - intros _ _. split.
    + intros [(t & [H|H] & _)|H]; [by apply elem_of_nil in H|by apply elem_of_nil in H|]. destruct H.
    + intros c sl H. discriminate H.
  - intros lb s s' Hr IH Hs Ho Hb. eapply wait_step; eauto using once_anti, bound_anti.
Qed.

(** ** Every registered instance is in the chain's list *)
Inductive list_kind (i : N) (s s' : sys) : Prop :=
| lk_same : m_chain <$> flags s' !! i = m_chain <$> flags s !! i -> (forall rec, (i, rec) ∈ trace_recs (trace s') -> (i, rec) ∈ trace_recs (trace s)) -> list_kind i s s'
| lk_none : (forall m, flags s' !! i = Some m -> m_chain m = None) -> list_kind i s s'
| lk_new c sl : hpc s = HAdd3 i c sl -> trace s' = trace s -> list_kind i s s'
| lk_append hb m m' cid l : flags s !! i = Some m -> m_chain m = Some (cid, l) -> flags s' !! i = Some m' -> m_chain m' = Some (cid, l ++ [hb_rec hb]) ->
    trace s' = trace_insert i hb (trace s) -> list_kind i s s'
| lk_end rec z m m' cid l l' : quit_one_task_handler i rec (trace s) = Some (trace s') -> flags s !! i = Some m -> m_chain m = Some (cid, l) -> take_rec id rec l = Some (z, l') ->
    flags s' !! i = Some m' -> m_chain m' = Some (cid, l') -> list_kind i s s'.
Lemma quit_sub tid rec tr tr' x : quit_one_task_handler tid rec tr = Some tr' -> x ∈ trace_recs tr' -> x ∈ trace_recs tr.
Proof. intros H Hx. rewrite (quit_recs _ _ _ _ H). by right. Qed.
Lemma insert_other tid hb tr i rec : tid <> i -> (i, rec) ∈ trace_recs (trace_insert tid hb tr) -> (i, rec) ∈ trace_recs tr.
Proof. intros Hne. rewrite trace_insert_recs, elem_of_cons. intros [?|?]; [congruence|done]. Qed.
Lemma list_kinds pf lb s s' i : step pf lb s = Some s' -> list_kind i s s'.
Proof.
  intros Hs. step_inv Hs; inst_cases; isimpl.
  all: try (apply lk_same; fsimpl; [reflexivity|intros; assumption]).
  all: try (apply lk_same; fsimpl; [reflexivity|intros; by eapply quit_sub]).
  all: match goal with |- list_kind ?i ?s ?x => match x with
    | context [<[?k := _]> (flags s)] => destruct (decide (k = i)) as [->|Hne]
    | context [delete ?k (flags s)] => destruct (decide (k = i)) as [->|Hne]
    | context [trace_insert ?k _ _] => destruct (decide (k = i)) as [->|Hne]
    end end.
  all: try (apply lk_same; fsimpl; [by rewrite ?lookup_insert_ne, ?lookup_delete_ne|intros; first [assumption|by eapply quit_sub|by eapply insert_other]]).
  all: try (match goal with H : flags ?s !! _ = Some _ |- _ => apply lk_same; fsimpl; [rewrite lookup_insert, H; reflexivity|intros; first [assumption|by eapply quit_sub]] end).
  all: try (eapply lk_new; [eassumption|reflexivity]).
  all: try (apply lk_none; fsimpl; intros m0; rewrite ?lookup_insert, ?lookup_delete; intros; simplify_eq; try reflexivity; assumption).
  all: try (eapply lk_end; fsimpl; [eassumption|eassumption|eassumption|eassumption|apply lookup_insert|reflexivity]).
  all: try (eapply lk_append; fsimpl; [eassumption|eassumption|apply lookup_insert|reflexivity|reflexivity]).
Qed.
Lemma trace_running pf t0 t1 s tid rec : reachable pf t0 t1 s -> (tid, rec) ∈ trace_recs (trace s) -> rec ∈ running tid (log s).
Proof.
  intros Hr Hin. destruct (quit_one_task_handler tid rec (trace s)) as [tr|] eqn:E; [by eapply quit_running|]. by apply quit_none in E.
Qed.
Lemma listed_reach pf t0 t1 i mx s : reachable pf t0 t1 s -> once i (log s) -> bound i mx (log s) ->
  forall m cid l rec, flags s !! i = Some m -> m_chain m = Some (cid, l) -> (i, rec) ∈ trace_recs (trace s) -> rec ∈ l.
Proof.
  revert s. apply (reach_ind pf t0 t1 (fun s => once i (log s) -> bound i mx (log s) -> forall m cid l rec, flags s !! i = Some m -> m_chain m = Some (cid, l) -> (i, rec) ∈ trace_recs (trace s) -> rec ∈ l)).
  - intros _ _ m cid l rec H. change (flags (init t0 t1)) with (∅ : gmap N mark) in H. rewrite lookup_empty in H. discriminate H.
  - intros lb s s' Hr IH Hs Ho Hb m cid l rec Hm Hc Hin.
    pose proof (once_anti _ _ _ _ _ Hs Ho) as Ho0. pose proof (bound_anti _ _ _ _ _ _ Hs Hb) as Hb0. specialize (IH Ho0 Hb0).
    destruct (list_kinds _ _ _ _ i Hs) as [K1 K2|K|c sl K1 K2|hb m0 m' cid0 l0 K1 K2 K3 K4 K5|rec0 z m0 m' cid0 l0 l' K1 K2 K3 K4 K5 K6].
    + rewrite Hm in K1. destruct (flags s !! i) as [m0|]; [|discriminate K1]. injection K1 as K1. apply (IH m0 cid l rec); [done|congruence|auto].
    + rewrite (K _ Hm) in Hc. discriminate Hc.
    + exfalso. pose proof (wait_reach _ _ _ _ _ _ Hr Ho0 Hb0) as [I4 _]. assert (awaited i s) as Ha by (right; by rewrite K1). destruct (I4 Ha) as (_ & A & _).
      rewrite K2 in Hin. apply (trace_running _ _ _ _ _ _ Hr) in Hin. unfold nrun in A. destruct (running i (log s)); [by apply elem_of_nil in Hin|]. cbn [length] in A. lia.
    + rewrite Hm in K3. injection K3 as <-. rewrite Hc in K4. injection K4 as -> ->. rewrite K5, trace_insert_recs, elem_of_cons in Hin. rewrite elem_of_app, elem_of_list_singleton.
      destruct Hin as [[=]|Hin]; [by right|left; eauto].
    + rewrite Hm in K5. injection K5 as <-. rewrite Hc in K6. injection K6 as -> ->.
      pose proof (IH _ _ _ _ K2 K3 (quit_sub _ _ _ _ _ K1 Hin)) as Hl. apply take_rec_perm in K4 as [Hp Hz]. unfold id in Hz. subst z.
      rewrite Hp, elem_of_cons in Hl. destruct Hl as [->|Hl]; [|done]. exfalso.
      pose proof (ri_nodup s (rec_reach _ _ _ _ Hr)) as Hn. unfold places in Hn. rewrite !fmap_app in Hn.
      apply NoDup_app in Hn as (_ & _ & Hn). apply NoDup_app in Hn as (_ & _ & Hn). apply NoDup_app in Hn as (Hn & _ & _).
      rewrite (quit_recs _ _ _ _ K1) in Hn. cbn in Hn. apply NoDup_cons in Hn as [Hn _]. apply Hn. apply elem_of_list_fmap. by exists (i, rec0).
Qed.

(** ** The count and the number of running instances *)

(** Steps that end an instance of [i] without giving its place back: the end is handled before the start was counted,
    or a finish is handled after the user dropped the chain. *)
Inductive forgets (i : N) (s : sys) : Prop :=
| forget_early e q fin rec st m : hpc s = HIdle -> queue s = e :: q -> ending e fin i rec st -> rec ∈ running i (log s) -> flags s !! i = Some m -> m_num m = 0 -> forgets i s
| forget_dropped e q rec st m cid l : hpc s = HIdle -> queue s = e :: q -> ending e true i rec st -> rec ∈ running i (log s) -> flags s !! i = Some m ->
    m_chain m = Some (cid, l) -> chain_state s cid = Some DROPPED -> forgets i s.
Lemma running_nodup pf t0 t1 s i : reachable pf t0 t1 s -> NoDup (running i (log s)).
Proof.
  intros Hr. pose proof (ri_uniq s (rec_reach _ _ _ _ Hr)) as Hn. clear Hr. revert Hn. generalize (log s). clear s. intros lg. induction lg as [|o lg IH]; [constructor|]. intros Hn.
  destruct o; cbn [running]; try (exact (IH Hn)).
  - cbn [launches fmap list_fmap] in Hn. apply NoDup_cons in Hn as [H1 H2]. specialize (IH H2). case_match; [|done]. constructor; [|done].
    intros Hin. apply elem_running in Hin as (u' & it' & ts' & Hin). apply H1. apply elem_of_list_fmap. eexists (u', i, rec, it', ts'). split; [done|]. by apply elem_launches.
  - specialize (IH Hn). case_match; [by apply NoDup_filter|done].
Qed.
Lemma end_num pf s s' i e q fin rec st tr m : step pf LHandler s = Some s' -> hpc s = HIdle -> queue s = e :: q -> ending e fin i rec st -> quit_one_task_handler i rec (trace s) = Some tr -> flags s !! i = Some m ->
  tpc s' = tpc s /\ running i (log s') = filter (fun x => x <> rec) (running i (log s)) /\ exists m', flags s' !! i = Some m' /\
    (m_num m' = m_num m - 1 \/ (fin = true /\ m_num m' = m_num m /\ exists cid l, m_chain m = Some (cid, l) /\ (chain_state s cid = Some DROPPED \/ rec ∉ l))).
Proof.
  intros Hs Hh Hq He Ht Hm. cbn [step] in Hs. unfold handler_step in Hs. rewrite Hh, Hq in Hs.
  destruct He; cbn [dispatch] in Hs; injection Hs as <-; inst_cases; isimpl; simplify_eq.
  all: split; [reflexivity|]; split; [eapply (eqb_then tid); fsimpl; reflexivity|].
  all: eexists; split; [apply lookup_insert|]; try (by left).
  all: right; split; [done|]; split; [done|]; eexists _, _; split; [eassumption|]; try (by left); right.
  all: intros Hin; match goal with H : take_rec _ _ _ = None |- _ => apply take_rec_none in H; apply H; by rewrite list_fmap_id end.
Qed.
Lemma launch_run pf lb s s' l ids x r e : step pf lb s = Some s' -> tpc s = TSpawn l ids x r -> tpc s' = TSend l ids x r e -> running (t_id x) (log s') = r :: running (t_id x) (log s).
Proof.
  intros Hs E1 E2. revert E2. step_inv Hs; inst_shape; fsimpl; intros; simplify_eq; try congruence.
  cbn [running]. by rewrite N.eqb_refl.
Qed.
Lemma leak_step pf t0 t1 i mx lb s s' m x : reachable pf t0 t1 s -> once i (log s') -> bound i mx (log s') -> step pf lb s = Some s' -> flags s' !! i = Some m -> x ∈ held s' -> t_id x = i ->
  (flags s !! i = None /\ m_num m = 0 /\ inflight i (tpc s') = 0 /\ nrun i s' = 0) \/
  exists m0 y, flags s !! i = Some m0 /\ y ∈ held s /\ t_id y = i /\
    m_num m0 + inflight i (tpc s) + nrun i s' <= m_num m + inflight i (tpc s') + nrun i s /\
    (m_num m0 + inflight i (tpc s) + nrun i s' = m_num m + inflight i (tpc s') + nrun i s \/ (lb = LHandler /\ forgets i s)).
Proof.
  intros Hr Ho Hb Hs Hm Hx Hi.
  pose proof (once_anti _ _ _ _ _ Hs Ho) as Ho0. pose proof (bound_anti _ _ _ _ _ _ Hs Hb) as Hb0.
  pose proof (wait_reach _ _ _ _ _ _ Hr Ho0 Hb0) as [I4 I5].
  pose proof (nrun_step _ _ _ _ _ _ i Hr Hs) as Hn. pose proof (num_kinds _ _ _ _ i Hs) as Hk. pose proof (fly_kinds _ _ _ _ i Hs) as Hf.
  assert (flags s !! i = None \/ exists m0, flags s !! i = Some m0) as [Em0|[m0 Em0]] by (destruct (flags s !! i); eauto).
  { left. destruct Hk as [K|l ids sl m1 m2 K1 K2 K3 K4 K5|c sl m1 K1 K2 K3 K4|ok K1 K2|e q fin rec st tr m1 m2 K1 K2 K3 K4 K5 K6 K7 K8]; try congruence.
    - rewrite Hm, Em0 in K. discriminate K.
    - assert (awaited i s) as Ha by (right; by rewrite K1). destruct (I4 Ha) as (_ & A1 & A2 & A3). rewrite Hm in K3. injection K3 as <-.
      split; [done|]. split; [done|]. split.
      + destruct Hf as [F _|l' ids' x' r' F1 F2 F3 F4|l' ids' x' r' F1 F2 F3|l' ids' x' r' e' F1 F2 F3|l' ids' sl' F1 F2|x' F1 F2 F3 F4 F5 F6];
          [congruence|by rewrite F2|congruence|by destruct (A3 _ _ _ _ F1)|by rewrite F2|done].
      + destruct Hn as [Hn|[(l1 & ids1 & x1 & r1 & E1 & E2 & E0 & E3)|(e & q & fin & rec & st & tr & _ & _ & _ & _ & _ & Hlt)]]; [lia| |lia]. by destruct (A3 _ _ _ _ E1). }
  right. exists m0.
  assert (exists y, y ∈ held s /\ t_id y = i) as (y & Hy & Hyi).
  { destruct (held_step _ _ _ _ _ Hs Hx) as [(y & Hy & Hc)|[(y & Hy & Hc & _)|[(l & ids & y & r & E1 & _ & E3 & _)|Hnew]]].
    - exists y. split; [apply elem_held; auto|]. destruct Hc as (_ & Hc & _). congruence.
    - exists y. split; [apply elem_held; left; rewrite Hy; left|]. destruct Hc as (_ & Hc & _). congruence.
    - exists y. split; [apply elem_held; left; rewrite E1; left|]. apply down_count_same in E3 as (_ & E3 & _). congruence.
    - destruct (first_facts _ _ _ _ _ _ _ _ Hr Hs Ho Hnew Hi) as (? & _). congruence. }
  exists y. do 3 (split; [done|]).
  assert (forall x', tpc_task (tpc s) = [x'] -> t_id x' = i -> tpc_task (tpc s') = [] -> rest s' = rest s -> False) as Hlost.
  { intros x' F1 F2 F3 F4. apply elem_held in Hx. rewrite F3, F4 in Hx. destruct Hx as [Hx|Hx]; [by apply elem_of_nil in Hx|].
    apply (split_id _ _ _ _ i (tpc_task (tpc s)) (rest s) x' x Hr Ho0 (held_rest s)); [rewrite F1; left|done|done|done]. }
  (* the scheduler's part *)
  assert ((inflight i (tpc s') = inflight i (tpc s) /\ nrun i s' <= nrun i s) \/
          (inflight i (tpc s') = inflight i (tpc s) + 1 /\ nrun i s' = nrun i s + 1) \/
          (inflight i (tpc s) = 1 /\ inflight i (tpc s') = 0 /\ nrun i s' = nrun i s /\ m_num m = m_num m0 + 1)) as Hfn.
  { destruct Hf as [F [F'|F']|l' ids' x' r' F1 F2 F3 F4|l' ids' x' r' F1 F2 F3|l' ids' x' r' e' F1 F2 F3|l' ids' sl F1 F2|x' F1 F2 F3 F4 F5 F6].
    - left. split; [done|]. destruct Hn as [Hn|[(l1 & ids1 & x1 & r1 & E1 & E2 & E0 & E3)|(e & q & fin & rec & st & tr & _ & _ & _ & _ & _ & Hlt)]]; [lia| |lia].
      rewrite E1 in F'. by destruct (E0 _ _ _ _ F').
    - left. split; [done|]. destruct Hn as [Hn|[(l1 & ids1 & x1 & r1 & E1 & E2 & E0 & E3)|(e & q & fin & rec & st & tr & _ & _ & _ & _ & _ & Hlt)]]; [lia| |lia].
      by destruct (proj2 (F' _ _ _ _) E1).
    - left. rewrite F1, F2. split; [done|]. destruct Hn as [Hn|[(l1 & ids1 & x1 & r1 & E1 & E2 & E0 & E3)|(e & q & fin & rec & st & tr & _ & _ & _ & _ & _ & Hlt)]]; [lia|congruence|lia].
    - left. split; [done|]. destruct Hn as [Hn|[(l1 & ids1 & x1 & r1 & E1 & E2 & E0 & E3)|(e & q & fin & rec & st & tr & _ & _ & _ & _ & _ & Hlt)]]; [lia| |lia].
      by destruct (E0 _ _ _ _ F2).
    - right; left. rewrite F1, F3. cbn [inflight]. rewrite F2, N.eqb_refl. split; [done|]. unfold nrun. rewrite <- F2, (launch_run _ _ _ _ _ _ _ _ _ Hs F1 F3). cbn [length]. lia.
    - right; right. rewrite F1, F2. cbn [inflight]. rewrite N.eqb_refl. do 2 (split; [done|]).
      destruct (mark_inc _ _ _ _ _ _ _ _ _ Hs F1 F2 Em0) as (m' & G1 & G2). rewrite Hm in G1. injection G1 as <-. split; [|done].
      destruct Hn as [Hn|[(l1 & ids1 & x1 & r1 & E1 & E2 & E0 & E3)|(e & q & fin & rec & st & tr & Elb & E1 & E2 & E3 & E4 & Hlt)]]; [done|congruence|].
      subst lb. destruct (end_num _ _ _ _ _ _ _ _ _ _ _ Hs E1 E2 E3 E4 Em0) as (G & _). congruence.
    - by destruct (Hlost x'). }
  assert (nrun i s <= nrun i s' -> m_num m = m_num m0 \/ (inflight i (tpc s) = 1 /\ inflight i (tpc s') = 0)) as Hsame.
  { intros Hle. destruct Hk as [K|l ids sl m1 m2 K1 K2 K3 K4 K5|c sl m1 K1 K2 K3 K4|ok K1 K2|e q fin rec st tr m1 m2 K1 K2 K3 K4 K5 K6 K7 K8].
    - rewrite Hm, Em0 in K. injection K as K. auto.
    - right. rewrite K1, K2. cbn [inflight]. by rewrite N.eqb_refl.
    - assert (awaited i s) as Ha by (right; by rewrite K1). destruct (I4 Ha) as (? & _). congruence.
    - congruence.
    - unfold nrun in Hle. rewrite K7 in Hle. pose proof (filter_ne_length _ _ (quit_running _ _ _ _ _ _ _ Hr K4)). lia. }
  destruct Hfn as [[H1 H2]|[[H1 H2]|(H1 & H2 & H3 & H4)]]; [|lia|lia].
  destruct Hn as [Hn|[(l1 & ids1 & x1 & r1 & E1 & E2 & E0 & E3)|(e & q & fin & rec & st & tr & Elb & E1 & E2 & E3 & E4 & Hlt)]]; [lia|lia|].
  subst lb. destruct (end_num _ _ _ _ _ _ _ _ _ _ _ Hs E1 E2 E3 E4 Em0) as (_ & G1 & m' & G2 & G3). rewrite Hm in G2. injection G2 as <-.
  pose proof (quit_running _ _ _ _ _ _ _ Hr E4) as Hrec.
  pose proof (filter_ne_length1 rec _ (running_nodup _ _ _ _ i Hr) Hrec) as Hlen. rewrite <- G1 in Hlen.
  assert (nrun i s = nrun i s' + 1) as Hn1 by (unfold nrun; rewrite Hlen; lia).
  destruct G3 as [G3|(-> & G3 & cid & l & G4 & G5)].
  - destruct (decide (m_num m0 = 0)) as [Hz|Hz]; [|split; [lia|left; lia]].
    split; [lia|]. right. split; [done|]. by eapply forget_early.
  - split; [lia|]. right. split; [done|]. destruct G5 as [G5|G5]; [by eapply forget_dropped|]. destruct G5.
    apply (listed_reach _ _ _ _ _ _ Hr Ho0 Hb0 _ _ _ _ Em0 G4). rewrite (quit_recs _ _ _ _ E4). left.
Qed.

Record par_inv (i mx : N) (s : sys) : Prop := {
  pi_max : nrun i s <= mx;
  pi_num : forall m x, flags s !! i = Some m -> x ∈ held s -> t_id x = i -> nrun i s <= m_num m + inflight i (tpc s);
  pi_spawn : forall l ids x r, tpc s = TSpawn l ids x r -> t_id x = i -> nrun i s < mx
}.
Lemma par_step pf t0 t1 i mx lb s s' : reachable pf t0 t1 s -> once i (log s') -> bound i mx (log s') -> par_inv i mx s -> step pf lb s = Some s' -> par_inv i mx s'.
Proof.
  intros Hr Ho Hb [I1 I2 I3] Hs. pose proof (bound_anti _ _ _ _ _ _ Hs Hb) as Hb0. split.
  - destruct (nrun_step _ _ _ _ _ _ i Hr Hs) as [Hn|[(l1 & ids1 & x1 & r1 & E1 & E2 & E0 & E3)|(e & q & fin & rec & st & tr & _ & _ & _ & _ & _ & Hlt)]]; [lia| |lia].
    pose proof (I3 _ _ _ _ E1 E2). lia.
  - intros m x Hm Hx Hi. destruct (leak_step _ _ _ _ _ _ _ _ _ _ Hr Ho Hb Hs Hm Hx Hi) as [(_ & ? & ? & ?)|(m0 & y & H1 & H2 & H3 & H4 & _)]; [lia|].
    pose proof (I2 _ _ H1 H2 H3). lia.
  - intros l ids x r E Hi. destruct (spawn_kind _ _ _ _ _ _ _ _ _ _ _ _ Hr Hb0 Hs E Hi) as [H [F|(F & Hx & m & G & G1)]].
    + rewrite F in E. specialize (I3 _ _ _ _ E Hi). lia.
    + pose proof (I2 _ _ G Hx Hi) as H2. rewrite F in H2. cbn [inflight] in H2. lia.
Qed.
Lemma par_reach pf t0 t1 i mx s : reachable pf t0 t1 s -> once i (log s) -> bound i mx (log s) -> par_inv i mx s.
Proof.
  revert s. apply (reach_ind pf t0 t1 (fun s => once i (log s) -> bound i mx (log s) -> par_inv i mx s)).
  - intros _ _. split.
    + exact (N.le_0_l _).
    + intros m x H. change (flags (init t0 t1)) with (∅ : gmap N mark) in H. rewrite lookup_empty in H. discriminate H.
    + intros l ids x r H. discriminate H.
  - intros lb s s' Hr IH Hs Ho Hb. eapply par_step; eauto using once_anti, bound_anti.
Qed.
