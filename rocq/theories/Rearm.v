(** Consequences of the life phases: when a parked task runs again, what becomes of a
    task that ran, and that a task is not lost. *)
From Verif Require Import Tactics Inv Own Life Count Quiet Timing Arrival Phase.

(* ------------------------------------------------------------------ *)
(** * The mark of a task that has run is there *)


Lemma mark_step pf lb s s' i : step pf lb s = Some s' -> is_Some (flags s !! i) ->
  (forall ok, hpc s <> HRem2 i ok) -> is_Some (flags s' !! i).
Proof.
  intros Hs [m Hm] Hne.
  step_inv Hs; inst_shape; fsimpl; eauto.
  all: try (apply Hfl2 in Hm as [? ?]; eauto; fail).
  all: try (match goal with |- is_Some (<[?k := _]> _ !! _) => destruct (decide (k = i)) as [->|] end; [rewrite lookup_insert|rewrite lookup_insert_ne by done]; eauto; fail).
  rewrite lookup_delete_ne by (intros ->; by eapply Hne). eauto.
Qed.

Record minv (t : task) (s : sys) : Prop := {
  mi_run : t_maxpar t <> None -> has_run (t_uid t) (log s) -> is_Some (flags s !! t_id t);
  mi_spawn : t_maxpar t <> None -> forall l ids t' r, tpc s = TSpawn l ids t' r -> t_id t' = t_id t -> is_Some (flags s !! t_id t)
}.

Lemma has_run_cons u o lg : has_run u (o :: lg) -> is_run u o \/ has_run u lg.
Proof. intros (o' & [->|H]%elem_of_cons & Hr); [by left|right; by exists o']. Qed.
Lemma has_run_inst u lg l : Forall inst_obs lg -> has_run u (lg ++ l) -> has_run u l.
Proof. induction 1 as [|o lg Hx H IH]; [done|]. cbn. intros [Hr|?]%has_run_cons; [by destruct o|auto]. Qed.

(** Which step adds a run to the log. *)
Lemma has_run_step pf lb s s' u : step pf lb s = Some s' -> has_run u (log s') -> has_run u (log s) \/
  (exists l ids t r, tpc s = TSpawn l ids t r /\ t_uid t = u) \/
  (exists l ids t, tpc s = TMaint l ids t /\ t_uid t = u /\ is_Some (flags s !! t_id t)).
Proof.
  intros Hs. step_inv Hs; inst_shape; fsimpl; auto; intros Hr; try (apply has_run_inst in Hr; [|done]).
  all: repeat match goal with Hr : has_run _ (match ?x with _ => _ end) |- _ => destruct x end; auto.
  all: repeat match goal with Hr : has_run _ (_ :: _) |- _ => apply has_run_cons in Hr as [Hr|Hr]; [try done|] end; auto.
  all: cbn in Hr; try done; subst; eauto 10.
Qed.

Lemma minv_step pf lb s s' t : wf s -> src_inv s -> cnt_inv s -> only t (log s) -> step pf lb s = Some s' ->
  minv t s -> minv t s'.
Proof.
  intros Hwf Hsrc Hc Ho Hs [H1 H2].
  assert (forall ok, hpc s <> HRem2 (t_id t) ok) as Hne.
  { intros ok E. destruct Hsrc as [_ Hh]. rewrite E in Hh. destruct Ho as [Hq _].
    by apply (quiet_not_named t) in Hh. }
  pose proof (only_sole s t Hc Ho) as Hso.
  split.
  - intros Hm Hr. apply (has_run_step _ _ _ _ _ Hs) in Hr as [Hr|[(l & ids & t' & r & Hpc & Hu)|(l & ids & t' & Hpc & Hu & Hf)]].
    + eapply mark_step; eauto.
    + eapply mark_step; eauto. eapply H2; eauto. apply Hso; [|done]. apply in_tpc. rewrite Hpc. apply elem_of_list_here.
    + eapply mark_step; eauto. rewrite <- (proj2 (Hso t' ltac:(apply in_tpc; rewrite Hpc; apply elem_of_list_here)) Hu). done.
  - intros Hm l ids t' r Hpc' Hid.
    assert (tpc s' = tpc s \/ (tpc s = TMaint l ids t' /\ flags s' = flags s /\ (t_maxpar t' <> None -> is_Some (flags s !! t_id t')))) as [E|(E & Ef & Hf)].
    { clear H1 H2 Hsrc Ho. step_inv Hs; inst_shape; fsimpl; auto; fsimpl_in Hpc'; simplify_eq.
      all: try (right; split; [done|]; split; [done|]; first [eauto|congruence]).
      all: destruct (motiv s); done. }
    + rewrite E in Hpc'. eapply mark_step; eauto.
    + rewrite Ef, <- Hid. apply Hf.
      destruct (ci_held s Hc t') as (t0 & Hs0 & Hu & _ & _ & Hmp & _); [apply in_tpc; rewrite E; apply elem_of_list_here|].
      assert (t_uid t' = t_uid t) as Hu' by (apply Hso; [apply in_tpc; rewrite E; apply elem_of_list_here|done]).
      assert (t0 = t) as -> by (apply Ho; [done|congruence]). congruence.
Qed.

Lemma minv_only pf t0 t1 s t : reachable pf t0 t1 s -> only t (log s) -> minv t s.
Proof.
  revert s. apply (reach_ind pf t0 t1 (fun s => only t (log s) -> minv t s)).
  - intros _. split; [|done]. intros _ (o & Hin & Hr). cbn in Hin. apply elem_of_list_singleton in Hin as ->. done.
  - intros lb s1 s2 Hr IH Hs Ho. eapply minv_step; eauto using wf_reach, src_reach, cnt_reach, only_anti.
Qed.

Definition mark_at (u : N) (o : obs) (r : list obs) : Prop :=
  match o with ODrop u' _ NoMark => u' = u -> ~ has_run u r | _ => True end.
Lemma mark_at_inst u lg l : Forall inst_obs lg -> each (mark_at u) l -> each (mark_at u) (lg ++ l).
Proof. induction 1 as [|[] lg Hx H IH]; try done; cbn; auto. Qed.

Lemma mark_at_step pf lb s s' t : cnt_inv s -> only t (log s) -> minv t s ->
  step pf lb s = Some s' -> each (mark_at (t_uid t)) (log s) -> each (mark_at (t_uid t)) (log s').
Proof.
  intros Hc Ho [H1 _] Hs He. pose proof (only_sole s t Hc Ho) as Hso.
  step_inv Hs; inst_shape; fsimpl; try assumption; try (apply mark_at_inst; [done|]); cbn [each mark_at]; auto.
  all: repeat case_match; cbn [each mark_at]; auto.
  split; [|done]. intros E Hr.
  assert (t0 ∈ held s) as Hin by (apply in_tpc; rewrite Heqt0; apply elem_of_list_here).
  assert (t_id t0 = t_id t) as Hid by (by apply Hso).
  destruct (ci_held s Hc t0 Hin) as (t1 & Hs0 & Hu & _ & _ & Hmp & _).
  assert (t1 = t) as -> by (apply Ho; [done|congruence]).
  destruct H1 as [m Hm]; [congruence|done|]. rewrite <- Hid in Hm. congruence.
Qed.

Lemma mark_at_reach pf t0 t1 s t : reachable pf t0 t1 s -> only t (log s) -> each (mark_at (t_uid t)) (log s).
Proof.
  revert s. apply (reach_ind pf t0 t1 (fun s => only t (log s) -> each (mark_at (t_uid t)) (log s))).
  - intros _. cbn. auto.
  - intros lb s1 s2 Hr IH Hs Ho. eapply mark_at_step; eauto using minv_only, only_anti, cnt_reach.
Qed.

(* ------------------------------------------------------------------ *)
(** * The next run *)


Lemma busy_run u lg it ts : phase u lg = Busy it ts -> has_run u lg.
Proof.
  induction lg as [|o lg IH]; [done|].
  assert (phase u lg = Busy it ts -> has_run u (o :: lg)) as Hx.
  { intros H. destruct (IH H) as (o' & ? & ?). exists o'. split; [by right|done]. }
  destruct o; cbn [phase]; auto; destruct (_ =? u) eqn:E; try done; auto; intros _; apply N.eqb_eq in E.
  all: eexists; split; [apply elem_of_list_here|done].
Qed.

Lemma next_run u r D l1 : each (ok_at u) (l1 ++ r) -> each (mark_at u) (l1 ++ r) -> phase u r = Wait D -> has_run u r ->
  match first_run u l1 with
  | Some k => k = D
  | None => phase u (l1 ++ r) = Wait D
  end.
Proof.
  intros He Hm Hw Hr. induction l1 as [|o l1 IH]; [done|]. cbn [app each] in *. destruct He as [Ho He], Hm as [Hmo Hm].
  specialize (IH He Hm). cbn [first_run]. destruct (first_run u l1); [done|].
  assert (has_run u (l1 ++ r)) as Hr' by (destruct Hr as (o' & ? & ?); exists o'; rewrite elem_of_app; auto).
  destruct o; cbn [run_it phase ok_at mark_at] in *; try done; destruct (_ =? u) eqn:E; try done; apply N.eqb_eq in E;
    try specialize (Ho E); try congruence.
  - by destruct Ho as (? & ? & ?); congruence.
  - destruct w.
    + by destruct (Hmo E).
    + destruct (Ho E) as [?|(? & ? & ?)]; congruence.
Qed.


Theorem rearm pf t0 t1 s t l1 l2 i it ts d :
  reachable pf t0 t1 s -> submitted t (log s) -> quiet t (log s) -> near (t_uid t) (log s) ->
  log s = l1 ++ OPark (t_uid t) i it ts d :: l2 ->
  match first_run (t_uid t) l1 with
  | Some k => k = it + 1 + until ts d
  | None => iters s <= it + 1 + until ts d
  end.
Proof.
  intros Hr Hs Hq Hn El. pose proof (only_quiet s t (cnt_reach _ _ _ _ Hr) Hs Hq) as Ho.
  pose proof (ok_at_reach _ _ _ _ _ Hr Hs Hq Hn) as Hok. pose proof (mark_at_reach _ _ _ _ _ Hr Ho) as Hmk.
  pose proof (tinv_only _ _ _ _ _ Hr Ho Hn) as Hti.
  assert (has_run (t_uid t) (OPark (t_uid t) i it ts d :: l2)) as Hrun.
  { rewrite El in Hok. apply each_split in Hok. destruct (busy_run _ _ _ _ (Hok eq_refl)) as (o' & ? & ?).
    exists o'. split; [by right|done]. }
  rewrite El in Hok, Hmk.
  assert (phase (t_uid t) (OPark (t_uid t) i it ts d :: l2) = Wait (it + 1 + until ts d)) as Hw.
  { cbn [phase]. by rewrite N.eqb_refl. }
  pose proof (next_run _ _ _ l1 Hok Hmk Hw Hrun) as Hx.
  destruct (first_run (t_uid t) l1) as [k|]; [done|].
  apply (ti_le _ _ _ Hti). rewrite expect_phase, El, Hx. done.
Qed.

(** What becomes of a task that ran: it is put back, or its countdown is used up, or its
    schedule has no further date. *)
Definition about (u : N) (o : obs) : Prop :=
  match o with
  | OPark u' _ _ _ _ | OAdded u' _ _ _ _ | OLaunch u' _ _ _ _ | OSkip u' _ _ _ | OEnd u' _ | ODrop u' _ _ => u' = u
  | _ => False
  end.
Global Instance about_dec u o : Decision (about u o).
Proof. destruct o; cbn; apply _. Defined.

Lemma phase_quiet u l r : (forall o, o ∈ l -> ~ about u o) -> phase u (l ++ r) = phase u r.
Proof.
  induction l as [|o l IH]; [done|]. intros H. cbn [app]. rewrite phase_other.
  - apply IH. intros o' Ho'. apply H. by right.
  - specialize (H o (elem_of_list_here _ _)). destruct o; cbn in *; done.
Qed.

(** The oldest entry about [u]. *)
Lemma first_about u l1 : (forall o, o ∈ l1 -> ~ about u o) \/
  exists m1 o m2, l1 = m1 ++ o :: m2 /\ about u o /\ forall o', o' ∈ m2 -> ~ about u o'.
Proof.
  induction l1 as [|o l1 [IH|(m1 & o1 & m2 & -> & H1 & H2)]].
  - left. by intros o ?%elem_of_nil.
  - destruct (decide (about u o)).
    + right. exists [], o, l1. done.
    + left. intros o' [->|?]%elem_of_cons; auto.
  - right. exists (o :: m1), o1, m2. done.
Qed.

Lemma run_phase u o r : is_run u o -> exists it ts, phase u (o :: r) = Busy it ts /\ run_it u o = Some it.
Proof. destruct o; cbn; try done; intros ->; rewrite N.eqb_refl; eauto. Qed.

Theorem after_run pf t0 t1 s t l1 l2 o k :
  reachable pf t0 t1 s -> submitted t (log s) -> quiet t (log s) -> near (t_uid t) (log s) ->
  log s = l1 ++ o :: l2 -> run_it (t_uid t) o = Some k -> k < iters s ->
  exists m1 o' m2, l1 = m1 ++ o' :: m2 /\ (forall x, x ∈ m2 -> ~ about (t_uid t) x) /\
    ((exists i ts d, o' = OPark (t_uid t) i k ts d) \/ (exists i, o' = OEnd (t_uid t) i) \/ (exists i, o' = ODrop (t_uid t) i NoDate)).
Proof.
  intros Hr Hs Hq Hn El Ho Hk. pose proof (only_quiet s t (cnt_reach _ _ _ _ Hr) Hs Hq) as Hon.
  pose proof (ok_at_reach _ _ _ _ _ Hr Hs Hq Hn) as Hok.
  pose proof (pinv_only _ _ _ _ _ Hr Hon Hn) as Hp.
  assert (exists ts, phase (t_uid t) (o :: l2) = Busy k ts) as [ts Hb].
  { assert (is_run (t_uid t) o) as Hrun.
    { destruct o; cbn in *; try done; destruct (_ =? _) eqn:E; try done; by apply N.eqb_eq in E. }
    destruct (run_phase _ _ l2 Hrun) as (it & ts & ? & ?). exists ts. congruence. }
  destruct (first_about (t_uid t) l1) as [Hno|(m1 & o' & m2 & -> & Hab & Hno)].
  - exfalso. assert (phase (t_uid t) (log s) = Busy k ts) as Hb' by (by rewrite El, phase_quiet).
    apply (p_iter _ _ Hp) in Hb'. lia.
  - exists m1, o', m2. split; [done|]. split; [done|].
    rewrite El in Hok. rewrite <- app_assoc in Hok. apply (each_split _ m1 o' (m2 ++ o :: l2)) in Hok.
    assert (phase (t_uid t) (m2 ++ o :: l2) = Busy k ts) as Hb' by (by rewrite phase_quiet).
    destruct o'; cbn in Hab; try done; subst; cbn [ok_at] in Hok; rewrite ?Hb' in Hok; try (by specialize (Hok eq_refl)).
    + left. specialize (Hok eq_refl). simplify_eq. eauto.
    + eauto.
    + destruct w; [by destruct (Hok eq_refl)|eauto].
Qed.
