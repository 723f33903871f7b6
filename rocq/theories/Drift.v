(** Consecutive runs of a task that is left alone, under a steady clock. *)
From Verif Require Import Tactics Inv Own Life Count Quiet Timing Arrival Phase Rearm Sched Interval Lost Clock Added.

(* ------------------------------------------------------------------ *)
(** ** add_task plans a task only before it is on the wheel *)

Definition plan_at (u : N) (o : obs) (r : list obs) : Prop :=
  match o with OPlan u' _ _ _ _ => u' = u -> phase u r = New | _ => True end.
Lemma plan_at_inst u lg l : Forall inst_obs lg -> each (plan_at u) l -> each (plan_at u) (lg ++ l).
Proof. induction 1 as [|[] lg Hx H IH]; try done; cbn; auto. Qed.
Lemma plan_at_step pf lb s s' t : pinv t s -> sole (t_uid t) (t_id t) s ->
  step pf lb s = Some s' -> each (plan_at (t_uid t)) (log s) -> each (plan_at (t_uid t)) (log s').
Proof.
  intros Hp Hso Hs He.
  assert (forall t', t' ∈ hpc_task (hpc s) -> t_uid t' = t_uid t -> phase (t_uid t) (log s) = New) as H3.
  { intros t' Hin Hu. apply (p_new t s Hp t'); [by apply coming_hpc|]. apply Hso; [by apply in_coming, coming_hpc|done]. }
  clear Hp Hso.
  step_inv Hs; inst_shape; fsimpl; try assumption; try (apply plan_at_inst; [done|]); cbn [each plan_at]; auto.
  all: repeat case_match; cbn [each plan_at]; auto.
  split; [|done]. intros E. eapply H3; [|exact E]. cbn. apply elem_of_list_here.
Qed.
Lemma plan_at_reach pf t0 t1 s t : reachable pf t0 t1 s -> submitted t (log s) -> quiet t (log s) ->
  near (t_uid t) (log s) -> each (plan_at (t_uid t)) (log s).
Proof.
  intros Hr Hs Hq Hn. pose proof (only_quiet s t (cnt_reach _ _ _ _ Hr) Hs Hq) as Ho. clear Hs Hq.
  revert s Hr Ho Hn. apply (reach_ind pf t0 t1 (fun s => only t (log s) -> near (t_uid t) (log s) -> each (plan_at (t_uid t)) (log s))).
  - intros _ _. cbn. auto.
  - intros lb s1 s2 Hr IH Hs Ho Hn.
    eapply plan_at_step; eauto 6 using pinv_only, only_sole, only_anti, near_anti, cnt_reach.
Qed.

(* ------------------------------------------------------------------ *)
(** ** Reading the log backwards *)

(** The newest entry about [u]. *)
Lemma last_about u l : (forall o, o ∈ l -> ~ about u o) \/
  exists m1 o m2, l = m1 ++ o :: m2 /\ about u o /\ forall o', o' ∈ m1 -> ~ about u o'.
Proof.
  induction l as [|o l IH]; [left; by intros o ?%elem_of_nil|].
  destruct (decide (about u o)) as [Ha|Ha].
  - right. exists [], o, l. split; [done|]. split; [done|]. by intros ? ?%elem_of_nil.
  - destruct IH as [IH|(m1 & o1 & m2 & -> & H1 & H2)].
    + left. intros o' [->|?]%elem_of_cons; auto.
    + right. exists (o :: m1), o1, m2. split; [done|]. split; [done|]. intros o' [->|?]%elem_of_cons; auto.
Qed.
Lemma phase_no_about u l : (forall o, o ∈ l -> ~ about u o) -> phase u l = New.
Proof. intros H. rewrite <- (app_nil_r l). by rewrite phase_quiet. Qed.

Lemma planned_quiet u l r : (forall o, o ∈ l -> ~ about u o) -> each (plan_at u) (l ++ r) -> phase u r <> New ->
  planned u (l ++ r) = planned u r.
Proof.
  induction l as [|o l IH]; [done|]. intros H He Hp. cbn [app each] in *. destruct He as [Ho He].
  assert (forall o, o ∈ l -> ~ about u o) as H' by (intros; apply H; by right).
  specialize (IH H' He Hp). specialize (H o (elem_of_list_here _ _)).
  destruct o; cbn in *; auto.
  - case (N.eqb_spec uid u) as [->|]; [|done]. rewrite (phase_quiet u l r H') in Ho. by specialize (Ho eq_refl).
  - case (N.eqb_spec uid u) as [->|]; done.
Qed.

(** A task that is not on the wheel yet was not put back either. *)
Lemma new_plan u l i k g d : each (ok_at u) l -> phase u l = New -> plan_of u l = Some (i, k, g, d) ->
  exists r, planned u l = d :: r.
Proof.
  induction l as [|o l IH]; [done|]. cbn [each]. intros [Ho He] Hp Hpl.
  destruct o; cbn [phase plan_of planned] in *; auto.
  all: destruct (uid =? u); try done; auto. simplify_eq. eauto.
Qed.

(** A waiting task: where it comes from. *)
Lemma wait_from u l D : each (ok_at u) l -> each (plan_at u) l -> phase u l = Wait D ->
  (exists m1 i it ts d m2, l = m1 ++ OPark u i it ts d :: m2 /\ (forall o, o ∈ m1 -> ~ about u o) /\
     phase u m2 = Busy it ts /\ D = it + 1 + until ts d /\ planned u l = d :: planned u m2) \/
  (exists m1 i n sl c m2, l = m1 ++ OAdded u i n sl c :: m2 /\ (forall o, o ∈ m1 -> ~ about u o) /\
     phase u m2 = New /\ D = due n sl c /\ planned u l = planned u m2).
Proof.
  intros Hok Hpl Hp. destruct (last_about u l) as [H|(m1 & o & m2 & -> & Ha & Hno)]; [rewrite phase_no_about in Hp; done|].
  rewrite phase_quiet in Hp by done. pose proof Hok as Ho. apply (each_split _ m1) in Ho.
  assert (planned u (m1 ++ o :: m2) = planned u (o :: m2)) as Epl.
  { apply planned_quiet; [done|done|]. congruence. }
  destruct o; cbn [about] in Ha; try done; subst; cbn [phase] in Hp; rewrite N.eqb_refl in Hp; simplify_eq.
  - right. do 6 eexists. split; [done|]. split; [done|]. split; [by apply Ho|]. split; [done|]. rewrite Epl. done.
  - left. do 6 eexists. split; [done|]. split; [done|]. split; [by apply Ho|]. split; [done|]. rewrite Epl. cbn. by rewrite N.eqb_refl.
Qed.
Lemma busy_from u l it ts : each (plan_at u) l -> phase u l = Busy it ts ->
  exists m1 o m2, l = m1 ++ o :: m2 /\ (forall o, o ∈ m1 -> ~ about u o) /\ runs_at u it ts o /\
    planned u l = planned u m2.
Proof.
  intros Hpl Hp. destruct (last_about u l) as [H|(m1 & o & m2 & -> & Ha & Hno)]; [rewrite phase_no_about in Hp; done|].
  rewrite phase_quiet in Hp by done.
  assert (planned u (m1 ++ o :: m2) = planned u (o :: m2)) as Epl.
  { apply planned_quiet; [done|done|]. congruence. }
  destruct o; cbn [about] in Ha; try done; subst; cbn [phase] in Hp; rewrite N.eqb_refl in Hp; simplify_eq.
  all: do 3 eexists; split; [done|]; split; [done|]; split; [done|]; rewrite Epl; done.
Qed.

Lemma run_phase u l1 it ts o l2 : each (ok_at u) (l1 ++ o :: l2) -> runs_at u it ts o -> phase u l2 = Wait it.
Proof. intros H Ho. apply (each_split _ l1) in H. destruct o; cbn in *; try done; destruct Ho as (-> & -> & ->); auto. Qed.

(** If the due times planned by add_task fit, no run and no re-arming takes place in iteration 0. *)
Lemma wait_pos u l D : each (ok_at u) l -> each (plan_at u) l -> each added_at l -> (forall i k g d, OPlan u i k g d ∈ l -> d + SLOTS < U64) ->
  phase u l = Wait D -> 0 < D.
Proof.
  intros Hok Hpl Had Hg Hw.
  destruct (wait_from _ _ _ Hok Hpl Hw) as [(m1 & i & it1 & ts1 & d & m2 & El2 & Hno & Hb & HD & Ep)|(m1 & i & n & sl & c & m2 & El2 & Hno & Hb & HD & Ep)]; [lia|].
  subst l. apply (each_split _ m1) in Had. destruct Had as (k & g & d & Hp & Hk & Hplo).
  assert (OPlan u i k g d ∈ m1 ++ OAdded u i n sl c :: m2) as Hin.
  { apply elem_of_app. right. right. clear -Hp. induction m2 as [|o m IH]; [done|].
    destruct o; cbn in Hp; try (right; by apply IH). case (N.eqb_spec uid u) as [->|]; [simplify_eq; left|right; by apply IH]. }
  destruct (Hplo (Hg _ _ _ _ Hin)) as [-> ->].
  fold (arrival k n (add_distance d g i)) in HD. pose proof (arrival_ge k n (add_distance d g i) Hk). clear -HD H. lia.
Qed.
Lemma run_pos u l1 o it ts l2 : each (ok_at u) (l1 ++ o :: l2) -> each (plan_at u) (l1 ++ o :: l2) -> each added_at (l1 ++ o :: l2) ->
  (forall i k g d, OPlan u i k g d ∈ l1 ++ o :: l2 -> d + SLOTS < U64) -> runs_at u it ts o -> 0 < it.
Proof.
  intros Hok Hpl Had Hg Hr. pose proof (run_phase _ _ _ _ _ _ Hok Hr) as Hw.
  apply each_app in Hok as [_ Hok]. apply each_app in Hpl as [_ Hpl]. apply each_app in Had as [_ Had].
  eapply wait_pos; [exact Hok|exact Hpl|exact Had| |exact Hw]. intros i k g d Hin. apply (Hg i k g). apply elem_of_app. right. by right.
Qed.

(* ------------------------------------------------------------------ *)
(** ** Due times of the runs *)

(** A run never precedes the due time it belongs to. *)
Theorem never_early pf t0 t1 b s t o it ts l1 l2 :
  reachable pf t0 t1 s -> submitted t (log s) -> quiet t (log s) -> near (t_uid t) (log s) ->
  steady b (log s) ->
  (forall i k g d, OPlan (t_uid t) i k g d ∈ log s -> g <= b + k + 1 /\ d + SLOTS < U64) ->
  log s = l1 ++ o :: l2 -> runs_at (t_uid t) it ts o ->
  exists d r, planned (t_uid t) l2 = d :: r /\ d <= ts.
Proof.
  intros Hr Hs Hq Hn Hst Hg El Hrun.
  pose proof (ok_at_reach _ _ _ _ _ Hr Hs Hq Hn) as Hok. pose proof (plan_at_reach _ _ _ _ _ Hr Hs Hq Hn) as Hpl.
  pose proof (proj2 (added_reach _ _ _ _ Hr)) as Had. pose proof (clk_reach _ _ _ _ Hr) as Hc.
  pose proof (id_reach _ _ _ _ _ Hr Hs) as Hid.
  assert (ts = b + it) as ->.
  { apply Hst.
    - assert (o ∈ log s) as Hin by (rewrite El; apply elem_of_app; right; left).
      apply (ck_entry _ _ Hc) in Hin. destruct o; cbn in *; try done; destruct Hrun as (-> & -> & ->); done.
    - rewrite El in Hok, Hpl, Had. eapply run_pos; [exact Hok|exact Hpl|exact Had| |exact Hrun]. rewrite <- El. intros i k g d Hd. by destruct (Hg _ _ _ _ Hd). }
  rewrite El in Hok, Hpl, Had.
  pose proof (run_phase _ _ _ _ _ _ Hok Hrun) as Hw.
  assert (each (ok_at (t_uid t)) l2) as Hok2 by (apply each_app in Hok; by destruct Hok).
  assert (each (plan_at (t_uid t)) l2) as Hpl2 by (apply each_app in Hpl; by destruct Hpl).
  assert (each added_at l2) as Had2 by (apply each_app in Had; by destruct Had).
  assert (forall x, x ∈ l2 -> x ∈ log s) as Hin2 by (intros x Hx; rewrite El; apply elem_of_app; right; by right).
  destruct (wait_from _ _ _ Hok2 Hpl2 Hw) as [(m1 & i & it1 & ts1 & d & m2 & El2 & Hno & Hb & HD & Ep)|(m1 & i & n & sl & c & m2 & El2 & Hno & Hb & HD & Ep)].
  - exists d, (planned (t_uid t) m2). split; [done|].
    assert (ts1 = b + it1) as ->.
    { apply Hst.
      - assert (OPark (t_uid t) i it1 ts1 d ∈ log s) as Hin by (apply Hin2; rewrite El2; apply elem_of_app; right; left).
        by apply (ck_entry _ _ Hc) in Hin.
      - assert (each (plan_at (t_uid t)) m2) as Hpl3 by (rewrite El2 in Hpl2; apply each_app in Hpl2; by destruct Hpl2).
        destruct (busy_from _ _ _ _ Hpl3 Hb) as (q1 & o' & q2 & Em2 & _ & Ro' & _).
        assert (log s = (l1 ++ o :: m1 ++ OPark (t_uid t) i it1 ts1 d :: q1) ++ o' :: q2) as El3.
        { rewrite El, El2, Em2. rewrite <- !app_assoc. cbn. by rewrite <- !app_assoc. }
        rewrite <- El, El3 in Hok, Hpl, Had. eapply run_pos; [exact Hok|exact Hpl|exact Had| |exact Ro']. rewrite <- El3. intros i' k g d' Hd. by destruct (Hg _ _ _ _ Hd). }
    subst it. unfold until. destruct (b + it1 <=? d) eqn:E; lia.
  - rewrite El2 in Had2, Hok2. apply (each_split _ m1) in Had2. destruct Had2 as (k & g & d & Hp & Hk & Hplo).
    assert (each (ok_at (t_uid t)) m2) as Hok3 by (apply each_app in Hok2; by destruct Hok2).
    destruct (new_plan _ _ _ _ _ _ Hok3 Hb Hp) as [r Er]. exists d, r. split; [congruence|].
    assert (OPlan (t_uid t) i k g d ∈ log s) as Hin.
    { apply Hin2. rewrite El2. apply elem_of_app. right. right. clear -Hp. induction m2 as [|o m IH]; [done|].
      destruct o; cbn in Hp; try (right; by apply IH). case (N.eqb_spec uid (t_uid t)) as [->|]; [simplify_eq; left|right; by apply IH]. }
    destruct (Hg _ _ _ _ Hin) as [Hg1 Hg2]. destruct (Hplo Hg2) as [-> ->].
    fold (arrival k n (add_distance d g i)) in HD. pose proof (arrival_ge k n (add_distance d g i) Hk).
    subst it. unfold add_distance, checked_sub in *. destruct (g <=? d) eqn:E; lia.
Qed.

(* ------------------------------------------------------------------ *)
(** ** Interval tasks *)

Lemma split_unique {A} (P : A -> Prop) (a c : list A) x y b d : (forall z, z ∈ a -> ~ P z) -> (forall z, z ∈ c -> ~ P z) ->
  P x -> P y -> a ++ x :: b = c ++ y :: d -> a = c /\ x = y /\ b = d.
Proof.
  revert c. induction a as [|z a IH]; intros [|w c] Ha Hc Hx Hy E; cbn in E; simplify_eq.
  - done.
  - exfalso. apply (Hc w); [left|done].
  - exfalso. apply (Ha y); [left|done].
  - destruct (IH c) as (-> & -> & ->); auto; intros z' Hz; [apply Ha|apply Hc]; by right.
Qed.

Lemma new_no_about u l o : phase u l = New -> o ∈ l -> ~ about u o.
Proof.
  intros Hp. induction l as [|x l IH]; [by intros ?%elem_of_nil|].
  destruct (decide (about u x)) as [Ha|Ha].
  { exfalso. destruct x; cbn in Ha; try done; subst; cbn in Hp; rewrite N.eqb_refl in Hp; done. }
  change (x :: l) with ([x] ++ l) in Hp. rewrite phase_quiet in Hp by (by intros ? ->%elem_of_list_singleton).
  intros [->|?]%elem_of_cons; auto.
Qed.

Lemma planned_app u l r : exists x, planned u (l ++ r) = x ++ planned u r.
Proof.
  induction l as [|o l [x IH]]; [by exists []|].
  destruct o; cbn; eauto; destruct (_ =? _); eauto; rewrite IH; [exists (due :: x)|exists (due :: x)]; done.
Qed.
Lemma times_suffix st p x y n : x ++ y = times st p n -> y = times st p (length y).
Proof.
  revert n. induction x as [|a x IH]; intros n E; cbn in E.
  - subst. f_equal. clear. induction n; cbn; congruence.
  - destruct n; [done|]. cbn in E. simplify_eq. eauto.
Qed.
Lemma times_in st p n d : d ∈ times st p n -> st + N.of_nat n * p < U64 -> st <= d <= st + N.of_nat n * p.
Proof.
  induction n as [|n IH]; cbn [times]; [by intros ?%elem_of_nil|].
  rewrite Nat2N.inj_succ, N.mul_succ_l. intros [->|Hin]%elem_of_cons Hf.
  - rewrite N.mod_small by lia. lia.
  - specialize (IH Hin ltac:(lia)). lia.
Qed.

Lemma planned_in u l d : d ∈ planned u l <-> (exists i k g, OPlan u i k g d ∈ l) \/ exists i it ts, OPark u i it ts d ∈ l.
Proof.
  induction l as [|o l IH].
  - cbn. split; [by intros ?%elem_of_nil|]. by intros [(? & ? & ? & ?%elem_of_nil)|(? & ? & ? & ?%elem_of_nil)].
  - assert ((d ∈ planned u l) -> (exists i k g, OPlan u i k g d ∈ o :: l) \/ exists i it ts, OPark u i it ts d ∈ o :: l) as Hx.
    { rewrite IH. intros [(a & b & c & ?)|(a & b & c & ?)]; [left|right]; exists a, b, c; by right. }
    split.
    + destruct o; cbn [planned]; auto; case (N.eqb_spec uid u) as [->|]; auto; intros [->|?]%elem_of_cons; auto.
      * left. do 3 eexists. left.
      * right. do 3 eexists. left.
    + assert (d ∈ planned u l -> d ∈ planned u (o :: l)) as Hy.
      { destruct o; cbn; auto; destruct (_ =? _); auto; intros; by right. }
      intros [(a & b & c & [<-|H]%elem_of_cons)|(a & b & c & [<-|H]%elem_of_cons)].
      * cbn. rewrite N.eqb_refl. left.
      * apply Hy, IH. eauto.
      * cbn. rewrite N.eqb_refl. left.
      * apply Hy, IH. eauto 6.
Qed.


Lemma fits_due pf t0 t1 s t st p d : reachable pf t0 t1 s -> submitted t (log s) -> interval (t_freq t) = Some (st, p) ->
  fits t st p (log s) -> d ∈ planned (t_uid t) (log s) -> d + SLOTS < U64.
Proof.
  intros Hr Hs Hi Hf Hd. unfold fits in Hf. rewrite (planned_times _ _ _ _ _ _ _ Hr Hs Hi ltac:(lia)) in Hd.
  apply times_in in Hd; lia.
Qed.
Lemma fits_near pf t0 t1 s t st p : reachable pf t0 t1 s -> submitted t (log s) -> interval (t_freq t) = Some (st, p) ->
  fits t st p (log s) -> near (t_uid t) (log s).
Proof. intros Hr Hs Hi Hf i it ts d Hd. eapply fits_due; eauto. apply planned_in. eauto. Qed.

Lemma wait_planned u l D : each (ok_at u) l -> each (plan_at u) l -> each added_at l -> phase u l = Wait D ->
  exists d r, planned u l = d :: r.
Proof.
  intros Hok Hpl Had Hw.
  destruct (wait_from _ _ _ Hok Hpl Hw) as [(m1 & i & it1 & ts1 & d & m2 & El2 & Hno & Hb & HD & Ep)|(m1 & i & n & sl & c & m2 & El2 & Hno & Hb & HD & Ep)]; [eauto|].
  subst l. apply (each_split _ m1) in Had. destruct Had as (k & g & d & Hp & Hk & Hplo).
  apply each_app in Hok as [_ Hok]. destruct (new_plan _ _ _ _ _ _ Hok Hb Hp) as [r Er]. exists d, r. congruence.
Qed.

(** The next run after a run. *)
Theorem consecutive pf t0 t1 s t l1 o2 it2 ts2 m o1 it1 ts1 l2 :
  reachable pf t0 t1 s -> submitted t (log s) -> quiet t (log s) -> near (t_uid t) (log s) ->
  log s = l1 ++ o2 :: m ++ o1 :: l2 ->
  runs_at (t_uid t) it1 ts1 o1 -> runs_at (t_uid t) it2 ts2 o2 -> ~ has_run (t_uid t) m ->
  exists d e r, planned (t_uid t) l2 = d :: r /\ planned (t_uid t) (m ++ o1 :: l2) = e :: d :: r /\
    it2 = it1 + 1 + until ts1 e.
Proof.
  intros Hr Hs Hq Hn El R1 R2 Hnr. set (u := t_uid t) in *.
  pose proof (ok_at_reach _ _ _ _ _ Hr Hs Hq Hn) as Hok. pose proof (plan_at_reach _ _ _ _ _ Hr Hs Hq Hn) as Hpl.
  pose proof (proj2 (added_reach _ _ _ _ Hr)) as Had.
  rewrite El in Hok, Hpl, Had. pose proof (run_phase _ _ _ _ _ _ Hok R2) as Hw.
  apply each_app in Hok as [_ Hok]. apply each_app in Hpl as [_ Hpl]. apply each_app in Had as [_ Had].
  assert (forall z, runs_at u it1 ts1 z -> is_run u z) as Hrr by (intros []; cbn; try done; by intros (-> & _)).
  destruct (wait_from _ _ _ Hok Hpl Hw) as [(m1 & i & it' & ts' & d' & m2 & El2 & Hno & Hb & HD & Ep)|(m1 & i & n & sl & c & m2 & El2 & Hno & Hb & HD & Ep)].
  - assert (each (plan_at u) m2) as Hpl2 by (rewrite El2 in Hpl; by apply each_app in Hpl as [_ ?]).
    destruct (busy_from _ _ _ _ Hpl2 Hb) as (q1 & o' & q2 & Em2 & Hno2 & Ro' & Ep2).
    assert (m = m1 ++ OPark u i it' ts' d' :: q1 /\ o1 = o' /\ l2 = q2) as (-> & -> & ->).
    { apply (split_unique (is_run u)).
      - intros z Hz Hrz. apply Hnr. by exists z.
      - assert (forall z, is_run u z -> about u z) as Ha by (by intros []).
        intros z [Hz|[->|Hz]%elem_of_cons]%elem_of_app Hrz; [by apply (Hno z), Ha|done|by apply (Hno2 z), Ha].
      - auto.
      - destruct o'; cbn in Ro' |- *; try done; by destruct Ro' as (-> & _).
      - rewrite El2, Em2, <- app_assoc. done. }
    assert (it' = it1 /\ ts' = ts1) as [-> ->].
    { destruct o'; cbn in *; try done; naive_solver. }
    assert (exists d r, planned u q2 = d :: r) as (d & r & Er).
    { eapply wait_planned; [| | |eapply (run_phase u)]; [..|exact R1].
      - by apply each_app in Hok as [_ ?].
      - by apply each_app in Hpl as [_ ?].
      - by apply each_app in Had as [_ ?].
      - exact Hok. }
    exists d, d', r. fold u in Ep. rewrite Ep2, Er in Ep. split; [done|]. split; [done|]. done.
  - exfalso. assert (o1 ∈ m1 ++ OAdded (t_uid t) i n sl c :: m2) as Hin by (rewrite <- El2; apply elem_of_app; right; left).
    assert (about u o1) as Ha by (destruct o1; cbn in R1 |- *; try done; by destruct R1).
    apply elem_of_app in Hin as [Hin|[->|Hin]%elem_of_cons]; [by apply (Hno o1)|done|].
    by apply (new_no_about u m2 o1).
Qed.

(** What follows a run. *)
Theorem run_again pf t0 t1 s t l1 o it ts l2 :
  reachable pf t0 t1 s -> submitted t (log s) -> quiet t (log s) -> near (t_uid t) (log s) ->
  log s = l1 ++ o :: l2 -> runs_at (t_uid t) it ts o -> it < iters s ->
  (first_run (t_uid t) l1 = None /\ over pf t s) \/
  exists e, OPark (t_uid t) (t_id t) it ts e ∈ l1 /\
    match first_run (t_uid t) l1 with
    | Some k => k = it + 1 + until ts e
    | None => iters s <= it + 1 + until ts e
    end.
Proof.
  intros Hr Hs Hq Hn El R Hlt.
  pose proof (ok_at_reach _ _ _ _ _ Hr Hs Hq Hn) as Hok.
  assert (run_it (t_uid t) o = Some it) as Hit.
  { destruct o; cbn in R |- *; try done; destruct R as (-> & -> & _); by rewrite N.eqb_refl. }
  assert (phase (t_uid t) (o :: l2) = Busy it ts) as Hb.
  { destruct o; cbn in R |- *; try done; destruct R as (-> & -> & ->); by rewrite N.eqb_refl. }
  assert (forall l, (forall x, x ∈ l -> ~ about (t_uid t) x) -> first_run (t_uid t) l = None) as Hnone.
  { induction l as [|x l IH]; [done|]. intros Hx. cbn [first_run]. rewrite IH by (intros; apply Hx; by right).
    specialize (Hx x (elem_of_list_here _ _)). destruct x; cbn in Hx |- *; try done; by rewrite (proj2 (N.eqb_neq _ _) Hx). }
  assert (forall a b, first_run (t_uid t) (a ++ b) = match first_run (t_uid t) b with Some k => Some k | None => first_run (t_uid t) a end) as Happ.
  { clear. intros a b. induction a as [|x a IH]; cbn [app first_run]; [by destruct (first_run _ b)|]. rewrite IH. by destruct (first_run _ b). }
  destruct (after_run _ _ _ _ _ _ _ _ _ Hr Hs Hq Hn El Hit Hlt) as (m1 & o' & m2 & -> & Hno & Ho').
  rewrite El, <- app_assoc in Hok.
  assert (first_run (t_uid t) (m1 ++ o' :: m2) = first_run (t_uid t) m1) as Hfr.
  { change (o' :: m2) with ([o'] ++ m2). rewrite !Happ, (Hnone m2 Hno). destruct Ho' as [(? & ? & ? & ->)|[[? ->]|[? ->]]]; done. }
  assert (forall x, phase (t_uid t) (x :: m2 ++ o :: l2) = Gone -> each (ok_at (t_uid t)) (m1 ++ x :: m2 ++ o :: l2) -> first_run (t_uid t) m1 = None) as Hgone.
  { clear. intros x Hx He. assert (forall a, each (ok_at (t_uid t)) (a ++ x :: m2 ++ o :: l2) -> phase (t_uid t) (a ++ x :: m2 ++ o :: l2) = Gone /\ first_run (t_uid t) a = None) as H.
    { induction a as [|y a IH]; intros Ha; [done|]. cbn [app each] in Ha. destruct Ha as [Hy Ha]. destruct (IH Ha) as [H1 H2].
      cbn [first_run app]. rewrite H2. destruct (decide (about (t_uid t) y)) as [Hab|Hab].
      - exfalso. destruct y; cbn in Hab; try done; subst; cbn [ok_at] in Hy; try destruct w; rewrite ?H1 in Hy; naive_solver.
      - rewrite phase_other by (destruct y; cbn in *; done). split; [done|]. destruct y; cbn in Hab |- *; try done; by rewrite (proj2 (N.eqb_neq _ _) Hab). }
    by apply H. }
  rewrite Hfr. destruct Ho' as [(i & ts' & d & ->)|[[i ->]|[i ->]]].
  - right. pose proof (each_split _ m1 _ _ Hok) as Hp. cbn in Hp. specialize (Hp eq_refl). rewrite (phase_quiet _ m2) in Hp by done.
    rewrite Hb in Hp. simplify_eq.
    pose proof (id_reach _ _ _ _ _ Hr Hs) as Hid. rewrite Forall_forall in Hid.
    rewrite El, <- app_assoc in Hid. specialize (Hid (OPark (t_uid t) i it ts' d) ltac:(apply elem_of_app; right; left)). cbn in Hid. specialize (Hid eq_refl). subst i.
    exists d. split; [apply elem_of_app; right; left|].
    apply (rearm _ _ _ _ _ m1 (m2 ++ o :: l2) (t_id t) _ _ _ Hr Hs Hq Hn). rewrite El, <- app_assoc. done.
  - left. split; [|eapply (over_end _ _ _ _ _ i); [done|done|done|]; left; rewrite El, <- app_assoc; apply elem_of_app; right; left]. eapply Hgone; [|exact Hok]. cbn. by rewrite N.eqb_refl.
  - left. split; [|eapply (over_end _ _ _ _ _ i); [done|done|done|]; right; rewrite El, <- app_assoc; apply elem_of_app; right; left]. eapply Hgone; [|exact Hok]. cbn. by rewrite N.eqb_refl.
Qed.

(** Interval tasks under a steady clock. *)
Theorem next_after pf t0 t1 b s t st p l1 o2 it2 ts2 m o1 it1 ts1 l2 :
  reachable pf t0 t1 s -> submitted t (log s) -> quiet t (log s) -> steady b (log s) ->
  interval (t_freq t) = Some (st, p) -> fits t st p (log s) ->
  log s = l1 ++ o2 :: m ++ o1 :: l2 ->
  runs_at (t_uid t) it1 ts1 o1 -> runs_at (t_uid t) it2 ts2 o2 -> ~ has_run (t_uid t) m ->
  exists d r, planned (t_uid t) l2 = d :: r /\ planned (t_uid t) (m ++ o1 :: l2) = d + p :: d :: r /\
    ts2 = if ts1 <=? d + p then d + p + 1 else ts1 + 2.
Proof.
  intros Hr Hs Hq Hst Hi Hf El R1 R2 Hnr.
  pose proof (fits_near _ _ _ _ _ _ _ Hr Hs Hi Hf) as Hn.
  destruct (consecutive _ _ _ _ _ _ _ _ _ _ _ _ _ _ Hr Hs Hq Hn El R1 R2 Hnr) as (d & d' & r & Er & Ep & HD).
  set (u := t_uid t) in *. pose proof (clk_reach _ _ _ _ Hr) as Hc.
  assert (forall o it ts, o ∈ log s -> runs_at u it ts o -> ts = b + it) as Hts.
  { intros o it ts Hin Hrun. apply Hst.
    - apply (ck_entry _ _ Hc) in Hin. destruct o; cbn in *; try done; destruct Hrun as (-> & -> & ->); done.
    - pose proof (ok_at_reach _ _ _ _ _ Hr Hs Hq Hn) as Hok. pose proof (plan_at_reach _ _ _ _ _ Hr Hs Hq Hn) as Hpl.
      pose proof (proj2 (added_reach _ _ _ _ Hr)) as Had. apply elem_of_list_split in Hin as (q1 & q2 & Eq). rewrite Eq in Hok, Hpl, Had.
      eapply run_pos; [exact Hok|exact Hpl|exact Had| |exact Hrun]. rewrite <- Eq. intros i k g d0 Hd.
      eapply fits_due; [exact Hr|exact Hs|exact Hi|exact Hf|]. apply planned_in. left. eauto. }
  assert (ts2 = b + it2) as E2 by (eapply Hts; [|exact R2]; rewrite El; apply elem_of_app; right; left).
  assert (ts1 = b + it1) as E1 by (eapply Hts; [|exact R1]; rewrite El; apply elem_of_app; right; right; apply elem_of_app; right; left).
  pose proof (planned_times _ _ _ _ _ _ _ Hr Hs Hi ltac:(unfold fits in Hf; lia)) as Ht. fold u in Ht.
  assert (exists X, planned u (log s) = X ++ planned u (m ++ o1 :: l2)) as [X EX].
  { rewrite El. destruct (planned_app u (l1 ++ [o2]) (m ++ o1 :: l2)) as [X EX]. exists X. rewrite <- EX. by rewrite <- app_assoc. }
  exists d, r. split; [done|]. rewrite Ep in EX |- *. rewrite EX in Ht.
  apply times_suffix in Ht. cbn [length times] in Ht. injection Ht as Hd' Hd _.
  unfold fits in Hf. fold u in Hf. rewrite EX, app_length in Hf. cbn [length] in Hf.
  assert (d' = d + p) as ->.
  { change (d' = (st + N.of_nat (S (length r)) * p) mod U64) in Hd'. subst d d'. rewrite !Nat2N.inj_succ, N.mul_succ_l in *. rewrite Nat2N.inj_add, N.mul_add_distr_r, !Nat2N.inj_succ, !N.mul_succ_l in Hf.
    rewrite !N.mod_small by lia. lia. }
  split; [done|]. unfold until in HD. destruct (ts1 <=? d + p) eqn:E; lia.
Qed.

(** ... for a task that runs on time: exactly one interval later, and on time again. *)
Lemma is_run_dec u o : {is_run u o} + {~ is_run u o}.
Proof. destruct o; cbn; first [apply N.eq_dec|right; tauto]. Qed.
Lemma is_runs u o : is_run u o -> exists it ts, runs_at u it ts o.
Proof. destruct o; cbn; try done; eauto. Qed.

Lemma interval_pos f st p : interval f = Some (st, p) -> 1 <= p.
Proof. destruct f as [| |[]|? []]; cbn; try done; destruct ss_first; intros; simplify_eq; lia. Qed.

Lemma runs_split u l : ~ has_run u l \/ exists m2 o m1, l = m2 ++ o :: m1 /\ is_run u o /\ ~ has_run u m1.
Proof.
  induction l as [|o l [IH|(m2 & o1 & m1 & -> & H1 & H2)]].
  - left. by intros (o & ?%elem_of_nil & _).
  - destruct (is_run_dec u o) as [Ho|Ho].
    + right. by exists [], o, l.
    + left. intros (x & [->|Hx]%elem_of_cons & ?); [done|]. apply IH. by exists x.
  - right. by exists (o :: m2), o1, m1.
Qed.

Theorem on_time_for_ever pf t0 t1 b s t st p l1 o2 it2 ts2 m o1 it1 ts1 l2 d r :
  reachable pf t0 t1 s -> submitted t (log s) -> quiet t (log s) -> steady b (log s) ->
  interval (t_freq t) = Some (st, p) -> fits t st p (log s) ->
  log s = l1 ++ o2 :: m ++ o1 :: l2 -> runs_at (t_uid t) it1 ts1 o1 -> runs_at (t_uid t) it2 ts2 o2 ->
  planned (t_uid t) l2 = d :: r -> ts1 = d + 1 ->
  exists d2 r2, planned (t_uid t) (m ++ o1 :: l2) = d2 :: r2 /\ ts2 = d2 + 1.
Proof.
  intros Hr Hs Hq Hst Hi Hf. pose proof (interval_pos _ _ _ Hi) as Hp.
  remember (length m) as n eqn:En. revert m o1 it1 ts1 l2 d r En.
  induction (lt_wf n) as [n _ IH]. intros m o1 it1 ts1 l2 d r -> El R1 R2 Hpl Ht.
  destruct (runs_split (t_uid t) m) as [Hno|(a & o & b' & -> & Ho & Hb)].
  - destruct (next_after _ _ _ _ _ _ _ _ _ _ _ _ _ _ _ _ _ Hr Hs Hq Hst Hi Hf El R1 R2 Hno) as (d' & r' & E1 & E2 & E3).
    rewrite E1 in Hpl. simplify_eq. exists (d + p), (d :: r). split; [done|]. destruct (d + 1 <=? d + p) eqn:E; lia.
  - destruct (is_runs _ _ Ho) as (it & ts & Ro).
    assert (log s = (l1 ++ o2 :: a) ++ o :: b' ++ o1 :: l2) as El' by (rewrite El; cbn; rewrite <- !app_assoc; done).
    destruct (next_after _ _ _ _ _ _ _ _ _ _ _ _ _ _ _ _ _ Hr Hs Hq Hst Hi Hf El' R1 Ro Hb) as (d' & r' & E1 & E2 & E3).
    rewrite E1 in Hpl. simplify_eq.
    destruct (IH (length a) ltac:(rewrite app_length; cbn; lia) a o it (d + p + 1) (b' ++ o1 :: l2) (d + p) (d :: r)) as (d2 & r2 & F1 & F2); try done.
    + rewrite El. cbn. by rewrite <- !app_assoc.
    + destruct (d + 1 <=? d + p) eqn:E; [done|lia].
    + exists d2, r2. split; [|done]. rewrite <- F1. by rewrite <- !app_assoc.
Qed.

(** The first run is on time (in the second of its due time or the next one) if add_task read the second hand and the time in the same
    second or in consecutive ones, and inserted the task before the hand reached its slot. *)
Theorem first_on_time pf t0 t1 b s t l1 i n sl c l2 x :
  reachable pf t0 t1 s -> submitted t (log s) -> quiet t (log s) -> near (t_uid t) (log s) -> steady b (log s) ->
  log s = l1 ++ OAdded (t_uid t) i n sl c :: l2 -> first_run (t_uid t) l1 = Some x ->
  exists k g d r, plan_of (t_uid t) l2 = Some (t_id t, k, g, d) /\ planned (t_uid t) l2 = d :: r /\
    (d + SLOTS < U64 -> b + k <= g <= b + k + 1 -> g <= d -> k <= n <= k + 1 -> k mod SLOTS + (n - k) <= (d - g + k mod SLOTS + 1) mod SLOTS ->
     b + x = if g =? b + k then d + 1 else d).
Proof.
  intros Hr Hs Hq Hn Hst El Hx.
  destruct (first_run_at _ _ _ _ _ _ _ _ _ _ _ Hr Hs Hq Hn El) as (k & g & d & Hp & Hk & Hf).
  pose proof (ok_at_reach _ _ _ _ _ Hr Hs Hq Hn) as Hok. rewrite El in Hok.
  pose proof (each_split _ _ _ _ Hok) as Hph. cbn in Hph. apply each_app in Hok as [_ Hok].
  destruct (new_plan _ _ _ _ _ _ Hok (Hph eq_refl) Hp) as [r Er].
  exists k, g, d, r. split; [done|]. split; [done|]. intros Hd Hg Hgd Hkn Hsl.
  specialize (Hf Hd). rewrite Hx in Hf. rewrite Hf. clear Hf.
  unfold add_distance, checked_sub. replace (g <=? d) with true by (symmetry; by apply N.leb_le).
  rewrite arrival_exact by done. replace (_ <=? _) with true by (symmetry; by apply N.leb_le). clear -Hg Hgd. destruct (N.eqb_spec g (b + k)); lia.
Qed.
