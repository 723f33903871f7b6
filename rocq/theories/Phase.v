(** The life of a task that is left alone, as read off the log. *)
From Verif Require Import Tactics Inv Own Life Count Quiet Timing Arrival.

(** [New]: not on the wheel yet.  [Wait D]: on the wheel, to be run in iteration [D].
    [Busy it ts]: run (started or skipped) in iteration [it], second [ts], and not yet
    put back.  [Gone]: discarded. *)
Inductive ph := New | Wait (D : N) | Busy (it ts : N) | Gone.

Fixpoint phase (u : N) (lg : list obs) : ph :=
  match lg with
  | [] => New
  | o :: r =>
      match o with
      | OAdded u' _ n sl c => if u' =? u then Wait (due n sl c) else phase u r
      | OPark u' _ it ts d => if u' =? u then Wait (it + 1 + (if ts <=? d then d - ts else 1)) else phase u r
      | OLaunch u' _ _ it ts | OSkip u' _ it ts => if u' =? u then Busy it ts else phase u r
      | OEnd u' _ | ODrop u' _ _ => if u' =? u then Gone else phase u r
      | _ => phase u r
      end
  end.

Lemma expect_phase u lg : expect u lg = match phase u lg with Wait D => Some D | _ => None end.
Proof. induction lg as [|[] r IH]; cbn [expect phase]; try done; by destruct (_ =? u). Qed.
Lemma phase_inst u lg l : Forall inst_obs lg -> phase u (lg ++ l) = phase u l.
Proof. induction 1 as [|[] lg Hx H IH]; try done. Qed.
Lemma phase_other u o l :
  (match o with
   | OPark u' _ _ _ _ | OAdded u' _ _ _ _ | OLaunch u' _ _ _ _ | OSkip u' _ _ _ | OEnd u' _ | ODrop u' _ _ => u' <> u
   | _ => True end) ->
  phase u (o :: l) = phase u l.
Proof. destruct o; cbn [phase]; try done; intros H; apply N.eqb_neq in H; by rewrite H. Qed.

Definition after_start (p : timer_pc) : option loop :=
  match p with TSend l _ _ _ _ | TGate l _ _ _ | TPark l _ _ _ => Some l | _ => None end.

Record pinv (t : task) (s : sys) : Prop := {
  p_new : forall t', t' ∈ coming s -> t_id t' = t_id t -> phase (t_uid t) (log s) = New;
  p_busy : forall t' l, t' ∈ tpc_task (tpc s) -> t_id t' = t_id t -> after_start (tpc s) = Some l ->
     phase (t_uid t) (log s) = Busy (iters s) (l_ts l);
  p_hand : forall it ts, phase (t_uid t) (log s) = Busy it ts -> tpc s <> TDead ->
     exists t' l, t' ∈ tpc_task (tpc s) /\ t_id t' = t_id t /\ after_start (tpc s) = Some l;
  p_iter : forall it ts, phase (t_uid t) (log s) = Busy it ts -> it = iters s;
  p_sub : submitted t (log s) -> phase (t_uid t) (log s) = New -> hpc s = HDead \/
     exists t', t' ∈ coming s /\ t_id t' = t_id t
}.

(** Which entries may follow which. *)
Definition ok_at (u : N) (o : obs) (r : list obs) : Prop :=
  match o with
  | OAdded u' _ _ _ _ => u' = u -> phase u r = New
  | OLaunch u' _ _ it _ | OSkip u' _ it _ => u' = u -> phase u r = Wait it
  | OPark u' _ it ts _ => u' = u -> phase u r = Busy it ts
  | OEnd u' _ => u' = u -> exists it ts, phase u r = Busy it ts
  | ODrop u' _ NoMark => u' = u -> exists it, phase u r = Wait it
  | ODrop u' _ NoDate => u' = u -> phase u r = New \/ exists it ts, phase u r = Busy it ts
  | _ => True
  end.

Lemma pinv_frame t s s' : pinv t s ->
  tpc s' = tpc s -> iters s' = iters s -> phase (t_uid t) (log s') = phase (t_uid t) (log s) ->
  (forall t', t' ∈ coming s' -> t_id t' = t_id t -> phase (t_uid t) (log s) = New) ->
  (submitted t (log s') -> hpc s' = HDead \/ (exists t', t' ∈ coming s' /\ t_id t' = t_id t) \/
     submitted t (log s) /\ hpc s <> HDead /\ ((exists t', t' ∈ coming s /\ t_id t' = t_id t) ->
     exists t', t' ∈ coming s' /\ t_id t' = t_id t)) ->
  pinv t s'.
Proof.
  intros [H1 H2 H3 H5 H4] E1 E2 E3 E4 E5. split; rewrite ?E1, ?E2, ?E3; auto.
  intros Hs Hn. destruct (E5 Hs) as [?|[?|(Hs0 & Hd0 & Hx)]]; auto.
  destruct (H4 Hs0 Hn) as [?|?]; [done|]. auto.
Qed.

Lemma submitted_cons t o lg : (forall e, o <> OSend e) -> submitted t (o :: lg) -> submitted t lg.
Proof. intros H (e & He & Hs). apply elem_of_cons in He as [He|He]; [symmetry in He; by apply H in He|]. exists e; auto. Qed.

(** A step of the scheduler that keeps the task in hand, or takes another one. *)
Lemma pinv_hold t s s' : pinv t s ->
  coming s' = coming s -> hpc s' = hpc s -> (submitted t (log s') -> submitted t (log s)) ->
  phase (t_uid t) (log s') = phase (t_uid t) (log s) ->
  (forall t', t' ∈ tpc_task (tpc s') -> t_id t' = t_id t -> forall l, after_start (tpc s') = Some l ->
     phase (t_uid t) (log s) = Busy (iters s') (l_ts l)) ->
  (forall it ts, phase (t_uid t) (log s) = Busy it ts -> tpc s' <> TDead ->
     exists t' l, t' ∈ tpc_task (tpc s') /\ t_id t' = t_id t /\ after_start (tpc s') = Some l) ->
  (iters s' = iters s \/ forall it ts, phase (t_uid t) (log s) <> Busy it ts) ->
  pinv t s'.
Proof.
  intros [P1 P2 P3 P5 P4] E1 E2 E3 E4 H1 H2 H3. split; rewrite ?E1, ?E2, ?E4; eauto.
  destruct H3 as [->|H3]; [done|]. intros it ts Hb. exfalso. by eapply H3.
Qed.

(** A step of the scheduler with the task itself. *)
Lemma pinv_self t s s' t2 : wf s -> own_inv s -> sole (t_uid t) (t_id t) s -> tinv (t_uid t) (t_id t) s -> tpc_task (tpc s) = [t2] -> t_uid t2 = t_uid t ->
  coming s' = coming s -> phase (t_uid t) (log s') <> New ->
  (forall t', t' ∈ tpc_task (tpc s') -> t_id t' = t_id t -> forall l, after_start (tpc s') = Some l ->
     phase (t_uid t) (log s') = Busy (iters s') (l_ts l)) ->
  (forall it ts, phase (t_uid t) (log s') = Busy it ts -> tpc s' <> TDead ->
     exists t' l, t' ∈ tpc_task (tpc s') /\ t_id t' = t_id t /\ after_start (tpc s') = Some l) ->
  (forall it ts, phase (t_uid t) (log s') = Busy it ts -> it = iters s') ->
  pinv t s'.
Proof.
  intros Hwf Ho Hso Hi Ht E Ec Hn H1 H2 H3. destruct (self_task _ _ s Hwf Ho Hso Hi t2 Ht E) as (Hid & _ & Hnc & _).
  split; rewrite ?Ec; eauto.
  - intros t' Hin Hx. exfalso. by apply (Hnc t').
  - intros _ ?. done.
Qed.

Definition pctx (t : task) (s s' : sys) : Prop :=
  wf s /\ own_inv s /\ sole (t_uid t) (t_id t) s /\ tinv (t_uid t) (t_id t) s /\ pinv t s.

Lemma pinv_timer pf ch rec now t s s' : pctx t s s' -> timer_step pf ch rec now s = Some s' -> pinv t s'.
Proof.
  intros (Hwf & Ho & Hso & Hi & Hp) H. unfold timer_step in H. pose proof Hp as [P1 P2 P3 P5 P4].
  assert (tpc_task (tpc s) = [] -> tpc s <> TDead -> forall it ts, phase (t_uid t) (log s) <> Busy it ts) as Hnb.
  { intros E Hd it ts Hb. destruct (P3 it ts Hb Hd) as (t' & l & Hin & _). rewrite E in Hin. by apply elem_of_nil in Hin. }
  destruct (tpc s) eqn:Hpc.
  - simplify_eq. apply (pinv_hold t s); try done; try (by left); fsimpl.
    all: try (intros t' Hin; destruct (motiv s); by apply elem_of_nil in Hin).
    all: intros it ts Hb; exfalso; by eapply Hnb.
  - simplify_eq. apply (pinv_hold t s); try done; try (by left); fsimpl.
    all: try (intros t' Hin; by apply elem_of_nil in Hin).
    all: intros it ts Hb; exfalso; by eapply Hnb.
  - destruct (wheel s !! l_hand l); [destruct (slot_arrival_time_tasks g)|]; simplify_eq; apply (pinv_hold t s); try done; try (by left); fsimpl.
    all: try (intros t' Hin; by apply elem_of_nil in Hin).
    all: intros it ts Hb; exfalso; by eapply Hnb.
  - destruct ids as [|i0 ids0]; [|destruct ((i0 :: ids0) !! ch); [|done]; destruct (wheel s !! l_hand l) as [m|];
      [destruct (slot_remove_task m n) as [[t2|] m']|]]; simplify_eq; apply (pinv_hold t s); try done; try (by left); fsimpl.
    all: try (intros t' Hin; by apply elem_of_nil in Hin).
    all: intros it ts Hb; exfalso; by eapply Hnb.
  - (* TMaint *)
    assert (tpc_task (tpc s) = [t0]) as Ht by (by rewrite Hpc).
    assert (forall it ts, phase (t_uid t) (log s) <> Busy it ts) as Hnb2.
    { intros it ts Hb. by destruct (P3 it ts Hb) as (t' & l' & _ & _ & ?). }
    destruct (decide (insts s !! rec = None)); [|done].
    destruct (t_maxpar t0) as [mx|]; [destruct (flags s !! t_id t0) as [m|]; [destruct (mx <=? m_num m)|]|]; simplify_eq.
    + destruct (decide (t_uid t0 = t_uid t)) as [E|E].
      * eapply (pinv_self t s); try done; fsimpl; cbn [phase]; rewrite ?E, ?N.eqb_refl; try done; try (by intros ?? [= <- <-]).
        -- intros t' _ _ l0 [= ->]. done.
        -- intros; exists t0, l; split; [apply elem_of_list_here|]. split; [|done].
           by destruct (self_task _ _ s Hwf Ho Hso Hi t0 Ht E) as (Hid & _).
      * pose proof (other_task _ _ s Hso t0 Ht E) as Hne.
        apply (pinv_hold t s); try done; try (by left); fsimpl.
        -- by apply submitted_cons.
        -- by apply phase_other.
        -- intros t' Hin%elem_of_list_singleton Hid. subst. done.
        -- intros it ts Hb. exfalso. by eapply Hnb2.
    + apply (pinv_hold t s); try done; try (by left); fsimpl. intros it ts Hb. exfalso. by eapply Hnb2.
    + destruct (decide (t_uid t0 = t_uid t)) as [E|E].
      * eapply (pinv_self t s); try done; fsimpl; cbn [phase]; rewrite ?E, ?N.eqb_refl; try done; try (by intros ?? [= <- <-]).
      * apply (pinv_hold t s); try done; try (by left); fsimpl.
        -- by apply submitted_cons.
        -- by apply phase_other.
        -- intros it ts Hb. exfalso. by eapply Hnb2.
    + apply (pinv_hold t s); try done; try (by left); fsimpl. intros it ts Hb. exfalso. by eapply Hnb2.
  - (* TSpawn *)
    assert (tpc_task (tpc s) = [t0]) as Ht by (by rewrite Hpc).
    assert (forall it ts, phase (t_uid t) (log s) <> Busy it ts) as Hnb2.
    { intros it ts Hb. by destruct (P3 it ts Hb) as (t' & l' & _ & _ & ?). }
    destruct (get_maximum_running_time pf t0 (l_ts l)); simplify_eq.
    all: destruct (decide (t_uid t0 = t_uid t)) as [E|E].
    + eapply (pinv_self t s); try done; fsimpl; cbn [phase]; rewrite ?E, ?N.eqb_refl; try done; try (by intros ?? [= <- <-]).
      * intros t' _ _ l0 [= ->]. done.
      * intros; exists t0, l; split; [apply elem_of_list_here|]. split; [|done].
           by destruct (self_task _ _ s Hwf Ho Hso Hi t0 Ht E) as (Hid & _).
    + pose proof (other_task _ _ s Hso t0 Ht E) as Hne.
      apply (pinv_hold t s); try done; try (by left); fsimpl.
      * by apply submitted_cons.
      * by apply phase_other.
      * intros t' Hin%elem_of_list_singleton Hid. subst. done.
      * intros it ts Hb. exfalso. by eapply Hnb2.
    + eapply (pinv_self t s); try done; fsimpl; cbn [phase]; rewrite ?E, ?N.eqb_refl; try done; try (by intros ?? [= <- <-]).
    + apply (pinv_hold t s); try done; try (by left); fsimpl.
      * by apply submitted_cons.
      * by apply phase_other.
  - (* TSend *)
    simplify_eq. apply (pinv_hold t s); try done; try (by left); fsimpl.
    + unfold coming. fsimpl. rewrite bind_app. cbn. by rewrite app_nil_r.
    + intros (e' & He & Hs). apply elem_of_cons in He as [He|He]; [|exists e'; auto]. simplify_eq. by destruct Hs as [?|[?|?]].
    + intros t' Hin Hid l' Hl'. by eapply P2.
    + intros it ts Hb _. destruct (P3 it ts Hb) as (t' & l' & ? & ? & ?); [done|]. eauto.
  - (* TGate *)
    assert (tpc_task (tpc s) = [t0]) as Ht by (by rewrite Hpc).
    destruct (down_count_and_set_valid pf t0) as [t'|] eqn:Hdc; [|simplify_eq; apply (pinv_hold t s); try done; by left].
    pose proof (down_count_same _ _ _ Hdc) as (C1 & C2 & _).
    destruct (t_valid t'); simplify_eq.
    + apply (pinv_hold t s); try done; try (by left); fsimpl.
      * intros t2 Hin%elem_of_list_singleton Hid l' Hl'. subst. eapply (P2 t0); [apply elem_of_list_here|congruence|done].
      * intros it ts Hb _. destruct (P3 it ts Hb) as (t2 & l' & Hin & ? & ?); [done|].
        cbn in Hin. apply elem_of_list_singleton in Hin. subst. exists t', l'. split; [apply elem_of_list_here|]. split; [congruence|done].
    + destruct (decide (t_uid t0 = t_uid t)) as [E|E].
      * eapply (pinv_self t s); try done; fsimpl; cbn [phase]; rewrite ?E, ?N.eqb_refl; try done; try (by intros ?? [= <- <-]).
      * apply (pinv_hold t s); try done; try (by left); fsimpl.
        -- by apply submitted_cons.
        -- by apply phase_other.
        -- intros it ts Hb _. exfalso. destruct (P3 it ts Hb) as (t2 & l' & Hin & Hid & ?); [done|].
           cbn in Hin. apply elem_of_list_singleton in Hin. subst. by apply (other_task _ _ s Hso t0 Ht E).
  - (* TPark *)
    assert (tpc_task (tpc s) = [t0]) as Ht by (by rewrite Hpc).
    assert (forall o, (t_uid t0 <> t_uid t -> phase (t_uid t) (o :: log s) = phase (t_uid t) (log s)) -> (forall e, o <> OSend e) ->
      (t_uid t0 = t_uid t -> phase (t_uid t) (o :: log s) <> New /\ forall it ts, phase (t_uid t) (o :: log s) <> Busy it ts) ->
      log s' = o :: log s -> tpc_task (tpc s') = [] -> coming s' = coming s -> hpc s' = hpc s -> iters s' = iters s -> pinv t s') as Hout.
    { intros o Ho1 Ho2 Ho3 El Et Ec Eh Eit.
      destruct (decide (t_uid t0 = t_uid t)) as [E|E].
      - destruct (Ho3 E). eapply (pinv_self t s); try done; rewrite ?El, ?Et; try done; try (intros it ts Hb; exfalso; by eapply H1).
        intros t' Hin%elem_of_nil. done.
      - apply (pinv_hold t s); try done; try (by left); rewrite ?El, ?Et; try done; auto.
        + by apply submitted_cons.
        + intros t' Hin%elem_of_nil. done.
        + intros it ts Hb _. exfalso. destruct (P3 it ts Hb) as (t2 & l' & Hin & Hid & ?); [done|].
          cbn in Hin. apply elem_of_list_singleton in Hin. subst. by apply (other_task _ _ s Hso t0 Ht E). }
    destruct (get_next_exec_timestamp pf t0) as [[[exec|] t']|] eqn:Hnx; [|simplify_eq|simplify_eq; apply (pinv_hold t s); try done; by left].
    + destruct (add64 pf (park_distance exec (l_ts l)) (l_next l)) as [sum|]; [|simplify_eq; apply (pinv_hold t s); try done; by left].
      destruct (wheel s !! (sum mod SLOTS)) as [m|] eqn:Hm.
      2: { exfalso. destruct (wf_wheel s Hwf (sum mod SLOTS)) as [_ Hx]. rewrite Hm in Hx.
         destruct (Hx (slots_lt _)) as [? ?]. done. }
      simplify_eq. eapply Hout; try reflexivity.
      * intros E. apply phase_other. done.
      * done.
      * intros E. cbn [phase]. rewrite E, N.eqb_refl. done.
    + eapply Hout; try reflexivity.
      * intros E. apply phase_other. done.
      * done.
      * intros E. cbn [phase]. rewrite E, N.eqb_refl. done.
  - (* TMark *)
    assert (forall l0, tpc s' = TLoop l ids -> log s' = log s -> coming s' = coming s -> hpc s' = hpc s -> l = l0 -> pinv t s') as Hx.
    { intros l0 E1 E2 E3 E4 _. apply (pinv_hold t s); rewrite ?E1, ?E2; try done; try (right; by apply Hnb).
      all: try (intros t' Hin%elem_of_nil; done).
      all: intros it ts Hb; exfalso; by eapply Hnb. }
    destruct (mark_locked s tid); [done|]. destruct (flags s !! tid); simplify_eq; by eapply Hx.
  - (* TLapse *)
    simplify_eq. apply (pinv_hold t s); try done; try (by left); fsimpl.
    + by apply submitted_cons.
    + intros it ts Hb. exfalso. by eapply Hnb.
    + right. by apply Hnb.
  - done.
  - done.
Qed.

Lemma pinv_handler pf t s s' : pctx t s s' -> src_inv s -> quiet t (log s) -> (submitted t (log s') -> submitted t (log s)) ->
  handler_step pf s = Some s' -> pinv t s'.
Proof.
  intros (Hwf & Ho & Hso & Hi & Hp) [Hsq Hh] Hq Hsub H. unfold handler_step in H. pose proof Hp as [P1 P2 P3 P5 P4].
  pose proof (wf_hpc s Hwf) as Hwh.
  destruct (hpc s) eqn:Hpc.
  - destruct (queue s) as [|e q] eqn:Hqu; [done|]. simplify_eq.
    set (s1 := dispatch e (emit (OPop e) (set_hpub (public_of e) (set_queue q s)))) in *.
    assert (coming s = ev_task e ++ (q ≫= ev_task)) as Hcs by (unfold coming; rewrite Hqu, Hpc; cbn; by rewrite app_nil_r).
    assert (tpc s1 = tpc s /\ iters s1 = iters s /\ phase (t_uid t) (log s1) = phase (t_uid t) (log s) /\
       (coming s1 = (q ≫= ev_task) ++ ev_task e \/ (coming s1 = q ≫= ev_task /\ forall t', t' ∈ ev_task e -> e = EUpdate t')) /\
       hpc s1 <> HDead) as (E1 & E2 & E3 & E4 & E5).
    { clear Hsub. unfold s1, coming. clear s1 Hcs. destruct e; cbn [dispatch]; fsimpl; repeat case_match; inst_shape; fsimpl.
      all: cbn [ev_task hpc_task]; rewrite ?app_nil_r; try (split; [done|]; split; [done|]; split; [rewrite ?phase_inst by done; done|];
         split; [|done]; auto; fail).
      - split; [done|]. split; [done|]. split; [done|]. split; [|done]. right. split; [done|]. intros t' ->%elem_of_list_singleton. done. }
    apply (pinv_frame t s); auto.
    + intros t' Hin Hid. eapply P1; [|exact Hid]. rewrite Hcs. destruct E4 as [E4|[E4 _]]; rewrite E4 in Hin; rewrite !elem_of_app in *; naive_solver.
    + intros Hs. right. right. split; [auto|]. split; [congruence|].
      intros (t' & Hin & Hid). exists t'. split; [|done]. rewrite Hcs in Hin.
      destruct E4 as [E4|[E4 Hu]]; rewrite E4; rewrite !elem_of_app in *; [naive_solver|].
      destruct Hin as [Hin|Hin]; [|done]. exfalso. rewrite (Hu _ Hin) in *.
      assert (sent (EUpdate t') (log s)) as Hse.
      { apply Hsq. rewrite ?Hqu. apply elem_of_list_here. }
      destruct (Hq _ Hse Hid); done.
  - (* HAdd1 *)
    assert (t0 ∈ coming s) as Hin by (apply coming_hpc; rewrite Hpc; constructor).
    destruct (get_next_exec_timestamp pf t0) as [[[exec|] t']|] eqn:Hnx.
    + destruct (let! a := add64 pf (add_distance exec (gtime s) (t_id t0)) h in add64 pf a 1) as [seed|]; simplify_eq.
      * apply core_next in Hnx as (C1 & C2 & _).
        apply (pinv_frame t s); try done; unfold coming; fsimpl; cbn [hpc_task].
        -- intros t2 Ht2 Hid. apply elem_of_app in Ht2 as [Ht2|Ht2].
           ++ apply (P1 t2); [|done]. unfold coming. rewrite elem_of_app. auto.
           ++ apply elem_of_list_singleton in Ht2 as ->. apply (P1 t0); [done|]. cbn in Hid. congruence.
        -- intros Hs. right. right. split; [by apply Hsub|]. split; [congruence|]. rewrite Hpc. cbn [hpc_task].
           intros (t2 & Ht2 & Hid). apply elem_of_app in Ht2 as [Ht2|Ht2].
           ++ exists t2. rewrite elem_of_app. auto.
           ++ apply elem_of_list_singleton in Ht2 as ->. eexists. rewrite elem_of_app. split; [right; apply elem_of_list_here|]. cbn. congruence.
      * apply (pinv_frame t s); try done; unfold coming; fsimpl; cbn [hpc_task]; [|auto].
        intros t2 Ht2. apply (P1 t2). rewrite app_nil_r in Ht2. unfold coming. rewrite elem_of_app. auto.
    + simplify_eq.
      assert (phase (t_uid t) (log (complete false (abandon_opt c (emit (ODrop (t_uid t0) (t_id t0) NoDate) s)))) =
         phase (t_uid t) (ODrop (t_uid t0) (t_id t0) NoDate :: log s)) as Eph by (fsimpl; destruct (hpub s); done).
      destruct (decide (t_uid t0 = t_uid t)) as [E|E].
      * assert (phase (t_uid t) (ODrop (t_uid t0) (t_id t0) NoDate :: log s) = Gone) as Eg by (cbn [phase]; by rewrite E, N.eqb_refl).
        rewrite Eg in Eph. clear Eg.
        assert (t_id t0 = t_id t) as Hid0 by (apply Hso; [by apply in_coming|done]).
        split; rewrite ?Eph.
        -- unfold coming. fsimpl. cbn [hpc_task]. intros t2 Ht2 Hid. rewrite app_nil_r in Ht2. exfalso.
           assert (t_uid t0 = t_uid t2) as Eu.
           { rewrite E. symmetry. apply Hso; [|done]. apply in_coming. unfold coming. rewrite elem_of_app. auto. }
           eapply (own4 s t0 t2 Ho Eu); [|exact Ht2]. rewrite Hpc. constructor.
        -- fsimpl. intros t2 l Ht2 Hid Hl. exfalso. eapply (sole_coming_tpc _ _ s t0 t2); eauto.
        -- intros it ts [=].
        -- intros it ts [=].
        -- intros _ [=].
      * rewrite phase_other in Eph by done.
        apply (pinv_frame t s); try done; unfold coming; fsimpl; cbn [hpc_task].
        -- intros t2 Ht2. apply (P1 t2). rewrite app_nil_r in Ht2. unfold coming. rewrite elem_of_app. auto.
        -- intros Hs. right. right. split; [by apply Hsub|]. split; [congruence|]. rewrite Hpc. cbn [hpc_task].
           intros (t2 & Ht2 & Hid). apply elem_of_app in Ht2 as [Ht2|Ht2].
           ++ exists t2. rewrite elem_of_app. auto.
           ++ apply elem_of_list_singleton in Ht2 as ->. exfalso. apply E, Hso; [by apply in_coming|done].
    + simplify_eq. apply (pinv_frame t s); try done; unfold coming; fsimpl; cbn [hpc_task]; [|auto].
      intros t2 Ht2. apply (P1 t2). rewrite app_nil_r in Ht2. unfold coming. rewrite elem_of_app. auto.
  - (* HAdd2 *)
    assert (t0 ∈ coming s) as Hin by (apply coming_hpc; rewrite Hpc; constructor).
    destruct (wheel s !! sl) as [m|] eqn:Hm.
    2: { exfalso. destruct (wf_wheel s Hwf sl) as [_ Hx]. rewrite Hm in Hx. cbn in Hwh.
         destruct (Hx Hwh) as [? ?]. done. }
    simplify_eq.
    destruct (decide (t_uid t0 = t_uid t)) as [E|E].
    + assert (t_id t0 = t_id t) as Hid0 by (apply Hso; [by apply in_coming|done]).
      split; fsimpl; cbn [phase]; rewrite ?E, ?N.eqb_refl; try done; try (by intros ?? [= <- <-]).
      * unfold coming. fsimpl. cbn [hpc_task]. intros t2 Ht2 Hid. rewrite app_nil_r in Ht2. exfalso.
        assert (t_uid t0 = t_uid t2) as Eu.
        { rewrite E. symmetry. apply Hso; [|done]. apply in_coming. unfold coming. rewrite elem_of_app. auto. }
        eapply (own4 s t0 t2 Ho Eu); [|exact Ht2]. rewrite Hpc. constructor.
      * intros t2 l Ht2 Hid Hl. exfalso. eapply (sole_coming_tpc _ _ s t0 t2); eauto.
    + apply (pinv_frame t s); try done; unfold coming; fsimpl; cbn [hpc_task].
      * by apply phase_other.
      * intros t2 Ht2. apply (P1 t2). rewrite app_nil_r in Ht2. unfold coming. rewrite elem_of_app. auto.
      * intros Hs. right. right. split; [by apply Hsub|]. split; [congruence|]. rewrite Hpc. cbn [hpc_task].
        intros (t2 & Ht2 & Hid). apply elem_of_app in Ht2 as [Ht2|Ht2].
        -- exists t2. rewrite elem_of_app. auto.
        -- apply elem_of_list_singleton in Ht2 as ->. exfalso. apply E, Hso; [by apply in_coming|done].
  - (* HAdd3 *)
    simplify_eq. apply (pinv_frame t s); try done; unfold coming; fsimpl; cbn [hpc_task].
    + destruct (hpub s); done.
    + intros t2 Ht2. apply (P1 t2). rewrite app_nil_r in Ht2. unfold coming. rewrite elem_of_app. auto.
    + intros Hs. right. right. split; [by apply Hsub|]. split; [congruence|]. rewrite Hpc. cbn [hpc_task]. done.
  - (* HUpd *)
    cbn in Hh. apply (quiet_not_named t) in Hh; [|done..]. cbn in Hh.
    simplify_eq. apply (pinv_frame t s); try done; unfold coming; fsimpl; cbn [hpc_task].
    + destruct (hpub s); done.
    + intros t2 Ht2. apply (P1 t2). rewrite app_nil_r in Ht2. unfold coming. rewrite elem_of_app. auto.
    + intros Hs. right. right. split; [by apply Hsub|]. split; [congruence|]. rewrite Hpc. cbn [hpc_task].
      intros (t2 & Ht2 & Hid). exists t2. rewrite elem_of_app in Ht2. rewrite elem_of_list_singleton in Ht2. rewrite elem_of_app. naive_solver.
  - (* HAdv1 *)
    cbn in Hh. apply (quiet_not_named t) in Hh; [|done..]. cbn in Hh, Hwh. unfold slot_remove_task in H.
    destruct (wheel s !! sl) as [m|] eqn:Hm; [destruct (m !! tid) as [t0|] eqn:Hmt|]; simplify_eq.
    all: apply (pinv_frame t s); try done; unfold coming; fsimpl; cbn [hpc_task].
    all: try (destruct (hpub s); done).
    all: try (intros t2 Ht2; apply (P1 t2); rewrite app_nil_r in Ht2; unfold coming; rewrite elem_of_app; auto; fail).
    all: try (intros Hs; right; right; split; [by apply Hsub|]; split; [congruence|]; rewrite Hpc; cbn [hpc_task];
      intros (t2 & Ht2 & Hid); exists t2; rewrite app_nil_r in *; rewrite ?elem_of_app; auto; fail).
    intros t2 [Ht2|Ht2]%elem_of_app Hid.
    + apply (P1 t2); [|done]. unfold coming. rewrite elem_of_app; auto.
    + exfalso. apply elem_of_list_singleton in Ht2 as ->. cbn in Hid. apply Hh. rewrite <- Hid. symmetry. eapply wf_key; eauto.
  - (* HAdv2 *)
    simplify_eq. apply (pinv_frame t s); try done; unfold coming; fsimpl; cbn [hpc_task].
    + intros t2 Ht2. apply (P1 t2). unfold coming. by rewrite Hpc.
    + intros Hs. right. right. split; [by apply Hsub|]. split; [congruence|]. rewrite Hpc. cbn [hpc_task]. done.
  - (* HAdv3 *)
    cbn in Hh. apply (quiet_not_named t) in Hh; [|done..]. cbn in Hh, Hwh.
    destruct (wheel s !! sl) as [m|] eqn:Hm; simplify_eq.
    all: apply (pinv_frame t s); try done; unfold coming; fsimpl; cbn [hpc_task].
    all: try (destruct (hpub s); done).
    all: try (intros t2 Ht2; apply (P1 t2); rewrite app_nil_r in Ht2; unfold coming; rewrite elem_of_app; auto; fail).
    all: intros Hs; right; right; split; [by apply Hsub|]; split; [congruence|]; rewrite Hpc; cbn [hpc_task].
    all: intros (t2 & Ht2 & Hid); exists t2; rewrite elem_of_app in Ht2; rewrite elem_of_list_singleton in Ht2; rewrite elem_of_app; naive_solver.
  - (* HRem1 *)
    destruct (wheel s !! sl) as [m|] eqn:Hm; simplify_eq.
    all: apply (pinv_frame t s); try done; unfold coming; fsimpl; cbn [hpc_task].
    all: try (destruct (hpub s); done).
    all: try (intros t2 Ht2; apply (P1 t2); rewrite app_nil_r in Ht2; unfold coming; rewrite elem_of_app; auto; fail).
    all: try (intros Hs; right; right; split; [by apply Hsub|]; split; [congruence|]; rewrite Hpc; cbn [hpc_task];
      intros (t2 & Ht2 & Hid); exists t2; rewrite app_nil_r in *; rewrite ?elem_of_app; auto; fail).
  - (* HRem2 *)
    simplify_eq. apply (pinv_frame t s); try done; unfold coming; fsimpl; cbn [hpc_task].
    + destruct (hpub s); [destruct ok|]; done.
    + intros t2 Ht2. apply (P1 t2). rewrite app_nil_r in Ht2. unfold coming. rewrite elem_of_app. auto.
    + intros Hs. right. right. split; [by apply Hsub|]. split; [congruence|]. rewrite Hpc. cbn [hpc_task]. done.
  - done.
Qed.

Lemma phase_used_step pf lb s s' u : own_inv s -> step pf lb s = Some s' -> u ∉ used s' ->
  phase u (log s) = New -> phase u (log s') = New.
Proof.
  intros Ho Hs Hu Hp. pose proof (used_step _ _ _ _ Hs) as Hus.
  assert (forall t', t' ∈ held s -> t_uid t' <> u) as Hne.
  { intros t' Hin <-. apply Hu, Hus, Ho. by apply elem_of_list_fmap_1. }
  assert (forall t', t' ∈ tpc_task (tpc s) -> t_uid t' <> u) as H1 by (intros; apply Hne; by apply in_tpc).
  assert (forall t', t' ∈ hpc_task (hpc s) -> t_uid t' <> u) as H2 by (intros; apply Hne; apply in_coming; by apply coming_hpc).
  clear Hus Hne Hu Ho. step_inv Hs; inst_shape; fsimpl; rewrite ?phase_inst by done; try done.
  all: try (rewrite phase_other by (first [apply H1; apply elem_of_list_here|apply H2; apply elem_of_list_here]); done).
  all: try (destruct (hpub s); try destruct ok; try done).
  all: try (change (phase u (ODrop (t_uid t) (t_id t) NoDate :: log s) = New); rewrite phase_other by (apply H2; apply elem_of_list_here); done).
Qed.
Lemma phase_used pf t0 t1 s u : reachable pf t0 t1 s -> u ∉ used s -> phase u (log s) = New.
Proof.
  revert s. apply (reach_ind pf t0 t1 (fun s => u ∉ used s -> phase u (log s) = New)); [done|].
  intros lb s1 s2 Hr IH Hs Hu. eapply phase_used_step; eauto using own_reach. apply IH. intros Hx. apply Hu.
  by eapply used_step.
Qed.

Lemma pinv_step pf lb s s' t : (t_uid t ∉ used s -> phase (t_uid t) (log s) = New) -> wf s -> own_inv s -> cnt_inv s -> src_inv s ->
  step pf lb s = Some s' -> only t (log s') -> tinv (t_uid t) (t_id t) s -> pinv t s -> pinv t s'.
Proof.
  intros Hfr Hwf Ho Hc Hsrc Hs Hon' Hi Hp. pose proof (only_anti _ _ _ _ _ Hs Hon') as Hon.
  pose proof (only_sole s t Hc Hon) as Hso.
  destruct (match lb with LTimer _ _ _ | LHandler | LRoutinePanic => true | _ => false end) eqn:Hlb.
  - destruct lb; try done.
    + eapply pinv_timer; eauto. done.
    + cbn [step] in Hs. unfold routine_panic in Hs. destruct (tpc s) eqn:Hpc; simplify_eq. apply (pinv_hold t s); try done; by left.
    + eapply pinv_handler; eauto; [done|apply Hon|].
      intros Hx. destruct (submitted_step _ _ _ _ _ Hs Hx) as [?|[([|[]] & _) _]]; done.
  - assert (tpc s' = tpc s /\ iters s' = iters s /\ hpc s' = hpc s) as (E1 & E3 & E5).
    { clear Hon'. step_inv Hs; try done. }
    assert (phase (t_uid t) (log s') = phase (t_uid t) (log s)) as E6.
    { clear Hon' Hsrc E1 E3 E5. step_inv Hs; try done. }
    assert (forall t', t' ∈ coming s -> t' ∈ coming s') as Hmono.
    { unfold coming. rewrite E5. clear Hon' Hsrc E1 E3 E5 E6. intros t'. rewrite !elem_of_app.
      step_inv Hs; try discriminate Hlb; fsimpl; rewrite ?bind_app, ?elem_of_app; auto; intros [?|?]; auto. }
    assert (forall t', is_submit lb s t' -> t' ∈ coming s') as Hnew.
    { unfold coming. rewrite E5. clear Hon' Hsrc E1 E3 E5 E6. intros t' ([->|[->| ->]] & Hf & Hu); cbn [step] in Hs;
      unfold submit_insert, submit, option_map in Hs; repeat case_match; simplify_eq; fsimpl; rewrite bind_app, !elem_of_app;
        left; right; cbn; apply elem_of_list_here. }
    assert (forall t', is_submit lb s t' -> t_id t' = t_id t -> t' = t /\ phase (t_uid t) (log s) = New) as Hsub.
    { intros t' Hsub Hid. destruct Hon' as [Hq Hun].
      assert (t' = t) as ->.
      { destruct (submit_log _ _ _ _ _ Hs Hsub) as (e & He & Hse).
        destruct (Hq e He) as [->| ->].
        { destruct Hse as [->|[->| ->]]; done. }
        { destruct Hse as [Hx|[Hx|Hx]]; congruence. }
        { destruct Hse as [Hx|[Hx|Hx]]; congruence. } }
      split; [done|]. destruct Hsub as (_ & _ & Hu).
      by apply Hfr. }
    apply (pinv_frame t s); auto.
    + intros t' Hin Hid. unfold coming in Hin. rewrite E5 in Hin. apply elem_of_app in Hin as [Hin|Hin].
      * destruct (queue_step _ _ _ _ _ Hs Hin) as [Hin'|Hsu]; [|by eapply Hsub].
        eapply p_new; eauto. unfold coming. rewrite elem_of_app. auto.
      * eapply p_new; eauto. by apply coming_hpc.
    + intros Hx. rewrite E5. destruct (hpc s) eqn:Hpc; auto; right.
      all: destruct (submitted_step _ _ _ _ _ Hs Hx) as [?|[Hsu _]]; [right|left; eauto].
      all: split; [done|]; split; [done|]; intros (t' & ? & ?); eauto.
Qed.

Lemma pinv_only pf t0 t1 s t : reachable pf t0 t1 s -> only t (log s) -> near (t_uid t) (log s) -> pinv t s.
Proof.
  revert s. apply (reach_ind pf t0 t1 (fun s => only t (log s) -> near (t_uid t) (log s) -> pinv t s)).
  - intros _ _. split; try done. intros (e & He & _). cbn in He. by apply elem_of_list_singleton in He.
  - intros lb s1 s2 Hr IH Hs Ho Hn.
    eapply pinv_step; eauto using wf_reach, own_reach, cnt_reach, src_reach, phase_used.
    + eauto using tinv_only, only_anti, near_anti.
    + eauto using only_anti, near_anti.
Qed.

Lemma ok_at_inst u lg l : Forall inst_obs lg -> each (ok_at u) l -> each (ok_at u) (lg ++ l).
Proof. induction 1 as [|[] lg Hx H IH]; try done; cbn; auto. Qed.

Lemma ok_at_step pf lb s s' t : tinv (t_uid t) (t_id t) s -> pinv t s -> sole (t_uid t) (t_id t) s ->
  step pf lb s = Some s' -> each (ok_at (t_uid t)) (log s) -> each (ok_at (t_uid t)) (log s').
Proof.
  intros Hi Hp Hso Hs He.
  assert (forall t', t' ∈ tpc_task (tpc s) -> t_uid t' = t_uid t -> before_start (tpc s) = true ->
     phase (t_uid t) (log s) = Wait (iters s)) as H1.
  { intros t' Hin Hu Hb. assert (t_id t' = t_id t) as Hid by (apply Hso; [by apply in_tpc|done]).
    pose proof (ti_timer _ _ _ Hi t' Hin Hid) as Hx. rewrite Hb, expect_phase in Hx.
    destruct (phase (t_uid t) (log s)); congruence. }
  assert (forall t' l, t' ∈ tpc_task (tpc s) -> t_uid t' = t_uid t -> after_start (tpc s) = Some l ->
     phase (t_uid t) (log s) = Busy (iters s) (l_ts l)) as H2.
  { intros t' l Hin Hu Hl. eapply p_busy; eauto. apply Hso; [by apply in_tpc|done]. }
  assert (forall t', t' ∈ hpc_task (hpc s) -> t_uid t' = t_uid t -> phase (t_uid t) (log s) = New) as H3.
  { intros t' Hin Hu. apply (p_new t s Hp t'); [by apply coming_hpc|]. apply Hso; [by apply in_coming, coming_hpc|done]. }
  clear Hi Hp Hso.
  step_inv Hs; inst_shape; fsimpl; try assumption; try (apply ok_at_inst; [done|]); cbn [each ok_at]; auto.
  all: repeat case_match; cbn [each ok_at]; auto.
  all: try (split; [|done]; intros E; first [eapply H1; eauto; apply elem_of_list_here | eapply H2; [apply elem_of_list_here|exact E|reflexivity]
     | eapply H3; eauto; apply elem_of_list_here]; fail).
  all: try (split; [|done]; intros E; eexists; first [eapply H1; eauto; apply elem_of_list_here | eexists; eapply H2; [apply elem_of_list_here|exact E|reflexivity]]; fail).
  all: try (split; [|done]; intros E; first [right; eexists; eexists; eapply H2; [apply elem_of_list_here|exact E|reflexivity]| left; eapply H3; eauto; apply elem_of_list_here]; fail).
  all: try (split; [done|]; split; [|done]; intros E; left; eapply H3; eauto; apply elem_of_list_here).
Qed.

Lemma ok_at_reach pf t0 t1 s t : reachable pf t0 t1 s -> submitted t (log s) -> quiet t (log s) ->
  near (t_uid t) (log s) -> each (ok_at (t_uid t)) (log s).
Proof.
  intros Hr Hs Hq Hn. pose proof (only_quiet s t (cnt_reach _ _ _ _ Hr) Hs Hq) as Ho. clear Hs Hq.
  revert s Hr Ho Hn. apply (reach_ind pf t0 t1 (fun s => only t (log s) -> near (t_uid t) (log s) -> each (ok_at (t_uid t)) (log s))).
  - intros _ _. cbn. auto.
  - intros lb s1 s2 Hr IH Hs Ho Hn.
    eapply ok_at_step; eauto 6 using tinv_only, pinv_only, only_sole, only_anti, near_anti, cnt_reach.
Qed.
