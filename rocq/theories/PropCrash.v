(** C58: when the event handler panics, the running instances are told to quit. *)
From Verif Require Import Tactics Inv Own Cases Inst Fifo Scen Crash.

(** The instance has been told to quit: by the event handler while it lived, or by dropping its handle. *)
Definition told (x : xsys) (tid : N) (rec : Z) : Prop := OQuit tid rec ∈ log (x_sys x) \/ (tid, rec) ∈ x_told x.
(** The scheduler has started it and is just before sending its handle. *)
Definition in_hand (x : xsys) (tid : N) (rec : Z) : Prop := exists l ids t e, tpc (x_sys x) = TSend l ids t rec e /\ t_id t = tid.
(** The scheduler has panicked right after starting it, without making a handle for it. *)
Definition no_handle (x : xsys) (rec : Z) : Prop := tpc (x_sys x) = TDead /\ exists u tid it ts l, launches (log (x_sys x)) = (u, tid, rec, it, ts) :: l.
(** Its handle was in the event channel when the event handler died. *)
Definition in_channel (x : xsys) (tid : N) (rec : Z) : Prop := exists hb, EAppend tid hb ∈ x_left x /\ hb_rec hb = rec.

(** The property. *)
Definition C58_all_told : Prop := forall pf t0 t1 x u tid rec it ts, xreachable pf t0 t1 x -> hpc (x_sys x) = HDead ->
  OLaunch u tid rec it ts ∈ log (x_sys x) -> told x tid rec \/ in_hand x tid rec \/ no_handle x rec.

Lemma left_rec x tid rec : (tid, rec) ∈ (x_left x ≫= ev_rec) <-> in_channel x tid rec.
Proof.
  rewrite elem_of_list_bind. split.
  - intros (e & He & Hin). destruct e; cbn [ev_rec] in He; try (by apply elem_of_nil in He). apply elem_of_list_singleton in He as [= -> ->]. by eexists.
  - intros (hb & Hin & <-). eexists. split; [|exact Hin]. apply elem_of_list_here.
Qed.
Lemma hand_rec x tid rec : (tid, rec) ∈ tpc_rec (tpc (x_sys x)) <-> in_hand x tid rec.
Proof.
  unfold in_hand. split.
  - intros H. destruct (tpc (x_sys x)); cbn [tpc_rec] in H; try (by apply elem_of_nil in H). apply elem_of_list_singleton in H as [= -> ->]. eauto 10.
  - intros (l & ids & t & e & -> & <-). apply elem_of_list_here.
Qed.

(** What holds: those are told whose handle was not in the event channel at that moment. *)
Theorem C58_all_told_partial pf t0 t1 x u tid rec it ts : xreachable pf t0 t1 x -> hpc (x_sys x) = HDead ->
  OLaunch u tid rec it ts ∈ log (x_sys x) -> told x tid rec \/ in_hand x tid rec \/ no_handle x rec \/ in_channel x tid rec.
Proof.
  intros Hr Hd Hl. destruct (traced_reach _ _ _ _ (xreach_sys _ _ _ _ Hr) _ _ _ _ _ Hl) as [Hp|[Et [l El]]]; [|right; right; left; split; eauto 10].
  rewrite (xplaces_dead _ _ _ _ Hr Hd) in Hp. unfold xplaces in Hp. rewrite !elem_of_app, left_rec, hand_rec, elem_quits in Hp. unfold told. tauto.
Qed.
Print Assumptions C58_all_told_partial.

(** Nobody is told twice, and those in the channel at the crash are not told. *)
Theorem C58_told_once pf t0 t1 x : xreachable pf t0 t1 x -> NoDup (x_told x ++ quits (log (x_sys x))).*2.
Proof.
  intros Hr. destruct (rec_reach _ _ _ _ (xreach_sys _ _ _ _ Hr)) as [Hnd _ _ _ _ _].
  assert (x_told x ++ quits (log (x_sys x)) ⊆+ places (x_sys x)) as Hs.
  { etrans; [|exact (xplaces_sub _ _ _ _ Hr)]. unfold xplaces. solve_submseteq. }
  apply (fmap_submseteq snd) in Hs. apply submseteq_Permutation in Hs as [k Hp]. rewrite Hp in Hnd. by apply NoDup_app in Hnd as [Hnd _].
Qed.
Print Assumptions C58_told_once.

(** While the event handler lives it alone decides who is told. *)
Theorem C58_not_before pf t0 t1 x tid rec : xreachable pf t0 t1 x -> hpc (x_sys x) <> HDead -> told x tid rec -> OQuit tid rec ∈ log (x_sys x).
Proof.
  intros Hr Hd%dead_not [?|Hin]; [done|]. pose proof (xinv_reach _ _ _ _ Hr) as Hi. unfold xinv in Hi. rewrite Hd in Hi. destruct Hi as [E _].
  rewrite E in Hin. by apply elem_of_nil in Hin.
Qed.
Print Assumptions C58_not_before.

(** An instance whose handle the event handler has received is told when the event handler dies, if not before. *)
Theorem C58_recorded pf t0 t1 x tid hb : xreachable pf t0 t1 x -> hpc (x_sys x) = HDead -> OPop (EAppend tid hb) ∈ log (x_sys x) -> told x tid (hb_rec hb).
Proof.
  intros Hr Hd Hp. pose proof (recorded_reach _ _ _ _ (xreach_sys _ _ _ _ Hr)) as Hi.
  assert ((tid, hb_rec hb) ∈ (pops (log (x_sys x)) ≫= ev_rec)) as Hin.
  { apply elem_of_list_bind. exists (EAppend tid hb). split; [apply elem_of_list_here|by apply elem_pops]. }
  rewrite Hi in Hin. apply elem_of_app in Hin as [Hin|Hin]; [right|left; by apply elem_quits].
  pose proof (xinv_reach _ _ _ _ Hr) as Hx. unfold xinv in Hx. apply dead_iff in Hd. rewrite Hd in Hx. destruct Hx as (es & _ & ->).
  apply elem_of_app. by right.
Qed.
Print Assumptions C58_recorded.

(** An instance started later is told as soon as the scheduler sends its handle: it is cancelled right after its start. *)
Theorem C58_started_later pf t0 t1 x lb x' l ids t rec e : xreachable pf t0 t1 x -> hpc (x_sys x) = HDead -> tpc (x_sys x) = TSend l ids t rec e ->
  xstep pf lb x = Some x' -> tpc (x_sys x') <> tpc (x_sys x) -> told x' (t_id t) rec.
Proof.
  intros Hr Hd Ht Hx Hne. pose proof (xstep_sys _ _ _ _ Hx) as Hs. unfold xstep in Hx. rewrite Hs in Hx. pose proof Hd as Ed%dead_iff. rewrite Ed in Hx.
  assert (refused lb (x_sys x) = [(t_id t, rec)]) as Er.
  { unfold refused. rewrite Ht. clear Hx Ed Hr. rewrite Ht in Hne. destruct lb; try reflexivity; exfalso; apply Hne; clear Hne; revert Hs Ht; generalize (x_sys x'), (x_sys x); intros s' s Hs Ht.
    all: match type of Hs with step _ ?lb _ = _ => remember lb as lb' eqn:El end; step_inv Hs; try congruence; inst_shape; fsimpl; try done.
  }
  right. apply (f_equal (fun o => x_told <$> o)) in Hx. cbn in Hx. injection Hx as <-. rewrite Er. apply elem_of_list_here.
Qed.
Print Assumptions C58_started_later.

(** An instance whose handle is in the channel at that moment is never told, whatever happens afterwards: no cancel, no maximum running
    time ends it. *)
Theorem C58_never_told pf t0 t1 x tid rec ls x' : xreachable pf t0 t1 x -> hpc (x_sys x) = HDead -> in_channel x tid rec ->
  xrun pf ls x = Some x' -> ~ told x' tid rec.
Proof.
  intros Hr Hd Hc Hx. destruct (x_left_run _ _ _ _ Hx Hd) as [Hd' El].
  assert (xreachable pf t0 t1 x') as Hr'. { destruct Hr as [l0 H0]. eapply xgoes_trans; [by exists l0|by exists ls]. }
  destruct (rec_reach _ _ _ _ (xreach_sys _ _ _ _ Hr')) as [Hnd _ _ _ _ _]. rewrite (xplaces_dead _ _ _ _ Hr' Hd') in Hnd. unfold xplaces in Hnd.
  apply left_rec in Hc. rewrite <- El in Hc. rewrite !fmap_app in Hnd. apply NoDup_app in Hnd as (_ & _ & Hnd). apply NoDup_app in Hnd as (_ & Hno & _).
  assert (rec ∈ (x_left x' ≫= ev_rec).*2) as Hin. { apply elem_of_list_fmap. by exists (tid, rec). }
  specialize (Hno _ Hin). intros Ht. apply Hno. apply elem_of_app. destruct Ht as [Hq|Hq]; [right|left]; apply elem_of_list_fmap; exists (tid, rec); [by rewrite elem_quits|done].
Qed.
Print Assumptions C58_never_told.

(** The counterexample.  Task 11 runs every 5 seconds.  Its first instance has been recorded when a task is added whose interval makes
    the event handler panic; its second starts before the event handler gets to that, its third afterwards. *)
Definition crash_acts : list xact :=
  [XDo (LAdd (every 1 11 5 100)); XHandle; XTicks 7; XHandle; XDo (LAdd (every 2 22 (U64 - 101) 100)); XTicks 5; XHandle].
Definition event_is_append (tid : N) (rec : Z) (e : event) : bool :=
  match e with EAppend i hb => (i =? tid) && (hb_rec hb =? rec)%Z | _ => false end.
Definition launched_b (tid : N) (rec : Z) (s : sys) : bool :=
  existsb (fun p => match p with (_, i, r, _, _) => (i =? tid) && (r =? rec)%Z end) (launches (log s)).
Definition told_b (x : xsys) (tid : N) (rec : Z) : bool := bool_decide ((tid, rec) ∈ x_told x).
Definition crash_seen (third : bool) (x : xsys) : bool :=
  dead (x_sys x) && match tpc (x_sys x) with TSend _ _ _ _ _ => false | TDead => false | _ => true end && launched_b 11 0 (x_sys x) && launched_b 11 1 (x_sys x) && existsb (event_is_append 11 1) (x_left x) &&
  told_b x 11 0 && Bool.eqb (told_b x 11 2) third && Bool.eqb (launched_b 11 2 (x_sys x)) third.
Lemma launched_ok tid rec s : launched_b tid rec s = true -> exists u it ts, OLaunch u tid rec it ts ∈ log s.
Proof.
  unfold launched_b. intros H. apply existsb_exists in H as ([[[[u i] r] it] ts] & Hin & E%andb_prop). destruct E as [->%N.eqb_eq ->%Z.eqb_eq].
  exists u, it, ts. apply elem_launches. by apply elem_of_list_In.
Qed.
Lemma channel_ok tid rec x : existsb (event_is_append tid rec) (x_left x) = true -> in_channel x tid rec.
Proof.
  intros H. apply existsb_exists in H as (e & Hin & E). destruct e; try done. apply andb_prop in E as [->%N.eqb_eq E%Z.eqb_eq].
  eexists. split; [by apply elem_of_list_In|done].
Qed.
(** The first is told at the crash, the second is not. *)
Example C58_crash_nonvacuous : exists x u it ts u' it' ts', xreachable Debug 100 100 x /\ hpc (x_sys x) = HDead /\
  OLaunch u 11 0 it ts ∈ log (x_sys x) /\ told x 11 0 /\ OLaunch u' 11 1 it' ts' ∈ log (x_sys x) /\ in_channel x 11 1 /\ ~ in_hand x 11 1 /\ tpc (x_sys x) <> TDead.
Proof.
  assert (exists x, xreachable Debug 100 100 x /\ crash_seen false x = true) as (x & Hr & H).
  { apply (xafter_reach Debug 100 100 crash_acts). vm_compute. reflexivity. }
  unfold crash_seen in H. repeat (apply andb_prop in H as [H ?]). apply dead_iff in H.
  destruct (launched_ok 11 0 (x_sys x)) as (u & it & ts & ?); [done|]. destruct (launched_ok 11 1 (x_sys x)) as (u' & it' & ts' & ?); [done|].
  exists x, u, it, ts, u', it', ts'. repeat (split; [done|]). split; [right; by eapply bool_decide_eq_true|]. split; [done|]. split; [by apply channel_ok|].
  split; [intros (? & ? & ? & ? & E & _)|intros E]; rewrite E in *; done.
Qed.
(** The third is told right after its start. *)
Example C58_later_nonvacuous : exists x u it ts, xreachable Debug 100 100 x /\ hpc (x_sys x) = HDead /\ OLaunch u 11 2 it ts ∈ log (x_sys x) /\ told x 11 2.
Proof.
  assert (exists x, xreachable Debug 100 100 x /\ crash_seen true x = true) as (x & Hr & H).
  { apply (xafter_reach Debug 100 100 (crash_acts ++ [XTicks 5])). vm_compute. reflexivity. }
  unfold crash_seen in H. repeat (apply andb_prop in H as [H ?]). apply dead_iff in H.
  match goal with E : Bool.eqb (launched_b 11 2 _) true = true |- _ => apply Bool.eqb_prop in E; destruct (launched_ok 11 2 (x_sys x) E) as (u & it & ts & ?) end.
  match goal with E : Bool.eqb (told_b x 11 2) true = true |- _ => apply Bool.eqb_prop in E; apply bool_decide_eq_true in E end.
  exists x, u, it, ts. repeat (split; [done|]). by right.
Qed.
(** A state in which [C58_started_later] applies. *)
Definition sending (x : xsys) : bool := dead (x_sys x) && match tpc (x_sys x) with TSend _ _ _ _ _ => true | _ => false end.
Definition step_timer : xact := XDo (LTimer 0 2%Z 0).
Example C58_sending_nonvacuous : exists x l ids t rec e, xreachable Debug 100 100 x /\ hpc (x_sys x) = HDead /\ tpc (x_sys x) = TSend l ids t rec e.
Proof.
  assert (exists x, xreachable Debug 100 100 x /\ sending x = true) as (x & Hr & H).
  { apply (xafter_reach Debug 100 100 (crash_acts ++ XTicks 4 :: replicate 6 step_timer)). vm_compute. reflexivity. }
  unfold sending in H. apply andb_prop in H as [H%dead_iff Ht]. destruct (tpc (x_sys x)) eqn:E; try done. eauto 10.
Qed.

Theorem C58_all_told_refuted : ~ C58_all_told.
Proof.
  intros H. destruct C58_crash_nonvacuous as (x & _ & _ & _ & u & it & ts & Hr & Hd & _ & _ & Hl & Hc & Hh & Ht).
  pose proof (C58_never_told _ _ _ _ _ _ [] x Hr Hd Hc eq_refl) as Hn.
  by destruct (H _ _ _ _ _ _ _ _ _ Hr Hd Hl) as [?|[?|[? _]]].
Qed.
Print Assumptions C58_all_told_refuted.
