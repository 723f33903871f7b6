(** C71: the sweeper remembers an instance only while it runs. *)
From Verif Require Import Tactics Inv Own Life Count Cases Inst Ended Arrival Origin Scen PropSweep.

(** A round of the sweeper that began in [s0] with the clock at [now] is over in [s], and it found everything that was due (it sends at most 200). *)
Definition full_round (pf : profile) (now : N) (s0 s : sys) : Prop := in_round pf now s0 s /\ spc s = SSleep /\ (length (sent_since s0 s) < 200)%nat.
Definition later (now : N) (u : runit) : Prop := now < u_deadline u.
Global Instance later_dec now u : Decision (later now u).
Proof. unfold later. apply _. Defined.

(** What a reader of the code may hope for: when every event has been handled and a round is over, what the sweeper still holds belongs to
    instances that run. *)
Definition C71_only_running : Prop := forall pf t0 t1 now s0 s u, reachable pf t0 t1 s0 -> full_round pf now s0 s -> queue s = [] -> hpc s = HIdle -> recq s = [] ->
  u ∈ heap s -> u_rec u ∈ running (u_tid u) (log s).

Definition pile_acts : list act :=
  [Do (LTimer 0 0 0); Do (LTimer 0 0 0); Do (LInsert (timed 1000 (every 1 11 3 100))); Handle; Ticks 12; Handle;
   Do (LFinish 0 113 None); Do (LFinish 1 113 None); Do (LFinish 2 113 None); Handle; Do LSweepRecv; Do LSweepRecv; Do LSweepRecv; Do (LSweep 0 113)].
Definition pileb (s : sys) : bool :=
  match spc s with SSleep => true | _ => false end && match queue s with [] => true | _ => false end && match hpc s with HIdle => true | _ => false end &&
  match recq s with [] => true | _ => false end && match running 11 (log s) with [] => true | _ => false end &&
  match heap s with [u; v; w] => (u_tid u =? 11) && (u_tid v =? 11) && (u_tid w =? 11) && (u_deadline u =? 1110) | _ => false end.
Lemma pile_round : exists s0 s, reachable Debug 100 100 s0 /\ full_round Debug 113 s0 s /\ pileb s = true.
Proof.
  destruct (after_reach Debug 100 100 pile_acts (fun s0 =>
    match spc s0 with SRound n k => (n =? 113) && (k =? 200) | SSleep => false end &&
    match round_run Debug [LSweep 0 0] s0 with Some s => pileb s && (length (sent_since s0 s) <? 200)%nat | None => false end)) as (s0 & Hr & H); [vm_compute; reflexivity|].
  apply andb_true_iff in H as [H1 H]. destruct (round_run Debug [LSweep 0 0] s0) as [s|] eqn:E; [|discriminate H]. apply andb_true_iff in H as [H H2].
  assert (spc s0 = SRound 113 200) as E0. { destruct (spc s0); [discriminate H1|]. rewrite andb_true_iff in H1. f_equal; lia. }
  exists s0, s. split; [exact Hr|]. split; [|exact H]. split; [exact (round_run_ok _ _ _ _ _ _ (ir_start _ _ _ E0) E)|]. split.
  - unfold pileb in H. by destruct (spc s).
  - apply Nat.ltb_lt in H2. exact H2.
Qed.
(** Three instances have finished, and their units stay until the seconds 1104, 1107 and 1110. *)
Theorem C71_only_running_refuted : ~ C71_only_running.
Proof.
  intros H. destruct pile_round as (s0 & s & Hr & Hf & Hb). unfold pileb in Hb. rewrite !andb_true_iff in Hb. destruct Hb as [[[[[_ H2] H3] H4] H5] H6].
  destruct (heap s) as [|u [|v [|w [|]]]] eqn:Eh; try discriminate H6. rewrite !andb_true_iff in H6. destruct H6 as [[[H6 _] _] _]. apply N.eqb_eq in H6.
  assert (u_rec u ∈ running (u_tid u) (log s)) as Hx.
  { apply (H _ _ _ _ _ _ _ Hr Hf); [by destruct (queue s)|by destruct (hpc s)|by destruct (recq s)|]. rewrite Eh. left. }
  rewrite H6 in Hx. destruct (running 11 (log s)); [by apply elem_of_nil in Hx|discriminate H5].
Qed.
Print Assumptions C71_only_running_refuted.

Lemma swept_due pf t0 t1 s u M : reachable pf t0 t1 s -> (forall tid rec d now, OSweep tid rec d now ∈ log s -> now <= M) -> u ∈ swept (log s) -> u_deadline u <= M.
Proof.
  intros Hr HM Hu. unfold swept in Hu. apply elem_of_list_omap in Hu as (o & Ho & E). destruct o; try discriminate E. injection E as <-. cbn [u_deadline].
  pose proof (HM _ _ _ _ Ho) as Hle. pose proof (or_each _ _ (orig_reach _ _ _ _ Hr)) as Hor. apply elem_of_list_split in Ho as (l1 & l2 & El). rewrite El in Hor.
  apply each_split in Hor as (_ & Hd). lia.
Qed.
Lemma none_later M l : Forall (fun u => u_deadline u <= M) l -> filter (later M) l = [].
Proof. induction 1 as [|u l Hu _ IH]; [done|]. rewrite filter_cons_False; [done|]. unfold later. lia. Qed.
Lemma all_later M l : Forall (later M) l -> filter (later M) l = l.
Proof. induction 1 as [|u l Hu _ IH]; [done|]. rewrite filter_cons_True by done. by f_equal. Qed.

(** What holds: the sweeper forgets a unit when a round reads a clock that has reached its deadline, and for no other reason.  What it holds beyond the
    latest reading [M] is what was registered beyond [M], ended or not. *)
Theorem C71_only_running_partial pf t0 t1 s M : reachable pf t0 t1 s -> (forall tid rec d now, OSweep tid rec d now ∈ log s -> now <= M) ->
  filter (later M) (recq s ++ heap s) ≡ₚ filter (later M) (registrations (log s)).
Proof.
  intros Hr HM. rewrite (C46_none_lost_or_doubled _ _ _ _ Hr), !filter_app. rewrite (none_later M (swept (log s))); [by rewrite app_nil_r|].
  apply Forall_forall. intros u Hu. by eapply swept_due.
Qed.
Print Assumptions C71_only_running_partial.

(** After a full round that read [now] the heap holds exactly the registered units that are not due. *)
Theorem C71_after_round pf t0 t1 s0 s now : reachable pf t0 t1 s0 -> full_round pf now s0 s -> recq s0 = [] ->
  (forall tid rec d nw, OSweep tid rec d nw ∈ log s0 -> nw <= now) -> heap s ≡ₚ filter (later now) (registrations (log s0)).
Proof.
  intros Hr (Hi & Hp & Hn) Hq HM. destruct (C46_round _ _ _ _ Hi Hp) as (_ & E & Hd & _ & _ & _ & [Hx|Hx]); [lia|].
  rewrite <- (C71_only_running_partial _ _ _ _ _ Hr HM), Hq. cbn [app]. rewrite E, filter_app, (none_later now (sent_since s0 s) Hd). cbn [app]. by rewrite (all_later now (heap s) Hx).
Qed.
Print Assumptions C71_after_round.

(** So each unit it holds then belongs to an instance that was started less than its maximum running time ago. *)
Theorem C71_recent pf t0 t1 s0 s now u : reachable pf t0 t1 s0 -> full_round pf now s0 s -> u ∈ heap s ->
  exists i it ts t m, OLaunch i (u_tid u) (u_rec u) it ts ∈ log s /\ submitted t (log s) /\ t_uid t = i /\ t_id t = u_tid u /\ t_maxrun t = Some m /\ now < ts + m.
Proof.
  intros Hr (Hi & Hp & Hn) Hu. destruct (C46_round _ _ _ _ Hi Hp) as (_ & _ & _ & _ & _ & _ & [Hx|Hx]); [lia|]. rewrite Forall_forall in Hx. specialize (Hx _ Hu). cbn in Hx.
  assert (reachable pf t0 t1 s) as Hr'. { clear -Hr Hi. induction Hi as [|lb s s' Hi IH Hn Hs]; [done|]. by eapply reach_step. }
  destruct (un_recq pf s (unit_reach _ _ _ _ Hr') u (or_intror Hu)) as (i & it & ts & t & m & H1 & H2 & H3 & H4 & H5 & H6). exists i, it, ts, t, m. do 5 (split; [done|]).
  unfold add64 in H6. case_match; [injection H6 as H6; lia|]. destruct pf; [done|]. injection H6 as H6. pose proof (N.mod_le (m + ts) U64). unfold U64 in *. lia.
Qed.
Print Assumptions C71_recent.

(** Non-vacuous: the three units of [pile_round]. *)
Example C71_example : exists s0 s, reachable Debug 100 100 s0 /\ full_round Debug 113 s0 s /\ length (heap s) = 3%nat /\ running 11 (log s) = [].
Proof.
  destruct pile_round as (s0 & s & Hr & Hf & Hb). exists s0, s. split; [exact Hr|]. split; [exact Hf|]. unfold pileb in Hb. rewrite !andb_true_iff in Hb. destruct Hb as [[[[[_ _] _] _] H5] H6].
  split; [by destruct (heap s) as [|u [|v [|w [|]]]]|by destruct (running 11 (log s))].
Qed.
