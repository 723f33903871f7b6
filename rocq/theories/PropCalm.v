(** C55-C57 again, for a timer built without overflow checks that is never stopped and whose closures do not panic: what had the
    exception "or a thread has died or was stopped" holds without it. *)
From Verif Require Import Tactics Inv Own Life Count Quiet Panics Cases Inst Fifo Scen Live LiveEnd PropLive.

Definition calm (lb : label) : Prop := lb <> LRoutinePanic /\ lb <> LStop.
(** Such an execution, from the start of the timer. *)
Record calm_exec (t0 t1 : N) (σ : nat -> sys) (lb : nat -> label) : Prop := {
  ca_start : reachable_with calm Release t0 t1 (σ 0%nat);
  ca_step : forall n, step Release (lb n) (σ n) = Some (σ (S n));
  ca_calm : forall n, calm (lb n)
}.

Record going (s : sys) : Prop := { go_queue : EStop ∉ queue s; go_motiv : motiv s = true; go_tpc : tpc s <> TStopped }.
Lemma going_step pf lb s s' : lb <> LStop -> going s -> step pf lb s = Some s' -> going s'.
Proof.
  intros Hl [H1 H2 H3] Hs. step_inv Hs; try done; inst_shape; constructor; fsimpl; try done; try congruence.
  all: try (rewrite elem_of_app, elem_of_list_singleton; intros [?|Hx]; [done|discriminate Hx]).
  all: rewrite elem_of_cons in H1.
  all: try (intros ?; apply H1; by right).
  all: exfalso; apply H1; by left.
Qed.
Lemma with_mono (P Q : label -> Prop) pf t0 t1 s : (forall lb, P lb -> Q lb) -> reachable_with P pf t0 t1 s -> reachable_with Q pf t0 t1 s.
Proof. intros HPQ (ls & Hf & H). exists ls. split; [|done]. eapply Forall_impl; [exact Hf|exact HPQ]. Qed.
Lemma calm_going t0 t1 s : reachable_with calm Release t0 t1 s -> tpc s <> TStopped /\ tpc s <> TDead /\ hpc s <> HDead.
Proof.
  intros Hr. destruct (release_alive t0 t1 s) as [? ?]; [eapply with_mono; [|exact Hr]; by intros lb [? _]|].
  assert (going s) as [_ _ ?]; [|done]. clear H H0. revert s Hr.
  apply (with_ind calm Release t0 t1 going).
  - intros n. split; [change (queue (init_n n t0 t1)) with (@nil event); apply not_elem_of_nil|exact eq_refl|discriminate].
  - intros lb s s' _ [_ Hl] Hgo Hs. by eapply going_step.
Qed.
Lemma calm_reach t0 t1 σ lb n : calm_exec t0 t1 σ lb -> reachable_with calm Release t0 t1 (σ n).
Proof.
  intros [Hs Hx Hc]. induction n as [|n (ls & Hf & H)]; [exact Hs|]. exists (ls ++ [lb n]). split; [apply Forall_app; split; [exact Hf|constructor; [apply Hc|constructor]]|]. apply run_snoc. exists (σ n). split; [exact H|apply Hx].
Qed.
Lemma calm_is_exec t0 t1 σ lb : calm_exec t0 t1 σ lb -> exec Release t0 t1 σ lb.
Proof. intros [Hs Hx _]. split; [by eapply with_reach|exact Hx]. Qed.

(** The scheduler reaches every second. *)
Theorem C55_calm_ticks_forever t0 t1 σ lb k n : calm_exec t0 t1 σ lb -> weakly_fair Release by_handler σ lb -> strongly_fair Release by_scheduler σ lb ->
  exists m, (n <= m)%nat /\ k <= iters (σ m).
Proof.
  intros Hc Hh Hs. destruct (C55_keeps_ticking _ _ _ _ _ k n (calm_is_exec _ _ _ _ Hc) Hh Hs) as (m & Hm & Hx). exists m. split; [done|].
  destruct (calm_going _ _ _ (calm_reach _ _ _ _ m Hc)) as (? & ? & _). naive_solver.
Qed.
Print Assumptions C55_calm_ticks_forever.
(** Every event is handled. *)
Theorem C54_calm_handled t0 t1 σ lb n : calm_exec t0 t1 σ lb -> weakly_fair Release by_handler σ lb ->
  exists m, (n <= m)%nat /\ hpc (σ m) = HIdle /\ pops (log (σ m)) = sends (log (σ n)).
Proof.
  intros Hc Hh. destruct (C54_every_event_is_handled _ _ _ _ _ n (calm_is_exec _ _ _ _ Hc) Hh) as (m & Hm & Hx). exists m. split; [done|].
  destruct (calm_going _ _ _ (calm_reach _ _ _ _ m Hc)) as (_ & _ & ?). naive_solver.
Qed.
Print Assumptions C54_calm_handled.
(** An interval task is started again and again until its due times come near 2^64. *)
Theorem C56_calm_starts_again t0 t1 σ lb t st n : calm_exec t0 t1 σ lb -> weakly_fair Release by_handler σ lb -> strongly_fair Release by_scheduler σ lb ->
  t_freq t = SecondsRepeated st -> t_maxpar t = None -> (forall k, quiet t (log (σ k))) -> submitted t (log (σ n)) ->
  exists m, (n <= m)%nat /\
    (starts (t_uid t) (log (σ n)) < starts (t_uid t) (log (σ m)) \/
     exists i it ts d, OPark (t_uid t) i it ts d ∈ log (σ m) /\ U64 <= d + SLOTS).
Proof.
  intros Hc Hh Hs Hf Hmp Hq Hsub. destruct (C56_interval_task_starts_again _ _ _ _ _ _ _ n (calm_is_exec _ _ _ _ Hc) Hh Hs Hf Hmp Hq Hsub) as (m & Hm & Hx).
  exists m. split; [done|]. destruct (calm_going _ _ _ (calm_reach _ _ _ _ m Hc)) as (? & ? & ?). naive_solver.
Qed.
Print Assumptions C56_calm_starts_again.
(** An instance with a maximum running time ends - or some instance is started so late that its deadline passes 2^64. *)
Theorem C57_calm_ends t0 t1 σ lb n u tid rec it ts t m : calm_exec t0 t1 σ lb ->
  weakly_fair Release by_handler σ lb -> strongly_fair Release by_scheduler σ lb -> weakly_fair Release by_sweeper σ lb -> receives σ lb -> clock_passes lb ->
  OLaunch u tid rec it ts ∈ log (σ n) -> submitted t (log (σ n)) -> t_uid t = u -> t_maxrun t = Some m ->
  exists k, (n <= k)%nat /\ (rec ∉ running tid (log (σ k)) \/
    exists u' tid' rec' it' ts' t' m', OLaunch u' tid' rec' it' ts' ∈ log (σ k) /\ submitted t' (log (σ k)) /\ t_uid t' = u' /\ t_maxrun t' = Some m' /\ U64 <= ts' + m').
Proof.
  intros Hc H1 H2 H3 H4 H5 Hl Hs Hu Hm. destruct (calm_going _ _ _ (calm_reach _ _ _ _ n Hc)) as (_ & Hd & _).
  destruct (C57_ends_or_wraps _ _ _ _ _ n u tid rec it ts t m (calm_is_exec _ _ _ _ Hc) H1 H2 H3 H4 H5 Hl Hs Hu Hm Hd) as (k & Hk & Hx). exists k. split; [done|].
  destruct (calm_going _ _ _ (calm_reach _ _ _ _ k Hc)) as (_ & _ & ?). destruct Hx as [?|[?|[_ ?]]]; [by left|done|by right].
Qed.
Print Assumptions C57_calm_ends.

(** Such an execution: an interval task with a maximum running time has been started; its instance has not ended. *)
Example calm_example : exists σ lb, calm_exec 100 100 σ lb /\
  weakly_fair Release by_handler σ lb /\ strongly_fair Release by_scheduler σ lb /\ weakly_fair Release by_sweeper σ lb /\ receives σ lb /\ clock_passes lb /\
  (forall k, quiet (timed 3 (every 1 11 5 100)) (log (σ k))) /\ submitted (timed 3 (every 1 11 5 100)) (log (σ 0%nat)) /\ OLaunch 1 11 0 6 106 ∈ log (σ 0%nat) /\
  queue (σ 0%nat) <> [].
Proof.
  set (t := timed 3 (every 1 11 5 100)). set (acts := [Do (LAdd t); Handle; Ticks 7]).
  assert (after Release 100 100 acts (fun s => quietb t (log s) && existsb (same (OLaunch 1 11 0 6 106)) (log s) && match queue s with [] => false | _ => true end) = true) as H by (vm_compute; reflexivity).
  unfold after in H. rewrite init0_eq in H. destruct (play Release acts (init 100 100)) as [s|] eqn:E; [|discriminate H].
  apply andb_true_iff in H as [H HQ]. apply andb_true_iff in H as [Hq HL]. apply (inb_ok (OLaunch 1 11 0 6 106)) in HL.
  pose proof (play_reach _ _ _ _ _ E) as Hr.
  assert (submitted t (log s)) as Hs by (refine (play_submitted Release acts _ s _ t E _ (or_introl eq_refl)); left).
  pose proof (quietb_ok _ _ _ _ _ Hr Hs Hq) as Hqt.
  assert (reachable_with calm Release 100 100 s) as Hc.
  { refine (play_reaches _ Release acts _ s _ _ E).
    - split; [intros ch r n|]; split; discriminate.
    - intros lb Hlb. unfold acts in Hlb. rewrite !elem_of_cons, elem_of_nil in Hlb. destruct Hlb as [X|[X|[X|[]]]]; try discriminate X. injection X as ->. split; discriminate. }
  destruct (fair_exists Release 100 100 (fun n => N.of_nat n) s Hr) as (σ & lb & Eσ & He & H1 & H2 & H3 & H4 & H5). exists σ, lb.
  split. { split; [rewrite Eσ; exact Hc|apply He|]. intros n. specialize (H5 n). split; intros Ex; rewrite Ex in H5; exact H5. }
  split; [exact H1|]. split; [exact H2|]. split; [exact H3|]. split; [exact H4|].
  split. { intros d. exists (N.to_nat d). intros m Hm. specialize (H5 m). destruct (lb m); try exact I; subst now; lia. }
  split. { induction k as [|k IH]; [rewrite Eσ; exact Hqt|]. eapply internal_quiet; [apply (ex_step _ _ _ _ _ He k)| |exact IH]. specialize (H5 k). destruct (lb k); try exact H5; exact I. }
  rewrite Eσ. split; [exact Hs|]. split; [exact HL|]. intros X. rewrite X in HQ. discriminate HQ.
Qed.
