(** The timing invariant holds in every execution; consequences for the log. *)
From Verif Require Import Tactics Inv Own Life Count Quiet Timing.

(** [t] is the only task with its identity and its id. *)
Definition only (t : task) (lg : list obs) : Prop :=
  quiet t lg /\ forall t0, submitted t0 lg -> t_uid t0 = t_uid t -> t0 = t.

Lemma only_anti pf lb s s' t : step pf lb s = Some s' -> only t (log s') -> only t (log s).
Proof. intros Hs [H1 H2]. split; [by eapply quiet_anti|]. intros t0 H0. apply H2. by eapply submitted_mono. Qed.
Lemma only_quiet s t : cnt_inv s -> submitted t (log s) -> quiet t (log s) -> only t (log s).
Proof. intros Hc Hs Hq. split; [done|]. intros t0 H0 He. by eapply (ci_uniq s Hc). Qed.
Lemma only_sole s t : cnt_inv s -> only t (log s) -> sole (t_uid t) (t_id t) s.
Proof.
  intros Hc [Hq Hu] t' Ht'. split.
  - intros Hid. by eapply quiet_held.
  - intros He. destruct (ci_held s Hc t' Ht') as (t0 & Ht0 & Hu0 & Hid & _).
    assert (t0 = t) as -> by (apply Hu; [done|congruence]). done.
Qed.
Lemma near_anti pf lb s s' u : step pf lb s = Some s' -> near u (log s') -> near u (log s).
Proof. intros Hs Hn i it ts d Hin. destruct (step_log _ _ _ _ Hs) as [l E]. eapply (Hn i it ts). rewrite E, elem_of_app. eauto. Qed.

Lemma tinv_step pf lb s s' t : wf s -> own_inv s -> cnt_inv s -> src_inv s ->
  step pf lb s = Some s' -> only t (log s') -> near (t_uid t) (log s') ->
  tinv (t_uid t) (t_id t) s -> tinv (t_uid t) (t_id t) s'.
Proof.
  intros Hwf Ho Hc Hsrc Hs Hon' Hn Hi. pose proof (only_anti _ _ _ _ _ Hs Hon') as Hon.
  pose proof (only_sole s t Hc Hon) as Hso.
  destruct (match lb with LTimer _ _ _ | LHandler | LRoutinePanic => true | _ => false end) eqn:Hlb.
  - destruct lb; try done; cbn [step] in Hs.
    + eapply tinv_timer; eauto.
    + unfold routine_panic in Hs. destruct (tpc s) eqn:Hpc; simplify_eq. eapply tinv_dead; eauto.
    + eapply tinv_handler; eauto. apply Hon.
  - assert (tpc s' = tpc s /\ wheel s' = wheel s /\ iters s' = iters s /\ hand s' = hand s /\ hpc s' = hpc s) as (E1 & E2 & E3 & E4 & E5).
    { clear Hon' Hn. step_inv Hs; try done. }
    eapply tinv_frame; eauto using used_step.
    + intros; by rewrite E2.
    + intros t' Hin Hid. unfold coming in Hin. rewrite E5 in Hin. apply elem_of_app in Hin as [Hin|Hin].
      * destruct (queue_step _ _ _ _ _ Hs Hin) as [Hin'|Hsub].
        -- left. exists t'. split; [|done]. unfold coming. rewrite elem_of_app. auto.
        -- right. apply (ti_used _ _ _ Hi). destruct Hon' as [Hq Hun].
           assert (t' = t) as ->; [|by apply Hsub].
           destruct (submit_log _ _ _ _ _ Hs Hsub) as (e & He & Hse).
           destruct (Hq e He) as [->| ->].
           { destruct Hse as [->|[->| ->]]; done. }
           { destruct Hse as [Hx|[Hx|Hx]]; congruence. }
           { destruct Hse as [Hx|[Hx|Hx]]; congruence. }
      * left. exists t'. split; [|done]. unfold coming. rewrite elem_of_app. auto.
    + clear Hon' Hn Hsrc E1 E2 E3 E4 E5. step_inv Hs; try done.
Qed.

Lemma tinv_init n t0 t1 u i : tinv u i (init_n n t0 t1).
Proof.
  split; try done.
  - intros sl t' (m & Hw & Hm). cbn [init_n wheel] in Hw. rewrite init_wheel_lookup in Hw. case_bool_decide; simplify_eq.
  - intros t' H%elem_of_nil. done.
  - intros H%elem_of_nil. done.
  - constructor.
Qed.

Lemma tinv_only pf t0 t1 s t : reachable pf t0 t1 s -> only t (log s) -> near (t_uid t) (log s) -> tinv (t_uid t) (t_id t) s.
Proof.
  revert s. apply (reach_ind pf t0 t1 (fun s => only t (log s) -> near (t_uid t) (log s) -> tinv (t_uid t) (t_id t) s)).
  - intros _ _. apply tinv_init.
  - intros lb s1 s2 Hr IH Hs Ho Hn.
    eapply tinv_step; eauto using wf_reach, own_reach, cnt_reach, src_reach.
    eauto using only_anti, near_anti.
Qed.
Lemma tinv_reach pf t0 t1 s t : reachable pf t0 t1 s -> submitted t (log s) -> quiet t (log s) ->
  near (t_uid t) (log s) -> tinv (t_uid t) (t_id t) s.
Proof. intros Hr Hs Hq Hn. eapply tinv_only; eauto using only_quiet, cnt_reach. Qed.

(* ------------------------------------------------------------------ *)

(** A property of every log entry and the entries before it. *)
Fixpoint each (P : obs -> list obs -> Prop) (lg : list obs) : Prop :=
  match lg with [] => True | o :: r => P o r /\ each P r end.
Lemma each_app P l1 l2 : each P (l1 ++ l2) -> each P l2.
Proof. induction l1; [done|]. cbn. naive_solver. Qed.
Lemma each_split P l1 o l2 : each P (l1 ++ o :: l2) -> P o l2.
Proof. intros H%each_app. apply H. Qed.

(** Runs (starts and skips) happen when expected. *)
Definition run_at (u : N) (o : obs) (r : list obs) : Prop :=
  match o with
  | OLaunch u' _ _ it _ | OSkip u' _ it _ => u' = u -> expect u r = Some it
  | _ => True
  end.

Lemma run_at_inst u lg l : Forall inst_obs lg -> each (run_at u) l -> each (run_at u) (lg ++ l).
Proof. induction 1 as [|[] lg Hx H IH]; try done; cbn; auto. Qed.

Lemma run_at_step pf lb s s' t : tinv (t_uid t) (t_id t) s -> sole (t_uid t) (t_id t) s ->
  step pf lb s = Some s' -> each (run_at (t_uid t)) (log s) -> each (run_at (t_uid t)) (log s').
Proof.
  intros Hi Hso Hs He.
  assert (forall t', t' ∈ tpc_task (tpc s) -> t_uid t' = t_uid t -> before_start (tpc s) = true ->
     expect (t_uid t) (log s) = Some (iters s)) as Hx.
  { intros t' Hin Hu Hb. rewrite (ti_timer _ _ _ Hi t' Hin), Hb; [done|]. apply Hso; [by apply in_tpc|done]. }
  step_inv Hs; inst_shape; fsimpl; try assumption; try (apply run_at_inst; [done|]); cbn [each run_at]; auto.
  all: repeat case_match; cbn [each run_at]; auto.
  all: split; [|done]; intros E; eapply Hx; eauto; apply elem_of_list_here.
Qed.

Lemma run_at_reach pf t0 t1 s t : reachable pf t0 t1 s -> submitted t (log s) -> quiet t (log s) ->
  near (t_uid t) (log s) -> each (run_at (t_uid t)) (log s).
Proof.
  intros Hr Hs Hq Hn. pose proof (only_quiet s t (cnt_reach _ _ _ _ Hr) Hs Hq) as Ho. clear Hs Hq.
  revert s Hr Ho Hn. apply (reach_ind pf t0 t1 (fun s => only t (log s) -> near (t_uid t) (log s) -> each (run_at (t_uid t)) (log s))).
  - intros _ _. cbn. auto.
  - intros lb s1 s2 Hr IH Hs Ho Hn.
    eapply run_at_step; eauto 6 using tinv_only, only_sole, only_anti, near_anti, cnt_reach.
Qed.
