(** What the calls that cancel an instance answer: C61. *)
From Verif Require Import Tactics Inv Own Life Count Quiet Panics Scen Cases Inst Ended Origin Fifo Account Chain Kept Way PropLife PropInst PropChain PropEnd PropWait PropWatch.

(* ------------------------------------------------------------------ *)
(** ** The calls

    System.v has the steps of [cancel_with_wait] and of [cancel_with_async_wait]
    (/repo/src/timer/runtime_trace/task_instance.rs:147-152, 174-179) that succeed.  Here the other outcomes of the three calls are added:
    - [DisCancel], when the state is not RUNNING (183-185), for all three;
    - [DisCancelTimeOut] of [cancel_with_wait_timeout] (157-171): [wait_timeout] gives [false]
      when the time is over and the listener has not been notified; the listener is dropped, so
      that the call can no longer return otherwise.  When the time is over is left open.
    [DisSend] needs a closed channel (C58, C59) and is left out. *)
Inductive answer := DisCancel (rec : Z) | DisCancelTimeOut (rec : Z).
Global Instance answer_dec : EqDecision answer.
Proof. solve_decision. Defined.
Record csys := C { c_sys : sys; c_ans : gmap N answer }.
Inductive clabel := CDo (lb : label) | CRefused (w : N) (rec : Z) | CTimeOut (w : N).
Definition cstep (pf : profile) (l : clabel) (c : csys) : option csys :=
  match l with
  | CDo lb =>
      match lb with
      | LReturn w | LInstCancel w _ => match c_ans c !! w with Some _ => None | None => (fun s => C s (c_ans c)) <$> step pf lb (c_sys c) end
      | _ => (fun s => C s (c_ans c)) <$> step pf lb (c_sys c)
      end
  | CRefused w rec =>
      match waiters (c_sys c) !! w, c_ans c !! w, hdrs (c_sys c) !! rec with
      | None, None, Some h =>
          match chains (c_sys c) !! h_chain h with
          | Some ch => if bool_decide (rec ∈ c_got ch) && negb (h_state h =? RUNNING) then Some (C (c_sys c) (<[w := DisCancel rec]> (c_ans c))) else None
          | None => None
          end
      | _, _, _ => None
      end
  | CTimeOut w =>
      match waiters (c_sys c) !! w, c_ans c !! w with
      | Some (Waiter rec WListen), None => Some (C (c_sys c) (<[w := DisCancelTimeOut rec]> (c_ans c)))
      | _, _ => None
      end
  end.
Fixpoint crun (pf : profile) (ls : list clabel) (c : csys) : option csys :=
  match ls with [] => Some c | l :: ls' => match cstep pf l c with Some c' => crun pf ls' c' | None => None end end.
Definition creachable (pf : profile) (t0 t1 : N) (c : csys) : Prop := exists ls, crun pf ls (C (init t0 t1) ∅) = Some c.

(** The answer of call [w] about instance [rec]. *)
Inductive got := GOk (st : N) | GDisCancel | GTimeOut.
Definition answers (c : csys) (w : N) (rec : Z) (g : got) : Prop :=
  match g with
  | GOk st => waiters (c_sys c) !! w = Some (Waiter rec (WRet st))
  | GDisCancel => c_ans c !! w = Some (DisCancel rec)
  | GTimeOut => c_ans c !! w = Some (DisCancelTimeOut rec)
  end.

Lemma cstep_sys pf l c c' : cstep pf l c = Some c' -> (exists lb, l = CDo lb /\ step pf lb (c_sys c) = Some (c_sys c') /\ c_ans c' = c_ans c) \/ (c_sys c' = c_sys c /\ forall lb, l <> CDo lb).
Proof.
  destruct l as [lb|w rec|w]; cbn [cstep].
  - intros H. left. exists lb. split; [done|].
    assert ((fun s => C s (c_ans c)) <$> step pf lb (c_sys c) = Some c') as H' by (destruct lb; try exact H; repeat case_match; done). clear H.
    destruct (step pf lb (c_sys c)) as [s|]; [|discriminate H']. cbn in H'. injection H' as <-. done.
  - intros H. right. split; [|done]. repeat case_match; try discriminate H. by injection H as <-.
  - intros H. right. split; [|done]. repeat case_match; try discriminate H. by injection H as <-.
Qed.
Lemma crun_snoc pf ls l c c1 : crun pf ls c = Some c1 -> crun pf (ls ++ [l]) c = cstep pf l c1.
Proof. revert c. induction ls as [|l0 ls IH]; intros c; cbn; [intros [= ->]; by destruct (cstep pf l c1)|]. destruct (cstep pf l0 c); [apply IH|done]. Qed.
Lemma creach_ind pf t0 t1 (P : csys -> Prop) : P (C (init t0 t1) ∅) ->
  (forall l c c', creachable pf t0 t1 c -> P c -> cstep pf l c = Some c' -> P c') -> forall c, creachable pf t0 t1 c -> P c.
Proof.
  intros H0 Hs c [ls Hr]. revert c Hr. induction ls as [|l ls IH] using rev_ind; intros c Hr.
  - cbn [crun] in Hr. assert (c = C (init t0 t1) ∅) as -> by congruence. exact H0.
  - destruct (crun pf ls (C (init t0 t1) ∅)) as [c1|] eqn:E.
    + rewrite (crun_snoc _ _ _ _ _ E) in Hr. apply (Hs l c1 c); [by exists ls|by apply IH|done].
    + exfalso. clear IH. revert Hr E. generalize (C (init t0 t1) ∅). induction ls as [|l0 ls IH]; intros c0 Hr E; [discriminate E|]. cbn [app crun] in *. destruct (cstep pf l0 c0); [by eapply IH|discriminate Hr].
Qed.
Lemma creach_sys pf t0 t1 c : creachable pf t0 t1 c -> reachable pf t0 t1 (c_sys c).
Proof.
  apply (creach_ind pf t0 t1 (fun c => reachable pf t0 t1 (c_sys c))).
  - exact (reachable_init pf t0 t1).
  - intros l c1 c2 _ IH Hs. destruct (cstep_sys _ _ _ _ Hs) as [(lb & _ & Hl & _)|[-> _]]; [by eapply reach_step|done].
Qed.

(* ------------------------------------------------------------------ *)
(** ** States and ends *)
Lemma hdr_place pf t0 t1 s rec h : reachable pf t0 t1 s -> hdrs s !! rec = Some h -> ((h_tid h, rec) ∈ trace_recs (trace s) /\ h_state h = RUNNING) \/ OQuit (h_tid h) rec ∈ log s.
Proof.
  intros Hr Hh. pose proof (stat_reach _ _ _ _ Hr) as Hst. destruct (decide (rec ∈ (trace_recs (trace s)).*2)) as [Hx|Hx].
  - left. apply elem_of_list_fmap in Hx as ([tid r] & -> & Hx). cbn in *. destruct (st_trace s Hst _ _ Hx) as (_ & _ & E). destruct (E _ Hh) as [-> ->]. done.
  - right. destruct (decide (rec ∈ (quits (log s)).*2)) as [Hy|Hy].
    + apply elem_of_list_fmap in Hy as ([tid r] & -> & Hy). cbn in *. destruct (st_quit s Hst _ _ Hy) as (_ & _ & _ & E). destruct (E _ Hh) as [_ ->]. by apply elem_quits.
    + destruct (st_none s Hst _ Hx Hy) as (_ & _ & E). congruence.
Qed.
(** An instance whose state is final has ended. *)
Theorem C61_final_means_ended pf t0 t1 s rec h : reachable pf t0 t1 s -> hdrs s !! rec = Some h -> h_state h <> RUNNING -> OQuit (h_tid h) rec ∈ log s /\ rec ∉ running (h_tid h) (log s).
Proof.
  intros Hr Hh Hn. destruct (hdr_place _ _ _ _ _ _ Hr Hh) as [[_ ?]|Hq]; [done|]. split; [done|]. by eapply quit_ended.
Qed.
Print Assumptions C61_final_means_ended.

Definition ended_as (rec : Z) (st : N) (s : sys) : Prop := exists h, hdrs s !! rec = Some h /\ h_state h = st /\ st <> RUNNING /\ OQuit (h_tid h) rec ∈ log s /\ rec ∉ running (h_tid h) (log s).
Lemma ended_as_run pf t0 t1 s lb s' rec st : reachable pf t0 t1 s -> step pf lb s = Some s' -> ended_as rec st s -> ended_as rec st s'.
Proof.
  intros Hr Hs (h & Hh & E & Hn & _). assert (run pf [lb] s = Some s') as Hrun by (cbn; by rewrite Hs).
  destruct (C13_final_state_is_final _ _ _ _ _ _ _ _ Hr Hrun Hh) as (h' & Hh' & _ & E'). rewrite E in E'. specialize (E' Hn). exists h'. split; [done|]. split; [done|]. split; [done|].
  apply (C61_final_means_ended pf t0 t1); [by eapply reach_step|done|congruence].
Qed.
(** ** C61 Every cancelling call tells the truth: an answer [Ok state] means that the instance ended with that state, ... *)
Theorem C61_ok pf t0 t1 c w rec st : creachable pf t0 t1 c -> answers c w rec (GOk st) -> ended_as rec st (c_sys c).
Proof.
  intros Hc Hw. cbn [answers] in Hw. apply creach_sys in Hc. revert Hw. generalize (c_sys c) Hc. clear c Hc.
  apply (reach_ind pf t0 t1 (fun s => waiters s !! w = Some (Waiter rec (WRet st)) -> ended_as rec st s)).
  - intros H. change (waiters (init t0 t1)) with (∅ : gmap N waiter) in H. rewrite lookup_empty in H. discriminate H.
  - intros lb s s' Hr IH Hs Hw. destruct (wait_kinds _ _ _ _ w Hs) as [K|r1 K0 K1 K2|r1 _ K1 K2|r1 tid1 e q fin st1 tr _ _ _ K3 K4 K5 K6|r1 h _ K1 K2 K3]; try congruence.
    + rewrite K in Hw. by eapply ended_as_run; eauto.
    + rewrite Hw in K3. injection K3 as -> ->. eapply ended_as_run; [exact Hr|exact Hs|]. exists h. split; [done|]. split; [done|].
      assert (h_state h <> RUNNING) as Hn by (eapply told_state; [exact Hr|exact (wait_answer _ _ _ _ _ _ Hr K1)|exact K2]). split; [done|]. by eapply C61_final_means_ended.
Qed.
Print Assumptions C61_ok.
(** ... [DisCancel], that it had ended, ... *)
Theorem C61_refused pf t0 t1 c w rec : creachable pf t0 t1 c -> answers c w rec GDisCancel -> exists st, ended_as rec st (c_sys c).
Proof.
  apply (creach_ind pf t0 t1 (fun c => answers c w rec GDisCancel -> exists st, ended_as rec st (c_sys c))).
  - intros H. cbn in H. rewrite lookup_empty in H. discriminate H.
  - intros l c1 c2 Hc IH Hs Ha. pose proof (creach_sys _ _ _ _ Hc) as Hr. cbn [answers] in *. destruct (cstep_sys _ _ _ _ Hs) as [(lb & _ & Hl & E)|[E Hl]].
    + rewrite E in Ha. destruct (IH Ha) as [st Hst]. exists st. by eapply ended_as_run.
    + rewrite E. destruct (decide (c_ans c1 !! w = Some (DisCancel rec))) as [Hx|Hx]; [by apply IH|].
      destruct l as [lb|w1 rec1|w1]; [by destruct (Hl lb)|..]; cbn [cstep] in Hs; repeat case_match; try discriminate Hs; injection Hs as <-; cbn [c_ans] in Ha.
      * destruct (decide (w1 = w)) as [->|]; [rewrite lookup_insert in Ha; injection Ha as ->|by rewrite lookup_insert_ne in Ha].
        match goal with H : _ && _ = true |- _ => apply andb_true_iff in H as [_ Hn%negb_true_iff%N.eqb_neq] end.
        match goal with H : hdrs _ !! _ = Some ?h |- _ => exists (h_state h), h; split; [exact H|]; split; [done|]; split; [done|]; eapply C61_final_means_ended; [exact Hr|exact H|exact Hn] end.
      * destruct (decide (w1 = w)) as [->|]; [rewrite lookup_insert in Ha; discriminate Ha|by rewrite lookup_insert_ne in Ha].
Qed.
Print Assumptions C61_refused.
(** A call answers once, and never again. *)
Lemma waiter_new pf lb s s' w : step pf lb s = Some s' -> waiters s !! w = None -> waiters s' !! w = None \/ exists rec, lb = LInstCancel w rec.
Proof.
  intros Hs Hn. assert ((exists rec, lb = LInstCancel w rec) \/ forall rec, lb <> LInstCancel w rec) as [H|Hl].
  { destruct lb; try (by right). destruct (decide (w0 = w)) as [->|Hne]; [left; eauto|right; congruence]. }
  - by right.
  - left. revert Hn. step_inv Hs; inst_cases; isimpl; fsimpl; try done.
    all: try (by rewrite lookup_fmap; intros ->).
    all: intros Hn; rewrite lookup_insert_ne; [done|]; intros ->; try congruence; by eapply Hl.
Qed.
Definition silent (c : csys) (w : N) : Prop :=
  match c_ans c !! w with
  | Some (DisCancel _) => waiters (c_sys c) !! w = None
  | Some (DisCancelTimeOut rec) => waiters (c_sys c) !! w = Some (Waiter rec WListen) \/ waiters (c_sys c) !! w = Some (Waiter rec WWoken)
  | None => True
  end.
Lemma silent_reach pf t0 t1 c w : creachable pf t0 t1 c -> silent c w.
Proof.
  apply (creach_ind pf t0 t1 (fun c => silent c w)).
  - unfold silent. cbn [c_ans]. by rewrite lookup_empty.
  - intros l c1 c2 _ IH Hs. unfold silent in *. destruct l as [lb|w1 rec1|w1].
    + destruct (cstep_sys _ _ _ _ Hs) as [(lb' & [= <-] & Hl & ->)|[_ Hl]]; [|by destruct (Hl lb)].
      assert (c_ans c1 !! w <> None -> lb <> LReturn w /\ forall rec, lb <> LInstCancel w rec) as Hno.
      { intros Hn. cbn [cstep] in Hs. split; [intros ->|intros rec ->]; destruct (c_ans c1 !! w); done. }
      destruct (c_ans c1 !! w) as [[rec|rec]|]; [..|done]; (destruct Hno as [N1 N2]; [done|]).
      * destruct (waiter_new _ _ _ _ _ Hl IH) as [?|[r ->]]; [done|by destruct (N2 r)].
      * destruct (wait_kinds _ _ _ _ w Hl) as [K|r1 K0 K1 K2|r1 _ K1 K2|r1 tid1 e q fin st1 tr _ _ _ K3 K4 K5 K6|r1 h K0 K1 K2 K3].
        -- by rewrite K.
        -- destruct IH; congruence.
        -- destruct IH; congruence.
        -- right. destruct IH; congruence.
        -- done.
    + assert (c2 = C (c_sys c1) (<[w1 := DisCancel rec1]> (c_ans c1)) /\ waiters (c_sys c1) !! w1 = None) as [-> Hw] by (cbn [cstep] in Hs; repeat case_match; try discriminate Hs; by injection Hs as <-).
      cbn [c_ans c_sys]. destruct (decide (w1 = w)) as [->|Hne]; [by rewrite lookup_insert|by rewrite lookup_insert_ne].
    + assert (exists rec, c2 = C (c_sys c1) (<[w1 := DisCancelTimeOut rec]> (c_ans c1)) /\ waiters (c_sys c1) !! w1 = Some (Waiter rec WListen)) as (rec & -> & Hw) by (cbn [cstep] in Hs; repeat case_match; try discriminate Hs; injection Hs as <-; eauto).
      cbn [c_ans c_sys]. destruct (decide (w1 = w)) as [->|Hne]; [rewrite lookup_insert; by left|by rewrite lookup_insert_ne].
Qed.
Lemma answer_stays pf t0 t1 c l c' w rec g : creachable pf t0 t1 c -> answers c w rec g -> cstep pf l c = Some c' -> answers c' w rec g.
Proof.
  intros Hc Ha Hs. assert (forall x a, c_ans c !! x = Some a -> c_ans c' !! x = Some a) as Hk.
  { intros x a Hx. destruct l as [lb|w1 rec1|w1]; cbn [cstep] in Hs.
    - destruct (cstep_sys pf (CDo lb) c c' Hs) as [(lb' & _ & _ & ->)|[_ Hl]]; [done|by destruct (Hl lb)].
    - repeat case_match; try discriminate Hs; injection Hs as <-; cbn [c_ans]. rewrite lookup_insert_ne; [done|congruence].
    - repeat case_match; try discriminate Hs; injection Hs as <-; cbn [c_ans]. rewrite lookup_insert_ne; [done|congruence]. }
  destruct g as [st| |]; cbn [answers] in *; [|by apply Hk..].
  destruct (cstep_sys _ _ _ _ Hs) as [(lb & _ & Hl & _)|[-> _]]; [|done].
  destruct (wait_kinds _ _ _ _ w Hl) as [K|r1 K0 K1 K2|r1 _ K1 K2|r1 tid1 e q fin st1 tr _ _ _ K3 K4 K5 K6|r1 h K0 K1 K2 K3]; congruence.
Qed.
Lemma creach_run pf t0 t1 c ls c' : creachable pf t0 t1 c -> crun pf ls c = Some c' -> creachable pf t0 t1 c'.
Proof.
  revert c. induction ls as [|l ls IH]; intros c Hc Hrun; cbn [crun] in Hrun; [by injection Hrun as <-|]. destruct (cstep pf l c) as [c1|] eqn:E; [|discriminate Hrun].
  apply (IH c1); [|done]. destruct Hc as [l0 H0]. exists (l0 ++ [l]). by rewrite (crun_snoc _ _ _ _ _ H0).
Qed.
Theorem C61_answers_once pf t0 t1 c ls c' w rec g : creachable pf t0 t1 c -> answers c w rec g -> crun pf ls c = Some c' ->
  answers c' w rec g /\ forall rec' g', answers c' w rec' g' -> rec' = rec /\ g' = g.
Proof.
  intros Hc Ha Hrun. assert (answers c' w rec g) as Ha'.
  { revert c Hc Ha Hrun. induction ls as [|l ls IH]; intros c Hc Ha Hrun; cbn [crun] in Hrun; [by injection Hrun as <-|]. destruct (cstep pf l c) as [c1|] eqn:E; [|discriminate Hrun].
    apply (IH c1); [apply (creach_run _ _ _ c [l]); [done|]; cbn [crun]; by rewrite E|by eapply answer_stays|done]. }
  split; [done|]. intros rec' g' H'. pose proof (silent_reach _ _ _ _ w (creach_run _ _ _ _ _ _ Hc Hrun)) as Hs. unfold silent in Hs.
  destruct g as [st| |], g' as [st'| |]; cbn [answers] in Ha', H'.
  - split; congruence.
  - rewrite H' in Hs. congruence.
  - rewrite H' in Hs. destruct Hs; congruence.
  - rewrite Ha' in Hs. congruence.
  - split; congruence.
  - congruence.
  - rewrite Ha' in Hs. destruct Hs; congruence.
  - congruence.
  - split; congruence.
Qed.
Print Assumptions C61_answers_once.

(** ** ... and what the state RUNNING and the answer [DisCancelTimeOut] tell *)
Lemma quit_new pf t0 t1 lb s s' i rec : reachable pf t0 t1 s -> step pf lb s = Some s' -> OQuit i rec ∉ log s -> OQuit i rec ∈ log s' -> hpc s = HIdle /\ (i, rec) ∈ trace_recs (trace s).
Proof.
  intros Hr Hs Hn Hy. destruct (step_kinds _ _ _ _ (hpub_reach _ _ _ _ Hr) Hs) as [e q fin tid r st Hh Eq He Hx|tid hb q Hh Eq Hx|lg _ _ E1 E2].
  - split; [done|]. destruct (ended_effect _ _ _ _ _ _ _ _ He Hx) as (_ & [[_ ->]|(tr & n & p & E3 & _ & El & E4 & E5)]).
    + fsimpl_in Hy. apply elem_of_cons in Hy as [Hy|Hy]; [discriminate Hy|done].
    + rewrite El, !elem_of_app, !elem_of_cons in Hy. destruct Hy as [Hy|[Hy|[Hy|[Hy|Hy]]]].
      * destruct E5 as [[-> _]|(p0 & _ & ->)]; [by apply elem_of_nil in Hy|apply elem_of_list_singleton in Hy; discriminate Hy].
      * destruct E4 as [[-> _]|[-> _]]; [by apply elem_of_nil in Hy|apply elem_of_list_singleton in Hy; discriminate Hy].
      * injection Hy as <- <-. rewrite (quit_recs _ _ _ _ E3). left.
      * discriminate Hy.
      * done.
  - exfalso. destruct (appended_effect _ _ _ _ _ Hx) as (_ & _ & _ & El & _). rewrite El, !elem_of_cons in Hy. destruct Hy as [Hy|[Hy|Hy]]; [discriminate Hy|discriminate Hy|done].
  - exfalso. rewrite E1 in Hy. apply elem_of_app in Hy as [Hy|Hy]; [|done]. rewrite Forall_forall in E2. exact (E2 _ Hy).
Qed.
Lemma quit_taken pf t0 t1 s i rec : reachable pf t0 t1 s -> OQuit i rec ∈ log s -> rec ∈ taken i (log s).
Proof.
  revert s. apply (reach_ind pf t0 t1 (fun s => OQuit i rec ∈ log s -> rec ∈ taken i (log s))).
  - intros H. change (log (init t0 t1)) with [OTick 0 t1] in H. apply elem_of_list_singleton in H. discriminate H.
  - intros lb s s' Hr IH Hs Hy. assert (forall x, x ∈ taken i (log s) -> x ∈ taken i (log s')) as Hmono.
    { intros x Hx. destruct (taken_step _ _ _ _ i Hs) as [->|(hb & q & _ & _ & _ & ->)]; [done|apply elem_of_app; by left]. }
    apply Hmono. destruct (quit_dec i rec (log s)) as [Hq|Hq]; [by apply IH|]. destruct (quit_new _ _ _ _ _ _ _ _ Hr Hs Hq Hy) as [_ Ht]. by eapply trace_taken.
Qed.
Lemma quit_tells pf t0 t1 lb s s' t ch rec : reachable pf t0 t1 s -> OSend (EInsert t) ∈ log s -> kept t (log s) -> chains s !! t_uid t = Some ch -> c_state ch = LIVING -> step pf lb s = Some s' ->
  OQuit (t_id t) rec ∉ log s -> OQuit (t_id t) rec ∈ log s' -> told rec (log s') <> [].
Proof.
  intros Hr Hin Hq Hc Hl Hs Hn Hy. destruct (quit_new _ _ _ _ _ _ _ _ Hr Hs Hn Hy) as [Hh Ht].
  destruct (alive_mark _ _ _ _ _ _ _ Hr Hin Hq Hc Hl Hh Ht) as (m & l & Hm & Hmc & Hrl).
  destruct (step_kinds _ _ _ _ (hpub_reach _ _ _ _ Hr) Hs) as [e q fin tid r st _ Eq He Hx|tid hb q _ Eq Hx|lg _ _ E1 E2].
  2: { exfalso. destruct (appended_effect _ _ _ _ _ Hx) as (_ & _ & _ & El & _). rewrite El, !elem_of_cons in Hy. destruct Hy as [Hy|[Hy|Hy]]; [discriminate Hy|discriminate Hy|done]. }
  2: { exfalso. rewrite E1 in Hy. apply elem_of_app in Hy as [Hy|Hy]; [|done]. rewrite Forall_forall in E2. exact (E2 _ Hy). }
  assert (tid = t_id t /\ r = rec) as [-> ->].
  { destruct (ended_effect _ _ _ _ _ _ _ _ He Hx) as (_ & [[_ ->]|(tr & n & p & E3 & _ & El & E4 & E5)]).
    - fsimpl_in Hy. apply elem_of_cons in Hy as [Hy|Hy]; [discriminate Hy|done].
    - rewrite El, !elem_of_app, !elem_of_cons in Hy. destruct Hy as [Hy|[Hy|[Hy|[Hy|Hy]]]].
      + destruct E5 as [[-> _]|(p0 & _ & ->)]; [by apply elem_of_nil in Hy|apply elem_of_list_singleton in Hy; discriminate Hy].
      + destruct E4 as [[-> _]|[-> _]]; [by apply elem_of_nil in Hy|apply elem_of_list_singleton in Hy; discriminate Hy].
      + by injection Hy as <- <-.
      + discriminate Hy.
      + done. }
  assert (exists tr, quit_one_task_handler (t_id t) rec (trace s) = Some tr) as [tr0 Htr].
  { destruct (ended_effect _ _ _ _ _ _ _ _ He Hx) as (_ & [[_ ->]|(tr & n & p & E3 & _)]); [|by eauto]. fsimpl_in Hy. apply elem_of_cons in Hy as [Hy|Hy]; [discriminate Hy|done]. }
  destruct Hx as [Hz|tr Hz Hz1|tr mz Hz Hz1 Hz2|tr mz cid lz Hz Hz1 Hz2 Hz3|tr mz cid lz Hz Hz1 Hz2 Hz3 Hz4|tr mz cid lz z lz' Hz Hz1 Hz2 Hz3 Hz4];
    change (flags (popped e q s)) with (flags s) in *; change (trace (popped e q s)) with (trace s) in *; try congruence.
  - exfalso. change (chain_state s cid = Some DROPPED) in Hz3. assert (cid = t_uid t) as -> by congruence. unfold chain_state in Hz3. rewrite Hc in Hz3. cbn in Hz3. rewrite Hl in Hz3. discriminate Hz3.
  - exfalso. apply take_rec_none in Hz4. apply Hz4. rewrite list_fmap_id. congruence.
  - rewrite complete_log, told_app. intros [_ E]%app_eq_nil. revert E. unfold notify_instance. fsimpl. cbn [told]. destruct (decide (rec = rec)); done.
Qed.
Lemma sent_step pf lb s s' e : step pf lb s = Some s' -> OSend e ∈ log s' -> OSend e ∈ log s \/ e ∈ queue s'.
Proof.
  intros Hs. step_inv Hs; inst_cases; isimpl.
  all: repeat match goal with |- context [match hpub ?x with _ => _ end] => destruct (hpub x) | |- context [if ?x then _ :: _ else _] => destruct x end; rewrite ?elem_of_app, ?elem_of_cons.
  all: try (by intros; left).
  all: try (intros Hx; left; repeat (destruct Hx as [Hx|Hx]; [discriminate Hx|]); exact Hx).
  all: try (intros Hx; repeat (destruct Hx as [Hx|Hx]; [first [discriminate Hx|injection Hx as ->; right; right; left; done]|]); by left).
Qed.
(** The id is used by one insertion, and the chain is alive: the chain is told of every end. *)
Lemma alive_told pf t0 t1 s t ch rec : reachable pf t0 t1 s -> OSend (EInsert t) ∈ log s -> kept t (log s) -> chains s !! t_uid t = Some ch -> c_state ch = LIVING ->
  OQuit (t_id t) rec ∈ log s -> told rec (log s) <> [].
Proof.
  intros Hr. revert s Hr ch. apply (reach_ind pf t0 t1 (fun s => forall ch, OSend (EInsert t) ∈ log s -> kept t (log s) -> chains s !! t_uid t = Some ch -> c_state ch = LIVING -> OQuit (t_id t) rec ∈ log s -> told rec (log s) <> [])).
  - intros ch H. change (log (init t0 t1)) with [OTick 0 t1] in H. apply elem_of_list_singleton in H. discriminate H.
  - intros lb s s' Hr IH Hs ch Hi Hq Hc Hl Hy. pose proof (kept_anti _ _ _ _ _ Hs Hq) as Hq0. pose proof (reach_step _ _ _ _ _ _ Hr Hs) as Hr'.
    destruct (quit_dec (t_id t) rec (log s)) as [Hy0|Hn].
    + destruct (sent_step _ _ _ _ _ Hs Hi) as [Hi0|Hi0].
      * destruct (alive_run pf t0 t1 [lb] s s' t ch Hr Hi0) as (ch0 & Hc0 & Hl0); [cbn [run]; by rewrite Hs|done|done|]. eapply told_mono; [exact Hs|]. by apply (IH ch0).
      * exfalso. apply (kept_taken _ _ _ _ _ _ Hr' Hq (quit_taken _ _ _ _ _ _ Hr' Hy)). apply (kept_once _ _ _ _ _ (EInsert t) Hr' Hq Hi0). by right.
    + destruct (sent_step _ _ _ _ _ Hs Hi) as [Hi0|Hi0].
      * destruct (alive_run pf t0 t1 [lb] s s' t ch Hr Hi0) as (ch0 & Hc0 & Hl0); [cbn [run]; by rewrite Hs|done|done|]. exact (quit_tells _ _ _ _ _ _ _ _ _ Hr Hi0 Hq0 Hc0 Hl0 Hs Hn Hy).
      * exfalso. apply (kept_taken _ _ _ _ _ _ Hr' Hq (quit_taken _ _ _ _ _ _ Hr' Hy)). apply (kept_once _ _ _ _ _ (EInsert t) Hr' Hq Hi0). by right.
Qed.

(** [get_state] gives RUNNING only while the instance has not ended: false when the task has been removed before the instance ended, ... *)
Definition C61_running : Prop := forall pf t0 t1 s rec h, reachable pf t0 t1 s -> hdrs s !! rec = Some h -> h_state h = RUNNING -> OQuit (h_tid h) rec ∉ log s.
(** ... and then RUNNING is all it will ever give. *)
Theorem C61_running_for_ever pf t0 t1 s ls s' rec h : reachable pf t0 t1 s -> hdrs s !! rec = Some h -> h_state h = RUNNING -> OQuit (h_tid h) rec ∈ log s -> run pf ls s = Some s' ->
  exists h', hdrs s' !! rec = Some h' /\ h_state h' = RUNNING.
Proof.
  revert s h. induction ls as [|lb ls IH]; intros s h Hr Hh Hn Hq Hrun; cbn [run] in Hrun; [injection Hrun as <-; eauto|].
  destruct (step pf lb s) as [s1|] eqn:Hs; [|discriminate Hrun]. pose proof (reach_step _ _ _ _ _ _ Hr Hs) as Hr1.
  assert (hdrs s1 !! rec = Some h) as Hh1.
  { pose proof (fun tid => quit_no_handle _ _ _ _ _ tid _ Hr Hq) as Hno. destruct (step_kinds _ _ _ _ (hpub_reach _ _ _ _ Hr) Hs) as [e q fin tid r st _ Eq He Hx|tid hb q _ Eq Hx|lg _ -> _ _]; [| |done].
    - destruct (ended_effect _ _ _ _ _ _ _ _ He Hx) as (_ & [[_ ->]|(tr & n & p & E3 & _ & _ & [[_ ->]|[_ ->]] & _)]); [done|done|].
      destruct (decide (r = rec)) as [->|Hne]; [|by rewrite lookup_alter_ne]. exfalso. apply (Hno tid). rewrite (quit_recs _ _ _ _ E3). left.
    - destruct (appended_effect _ _ _ _ _ Hx) as (_ & Et & _ & El & [->|(m & cid & l & _ & _ & ->)]); [done|].
      destruct (decide (hb_rec hb = rec)) as [E|Hne]; [|by rewrite lookup_insert_ne]. exfalso.
      apply (quit_no_handle _ _ _ s1 (h_tid h) tid rec Hr1); [destruct (step_log _ _ _ _ Hs) as [lg ->]; apply elem_of_app; by right|]. rewrite Et, trace_insert_recs, E. left. }
  apply (IH s1 h Hr1 Hh1 Hn); [destruct (step_log _ _ _ _ Hs) as [l ->]; apply elem_of_app; by right|done].
Qed.
Print Assumptions C61_running_for_ever.
Definition ended_running (s : sys) : bool := match hdrs s !! 0%Z with Some h => (h_state h =? RUNNING) && (h_tid h =? 11) | None => false end && inb (OQuit 11 0) (log s).
Lemma ended_running_ok s : ended_running s = true -> exists h, hdrs s !! 0%Z = Some h /\ h_state h = RUNNING /\ h_tid h = 11 /\ OQuit (h_tid h) 0 ∈ log s.
Proof.
  unfold ended_running. intros H. apply andb_true_iff in H as [H1 H2]. apply inb_ok in H2. destruct (hdrs s !! 0%Z) as [h|]; [|discriminate H1]. apply andb_true_iff in H1 as [H0%N.eqb_eq H1%N.eqb_eq].
  exists h. rewrite H1. done.
Qed.
Theorem C61_running_refuted : ~ C61_running.
Proof.
  destruct (after_reach Debug 100 100 [Do (LInsert (every 1 11 5 100)); Handle; Ticks 7; Handle; Do (LRemove 11); Handle; Do (LFinish 0 110 None); Handle] ended_running) as (s & Hr & HP); [vm_compute; reflexivity|].
  apply ended_running_ok in HP as (h & H1 & H2 & _ & H3). intros H. exact (H _ _ _ _ _ _ Hr H1 H2 H3).
Qed.
Print Assumptions C61_running_refuted.
(** It is exact as long as the task inserted has not been named again and its chain is held. *)
Theorem C61_running_partial pf t0 t1 s t ch rec h : reachable pf t0 t1 s -> OSend (EInsert t) ∈ log s -> kept t (log s) -> chains s !! t_uid t = Some ch -> c_state ch = LIVING ->
  hdrs s !! rec = Some h -> h_tid h = t_id t -> (h_state h = RUNNING <-> OQuit (t_id t) rec ∉ log s).
Proof.
  intros Hr Hi Hq Hc Hl Hh Ht. split.
  - intros Hn Hy. revert Hn. eapply told_state; [exact Hr| |exact Hh]. by eapply alive_told.
  - intros Hn. destruct (hdr_place _ _ _ _ _ _ Hr Hh) as [[_ ?]|Hy]; [done|]. by rewrite Ht in Hy.
Qed.
Print Assumptions C61_running_partial.

(** [DisCancelTimeOut] means that the instance has not ended ... *)
Definition C61_time_out : Prop := forall pf t0 t1 c w rec c', creachable pf t0 t1 c -> cstep pf (CTimeOut w) c = Some c' -> answers c' w rec GTimeOut -> forall tid, OQuit tid rec ∉ log (c_sys c).
Lemma creach_lift pf t0 t1 s : reachable pf t0 t1 s -> creachable pf t0 t1 (C s ∅).
Proof.
  apply (reach_ind pf t0 t1 (fun s => creachable pf t0 t1 (C s ∅))); [by exists []|].
  intros lb s1 s2 _ [ls IH] Hs. exists (ls ++ [CDo lb]). rewrite (crun_snoc _ _ _ _ _ IH). cbn [cstep c_ans c_sys]. destruct lb; rewrite ?lookup_empty, Hs; reflexivity.
Qed.
Lemma time_out_refutes s : reachable Debug 100 100 s -> waiters s !! 5 = Some (Waiter 0 WListen) -> OQuit 11 0 ∈ log s -> ~ C61_time_out.
Proof.
  intros Hr Hw Hq H. apply (H Debug 100 100 (C s ∅) 5 0%Z (C s (<[5 := DisCancelTimeOut 0]> ∅)) (creach_lift _ _ _ _ Hr)) with (tid := 11); [|cbn; apply lookup_insert|done].
  cbn [cstep c_sys c_ans]. by rewrite Hw, lookup_empty.
Qed.
(** ... but the end can come before the caller listens, ... *)
Theorem C61_time_out_refuted : ~ C61_time_out.
Proof.
  destruct (after_reach Debug 100 100 [Do (LInsert (every 1 11 5 100)); Handle; Ticks 7; Handle; Do (LNextCheck 1); Do (LNextTry 1); Do (LInstCancel 5 0); Handle; Do (LListen 5)]
    (done_quit (fun p => match p with WListen => true | _ => false end))) as (s & Hr & HP); [vm_compute; reflexivity|].
  apply done_quit_ok in HP as (p & H1 & H2 & _ & _ & H5). apply (time_out_refutes s Hr); [by destruct p|done].
Qed.
Print Assumptions C61_time_out_refuted.
(** ... or nobody is told of it, because the task has been removed. *)
Theorem C61_time_out_refuted2 : ~ C61_time_out.
Proof.
  destruct (after_reach Debug 100 100 [Do (LInsert (every 1 11 5 100)); Handle; Ticks 7; Handle; Do (LNextCheck 1); Do (LNextTry 1); Do (LRemove 11); Do (LInstCancel 5 0); Do (LListen 5); Handle]
    (done_quit (fun p => match p with WListen => true | _ => false end))) as (s & Hr & HP); [vm_compute; reflexivity|].
  apply done_quit_ok in HP as (p & H1 & H2 & _ & _ & H5). apply (time_out_refutes s Hr); [by destruct p|done].
Qed.
Print Assumptions C61_time_out_refuted2.
Lemma crun_run pf ls c c' : crun pf ls c = Some c' -> exists lbs, run pf lbs (c_sys c) = Some (c_sys c').
Proof.
  revert c. induction ls as [|l ls IH]; intros c H; cbn [crun] in H; [injection H as <-; by exists []|].
  destruct (cstep pf l c) as [c1|] eqn:Hs; [|discriminate H]. destruct (IH _ H) as [lbs Hl].
  destruct (cstep_sys _ _ _ _ Hs) as [(lb & _ & E & _)|[E _]]; [exists (lb :: lbs); cbn [run]; by rewrite E|exists lbs; by rewrite <- E].
Qed.
(** It does mean that when the caller listened in time, the task has not been named again and its chain is held. *)
Theorem C61_time_out_partial pf t0 t1 c ls c1 c2 t ch w rec : creachable pf t0 t1 c -> OSend (EInsert t) ∈ log (c_sys c) -> waiters (c_sys c) !! w = Some (Waiter rec WListen) -> OQuit (t_id t) rec ∉ log (c_sys c) ->
  crun pf ls c = Some c1 -> kept t (log (c_sys c1)) -> chains (c_sys c1) !! t_uid t = Some ch -> c_state ch = LIVING -> cstep pf (CTimeOut w) c1 = Some c2 -> OQuit (t_id t) rec ∉ log (c_sys c1).
Proof.
  intros Hc Hi Hw Hn Hrun Hq Hch Hl Ht Hy. apply creach_sys in Hc. destruct (crun_run _ _ _ _ Hrun) as [lbs Hr].
  pose proof (C37_returns_partial _ _ _ _ _ _ _ _ _ _ Hc Hi Hw Hn Hr Hq Hch Hl Hy) as H.
  cbn [cstep] in Ht. destruct (waiters (c_sys c1) !! w) as [[r1 []]|] eqn:Ew; try discriminate Ht.
  destruct H as [(st & H & _)|(s' & st & H & _)]; [congruence|]. cbn [step] in H. unfold inst_return in H. rewrite Ew in H. discriminate H.
Qed.
Print Assumptions C61_time_out_partial.

Definition placed (tid : N) (rec : Z) (s : sys) : Prop := (tid, rec) ∈ trace_recs (trace s) \/ OQuit tid rec ∈ log s.
Lemma placed_step pf t0 t1 lb s s' tid rec : reachable pf t0 t1 s -> step pf lb s = Some s' -> placed tid rec s -> placed tid rec s'.
Proof.
  intros Hr Hs [Ht|Hq]; [|right; destruct (step_log _ _ _ _ Hs) as [l ->]; apply elem_of_app; by right]. apply (trace_step pf lb s); [by eapply hpub_reach|done|done].
Qed.
Lemma cancel_kept pf t0 t1 lb s s' tid rec : reachable pf t0 t1 s -> step pf lb s = Some s' -> placed tid rec s -> ECancel tid rec ∈ queue s -> ECancel tid rec ∈ queue s' \/ OQuit tid rec ∈ log s'.
Proof.
  intros Hr Hs Hp Hz. destruct (event_stays _ _ _ _ _ Hs Hz) as [?|(-> & Hi & q & Eq)]; [by left|right].
  destruct Hp as [Ht|Hy]; [|destruct (step_log _ _ _ _ Hs) as [l ->]; apply elem_of_app; by right].
  destruct (C12_cancel_is_exact _ _ _ _ _ _ _ _ Hr Hi Eq Hs) as (_ & _ & _ & _ & _ & _ & _ & _ & _ & _ & _ & _ & _ & _ & H & _).
  destruct H as [H _]; [by apply elem_trace_recs|]. apply elem_quits. rewrite H. left.
Qed.
Lemma call_new pf lb s s' w rec : step pf lb s = Some s' -> waiters s !! w = None -> waiters s' !! w = Some (Waiter rec WSent) -> exists h, hdrs s !! rec = Some h /\ ECancel (h_tid h) rec ∈ queue s'.
Proof.
  intros Hs Hn. step_inv Hs; inst_cases; isimpl; intros Hw; try congruence.
  all: try (rewrite lookup_fmap, Hn in Hw; discriminate Hw).
  all: match type of Hw with <[?k := _]> _ !! _ = _ => destruct (decide (k = w)) as [->|Hne]; [rewrite lookup_insert in Hw|rewrite lookup_insert_ne in Hw by done; congruence] end.
  all: try discriminate Hw. all: injection Hw as ->. all: eexists; split; [eassumption|]; apply elem_of_app; right; left.
Qed.
(** Whatever the call answers, once accepted it ends the instance: its event is in the channel, or the instance has ended. *)
Theorem C61_cancels pf t0 t1 c w x : creachable pf t0 t1 c -> waiters (c_sys c) !! w = Some x -> exists tid, ECancel tid (w_rec x) ∈ queue (c_sys c) \/ OQuit tid (w_rec x) ∈ log (c_sys c).
Proof.
  intros Hc. apply creach_sys in Hc. revert x. generalize (c_sys c) Hc. clear c Hc.
  assert (forall s, reachable pf t0 t1 s -> forall x, waiters s !! w = Some x -> exists tid, placed tid (w_rec x) s /\ (ECancel tid (w_rec x) ∈ queue s \/ OQuit tid (w_rec x) ∈ log s)) as H.
  2: { intros s Hr x Hx. destruct (H s Hr x Hx) as (tid & _ & H1). by exists tid. }
  apply (reach_ind pf t0 t1 (fun s => forall x, waiters s !! w = Some x -> exists tid, placed tid (w_rec x) s /\ (ECancel tid (w_rec x) ∈ queue s \/ OQuit tid (w_rec x) ∈ log s))).
  - intros x H. change (waiters (init t0 t1)) with (∅ : gmap N waiter) in H. rewrite lookup_empty in H. discriminate H.
  - intros lb s s' Hr IH Hs x Hx.
    assert (forall y, waiters s !! w = Some y -> w_rec y = w_rec x -> exists tid, placed tid (w_rec x) s' /\ (ECancel tid (w_rec x) ∈ queue s' \/ OQuit tid (w_rec x) ∈ log s')) as Hold.
    { intros y Hy E. destruct (IH y Hy) as (tid & Hp & Hz). rewrite E in Hp, Hz. exists tid. split; [by eapply placed_step|].
      destruct Hz as [Hz|Hz]; [|right; destruct (step_log _ _ _ _ Hs) as [l ->]; apply elem_of_app; by right]. exact (cancel_kept _ _ _ _ _ _ _ _ Hr Hs Hp Hz). }
    destruct (wait_kinds _ _ _ _ w Hs) as [K|r1 K0 K1 K2|r1 _ K1 K2|r1 tid1 e q fin st tr _ _ _ K3 K4 K5 K6|r1 h _ K1 K2 K3].
    + rewrite K in Hx. by apply (Hold x).
    + rewrite Hx in K1. injection K1 as ->. destruct (call_new _ _ _ _ _ _ Hs K0 Hx) as (h & E1 & E2). exists (h_tid h). cbn [w_rec]. split; [|by left].
      apply (placed_step _ _ _ _ _ _ _ _ Hr Hs). destruct (hdr_place _ _ _ _ _ _ Hr E1) as [[? _]|?]; [by left|by right].
    + apply (Hold _ K1). rewrite Hx in K2. by injection K2 as ->.
    + apply (Hold _ K4). rewrite Hx in K5. by injection K5 as ->.
    + apply (Hold _ K1). rewrite Hx in K3. by injection K3 as ->.
Qed.
Print Assumptions C61_cancels.
(** Once an instance has a final state, no call about it is accepted any more. *)
Lemma call_running pf lb s s' w rec : step pf lb s = Some s' -> waiters s !! w = None -> waiters s' !! w = Some (Waiter rec WSent) -> exists h, hdrs s !! rec = Some h /\ h_state h = RUNNING.
Proof.
  intros Hs Hn Hw. destruct (waiter_new _ _ _ _ _ Hs Hn) as [?|[rec' ->]]; [congruence|]. cbn [step] in Hs. unfold inst_cancel in Hs. rewrite Hn in Hs. destruct (hdrs s !! rec') as [h|] eqn:Eh; [|discriminate Hs].
  destruct (chains s !! h_chain h) as [ch|]; [|discriminate Hs]. destruct (bool_decide (rec' ∈ c_got ch) && (h_state h =? RUNNING)) eqn:Eb; [|discriminate Hs]. injection Hs as <-. fsimpl_in Hw. rewrite lookup_insert in Hw.
  injection Hw as <-. exists h. split; [done|]. apply andb_true_iff in Eb as [_ Eb]. by apply N.eqb_eq.
Qed.
Theorem C61_refused_for_good pf t0 t1 s ls s' rec h w x : reachable pf t0 t1 s -> hdrs s !! rec = Some h -> h_state h <> RUNNING -> run pf ls s = Some s' ->
  waiters s !! w = None -> waiters s' !! w = Some x -> w_rec x <> rec.
Proof.
  intros Hr Hh Hn. revert s h x Hr Hh Hn. induction ls as [|lb ls IH]; intros s h x Hr Hh Hn Hrun Hw Hx; cbn [run] in Hrun; [injection Hrun as <-; congruence|].
  destruct (step pf lb s) as [s1|] eqn:Hs; [|discriminate Hrun]. pose proof (reach_step _ _ _ _ _ _ Hr Hs) as Hr1.
  destruct (C13_final_state_is_final pf t0 t1 s [lb] s1 rec h Hr ltac:(cbn [run]; by rewrite Hs) Hh) as (h1 & Hh1 & _ & E). specialize (E Hn).
  destruct (waiters s1 !! w) as [y|] eqn:Ey; [|by apply (IH s1 h1 x); [..|congruence| | |]].
  assert (exists r, y = Waiter r WSent) as [r ->].
  { destruct (wait_kinds _ _ _ _ w Hs) as [K|r1 K0 K1 K2|r1 _ K1 K2|r1 tid1 e q fin st tr _ _ _ K3 K4 K5 K6|r1 h' _ K1 K2 K3]; try congruence. exists r1. congruence. }
  destruct (call_running _ _ _ _ _ _ Hs Hw Ey) as (h' & Hh' & Er). assert (r <> rec) as Hne by (intros ->; congruence).
  assert (forall ls s1 y, waiters s1 !! w = Some y -> run pf ls s1 = Some s' -> exists z, waiters s' !! w = Some z /\ w_rec z = w_rec y) as Hkeep.
  { clear. intros ls. induction ls as [|lb ls IH]; intros s y Hy Hrun; cbn [run] in Hrun; [injection Hrun as <-; eauto|]. destruct (step pf lb s) as [s1|] eqn:Hs; [|discriminate Hrun].
    assert (exists z, waiters s1 !! w = Some z /\ w_rec z = w_rec y) as (z & Hz & Ez).
    { destruct (wait_kinds _ _ _ _ w Hs) as [K|r1 K0 K1 K2|r1 _ K1 K2|r1 tid1 e q fin st tr _ _ _ K3 K4 K5 K6|r1 h' _ K1 K2 K3].
      - exists y. split; [congruence|done].
      - congruence.
      - eexists. split; [exact K2|]. rewrite Hy in K1. by injection K1 as ->.
      - eexists. split; [exact K5|]. rewrite Hy in K4. by injection K4 as ->.
      - eexists. split; [exact K3|]. rewrite Hy in K1. by injection K1 as ->. }
    destruct (IH s1 z Hz Hrun) as (z' & ? & ?). exists z'. split; [done|congruence]. }
  destruct (Hkeep _ _ _ Ey Hrun) as (z & Hz & Ez). rewrite Hx in Hz. injection Hz as <-. rewrite Ez. exact Hne.
Qed.
Print Assumptions C61_refused_for_good.
(** Non-vacuous: [C61_example], where call 6 is made after the end. *)

(** The hypotheses: [scene] is the state after a first run has been started and given to the user, who calls [cancel_with_wait] with number 5 and listens. *)
(** In [scene_touched] the task is also updated and advanced. *)
Definition scene_touched : list act := [Do (LInsert (every 1 11 5 100)); Handle; Ticks 7; Do (LUpdate (every 2 11 5 107)); Do (LAdvance 11); Handle; Do (LNextCheck 1); Do (LNextTry 1); Do (LInstCancel 5 0); Do (LListen 5)].
Definition scene : list act := [Do (LInsert (every 1 11 5 100)); Handle; Ticks 7; Handle; Do (LNextCheck 1); Do (LNextTry 1); Do (LInstCancel 5 0); Do (LListen 5)].
(** Call 5 returns with the state CANCELLED, and a second one, 6, made after that, is refused. *)
Example C61_example : exists c, creachable Debug 100 100 c /\ answers c 5 0 (GOk CANCELLED) /\ answers c 6 0 GDisCancel.
Proof.
  destruct (after_reach Debug 100 100 (scene ++ [Handle; Do (LReturn 5)])
    (fun s => match waiters s !! 5, waiters s !! 6, hdrs s !! 0%Z with Some (Waiter 0 (WRet st)), None, Some h => (st =? CANCELLED) && match cstep Debug (CRefused 6 0) (C s ∅) with Some _ => true | None => false end | _, _, _ => false end))
    as (s & Hr & HP); [vm_compute; reflexivity|].
  destruct (waiters s !! 5) as [[[| |] [| | |st]]|] eqn:E5; try discriminate HP. destruct (waiters s !! 6) as [|] eqn:E6; [discriminate HP|]. destruct (hdrs s !! 0%Z) as [h|] eqn:Eh; [|discriminate HP].
  apply andb_true_iff in HP as [->%N.eqb_eq H2]. destruct (cstep Debug (CRefused 6 0) (C s ∅)) as [c|] eqn:Ec; [|discriminate H2].
  destruct (creach_lift _ _ _ _ Hr) as [ls Hl]. exists c. split; [exists (ls ++ [CRefused 6 0]); by rewrite (crun_snoc _ _ _ _ _ Hl)|].
  cbn [cstep c_sys c_ans] in Ec. rewrite E6, lookup_empty, Eh in Ec. repeat case_match; try discriminate Ec. injection Ec as <-. cbn [answers c_ans c_sys]. split; [done|apply lookup_insert].
Qed.
(** Call 5 waits, its instance runs, and the call may time out: the hypotheses of C61_time_out_partial with [ls = []], and of C61_running_partial. *)
Example C61_partial_example : exists s ch h c', reachable Debug 100 100 s /\ OSend (EInsert (every 1 11 5 100)) ∈ log s /\ kept (every 1 11 5 100) (log s) /\ chains s !! 1 = Some ch /\ c_state ch = LIVING /\
  waiters s !! 5 = Some (Waiter 0 WListen) /\ hdrs s !! 0%Z = Some h /\ h_tid h = 11 /\ OQuit 11 0 ∉ log s /\ cstep Debug (CTimeOut 5) (C s ∅) = Some c' /\ answers c' 5 0 GTimeOut.
Proof.
  destruct (scen_kept Debug 100 100 scene_touched (every 1 11 5 100)
    (fun s => insb 1 (log s) && match waiters s !! 5, hdrs s !! 0%Z with Some (Waiter 0 WListen), Some h => h_tid h =? 11 | _, _ => false end && negb (bool_decide ((11, 0%Z) ∈ quits (log s))) &&
      match chains s !! 1 with Some ch => c_state ch =? LIVING | None => false end))
    as (s & Hr & Hs & Hq & HP); [right; left|vm_compute; reflexivity|].
  apply andb_true_iff in HP as [HP H4]. apply andb_true_iff in HP as [HP H3]. apply andb_true_iff in HP as [H1 H2]. apply (insb_ok _ _ _ _ _ Hr Hs) in H1.
  destruct (chains s !! 1) as [ch|] eqn:Ec; [|discriminate H4]. apply N.eqb_eq in H4.
  destruct (waiters s !! 5) as [[[| |] []]|] eqn:Ew; try discriminate H2. destruct (hdrs s !! 0%Z) as [h|] eqn:Eh; [|discriminate H2]. apply N.eqb_eq in H2.
  exists s, ch, h, (C s (<[5 := DisCancelTimeOut 0]> ∅)). split; [exact Hr|]. split; [exact H1|]. split; [exact Hq|]. split; [done|]. split; [done|]. split; [done|]. split; [done|]. split; [done|].
  split; [rewrite <- elem_quits; by destruct (bool_decide_reflect ((11, 0%Z) ∈ quits (log s)))|]. split; [|cbn; apply lookup_insert]. cbn [cstep c_sys c_ans]. by rewrite Ew, lookup_empty.
Qed.
(** A state that stays RUNNING although the instance has ended: the hypotheses of C61_running_for_ever. *)
Example C61_for_ever_example : exists s h, reachable Debug 100 100 s /\ hdrs s !! 0%Z = Some h /\ h_state h = RUNNING /\ OQuit (h_tid h) 0 ∈ log s.
Proof.
  destruct (after_reach Debug 100 100 [Do (LInsert (every 1 11 5 100)); Handle; Ticks 7; Handle; Do (LRemove 11); Handle; Do (LFinish 0 110 None); Handle] ended_running) as (s & Hr & HP); [vm_compute; reflexivity|].
  apply ended_running_ok in HP as (h & H1 & H2 & _ & H3). eauto 10.
Qed.
