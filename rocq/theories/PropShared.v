(** The parallel limit of an id whose task is updated and advanced (C73). *)
From Verif Require Import Tactics Inv Own Life Count Cases Inst Scen Account Live Arrival Crash PropLimit.

(** * Specification *)

(** How many calls add a task with the id [i]. *)
Definition adds_id (i : N) (e : event) : bool := match e with EAdd t | EInsert t => t_id t =? i | _ => false end.
Fixpoint adds (i : N) (lg : list obs) : N := match lg with [] => 0 | OSend e :: lg => (if adds_id i e then 1 else 0) + adds i lg | _ :: lg => adds i lg end.
(** How many tasks with the id [i] were discarded because their countdown was used up or there was no further date. *)
Fixpoint overs (i : N) (lg : list obs) : N :=
  match lg with [] => 0 | OEnd _ j :: lg | ODrop _ j NoDate :: lg => (if j =? i then 1 else 0) + overs i lg | _ :: lg => overs i lg end.
(** The full statement: an id is added once and its task is then updated, advanced and removed at will. If every task with this id has a limit of at most [mx], at most [mx] instances run at a time. *)
Definition C73_limit : Prop := forall pf t0 t1 s i mx, reachable pf t0 t1 s -> adds i (log s) <= 1 -> (forall t, submitted t (log s) -> t_id t = i -> exists m, t_maxpar t = Some m /\ m <= mx) ->
  N.of_nat (length (running i (log s))) <= mx.

(** * Adds that are still to be handled *)
Fixpoint qadds (i : N) (q : list event) : N := match q with [] => 0 | e :: q => (if adds_id i e then 1 else 0) + qadds i q end.
Definition hadds (i : N) (p : handler_pc) : N := match p with HAdd1 t _ _ _ | HAdd2 t _ _ => if t_id t =? i then 1 else 0 | HAdd3 j _ _ => if j =? i then 1 else 0 | _ => 0 end.
Lemma qadds_app i q1 q2 : qadds i (q1 ++ q2) = qadds i q1 + qadds i q2.
Proof. induction q1 as [|e q IH]; cbn [qadds app]; [lia|]. rewrite IH. lia. Qed.
Lemma adds_app i l1 l2 : adds i (l1 ++ l2) = adds i l1 + adds i l2.
Proof. induction l1 as [|o l IH]; [done|]. destruct o; cbn [adds app]; rewrite IH; lia. Qed.
Lemma adds_mono pf lb s s' i : step pf lb s = Some s' -> adds i (log s) <= adds i (log s').
Proof. intros Hs. destruct (step_log _ _ _ _ Hs) as [l ->]. rewrite adds_app. lia. Qed.
Lemma overs_app i l1 l2 : overs i (l1 ++ l2) = overs i l1 + overs i l2.
Proof. induction l1 as [|o l IH]; [done|]. destruct o; cbn [overs app]; rewrite ?IH; try lia. destruct w; rewrite ?IH; lia. Qed.
Lemma overs_mono pf lb s s' i : step pf lb s = Some s' -> overs i (log s) <= overs i (log s').
Proof. intros Hs. destruct (step_log _ _ _ _ Hs) as [l ->]. rewrite overs_app. lia. Qed.
Lemma pend_step pf lb s s' i : step pf lb s = Some s' ->
  qadds i (queue s') + hadds i (hpc s') + adds i (log s) <= qadds i (queue s) + hadds i (hpc s) + adds i (log s') /\
  ((exists c sl, hpc s = HAdd3 i c sl /\ hpc s' = HIdle) -> qadds i (queue s') + hadds i (hpc s') + 1 + adds i (log s) <= qadds i (queue s) + hadds i (hpc s) + adds i (log s')).
Proof.
  intros Hs. split.
  - step_inv Hs; inst_shape; fsimpl; rewrite ?qadds_app; cbn [qadds adds hadds adds_id]; try lia.
    all: try (rewrite Heqh; cbn [hadds]; lia).
    all: try (repeat case_match; cbn [qadds adds hadds adds_id]; lia).
    all: try (rewrite adds_app; cbn [adds]; lia).
    apply next_exec_id in Heqr as [E _]. cbn [t_id set_cylinder_line]. rewrite E. lia.
  - intros (c & sl & E1 & E2). pose proof (adds_mono _ _ _ _ i Hs) as Ha. destruct (match lb with LHandler => true | _ => false end) eqn:Hlb.
    2: { destruct (other_queue _ _ _ _ Hs) as (E & _); [by destruct lb|]. rewrite E1, E2 in E. discriminate E. }
    destruct lb; try done. rewrite E1, E2. cbn [hadds]. rewrite N.eqb_refl. assert (queue s' = queue s) as ->; [|lia].
    cbn [step] in Hs. unfold handler_step in Hs. rewrite E1 in Hs. injection Hs as <-. unfold complete. inst_shape. fsimpl. by destruct (hpub s).
Qed.
Lemma pend_reach pf t0 t1 s i : reachable pf t0 t1 s -> qadds i (queue s) + hadds i (hpc s) <= adds i (log s).
Proof.
  revert s. apply (reach_ind pf t0 t1 (fun s => qadds i (queue s) + hadds i (hpc s) <= adds i (log s))).
  - change (queue (init t0 t1)) with (@nil event). change (hpc (init t0 t1)) with HIdle. cbn [qadds hadds]. lia.
  - intros lb s s' Hr IH Hs. destruct (pend_step _ _ _ _ i Hs) as [H _]. lia.
Qed.

(** * A task that is over leaves its last start uncounted *)
Lemma lost_over pf t0 t1 lb s s' i x : reachable pf t0 t1 s -> step pf lb s = Some s' -> tpc_task (tpc s) = [x] -> t_id x = i -> tpc_task (tpc s') = [] -> inflight i (tpc s') = 0 ->
  tpc s' = TDead \/ running i (log s') = running i (log s) /\ (inflight i (tpc s) = 0 \/ overs i (log s') = overs i (log s) + 1).
Proof.
  intros Hr Hs H1 Hi H2 H3. pose proof (wf_wheel s (wf_reach _ _ _ _ Hr)) as Hw. revert H1 H2 H3. step_inv Hs; inst_shape; fsimpl; intros H1 H2 H3; try (by left); try congruence; right; (split; [reflexivity|]); cbn [tpc_task] in H1; injection H1 as <-.
  - by left.
  - right. cbn [overs]. rewrite N.eqb_refl. lia.
  - left. cbn [inflight] in *. by destruct upd.
  - exfalso. destruct (Hw (a mod SLOTS)) as [_ Hx]. match goal with H : wheel s !! _ = None |- _ => rewrite H in Hx end. destruct Hx as [? Hx]; [|done]. apply N.mod_lt. discriminate.
  - right. cbn [overs]. rewrite N.eqb_refl. lia.
Qed.

(** * The count *)
Definition limited_to (i mx : N) (lg : list obs) : Prop := forall t, submitted t lg -> t_id t = i -> exists m, t_maxpar t = Some m /\ m <= mx.
Lemma limited_anti pf lb s s' i mx : step pf lb s = Some s' -> limited_to i mx (log s') -> limited_to i mx (log s).
Proof. intros Hs Ho t H1. apply Ho. by eapply submitted_mono. Qed.
Definition clean (i : N) (s : sys) : Prop := flags s !! i = None /\ nrun i s = 0 /\ inflight i (tpc s) = 0 /\ (forall l ids x r, tpc s = TSpawn l ids x r -> t_id x <> i).
(** A start of a limited task: the mark showed a free place. *)
Lemma spawn_free pf t0 t1 i mx lb s s' l ids x r : reachable pf t0 t1 s -> limited_to i mx (log s) -> step pf lb s = Some s' -> tpc s' = TSpawn l ids x r -> t_id x = i ->
  nrun i s' <= nrun i s /\ (tpc s' = tpc s \/ (tpc s = TMaint l ids x /\ exists m, flags s !! i = Some m /\ m_num m < mx)).
Proof.
  intros Hr Hb Hs E Hi. split.
  - destruct (nrun_step _ _ _ _ _ _ i Hr Hs) as [Hn|[(l1 & ids1 & x1 & r1 & E1 & E2 & E0 & E3)|(e & q & fin & rec & st & tr & _ & _ & _ & _ & _ & Hlt)]]; [lia| |lia].
    by destruct (E0 _ _ _ _ E).
  - destruct (fly_kinds _ _ _ _ i Hs) as [F [F'|F']|l' ids' x' r' F1 F2 F3 F4|l' ids' x' r' F1 F2 F3|l' ids' x' r' e' F1 F2 F3|l' ids' sl F1 F2|x' F1 F2 F3 F4 F5 F6];
      try congruence; auto; try (by destruct (proj1 (F' _ _ _ _) E)); try (by destruct (F5 _ _ _ _ E)).
    rewrite E in F2. injection F2 as <- <- <- <-. right. split; [done|]. assert (x ∈ held s) as Hx by (unfold held; rewrite F1, !elem_of_app; right; right; left; left).
    destruct (ci_held s (cnt_reach _ _ _ _ Hr) x Hx) as (x1 & H1 & _ & H3 & _ & H5 & _). destruct (Hb x1 H1 ltac:(congruence)) as (k & Hk & Hle). rewrite H5 in Hk.
    destruct F4 as [F4|(mx' & m & F4 & F5 & F6)]; [congruence|]. exists m. split; [done|]. rewrite Hk in F4. injection F4 as ->. lia.
Qed.
Lemma clean_step pf t0 t1 i mx lb s s' : reachable pf t0 t1 s -> limited_to i mx (log s) -> step pf lb s = Some s' -> ~ (exists c sl, hpc s = HAdd3 i c sl /\ hpc s' = HIdle) -> clean i s -> clean i s'.
Proof.
  intros Hr Hb Hs Hno (A1 & A2 & A4 & A3). split_and!.
  - destruct (num_kinds _ _ _ _ i Hs) as [K|l ids sl m1 m2 K1 K2 K3 K4 K5|c sl m1 K1 K2 K3 K4|ok K1 K2|e q fin rec st tr m1 m2 K1 K2 K3 K4 K5 K6 K7 K8]; try congruence.
    + rewrite A1 in K. by destruct (flags s' !! i).
    + destruct Hno. eauto.
  - destruct (nrun_step _ _ _ _ _ _ i Hr Hs) as [Hn|[(l1 & ids1 & x1 & r1 & E1 & E2 & E0 & E3)|(e & q & fin & rec & st & tr & _ & _ & _ & _ & _ & Hlt)]]; [lia| |lia]. by destruct (A3 _ _ _ _ E1).
  - destruct (fly_kinds _ _ _ _ i Hs) as [F _|l' ids' x' r' F1 F2 F3 F4|l' ids' x' r' F1 F2 F3|l' ids' x' r' e' F1 F2 F3|l' ids' sl F1 F2|x' F1 F2 F3 F4 F5 F6].
    + congruence.
    + by rewrite F2.
    + congruence.
    + by destruct (A3 _ _ _ _ F1).
    + by rewrite F2.
    + done.
  - intros l ids x r E Hi. destruct (spawn_free _ _ _ _ _ _ _ _ _ _ _ _ Hr Hb Hs E Hi) as [_ [F|(F & m & G & _)]]; [|congruence]. rewrite F in E. by apply (A3 _ _ _ _ E).
Qed.
Record shared_inv (i mx : N) (s : sys) : Prop := {
  sh_pend : adds i (log s) = 0 \/ 0 < qadds i (queue s) + hadds i (hpc s) -> clean i s;
  sh_max : nrun i s <= mx + overs i (log s);
  sh_num : forall m, flags s !! i = Some m -> tpc s <> TDead -> nrun i s <= m_num m + inflight i (tpc s) + overs i (log s);
  sh_spawn : forall l ids x r, tpc s = TSpawn l ids x r -> t_id x = i -> nrun i s < mx + overs i (log s)
}.
Lemma shared_step pf t0 t1 i mx lb s s' : reachable pf t0 t1 s -> step pf lb s = Some s' -> adds i (log s') <= 1 -> limited_to i mx (log s) -> shared_inv i mx s -> shared_inv i mx s'.
Proof.
  intros Hr Hs Ha Hb [I1 I2 I3 I4]. pose proof (overs_mono _ _ _ _ i Hs) as Ho. destruct (pend_step _ _ _ _ i Hs) as [P1 P2]. pose proof (pend_reach _ _ _ _ i Hr) as P3. pose proof (adds_mono _ _ _ _ i Hs) as P4.
  pose proof (nrun_step _ _ _ _ _ _ i Hr Hs) as Hn. pose proof (num_kinds _ _ _ _ i Hs) as Hk. pose proof (fly_kinds _ _ _ _ i Hs) as Hf.
  assert (forall c sl, hpc s = HAdd3 i c sl -> clean i s) as Hadd. { intros c sl E. apply I1. right. rewrite E. cbn [hadds]. rewrite N.eqb_refl. lia. }
  split.
  - intros Hx. apply (clean_step _ _ _ _ _ _ _ _ Hr Hb Hs).
    + intros H. specialize (P2 H). destruct H as (c & sl & E & _). rewrite E in P3, P2. cbn [hadds] in P2, P3. rewrite N.eqb_refl in P2, P3. lia.
    + apply I1. destruct Hx as [Hx|Hx]; [left; lia|]. destruct (decide (adds i (log s) = 0)) as [?|?]; [by left|right; lia].
  - destruct Hn as [Hn|[(l1 & ids1 & x1 & r1 & E1 & E2 & E0 & E3)|(e & q & fin & rec & st & tr & _ & _ & _ & _ & _ & Hlt)]]; [lia| |lia]. pose proof (I4 _ _ _ _ E1 E2). lia.
  - intros m Hm Htd. destruct (flags s !! i) as [m0|] eqn:Em0.
    2: { destruct Hk as [Hk|l ids sl m1 m2 K1 K2 K3 K4 K5|c sl m1 K1 K2 K3 K4|ok K1 K2|e q fin rec st tr m1 m2 K1 K2 K3 K4 K5 K6 K7 K8]; try congruence; [rewrite Hm, Em0 in Hk; discriminate Hk|].
      destruct (Hadd _ _ K1) as (_ & G1 & _ & G2). destruct Hn as [Hn|[(l1 & ids1 & x1 & r1 & E1 & E2 & E0 & E3)|(e & q & fin & rec & st & tr & _ & _ & _ & _ & _ & Hlt)]]; [lia| |lia]. by destruct (G2 _ _ _ _ E1). }
    assert (tpc s <> TDead) as Htd0. { intros E. apply Htd. by destruct (dead_stays _ _ _ _ Hs E). }
    specialize (I3 _ eq_refl Htd0).
    assert ((inflight i (tpc s') + overs i (log s') >= inflight i (tpc s) + overs i (log s) /\ nrun i s' <= nrun i s) \/ (inflight i (tpc s') = inflight i (tpc s) + 1 /\ nrun i s' = nrun i s + 1) \/
            (inflight i (tpc s) = 1 /\ inflight i (tpc s') = 0 /\ nrun i s' <= nrun i s /\ m_num m = m_num m0 + 1)) as Hfn.
    { destruct Hf as [F [F'|F']|l' ids' x' r' F1 F2 F3 F4|l' ids' x' r' F1 F2 F3|l' ids' x' r' e' F1 F2 F3|l' ids' sl F1 F2|x' F1 F2 F3 F4 F5 F6].
      - left. split; [lia|]. destruct Hn as [Hn|[(l1 & ids1 & x1 & r1 & E1 & E2 & E0 & E3)|(e & q & fin & rec & st & tr & _ & _ & _ & _ & _ & Hlt)]]; [lia| |lia].
        rewrite E1 in F'. by destruct (E0 _ _ _ _ F').
      - left. split; [lia|]. destruct Hn as [Hn|[(l1 & ids1 & x1 & r1 & E1 & E2 & E0 & E3)|(e & q & fin & rec & st & tr & _ & _ & _ & _ & _ & Hlt)]]; [lia| |lia].
        by destruct (proj2 (F' _ _ _ _) E1).
      - left. rewrite F1, F2. cbn [inflight]. split; [lia|]. destruct Hn as [Hn|[(l1 & ids1 & x1 & r1 & E1 & E2 & E0 & E3)|(e & q & fin & rec & st & tr & _ & _ & _ & _ & _ & Hlt)]]; [lia|congruence|lia].
      - left. split; [lia|]. destruct Hn as [Hn|[(l1 & ids1 & x1 & r1 & E1 & E2 & E0 & E3)|(e & q & fin & rec & st & tr & _ & _ & _ & _ & _ & Hlt)]]; [lia| |lia].
        by destruct (E0 _ _ _ _ F2).
      - right; left. rewrite F1, F3. cbn [inflight]. rewrite F2, N.eqb_refl. split; [done|]. unfold nrun. rewrite <- F2, (launch_run _ _ _ _ _ _ _ _ _ Hs F1 F3). cbn [length]. lia.
      - right; right. rewrite F1, F2. cbn [inflight]. rewrite N.eqb_refl. do 2 (split; [done|]).
        destruct (mark_inc _ _ _ _ _ _ _ _ _ Hs F1 F2 Em0) as (m' & G1 & G2). rewrite Hm in G1. injection G1 as <-. split; [|done].
        destruct Hn as [Hn|[(l1 & ids1 & x1 & r1 & E1 & E2 & E0 & E3)|(e & q & fin & rec & st & tr & Elb & E1 & E2 & E3 & E4 & Hlt)]]; [lia|congruence|lia].
      - left. destruct (lost_over _ _ _ _ _ _ _ _ Hr Hs F1 F2 F3 F6) as [?|[G1 G2]]; [done|]. split; [|unfold nrun; by rewrite G1]. rewrite F6.
        assert (inflight i (tpc s) <= 1). { clear. destruct (tpc s); cbn [inflight]; try lia; try (destruct (_ =? _); lia); destruct upd; try lia; destruct (_ =? _); lia. }
        destruct G2 as [G2|G2]; lia. }
    destruct Hk as [Hk|l ids sl m1 m2 K1 K2 K3 K4 K5|c sl m1 K1 K2 K3 K4|ok K1 K2|e q fin rec st tr m1 m2 K1 K2 K3 K4 K5 K6 K7 K8].
    + rewrite Hm, Em0 in Hk. injection Hk as Hk. lia.
    + rewrite Em0 in K3. injection K3 as <-. rewrite Hm in K4. injection K4 as <-. lia.
    + destruct (Hadd _ _ K1) as (G1 & _). congruence.
    + congruence.
    + rewrite Em0 in K5. injection K5 as <-. rewrite Hm in K6. injection K6 as <-.
      assert (nrun i s' < nrun i s) as Hlt. { unfold nrun. rewrite K7. pose proof (filter_ne_length _ _ (quit_running _ _ _ _ _ _ _ Hr K4)). lia. }
      assert (m_num m0 <= m_num m + 1) by (destruct K8 as [->|(_ & -> & _)]; lia). lia.
  - intros l ids x r E Hi. destruct (spawn_free _ _ _ _ _ _ _ _ _ _ _ _ Hr Hb Hs E Hi) as [H [F|(F & m & G & G1)]].
    + rewrite F in E. specialize (I4 _ _ _ _ E Hi). lia.
    + assert (tpc s <> TDead) as Htd by (rewrite F; discriminate). pose proof (I3 _ G Htd) as H2. rewrite F in H2. cbn [inflight] in H2. lia.
Qed.
Lemma shared_reach pf t0 t1 s i mx : reachable pf t0 t1 s -> adds i (log s) <= 1 -> limited_to i mx (log s) -> shared_inv i mx s.
Proof.
  revert s. apply (reach_ind pf t0 t1 (fun s => adds i (log s) <= 1 -> limited_to i mx (log s) -> shared_inv i mx s)).
  - intros _ _. assert (clean i (init t0 t1)) as Hc. { split_and!; [apply lookup_empty|exact (eq_refl (0 : N))|exact (eq_refl (0 : N))|]. intros l ids x r H. discriminate H. }
    destruct Hc as (H1 & H2 & H3 & H4). split.
    + intros _. split_and!; assumption.
    + rewrite H2. apply N.le_0_l.
    + intros m H. exfalso. rewrite H1 in H. discriminate H.
    + intros l ids x r H. exfalso. discriminate H.
  - intros lb s s' Hr IH Hs Ha Hb. pose proof (adds_mono _ _ _ _ i Hs). pose proof (limited_anti _ _ _ _ _ _ Hs Hb) as Hb0. eapply shared_step; [exact Hr|exact Hs|exact Ha|exact Hb0|]. apply IH; [lia|exact Hb0].
Qed.

(** ** C73 *)
(** Every task with this id that came to its end makes room for at most one more. *)
Theorem C73_one_more_each pf t0 t1 s i mx : reachable pf t0 t1 s -> adds i (log s) <= 1 -> (forall t, submitted t (log s) -> t_id t = i -> exists m, t_maxpar t = Some m /\ m <= mx) ->
  N.of_nat (length (running i (log s))) <= mx + overs i (log s).
Proof. intros Hr Ha Hb. exact (sh_max _ _ _ (shared_reach _ _ _ _ _ _ Hr Ha Hb)). Qed.
Print Assumptions C73_one_more_each.
(** So the limit holds across any number of updates, advances and removals as long as no task with this id has come to its end. *)
Theorem C73_limit_partial pf t0 t1 s i mx : reachable pf t0 t1 s -> adds i (log s) <= 1 -> (forall t, submitted t (log s) -> t_id t = i -> exists m, t_maxpar t = Some m /\ m <= mx) ->
  (forall u, OEnd u i ∉ log s /\ ODrop u i NoDate ∉ log s) -> N.of_nat (length (running i (log s))) <= mx.
Proof.
  intros Hr Ha Hb Hno. pose proof (C73_one_more_each _ _ _ _ _ _ Hr Ha Hb) as H. assert (overs i (log s) = 0) as E; [|lia]. clear - Hno. induction (log s) as [|o lg IH]; [done|].
  assert (overs i lg = 0) as IH'. { apply IH. intros u. destruct (Hno u) as [H1 H2]. split; intros H; [apply H1|apply H2]; by right. }
  destruct o; cbn [overs]; try done.
  - destruct (tid =? i) eqn:E; [|lia]. apply N.eqb_eq in E. subst. destruct (Hno uid) as [H1 _]. destruct H1. left.
  - destruct w; [done|]. destruct (tid =? i) eqn:E; [|lia]. apply N.eqb_eq in E. subst. destruct (Hno uid) as [_ H1]. destruct H1. left.
Qed.
Print Assumptions C73_limit_partial.

(** ** Examples *)
Definition limitb (i mx : N) (lg : list obs) : bool :=
  forallb (fun o => match o with OSend (EAdd t) | OSend (EInsert t) | OSend (EUpdate t) => negb (t_id t =? i) || match t_maxpar t with Some m => m <=? mx | None => false end | _ => true end) lg.
Lemma limitb_ok i mx lg : limitb i mx lg = true -> forall t, submitted t lg -> t_id t = i -> exists m, t_maxpar t = Some m /\ m <= mx.
Proof.
  unfold limitb. rewrite forallb_forall. intros H t (e & He & Ht) Hi. specialize (H (OSend e)). assert (In (OSend e) lg) as Hin by (by apply elem_of_list_In). specialize (H Hin).
  assert (negb (t_id t =? i) || match t_maxpar t with Some m => m <=? mx | None => false end = true) as Hx by (destruct Ht as [->|[->| ->]]; exact H).
  rewrite Hi, N.eqb_refl in Hx. cbn [negb orb] in Hx. destruct (t_maxpar t) as [m|]; [|discriminate Hx]. exists m. split; [done|]. by apply N.leb_le.
Qed.
(** A task to be started once; after its only start, with the instance running, it is updated and advanced: its last start was not counted, so a second instance is started. *)
Definition over_acts : list act := [Do (LInsert (limited 1 (ntimes 1 11 1 5 100))); Handle; Ticks 7; Handle; Do (LUpdate (limited 1 (every 2 11 5 107))); Do (LAdvance 11); Handle; Ticks 3].
Lemma two_limited : exists s, reachable Release 100 100 s /\ adds 11 (log s) <= 1 /\ (forall t, submitted t (log s) -> t_id t = 11 -> exists m, t_maxpar t = Some m /\ m <= 1) /\
  running 11 (log s) = [1%Z; 0%Z] /\ overs 11 (log s) = 1.
Proof.
  destruct (after_reach Release 100 100 over_acts (fun s => limitb 11 1 (log s) && (adds 11 (log s) <=? 1) && (overs 11 (log s) =? 1) && match running 11 (log s) with [1%Z; 0%Z] => true | _ => false end)) as (s & Hr & H); [vm_compute; reflexivity|].
  exists s. apply andb_true_iff in H as [H H4]. apply andb_true_iff in H as [H H3]. apply andb_true_iff in H as [H1 H2]. split; [exact Hr|]. clear Hr. apply N.leb_le in H2. apply N.eqb_eq in H3.
  split; [exact H2|]. split; [exact (limitb_ok _ _ _ H1)|]. split; [|exact H3]. clear - H4. destruct (running 11 (log s)) as [|[|[]|] [|[| |] [|]]]; try discriminate H4. reflexivity.
Qed.
Theorem C73_limit_refuted : ~ C73_limit.
Proof.
  intros H. destruct two_limited as (s & Hr & H1 & H2 & H3 & _). specialize (H _ _ _ s 11 1 Hr H1 H2). clear Hr H2. rewrite H3 in H. cbn [length] in H. lia.
Qed.
Print Assumptions C73_limit_refuted.
(** A repeated task with one instance at a time is updated and advanced while its instance runs; the advanced run is skipped. *)
Definition shared_acts : list act := [Do (LInsert (limited 1 (every 1 11 5 100))); Handle; Ticks 7; Handle; Do (LUpdate (limited 1 (every 2 11 5 107))); Do (LAdvance 11); Handle; Ticks 3].
Example C73_example : exists s, reachable Release 100 100 s /\ adds 11 (log s) <= 1 /\ (forall t, submitted t (log s) -> t_id t = 11 -> exists m, t_maxpar t = Some m /\ m <= 1) /\
  overs 11 (log s) = 0 /\ running 11 (log s) = [0%Z] /\ OSkip 2 11 8 108 ∈ log s.
Proof.
  destruct (after_reach Release 100 100 shared_acts (fun s => limitb 11 1 (log s) && (adds 11 (log s) <=? 1) && (overs 11 (log s) =? 0) && inb (OSkip 2 11 8 108) (log s) && match running 11 (log s) with [0%Z] => true | _ => false end)) as (s & Hr & H); [vm_compute; reflexivity|].
  exists s. apply andb_true_iff in H as [H H5]. apply andb_true_iff in H as [H H4]. apply andb_true_iff in H as [H H3]. apply andb_true_iff in H as [H1 H2]. split; [exact Hr|]. clear Hr. apply N.leb_le in H2. apply N.eqb_eq in H3. apply inb_ok in H4.
  split; [exact H2|]. split; [exact (limitb_ok _ _ _ H1)|]. split; [exact H3|]. split; [|exact H4]. clear - H5. destruct (running 11 (log s)) as [|[| |] [|]]; try discriminate H5. reflexivity.
Qed.
