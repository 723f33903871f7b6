(** What a reader of the status events can know: C60. *)
From Verif Require Import Tactics Inv Own Life Count Quiet Panics Arrival Cases Inst Ended Origin Fifo Account Chain Kept Way Scen PropInst PropEnd PropWait.

(** [PublicEvent::get_task_id], [get_record_id] (/repo/src/utils/status_report.rs:174-194). *)
Definition get_task_id (p : pubev) : N := match p with PRemove i | PRunning i _ | PFinish i _ _ _ | PTimeout i _ => i end.
Definition get_record_id (p : pubev) : option Z := match p with PRemove _ => None | PRunning _ r | PFinish _ r _ _ | PTimeout _ r => Some r end.

(** The instances a reader takes to be running: shown as running, and not shown as finished or timed out since. *)
Fixpoint still (lg : list obs) : list (N * Z) :=
  match lg with
  | [] => []
  | OPublic p :: l =>
      match p, get_record_id p with
      | PRunning _ _, Some r => (get_task_id p, r) :: still l
      | PFinish _ _ _ _, Some r | PTimeout _ _, Some r => filter (fun x => x <> (get_task_id p, r)) (still l)
      | _, _ => still l
      end
  | _ :: l => still l
  end.

(* ------------------------------------------------------------------ *)
(** ** The reader's list and the events shown for one instance *)

Definition closes (i : N) (r : Z) (p : pubev) : Prop := match p with PFinish j q _ _ | PTimeout j q => j = i /\ q = r | _ => False end.
Lemma still_shown i r lg : (i, r) ∈ still lg <-> exists l1 l2, shown r lg = l1 ++ PRunning i r :: l2 /\ Forall (fun p => ~ closes i r p) l1.
Proof.
  induction lg as [|o lg IH].
  { cbn. rewrite elem_of_nil. split; [done|]. intros (l1 & l2 & H & _). by destruct l1. }
  destruct o; try exact IH. destruct p as [j|j q|j q tm out|j q]; cbn [still shown get_task_id get_record_id]; [exact IH|..].
  - rewrite elem_of_cons, IH. case_decide as E.
    + subst q. split.
      * intros [[= ->]|(l1 & l2 & -> & Hf)]; [exists [], (shown r lg); split; [done|constructor]|].
        exists (PRunning j r :: l1), l2. split; [done|]. constructor; [intros []|done].
      * intros ([|p l1] & l2 & Hx & Hf); cbn in Hx; simplify_eq; [by left|right]. apply Forall_cons in Hf as [_ Hf]. eauto.
    + split; [intros [[= -> ->]|?]; [done|done]|by right].
  - rewrite elem_of_list_filter, IH. case_decide as E.
    + subst q. split.
      * intros (Hne & l1 & l2 & -> & Hf). exists (PFinish j r tm out :: l1), l2. split; [done|]. constructor; [|done]. intros [-> _]. done.
      * intros ([|p l1] & l2 & Hx & Hf); cbn in Hx; simplify_eq. apply Forall_cons in Hf as [Hf1 Hf]. split; [|eauto]. intros [= ->]. apply Hf1. done.
    + split; [by intros [_ ?]|]. intros ?. split; [|done]. intros [= -> ->]. done.
  - rewrite elem_of_list_filter, IH. case_decide as E.
    + subst q. split.
      * intros (Hne & l1 & l2 & -> & Hf). exists (PTimeout j r :: l1), l2. split; [done|]. constructor; [|done]. intros [-> _]. done.
      * intros ([|p l1] & l2 & Hx & Hf); cbn in Hx; simplify_eq. apply Forall_cons in Hf as [Hf1 Hf]. split; [|eauto]. intros [= ->]. apply Hf1. done.
    + split; [by intros [_ ?]|]. intros ?. split; [|done]. intros [= -> ->]. done.
Qed.
Lemma still_none i r lg : shown r lg = [] -> (i, r) ∉ still lg.
Proof. intros E. rewrite still_shown, E. intros (l1 & l2 & H & _). by destruct l1. Qed.
Lemma still_one i j r lg : shown r lg = [PRunning j r] -> (i, r) ∈ still lg <-> i = j.
Proof.
  intros E. rewrite still_shown, E. split.
  - intros ([|p l1] & l2 & H & _); cbn in H; simplify_eq; [done|by destruct l1].
  - intros ->. exists [], []. split; [done|constructor].
Qed.
Lemma still_two i j r p lg : closes j r p -> shown r lg = [p; PRunning j r] -> (i, r) ∉ still lg.
Proof.
  intros Hp E. rewrite still_shown, E. intros ([|p' l1] & l2 & H & Hf); cbn in H; [injection H as -> _; destruct Hp|injection H as <- H].
  apply Forall_cons in Hf as [Hf _]. destruct l1 as [|p'' l1]; cbn in H; [injection H as -> _; done|injection H as _ H; by destruct l1].
Qed.

(** An instance that was registered and has not ended is in the reader's list. *)
Lemma trace_still pf t0 t1 s i r : reachable pf t0 t1 s -> (i, r) ∈ trace_recs (trace s) -> (i, r) ∈ still (log s).
Proof. intros Hr Hin. apply (still_one i i); [|done]. by apply (st_trace s (stat_reach _ _ _ _ Hr)). Qed.

(** Where a running instance is. *)
Lemma elem_taken i r lg : r ∈ taken i lg -> exists hb, OPop (EAppend i hb) ∈ lg /\ hb_rec hb = r.
Proof.
  induction lg as [|o lg IH]; [by intros ?%elem_of_nil|]. destruct o; try (intros H; destruct (IH H) as (hb & ? & ?); exists hb; split; [by right|done]).
  cbn [taken]. rewrite elem_of_app. intros [H|H]; [destruct (IH H) as (hb & ? & ?); exists hb; split; [by right|done]|].
  destruct e; try (by apply elem_of_nil in H). cbn [app_of] in H. destruct (tid =? i) eqn:E; [|by apply elem_of_nil in H]. apply elem_of_list_singleton in H. apply N.eqb_eq in E as ->.
  exists hb. split; [left|done].
Qed.
Lemma launched_started i r lg : (exists u it ts, OLaunch u i r it ts ∈ lg) -> r ∈ started i lg.
Proof.
  intros (u & it & ts & H). induction lg as [|o lg IH]; [by apply elem_of_nil in H|]. apply elem_of_cons in H as [<-|H].
  - cbn [started]. rewrite N.eqb_refl. apply elem_of_app. right. left.
  - destruct o; cbn [started]; try (by apply IH). apply elem_of_app. left. by apply IH.
Qed.
Lemma popped_at pf t0 t1 s i hb : reachable pf t0 t1 s -> OPop (EAppend i hb) ∈ log s -> (i, hb_rec hb) ∈ trace_recs (trace s) \/ OQuit i (hb_rec hb) ∈ log s.
Proof.
  revert s. apply (reach_ind pf t0 t1 (fun s => OPop (EAppend i hb) ∈ log s -> (i, hb_rec hb) ∈ trace_recs (trace s) \/ OQuit i (hb_rec hb) ∈ log s)).
  { change (log (init t0 t1)) with [OTick 0 t1]. intros H%elem_of_list_singleton. discriminate H. }
  intros lb s s' Hr IH Hs Hin. destruct (step_log _ _ _ _ Hs) as [l El]. rewrite El in Hin. apply elem_of_app in Hin as [Hin|Hin].
  2: { destruct (IH Hin) as [Ht|Hq]; [|right; rewrite El; apply elem_of_app; by right]. apply (trace_step pf lb s); [by eapply hpub_reach|done|done]. }
  left. destruct (step_kinds _ _ _ _ (hpub_reach _ _ _ _ Hr) Hs) as [e q fin tid rec st Hh Hq He Hx|tid hb' q Hh Hq Hx|lg Et Eh El' Ha].
  - exfalso. apply (ended_effect _ _ _ _ _ _ _ _ He) in Hx as (_ & [(_ & ->)|(tr & n & p & _ & _ & El2 & Hnt & Hpb)]).
    + fsimpl_in El. change (OPop e :: log s) with ([OPop e] ++ log s) in El. apply app_inv_tail in El as <-. apply elem_of_list_singleton in Hin. injection Hin as <-. inversion He.
    + rewrite El2 in El. change (OQuit tid rec :: OPop e :: log s) with ([OQuit tid rec; OPop e] ++ log s) in El. rewrite !app_assoc in El. apply app_inv_tail in El as <-.
      rewrite !elem_of_app, !elem_of_cons, elem_of_nil in Hin. destruct Hin as [[Hin|Hin]|[Hin|[Hin|[]]]]; [| |discriminate Hin|injection Hin as <-; inversion He].
      * destruct Hpb as [[-> _]|(p0 & _ & ->)]; [by apply elem_of_nil in Hin|by apply elem_of_list_singleton in Hin].
      * destruct Hnt as [[-> _]|[-> _]]; [by apply elem_of_nil in Hin|by apply elem_of_list_singleton in Hin].
  - apply appended_effect in Hx as (_ & Et & _ & El2 & _). rewrite El2 in El. change (OPublic ?a :: OPop ?b :: log s) with ([OPublic a; OPop b] ++ log s) in El. apply app_inv_tail in El as <-.
    rewrite !elem_of_cons, elem_of_nil in Hin. destruct Hin as [Hin|[Hin|[]]]; [discriminate Hin|]. injection Hin as <- <-. rewrite Et, trace_insert_recs. left.
  - exfalso. rewrite El' in El. apply app_inv_tail in El as <-. rewrite Forall_forall in Ha. by apply Ha in Hin.
Qed.
Lemma running_launched pf t0 t1 s i r : reachable pf t0 t1 s -> r ∈ running i (log s) -> (exists u it ts, OLaunch u i r it ts ∈ log s) /\ OQuit i r ∉ log s.
Proof. intros Hr H. split; [by apply elem_running|]. intros Hq. by apply (quit_ended _ _ _ _ _ _ Hr) in Hq. Qed.

(* ------------------------------------------------------------------ *)
(** ** C60 Whoever reads the status events knows what runs

    No running instance is hidden: it is in the reader's list, or the event that announces it is on its way. *)
Theorem C60_nothing_hidden pf t0 t1 s i r : reachable pf t0 t1 s -> r ∈ running i (log s) ->
  (i, r) ∈ still (log s) \/ (exists hb, EAppend i hb ∈ queue s /\ hb_rec hb = r) \/
  (exists l ids t e, tpc s = TSend l ids t r e /\ t_id t = i) \/ tpc s = TDead.
Proof.
  intros Hr Hin. destruct (running_launched _ _ _ _ _ _ Hr Hin) as [Hl Hq]. apply launched_started in Hl.
  destruct (flow_reach _ _ _ _ i Hr) as (l0 & E & Hd). rewrite E, !elem_of_app in Hl. destruct Hl as [Hl|[Hl|[Hl|Hl]]].
  - left. apply elem_taken in Hl as (hb & Hp & <-). destruct (popped_at _ _ _ _ _ _ Hr Hp) as [Ht|?]; [by eapply trace_still|done].
  - right; left. apply elem_of_list_bind in Hl as (e & Hl & He). destruct e; try (by apply elem_of_nil in Hl). cbn [app_of] in Hl. destruct (tid =? i) eqn:Ei; [|by apply elem_of_nil in Hl].
    apply N.eqb_eq in Ei as ->. apply elem_of_list_singleton in Hl. eauto.
  - right; right; left. unfold sending in Hl. destruct (tpc s) eqn:Et; try (by apply elem_of_nil in Hl). destruct (t_id t =? i) eqn:Ei; [|by apply elem_of_nil in Hl].
    apply N.eqb_eq in Ei. apply elem_of_list_singleton in Hl as ->. eauto 10.
  - right; right; right. destruct (tpc s); try done; rewrite Hd in Hl by done; by apply elem_of_nil in Hl.
Qed.
Print Assumptions C60_nothing_hidden.

(** What it takes for the end of an instance to be shown: not a cancellation, and the mark of the task is as expected. *)
Definition is_cancel (e : event) : Prop := match e with ECancel _ _ => True | _ => False end.
Definition reports_end (s : sys) (fin : bool) (i : N) (r : Z) : Prop :=
  match flags s !! i with
  | None => fin = true                                 (* the task was removed: only a finish is shown *)
  | Some m => match m_chain m with
    | None => True
    | Some (cid, l) => chain_state s cid <> Some DROPPED /\ r ∈ l   (* the user still has the chain, and the instance is in it *)
    end
  end.
Lemma end_log e q fin i r st s s' : ended fin i r st (popped e q s) s' -> (i, r) ∈ trace_recs (trace s) ->
  exists ok n, log s' = pub_entries ok (public_of e) ++ n ++ OQuit i r :: OPop e :: log s /\ shown r n = [] /\ (ok = true <-> reports_end s fin i r).
Proof.
  unfold reports_end. intros H Hin. destruct H as [Hn|tr Hn Hf|tr m Hn Hf Hc|tr m cid l Hn Hf Hc Hd|tr m cid l Hn Hf Hc Hd Ht|tr m cid l z l' Hn Hf Hc Hd Ht];
    change (flags (popped e q s)) with (flags s) in *; change (trace (popped e q s)) with (trace s) in *; change (chain_state (popped e q s)) with (chain_state s) in *; try rewrite Hf; try rewrite Hc.
  - by apply quit_none in Hn.
  - exists fin, []. split; [rewrite complete_log; reflexivity|]. done.
  - exists true, []. split; [rewrite complete_log; reflexivity|]. done.
  - exists false, []. split; [rewrite complete_log; reflexivity|]. split; [done|]. split; [discriminate|]. by intros [? _].
  - exists false, []. split; [rewrite complete_log; reflexivity|]. split; [done|]. split; [discriminate|]. intros [_ Hx]. apply take_rec_none in Ht. rewrite list_fmap_id in Ht. done.
  - exists true, [ONotify r st]. split; [rewrite complete_log; reflexivity|]. split; [done|]. split; [|done]. intros _. split; [done|]. apply take_rec_perm in Ht as [Hp Hz]. unfold id in Hz. subst z. rewrite Hp. left.
Qed.
Lemma end_still pf t0 t1 e q fin i r st s s' : reachable pf t0 t1 s -> ending e fin i r st -> ended fin i r st (popped e q s) s' -> (i, r) ∈ trace_recs (trace s) ->
  OQuit i r ∈ log s' /\ ((i, r) ∉ still (log s') <-> ~ is_cancel e /\ reports_end s fin i r).
Proof.
  intros Hr He Hx Hin. assert (shown r (log s) = [PRunning i r]) as Esh by (by apply (st_trace s (stat_reach _ _ _ _ Hr))).
  destruct (end_log _ _ _ _ _ _ _ _ Hx Hin) as (ok & n & El & En & Eok). split; [rewrite El, !elem_of_app; right; right; left|].
  assert (shown r (log s') = shown r (pub_entries ok (public_of e)) ++ [PRunning i r]) as Esh'.
  { rewrite El, !shown_app, En. cbn [shown app]. by rewrite Esh. }
  rewrite <- Eok. destruct ok; cbn [pub_entries] in Esh'.
  - destruct He as [i r|i r|i r tm out]; cbn [public_of pub_entries shown is_cancel app] in *; try rewrite decide_True in Esh' by done; cbn [app] in Esh'.
    + split; [|intros [[] _]; done]. intros Hy. destruct Hy. by apply (still_one i i).
    + split; [auto|]. intros _. by eapply still_two; [|exact Esh'].
    + split; [auto|]. intros _. by eapply still_two; [|exact Esh'].
  - split; [|intros [_ ?]; discriminate]. intros Hy. destruct Hy. apply (still_one i i); [|done]. rewrite Esh'. by destruct (public_of e).
Qed.
(** The end of an instance is shown if it is no cancellation and the mark of the task is as expected, and only then. *)
Theorem C60_end_shown pf t0 t1 s s' e q fin i r st : reachable pf t0 t1 s -> hpc s = HIdle -> queue s = e :: q -> ending e fin i r st ->
  r ∈ running i (log s) -> (exists hb, OPop (EAppend i hb) ∈ log s /\ hb_rec hb = r) -> step pf LHandler s = Some s' ->
  r ∉ running i (log s') /\ ((i, r) ∉ still (log s') <-> ~ is_cancel e /\ reports_end s fin i r).
Proof.
  intros Hr Hh Hq He Hrun (hb & Hp & <-) Hs.
  assert ((i, hb_rec hb) ∈ trace_recs (trace s)) as Hin.
  { destruct (popped_at _ _ _ _ _ _ Hr Hp) as [?|Hx]; [done|]. by destruct (quit_ended _ _ _ _ _ _ Hr Hx). }
  assert (ended fin i (hb_rec hb) st (popped e q s) s') as Hx.
  { cbn [step] in Hs. unfold handler_step in Hs. rewrite Hh, Hq in Hs. revert He Hs. generalize (hb_rec hb). clear. intros r He Hs. destruct He; cbn [dispatch] in Hs; injection Hs as <-; first [apply cancel_cases|apply finish_cases]. }
  destruct (end_still _ _ _ _ _ _ _ _ _ _ _ Hr He Hx Hin) as [H1 H2]. split; [|done]. by apply (quit_ended _ _ _ _ _ _ (reach_step _ _ _ _ _ _ Hr Hs)).
Qed.
Print Assumptions C60_end_shown.
(** What is not shown then is never shown. *)
Theorem C60_ended_for_good pf t0 t1 s ls s' i r : reachable pf t0 t1 s -> OQuit i r ∈ log s -> run pf ls s = Some s' -> shown r (log s') = shown r (log s).
Proof.
  revert s. induction ls as [|lb ls IH]; intros s Hr Hq Hrun; cbn [run] in Hrun; [by injection Hrun as <-|].
  destruct (step pf lb s) as [s1|] eqn:Hs; [|discriminate Hrun]. pose proof (reach_step _ _ _ _ _ _ Hr Hs) as Hr1. destruct (step_log _ _ _ _ Hs) as [l El].
  rewrite (IH s1 Hr1); [|rewrite El; apply elem_of_app; by right|done].
  destruct (decide (shown r l = [])) as [E|E]; [by rewrite El, shown_app, E|exfalso].
  assert (exists p, OPublic p ∈ l /\ get_record_id p = Some r) as (p & Hp & Ep).
  { clear -E. induction l as [|o l IH]; [done|]. destruct o; cbn [shown] in E; try (destruct (IH E) as (p' & ? & ?); exists p'; split; [by right|done]).
    destruct p; try case_decide; try (destruct (IH E) as (p' & ? & ?); exists p'; split; [by right|done]); subst; eexists; (split; [left|reflexivity]). }
  assert ((exists j, handle_of s j r) \/ (exists j, handle_of s1 j r)) as [[j Hj]|[j Hj]].
  { pose proof (C28_reported_event_had_effect _ _ _ _ _ _ p Hr Hs (ex_intro _ l (conj El Hp))) as Hd. destruct p as [j|j r'|j r' tm out|j r']; cbn in Hd, Ep; [discriminate Ep|..]; injection Ep as ->; [right|left|left]; exists j; tauto. }
  - apply (quit_no_handle _ _ _ _ _ j _ Hr Hq). by apply elem_trace_recs.
  - apply (quit_no_handle pf t0 t1 s1 i j r Hr1); [rewrite El; apply elem_of_app; by right|]. by apply elem_trace_recs.
Qed.
Print Assumptions C60_ended_for_good.

(** Its chain is that of the call that added it, and only the user drops it. *)
Lemma kept_chain pf t0 t1 s t c : reachable pf t0 t1 s -> kept t (log s) -> mchain (t_id t) c s -> c = t_uid t.
Proof.
  revert s. apply (reach_ind pf t0 t1 (fun s => kept t (log s) -> mchain (t_id t) c s -> c = t_uid t)).
  - intros _ (m & l & H & _). change (flags (init t0 t1)) with (∅ : gmap N mark) in H. rewrite lookup_empty in H. discriminate H.
  - intros lb s s' Hr IH Hs Hq' Hm. pose proof (kept_anti _ _ _ _ _ Hs Hq') as Hq. destruct (mchain_step _ _ _ _ _ _ Hs Hm) as [?|(sl & E)]; [auto|].
    destruct (src_reach _ _ _ _ Hr) as [_ Hh]. rewrite E in Hh. cbn in Hh. destruct Hh as (t' & Ht & Hi & ->). destruct (Hq _ Ht Hi) as [E'|E']; [discriminate E'|by injection E' as ->].
Qed.
Lemma undropped_step pf lb s s' u : step pf lb s = Some s' -> lb <> LChainDrop u -> chain_state s u <> Some DROPPED -> chain_state s' u <> Some DROPPED.
Proof.
  intros Hs. unfold chain_state. step_inv Hs; inst_cases; isimpl; intros Hl Hd; try exact Hd.
  all: try (match goal with |- context [<[?k := _]> (chains _)] => destruct (decide (k = u)) as [->|]; [rewrite lookup_insert|by rewrite lookup_insert_ne] end; cbn; try discriminate; try congruence).
  all: try (match goal with |- context [alter _ ?k (chains _)] => destruct (decide (k = u)) as [->|]; [rewrite lookup_alter|by rewrite lookup_alter_ne] end; destruct (chains s !! u); cbn in *; try discriminate; try congruence).
  all: try (match goal with H : chains _ !! _ = Some _ |- _ => by rewrite H in Hd end).
  all: match goal with |- context [match ?x with Some cid => alter _ cid _ | None => _ end] => destruct x as [cid|]; [|exact Hd] end;
    destruct (decide (cid = u)) as [->|]; [rewrite lookup_alter|by rewrite lookup_alter_ne]; destruct (chains s !! u); cbn; discriminate.
Qed.
Lemma undropped pf t0 t1 s u : reachable_with (fun lb => lb <> LChainDrop u) pf t0 t1 s -> chain_state s u <> Some DROPPED.
Proof.
  revert s. apply (with_ind (fun lb => lb <> LChainDrop u) pf t0 t1 (fun s => chain_state s u <> Some DROPPED)).
  - intros n. unfold chain_state, init_n. cbn [chains]. rewrite lookup_empty. discriminate.
  - intros lb s s' _ Hl IH Hs. by eapply undropped_step.
Qed.

Lemma quit_dec i r (lg : list obs) : OQuit i r ∈ lg \/ OQuit i r ∉ lg.
Proof. rewrite <- elem_quits. destruct (decide ((i, r) ∈ quits lg)); auto. Qed.
(** The last event of the instances of such a task is shown, unless they are cancelled, ... *)
Lemma kept_shown pf t0 t1 s t r : reachable_with (fun lb => lb <> LChainDrop (t_uid t)) pf t0 t1 s -> kept t (log s) -> (forall r, OSend (ECancel (t_id t) r) ∉ log s) ->
  OQuit (t_id t) r ∈ log s -> (t_id t, r) ∉ still (log s).
Proof.
  revert s. apply (with_ind (fun lb => lb <> LChainDrop (t_uid t)) pf t0 t1 (fun s => kept t (log s) -> (forall r, OSend (ECancel (t_id t) r) ∉ log s) -> OQuit (t_id t) r ∈ log s -> (t_id t, r) ∉ still (log s))).
  { intros n _ _ H. unfold init_n in H. cbn [log] in H. apply elem_of_list_singleton in H. discriminate H. }
  intros lb s s' Hrw Hl IH Hs Hq' Hc' Hin. pose proof (with_reach _ _ _ _ _ Hrw) as Hr. pose proof (kept_anti _ _ _ _ _ Hs Hq') as Hq. destruct (step_log _ _ _ _ Hs) as [lg El].
  assert (forall r, OSend (ECancel (t_id t) r) ∉ log s) as Hc by (intros r' H; apply (Hc' r'); rewrite El; apply elem_of_app; by right). specialize (IH Hq Hc).
  destruct (quit_dec (t_id t) r (log s)) as [Ho|Ho].
  { rewrite still_shown, (C60_ended_for_good pf t0 t1 s [lb] s' (t_id t) r Hr Ho); [rewrite <- still_shown; auto|]. cbn [run]. by rewrite Hs. }
  destruct (step_kinds _ _ _ _ (hpub_reach _ _ _ _ Hr) Hs) as [e q fin j r' st Hh Hqu He Hx|j hb q Hh Hqu Hx|lg' Et Eh El' Ha].
  - assert (j = t_id t /\ r' = r) as [-> ->].
    { pose proof (ended_effect _ _ _ _ _ _ _ _ He Hx) as (_ & [(_ & ->)|(tr & n & p & _ & _ & El2 & Hnt & Hpb)]).
      - fsimpl_in Hin. apply elem_of_cons in Hin as [Hin|Hin]; [discriminate Hin|done].
      - rewrite El2, !elem_of_app, !elem_of_cons in Hin. destruct Hin as [Hin|[Hin|[Hin|[Hin|Hin]]]]; [| |by injection Hin as -> ->|discriminate Hin|done].
        + destruct Hpb as [[-> _]|(p0 & _ & ->)]; [by apply elem_of_nil in Hin|by apply elem_of_list_singleton in Hin].
        + destruct Hnt as [[-> _]|[-> _]]; [by apply elem_of_nil in Hin|by apply elem_of_list_singleton in Hin]. }
    assert ((t_id t, r) ∈ trace_recs (trace s)) as Ht.
    { destruct (decide ((t_id t, r) ∈ trace_recs (trace s))) as [?|Hn]; [done|exfalso]. apply quit_none in Hn.
      pose proof (ended_effect _ _ _ _ _ _ _ _ He Hx) as (_ & [(_ & ->)|(tr & n & p & Hy & _)]); [|congruence]. fsimpl_in Hin. apply elem_of_cons in Hin as [Hin|Hin]; [discriminate Hin|done]. }
    apply (end_still _ _ _ _ _ _ _ _ _ _ _ Hr He Hx Ht). split.
    + destruct e; try (by intros []). intros _. inversion He; subst. apply (Hc r). apply (proj1 (src_reach _ _ _ _ Hr)). rewrite Hqu. left.
    + assert (marked (t_id t) s) as [Hm|(c & sl & E)]; [|destruct (flags s !! t_id t) as [m|] eqn:Em; [|done]|congruence].
      * destruct (running_launched _ _ _ _ _ _ Hr (trace_running _ _ _ _ _ _ Hr Ht)) as [(u & it & ts & Hla) _]. by eapply (kept_marked _ _ _ _ _ Hr Hq).
      * unfold reports_end. rewrite Em. destruct (m_chain m) as [[cid l]|] eqn:Ec; [|done]. split; [|by eapply listed_kept].
        assert (cid = t_uid t) as ->; [|by eapply undropped]. eapply kept_chain; [exact Hr|done|]. by exists m, l.
  - exfalso. apply appended_effect in Hx as (_ & _ & _ & El2 & _). rewrite El2, !elem_of_cons in Hin. destruct Hin as [Hin|[Hin|Hin]]; try discriminate Hin; done.
  - exfalso. rewrite El' in Hin. apply elem_of_app in Hin as [Hin|Hin]; [|done]. rewrite Forall_forall in Ha. by apply Ha in Hin.
Qed.

(** ... so that whoever reads the events knows exactly what runs whenever nothing is on its way. *)
Definition settled (s : sys) : Prop := queue s = [] /\ hpc s = HIdle /\ (forall l ids t r e, tpc s <> TSend l ids t r e) /\ tpc s <> TDead.
Definition knows (i : N) (s : sys) : Prop := forall r, (i, r) ∈ still (log s) <-> r ∈ running i (log s).
(** The full claim, for every task and every execution: *)
Definition C60_knows : Prop := forall pf t0 t1 s i, reachable pf t0 t1 s -> settled s -> knows i s.
(** It holds of a task that is added once and otherwise left alone, if none of its instances is cancelled and the user
    keeps the chain of its instances. *)
Theorem C60_knows_partial pf t0 t1 s t : reachable_with (fun lb => lb <> LChainDrop (t_uid t)) pf t0 t1 s -> kept t (log s) -> (forall r, OSend (ECancel (t_id t) r) ∉ log s) ->
  settled s -> knows (t_id t) s.
Proof.
  intros Hrw Hq Hc (S1 & S2 & S3 & S4) r. pose proof (with_reach _ _ _ _ _ Hrw) as Hr. split.
  - intros Hst. destruct (quit_dec (t_id t) r (log s)) as [Ho|Ho]; [by destruct (kept_shown _ _ _ _ _ _ Hrw Hq Hc Ho)|].
    apply still_shown in Hst as (l1 & l2 & E & _). destruct (decide (r ∈ (trace_recs (trace s)).*2)) as [Ht|Ht].
    + apply elem_of_list_fmap in Ht as ([j r'] & Ej & Ht). cbn in Ej. subst r'. destruct (st_trace s (stat_reach _ _ _ _ Hr) _ _ Ht) as [Es _]. rewrite E in Es.
      destruct l1 as [|p l1]; cbn in Es; [injection Es as <- _|injection Es as _ Es; by destruct l1]. by eapply trace_running.
    + exfalso. destruct (decide (r ∈ (quits (log s)).*2)) as [Hz|Hz].
      * apply elem_of_list_fmap in Hz as ([j r'] & Ej & Hz). cbn in Ej. subst r'. destruct (st_quit s (stat_reach _ _ _ _ Hr) _ _ Hz) as (p & Es & Hf & _). apply elem_quits in Hz.
        assert (j = t_id t) as ->; [|done]. rewrite E in Es. destruct Hf as [[-> _]|[(tm & out & -> & _)|[-> _]]]; cbn in Es.
        -- destruct l1 as [|? l1]; cbn in Es; [by injection Es as -> _|injection Es as _ Es; by destruct l1].
        -- destruct l1 as [|? l1]; cbn in Es; [discriminate Es|injection Es as _ Es]. destruct l1 as [|? l1]; cbn in Es; [by injection Es as -> _|injection Es as _ Es; by destruct l1].
        -- destruct l1 as [|? l1]; cbn in Es; [discriminate Es|injection Es as _ Es]. destruct l1 as [|? l1]; cbn in Es; [by injection Es as -> _|injection Es as _ Es; by destruct l1].
      * destruct (st_none s (stat_reach _ _ _ _ Hr) _ Ht Hz) as [Es _]. rewrite E in Es. by destruct l1.
  - intros Hrun. destruct (C60_nothing_hidden _ _ _ _ _ _ Hr Hrun) as [?|[(hb & Hx & _)|[(l & ids & t' & e & Hx & _)|Hx]]]; [done|rewrite S1 in Hx; by apply elem_of_nil in Hx|by apply S3 in Hx|done].
Qed.
Print Assumptions C60_knows_partial.

(** ** Witnesses *)
Definition settledb (s : sys) : bool :=
  match queue s, hpc s, tpc s with [], HIdle, (TSend _ _ _ _ _ | TDead) => false | [], HIdle, _ => true | _, _, _ => false end.
Lemma settledb_ok s : settledb s = true -> settled s.
Proof. unfold settledb, settled. destruct (queue s); [|discriminate]. destruct (hpc s); try discriminate. destruct (tpc s); try discriminate; repeat split; discriminate. Qed.
Definition seenb (sl : list (N * Z)) (rl : list Z) (s : sys) : bool := settledb s && bool_decide (still (log s) = sl) && bool_decide (running 11 (log s) = rl).
Lemma seenb_ok sl rl s : seenb sl rl s = true -> settled s /\ still (log s) = sl /\ running 11 (log s) = rl.
Proof. unfold seenb. rewrite !andb_true_iff, !bool_decide_eq_true. intros [[H1 H2] H3]. split; [by apply settledb_ok|done]. Qed.
Lemma unseen acts : after Debug 100 100 acts (seenb [(11, 0%Z)] []) = true -> ~ C60_knows.
Proof.
  intros H HK. apply after_reach in H as (s & Hr & HP). apply seenb_ok in HP as (Hs & E1 & E2). specialize (HK _ _ _ _ 11 Hr Hs 0%Z). rewrite E1, E2 in HK.
  apply (elem_of_nil 0%Z), HK. left.
Qed.
(** False when an instance is cancelled: it is shown as running for ever ([C60_ended_for_good]). *)
Theorem C60_knows_refuted : ~ C60_knows.
Proof. apply (unseen [Do (LAdd (every 1 11 5 100)); Handle; Ticks 7; Handle; Do (LCancel 11 0); Handle]). vm_compute. reflexivity. Qed.
Print Assumptions C60_knows_refuted.
(** False too when the user drops the chain and then an instance finishes, ... *)
Theorem C60_knows_refuted2 : ~ C60_knows.
Proof. apply (unseen [Do (LInsert (every 1 11 5 100)); Handle; Ticks 7; Handle; Do (LChainDrop 1); Do (LFinish 0 106 None); Handle]). vm_compute. reflexivity. Qed.
Print Assumptions C60_knows_refuted2.
(** ... and when the task is removed and then an instance runs out of time. *)
Theorem C60_knows_refuted3 : ~ C60_knows.
Proof. apply (unseen [Do (LAdd (timed 2 (every 1 11 5 100))); Handle; Ticks 7; Handle; Do (LRemove 11); Handle; Do LSweepRecv; Do (LSweep 0 120); Do (LSweep 0 0); Handle]). vm_compute. reflexivity. Qed.
Print Assumptions C60_knows_refuted3.

Definition watch_acts : list act := [Do (LInsert (timed 100 (every 1 11 5 100))); Handle; Ticks 7; Handle; Do (LUpdate (timed 100 (every 2 11 5 107))); Do (LAdvance 11); Handle; Ticks 10; Handle; Do (LFinish 0 106 (Some 3)); Handle].
(** One instance has finished, two run; the reader knows. *)
Example C60_example : exists s, reachable_with (fun lb => lb <> LChainDrop 1) Debug 100 100 s /\ kept (timed 100 (every 1 11 5 100)) (log s) /\ (forall r, OSend (ECancel 11 r) ∉ log s) /\ settled s /\
  still (log s) = [(11, 2%Z); (11, 1%Z)] /\ running 11 (log s) = [2; 1]%Z /\ OQuit 11 0%Z ∈ log s.
Proof.
  set (t := timed 100 (every 1 11 5 100)).
  assert (after Debug 100 100 watch_acts (fun s => keptb t (log s) && forallb (fun o => match o with OSend (ECancel _ _) => false | _ => true end) (log s) && inb (OQuit 11 0) (log s) && seenb [(11, 2%Z); (11, 1%Z)] [2; 1]%Z s) = true) as H by (vm_compute; reflexivity).
  unfold after in H. rewrite init0_eq in H. destruct (play Debug watch_acts (init 100 100)) as [s|] eqn:E; [|discriminate H].
  apply andb_true_iff in H as [H H4]. apply andb_true_iff in H as [H H3]. apply andb_true_iff in H as [H1 H2]. apply inb_ok in H3. apply seenb_ok in H4 as (S1 & S2 & S3).
  pose proof (play_reach _ _ _ _ _ E) as Hr.
  assert (submitted t (log s)) as Hs by (refine (play_submitted Debug watch_acts _ s _ t E _ (or_intror (or_introl eq_refl))); left).
  exists s. split.
  { refine (play_reaches _ Debug watch_acts _ s _ _ E).
    - split; [intros ch r n; discriminate|discriminate].
    - intros lb Hlb. unfold watch_acts in Hlb. rewrite !elem_of_cons, elem_of_nil in Hlb. destruct Hlb as [X|[X|[X|[X|[X|[X|[X|[X|[X|[X|[X|[]]]]]]]]]]]]; try discriminate X; injection X as ->; discriminate. }
  split; [exact (keptb_ok _ _ _ _ _ Hr Hs H1)|]. split; [|auto].
  intros r Hin. rewrite forallb_forall in H2. apply elem_of_list_In in Hin. specialize (H2 _ Hin). discriminate H2.
Qed.
(** The hypotheses of [C60_end_shown], both ways: the finish of an instance is about to be handled, and will be shown; a
    cancellation, and will not be. *)
Definition endingb (e : event) (s : sys) : bool :=
  match hpc s with HIdle => true | _ => false end && match queue s, e with [EFinish 11 0 106 None], EFinish _ _ _ _ => true | [ECancel 11 0], ECancel _ _ => true | _, _ => false end &&
  match flags s !! 11 with Some m => match m_chain m with None => true | _ => false end | None => false end &&
  bool_decide (running 11 (log s) = [0%Z]) && bool_decide ((11, 0%Z) ∈ trace_recs (trace s)).
Definition about_to (e : event) (fin : bool) : Prop := exists s, reachable Debug 100 100 s /\ hpc s = HIdle /\ queue s = [e] /\ 0%Z ∈ running 11 (log s) /\
  (exists hb, OPop (EAppend 11 hb) ∈ log s /\ hb_rec hb = 0%Z) /\ reports_end s fin 11 0.
Lemma endingb_ok e fin acts : (e = EFinish 11 0 106 None \/ e = ECancel 11 0) -> after Debug 100 100 acts (endingb e) = true -> about_to e fin.
Proof.
  intros He H. apply after_reach in H as (s & Hr & H). exists s. unfold endingb in H. rewrite !andb_true_iff, !bool_decide_eq_true in H. destruct H as [[[[H1 H2] H3] H4] H5].
  split; [exact Hr|]. split; [destruct (hpc s); done|]. split.
  { destruct (queue s) as [|x [|y q]]; [discriminate H2| |]; destruct He as [-> | ->]; repeat (match type of H2 with context [match ?a with _ => _ end] => is_var a; destruct a; try discriminate H2 end); reflexivity. }
  split; [rewrite H4; left|]. split; [apply elem_taken; by eapply trace_taken|].
  unfold reports_end. destruct (flags s !! 11) as [m|]; [|discriminate H3]. destruct (m_chain m); [discriminate H3|exact I].
Qed.
Example C60_end_example : about_to (EFinish 11 0 106 None) true /\ about_to (ECancel 11 0) false.
Proof.
  split; [apply (endingb_ok _ _ [Do (LAdd (every 1 11 5 100)); Handle; Ticks 7; Handle; Do (LFinish 0 106 None)])|apply (endingb_ok _ _ [Do (LAdd (every 1 11 5 100)); Handle; Ticks 7; Handle; Do (LCancel 11 0)])];
    [by left|vm_compute; reflexivity|by right|vm_compute; reflexivity].
Qed.
