(** A timer that has been idle for a while turns through the same executions as a new one. *)
From Verif Require Import Tactics Inv Arrival Frame Apart ApartRun Names Shift.
From Verif Require Scen.

(* ------------------------------------------------------------------ *)
(** * Specification *)

(** The slot which is [k] slots further on. *)
Definition turn (k x : N) : N := if x <? SLOTS then (x + k) mod SLOTS else x.
(** The same happens, [k] ticks later in the life of the timer. *)
Definition ag_obs (k : N) (o : obs) : obs :=
  match o with
  | OLaunch u i r it ts => OLaunch u i r (it + k) ts
  | OSkip u i it ts => OSkip u i (it + k) ts
  | OTick it ts => OTick (it + k) ts
  | OPlan u i n g e => OPlan u i (n + k) g e
  | OAdded u i n sl c => OAdded u i (n + k) (turn k sl) c
  | OPark u i it ts e => OPark u i (it + k) ts e
  | _ => o
  end.
(** No task was advanced. *)
Definition unadvanced (lg : list obs) : Prop := forall i, OPop (EAdvance i) ∉ lg.
(** Whenever [advance_task] is about to read the second hand, this is not at the last slot; neither is it [k] ticks later.  (Unless [k] is a number of whole revolutions.) *)
Definition clear_of_last (k h : N) : Prop := k mod SLOTS = 0 \/ h + 1 < SLOTS /\ turn k h + 1 < SLOTS.
Definition advances_clear (pf : profile) (t0 t1 k : N) (ls : list label) : Prop := forall ls1 ls2 s t,
  ls = ls1 ++ ls2 -> run pf ls1 (init t0 t1) = Some s -> hpc s = HAdv2 t -> clear_of_last k (hand s).
(** Adding a task [k] ticks later, the way to its slot leads past slot 0 as often. *)
Definition same_laps (k : N) (lg : list obs) : Prop := forall u i n g e, OPlan u i n g e ∈ lg ->
  (add_distance e g i + n mod SLOTS + 1) / SLOTS = (add_distance e g i + (n + k) mod SLOTS + 1) / SLOTS.
(** No due time is within an hour of the end of the 64 bit clock. *)
Definition far_from_end (lg : list obs) : Prop :=
  (forall u i n g e, OPlan u i n g e ∈ lg -> e + SLOTS < U64) /\ (forall u i it ts e, OPark u i it ts e ∈ lg -> e + SLOTS < U64).

(* ------------------------------------------------------------------ *)
(** * Turning states *)

Definition ag_wheel (k : N) (w : wheel_t) : wheel_t := kmap (M2 := gmap N) (turn k) w.
Definition ag_mark (k : N) (m : mark) : mark := Mark (m_id m) (turn k (m_slot m)) (m_num m) (m_chain m).
Definition ag_loop (k : N) (l : loop) : loop := Loop (l_ts l) (turn k (l_hand l)) (turn k (l_next l)).
Definition ag_hpc (k : N) (p : handler_pc) : handler_pc :=
  match p with
  | HAdd1 t c h n => HAdd1 t c (turn k h) (n + k) | HAdd2 t c sl => HAdd2 t c (turn k sl) | HAdd3 i c sl => HAdd3 i c (turn k sl)
  | HUpd t sl => HUpd t (turn k sl) | HAdv1 i sl => HAdv1 i (turn k sl) | HAdv3 t sl => HAdv3 t (turn k sl) | HRem1 i sl => HRem1 i (turn k sl)
  | _ => p
  end.
Definition ag_tpc (k : N) (p : timer_pc) : timer_pc :=
  match p with
  | TCheck l => TCheck (ag_loop k l) | TStore l => TStore (ag_loop k l) | TScan l => TScan (ag_loop k l) | TLapse l => TLapse (ag_loop k l) | TStopped => TStopped | TDead => TDead
  | TLoop l ids => TLoop (ag_loop k l) ids
  | TMaint l ids t => TMaint (ag_loop k l) ids t
  | TSpawn l ids t r => TSpawn (ag_loop k l) ids t r
  | TSend l ids t r e => TSend (ag_loop k l) ids t r e
  | TGate l ids t r => TGate (ag_loop k l) ids t r
  | TPark l ids t b => TPark (ag_loop k l) ids t b
  | TMark l ids i sl b => TMark (ag_loop k l) ids i (turn k sl) b
  end.
(** [pre]: what happened before. *)
Definition ag_sys (k : N) (pre : list obs) (s : sys) : sys :=
  Sys (ag_wheel k (wheel s)) (ag_mark k <$> flags s) (turn k (hand s)) (gtime s) (motiv s) (ag_tpc k (tpc s)) (ag_hpc k (hpc s)) (hpub s)
    (queue s) (trace s) (recq s) (heap s) (spc s) (insts s) (hdrs s) (chains s) (waiters s) (used s) (iters s + k) ((ag_obs k <$> log s) ++ pre).

Lemma turn_lt k x : x < SLOTS -> turn k x = (x + k) mod SLOTS.
Proof. intros H. unfold turn. apply N.ltb_lt in H. by rewrite H. Qed.
Lemma turn_mod k x : turn k (x mod SLOTS) = (x + k) mod SLOTS.
Proof. rewrite turn_lt by (apply N.mod_lt; discriminate). rewrite N.add_mod_idemp_l by discriminate. done. Qed.
Lemma turn_bound k x : turn k x < SLOTS <-> x < SLOTS.
Proof. unfold turn. destruct (x <? SLOTS) eqn:E; [apply N.ltb_lt in E|apply N.ltb_ge in E]; [|done]. split; [done|]. intros _. apply N.mod_lt. discriminate. Qed.
Lemma turn_onto k y : exists x, turn k x = y.
Proof.
  destruct (y <? SLOTS) eqn:E; [apply N.ltb_lt in E|exists y; unfold turn; by rewrite E].
  pose proof (N.mod_lt k SLOTS ltac:(discriminate)) as Hk. exists ((y + (SLOTS - k mod SLOTS)) mod SLOTS). rewrite turn_mod.
  rewrite <- N.add_mod_idemp_r by discriminate. replace (y + (SLOTS - k mod SLOTS) + k mod SLOTS) with (y + 1 * SLOTS) by lia. rewrite N.mod_add by discriminate. by apply N.mod_small.
Qed.
Global Instance turn_inj k : Inj (=) (=) (turn k).
Proof.
  intros x y H. destruct (x <? SLOTS) eqn:Ex, (y <? SLOTS) eqn:Ey; try apply N.ltb_lt in Ex; try apply N.ltb_lt in Ey; try apply N.ltb_ge in Ex; try apply N.ltb_ge in Ey.
  - rewrite !turn_lt in H by done. pose proof (N.div_mod (x + k) SLOTS ltac:(discriminate)) as D1. pose proof (N.div_mod (y + k) SLOTS ltac:(discriminate)) as D2. rewrite H in D1.
    pose proof (N.mod_lt (y + k) SLOTS ltac:(discriminate)) as Hm. assert ((x + k) / SLOTS = (y + k) / SLOTS) as E.
    { set (a := (x + k) / SLOTS) in *. set (b := (y + k) / SLOTS) in *. clearbody a b. unfold SLOTS in *. nia. }
    rewrite E in D1. lia.
  - exfalso. assert (turn k x < SLOTS) as Hb by (by apply turn_bound). rewrite H in Hb. apply turn_bound in Hb. lia.
  - exfalso. assert (turn k y < SLOTS) as Hb by (by apply turn_bound). rewrite <- H in Hb. apply turn_bound in Hb. lia.
  - unfold turn in H. apply N.ltb_ge in Ex, Ey. by rewrite Ex, Ey in H.
Qed.

(* ------------------------------------------------------------------ *)
(** * Steps commute with turning *)

Ltac asimpl := unfold ag_sys, enqueue, emit, abandon_chain, set_wheel, set_flags, set_hand, set_gtime, set_motiv, set_tpc, set_hpc, set_hpub, set_queue, set_trace, set_recq,
  set_heap, set_spc, set_insts, set_hdrs, set_chains, set_waiters, set_used, set_iters, set_log; fsimpl.

Lemma ag_complete k pre ok s : complete ok (ag_sys k pre s) = ag_sys k pre (complete ok s).
Proof. unfold complete. asimpl. destruct (hpub s); [destruct ok|]; done. Qed.
Lemma ag_get_maintainer k pre m s : get_maintainer (ag_mark k m) (ag_sys k pre s) = let '(m1, s1) := get_maintainer m s in (ag_mark k m1, ag_sys k pre s1).
Proof.
  unfold get_maintainer. destruct m as [i sl n [[c l]|]]; [|done]. cbn [ag_mark m_chain]. change (chain_state (ag_sys k pre s) c) with (chain_state s c). destruct (decide _); done.
Qed.
Lemma ag_notify_cancel k pre m r st s : notify_cancel_finish (ag_mark k m) r st (ag_sys k pre s) =
  let '(ok, m1, s1) := notify_cancel_finish m r st s in (ok, ag_mark k m1, ag_sys k pre s1).
Proof.
  unfold notify_cancel_finish. rewrite ag_get_maintainer. destruct (get_maintainer m s) as [m1 s1]. destruct m1 as [i sl n [[c l]|]]; [|done].
  cbn [ag_mark m_chain]. destruct (take_rec id r l) as [[y l']|]; done.
Qed.
Lemma ag_flag k pre s i : flags (ag_sys k pre s) !! i = ag_mark k <$> flags s !! i.
Proof. cbn [ag_sys flags]. by rewrite lookup_fmap. Qed.
Lemma ag_set_flags k pre i m s : set_flags (<[i := ag_mark k m]> (flags (ag_sys k pre s))) (ag_sys k pre s) = ag_sys k pre (set_flags (<[i := m]> (flags s)) s).
Proof. asimpl. f_equal. by rewrite fmap_insert. Qed.
Lemma ag_cancel k pre b i r st s : cancel_task b i r st (ag_sys k pre s) = ag_sys k pre (cancel_task b i r st s).
Proof.
  unfold cancel_task. change (trace (ag_sys k pre s)) with (trace s). destruct (quit_one_task_handler i r (trace s)) as [tr|]; [|by rewrite <- ag_complete].
  change (emit (OQuit i r) (set_trace tr (ag_sys k pre s))) with (ag_sys k pre (emit (OQuit i r) (set_trace tr s))).
  generalize (emit (OQuit i r) (set_trace tr s)). clear s tr. intros s.
  rewrite ag_flag. destruct (flags s !! i) as [m|]; [|by rewrite <- ag_complete]. cbn [fmap option_fmap option_map].
  change (dec_num (ag_mark k m)) with (ag_mark k (dec_num m)). generalize (dec_num m). clear m. intros m. change (m_chain (ag_mark k m)) with (m_chain m). rewrite (ag_notify_cancel k pre m). destruct (m_chain m) as [c|].
  - destruct (notify_cancel_finish m r st s) as [[ok m2] s2]. by rewrite ag_set_flags, ag_complete.
  - by rewrite ag_set_flags, ag_complete.
Qed.
Lemma ag_finish k pre i r s : finish_task i r (ag_sys k pre s) = ag_sys k pre (finish_task i r s).
Proof.
  unfold finish_task. change (trace (ag_sys k pre s)) with (trace s). destruct (quit_one_task_handler i r (trace s)) as [tr|]; [|by rewrite <- ag_complete].
  change (emit (OQuit i r) (set_trace tr (ag_sys k pre s))) with (ag_sys k pre (emit (OQuit i r) (set_trace tr s))).
  generalize (emit (OQuit i r) (set_trace tr s)). clear s tr. intros s.
  rewrite ag_flag. destruct (flags s !! i) as [m|]; [|by rewrite <- ag_complete]. cbn [fmap option_fmap option_map].
  change (m_chain (ag_mark k m)) with (m_chain m). rewrite (ag_notify_cancel k pre m). destruct (m_chain m) as [c|].
  - destruct (notify_cancel_finish m r COMPLETED s) as [[ok m2] s2]. change (dec_num (ag_mark k m2)) with (ag_mark k (dec_num m2)). destruct ok; by rewrite ag_set_flags, ag_complete.
  - change (dec_num (ag_mark k m)) with (ag_mark k (dec_num m)). by rewrite ag_set_flags, ag_complete.
Qed.
Lemma ag_maintain_mark k pre i r s : maintain_mark i r (ag_sys k pre s) = ag_sys k pre (maintain_mark i r s).
Proof.
  unfold maintain_mark. rewrite ag_flag. destruct (flags s !! i) as [m|]; [|done]. cbn [fmap option_fmap option_map].
  rewrite ag_get_maintainer. destruct (get_maintainer m s) as [m1 s1]. destruct m1 as [j sl n [[c l]|]]; cbn [ag_mark m_chain m_id m_slot m_num].
  - exact (ag_set_flags k pre i (set_m_chain (Some (c, l ++ [r])) (Mark j sl n (Some (c, l)))) (push_instance i c r s1)).
  - exact (ag_set_flags k pre i (Mark j sl n None) s1).
Qed.
Lemma ag_maintain k pre i hb s : maintain_task_status i hb (ag_sys k pre s) = ag_sys k pre (maintain_task_status i hb s).
Proof.
  unfold maintain_task_status. rewrite ag_maintain_mark. generalize (maintain_mark i (hb_rec hb) s). clear s. intros s.
  rewrite <- ag_complete. f_equal. destruct (hb_end hb); reflexivity.
Qed.
Lemma ag_dispatch k pre e s : dispatch e (ag_sys k pre s) = ag_sys k pre (dispatch e s).
Proof.
  destruct e; cbn [dispatch].
  - by rewrite <- ag_complete.
  - done.
  - done.
  - rewrite ag_flag. destruct (flags s !! t_id t); [done|by rewrite <- ag_complete].
  - rewrite ag_flag. destruct (flags s !! tid); done.
  - apply ag_cancel.
  - apply ag_cancel.
  - apply ag_finish.
  - apply ag_maintain.
  - rewrite ag_flag. destruct (flags s !! tid); [done|by rewrite <- ag_complete].
Qed.
Lemma ag_scan k pre s : next_scan (ag_sys k pre s) = next_scan s + k.
Proof. unfold next_scan. cbn [ag_sys tpc iters]. destruct (tpc s); cbn [ag_tpc]; lia. Qed.
Lemma ag_wheel_lookup k pre s sl : wheel (ag_sys k pre s) !! turn k sl = wheel s !! sl.
Proof. cbn [ag_sys wheel]. unfold ag_wheel. by rewrite lookup_kmap by apply _. Qed.
Lemma ag_set_wheel k pre sl m s : set_wheel (<[turn k sl := m]> (wheel (ag_sys k pre s))) (ag_sys k pre s) = ag_sys k pre (set_wheel (<[sl := m]> (wheel s)) s).
Proof. asimpl. f_equal. unfold ag_wheel. by rewrite kmap_insert by apply _. Qed.
Lemma ag_drop k pre m s : drop_mark (ag_mark k <$> m) (ag_sys k pre s) = ag_sys k pre (drop_mark m s).
Proof. unfold drop_mark. destruct m as [[i sl n [c|]]|]; done. Qed.

Lemma turn_next k h : h < SLOTS -> (turn k h + 1) mod SLOTS = turn k ((h + 1) mod SLOTS).
Proof. intros H. rewrite turn_mod, turn_lt by done. rewrite N.add_mod_idemp_l by discriminate. f_equal. lia. Qed.
Lemma turn_advance k h : clear_of_last k h -> turn k h + 1 = turn k (h + 1).
Proof.
  intros [E|[E1 E2]].
  - assert (forall x, turn k x = x) as Ht; [|by rewrite !Ht]. intros x. unfold turn. destruct (x <? SLOTS) eqn:Ex; [|done]. apply N.ltb_lt in Ex.
    rewrite <- N.add_mod_idemp_r by discriminate. rewrite E, N.add_0_r. by apply N.mod_small.
  - assert (h < SLOTS) as Hh by lia. pose proof (turn_next k h Hh) as Hn. rewrite !N.mod_small in Hn by assumption. exact Hn.
Qed.
Lemma ag_handler k pre pf s s1 : handler_step pf s = Some s1 -> wf s -> (forall t, hpc s = HAdv2 t -> clear_of_last k (hand s)) -> same_laps k (log s1) -> far_from_end (log s1) -> no_overflow pf s1 ->
  handler_step pf (ag_sys k pre s) = Some (ag_sys k pre s1).
Proof.
  intros Hs Hwf Had Hla [Hfar _] Hno. pose proof (wf_hpc s Hwf) as Hh. unfold handler_step in *. change (hpc (ag_sys k pre s)) with (ag_hpc k (hpc s)).
  destruct (hpc s) as [|t c h n|t c sl|i c sl|t sl|i sl|t|t sl|i sl|i ok|] eqn:Eh; cbn [ag_hpc].
  - change (queue (ag_sys k pre s)) with (queue s). destruct (queue s) as [|e q]; [discriminate Hs|]. injection Hs as <-. f_equal.
    rewrite <- ag_dispatch. reflexivity.
  - cbn [wf_handler] in Hh. destruct Hh as [-> _]. destruct (get_next_exec_timestamp pf t) as [[[exec|] t']|]; [|injection Hs as <-; rewrite <- ag_complete; reflexivity|injection Hs as <-; reflexivity].
    change (gtime (ag_sys k pre s)) with (gtime s). destruct (let! a := add64 pf (add_distance exec (gtime s) (t_id t)) (n mod SLOTS) in add64 pf a 1) as [seed|] eqn:Es.
    + injection Hs as <-. assert (OPlan (t_uid t) (t_id t) n (gtime s) exec ∈ log (set_hpc (HAdd2 (set_cylinder_line (seed / SLOTS) t') c (seed mod SLOTS)) (emit (OPlan (t_uid t) (t_id t) n (gtime s) exec) s))) as Hin by left.
      apply Hfar in Hin as Hf. apply Hla in Hin as Hl. clear Hin Hla Hfar Hno Had.
      assert (add_distance exec (gtime s) (t_id t) + SLOTS < U64) as Hd.
      { unfold add_distance, checked_sub. case_match; [case_match; simplify_eq; lia|]. pose proof (N.mod_lt (t_id t) SLOTS ltac:(discriminate)). unfold SLOTS, U64 in *. lia. }
      set (ds := add_distance exec (gtime s) (t_id t)) in *. pose proof (N.mod_lt n SLOTS ltac:(discriminate)) as M1. pose proof (N.mod_lt (n + k) SLOTS ltac:(discriminate)) as M2.
      rewrite turn_mod. rewrite add64_small in * by (clear -Hd M1 M2; lia). cbn [res_bind] in *. rewrite add64_small in * by (clear -Hd M1 M2; lia). injection Es as <-. rewrite <- Hl.
      assert ((ds + (n + k) mod SLOTS + 1) mod SLOTS = turn k ((ds + n mod SLOTS + 1) mod SLOTS)) as ->; [|reflexivity].
      rewrite turn_mod. replace (ds + (n + k) mod SLOTS + 1) with (ds + 1 + (n + k) mod SLOTS) by lia. replace (ds + n mod SLOTS + 1 + k) with (ds + 1 + k + n mod SLOTS) by lia.
      rewrite !N.add_mod_idemp_r by discriminate. f_equal. lia.
    + injection Hs as <-. exfalso. destruct pf; [destruct (Hno eq_refl) as [_ H]; by apply H|].
      destruct (add64 Release _ (n mod SLOTS)) eqn:E1 in Es; [by apply release_add in Es|by apply release_add in E1].
  - rewrite ag_wheel_lookup, ag_scan. injection Hs as <-. destruct (wheel s !! sl) as [m|]; [|done]. rewrite ag_set_wheel. done.
  - injection Hs as <-. rewrite ag_flag. rewrite <- ag_complete, <- ag_drop. do 3 f_equal. exact (ag_set_flags k pre i (Mark i sl 0 ((fun c => (c, [])) <$> c)) s).
  - injection Hs as <-. rewrite ag_wheel_lookup. rewrite <- ag_complete. do 2 f_equal. destruct (wheel s !! sl) as [m|]; [|done]. by rewrite ag_set_wheel.
  - rewrite ag_wheel_lookup. destruct (wheel s !! sl) as [m|]; [|injection Hs as <-; by rewrite <- ag_complete]. destruct (slot_remove_task m i) as [[x|] m']; injection Hs as <-; [by rewrite ag_set_wheel|].
    rewrite <- ag_complete. by rewrite ag_set_wheel.
  - injection Hs as <-. change (hand (ag_sys k pre s)) with (turn k (hand s)). rewrite (turn_advance k (hand s)); [reflexivity|exact (Had t eq_refl)].
  - rewrite ag_wheel_lookup. destruct (wheel s !! sl) as [m|]; injection Hs as <-; [|by rewrite <- ag_complete]. rewrite <- ag_complete. by rewrite ag_set_wheel.
  - rewrite ag_wheel_lookup. destruct (wheel s !! sl) as [m|]; injection Hs as <-; [|done]. by rewrite ag_set_wheel.
  - injection Hs as <-. rewrite ag_flag. rewrite <- ag_complete, <- ag_drop. do 3 f_equal. asimpl. f_equal. by rewrite fmap_delete.
  - discriminate Hs.
Qed.

(** ** The scheduler *)
Lemma ag_locked k pre s i : mark_locked (ag_sys k pre s) i = mark_locked s i.
Proof. unfold mark_locked. cbn [ag_sys hpc]. by destruct (hpc s). Qed.

Lemma ag_timer k pre pf ch rec now s s1 : wf s -> timer_step pf ch rec now s = Some s1 -> far_from_end (log s1) -> no_overflow pf s1 ->
  timer_step pf ch rec now (ag_sys k pre s) = Some (ag_sys k pre s1).
Proof.
  intros Hwf Hs [_ Hfar] Hno. assert (hand s < SLOTS) as Hh by (rewrite (wf_hand s Hwf); apply N.mod_lt; discriminate).
  unfold timer_step in *. change (tpc (ag_sys k pre s)) with (ag_tpc k (tpc s)).
  destruct (tpc s) as [l|l|l|l js|l js t|l js t r|l js t r e|l js t r|l js t b|l js i sl b|l| |] eqn:Et; cbn [ag_tpc ag_loop l_ts l_hand l_next] in *.
  - injection Hs as <-. f_equal. asimpl. by destruct (motiv s).
  - by injection Hs as <-.
  - rewrite ag_wheel_lookup. destruct (wheel s !! l_hand l) as [m|]; [|by injection Hs as <-].
    destruct (slot_arrival_time_tasks m) as [is m1]. injection Hs as <-. by rewrite ag_set_wheel.
  - destruct js as [|j js']; [by injection Hs as <-|]. destruct ((j :: js') !! ch) as [i|]; [|discriminate Hs]. rewrite ag_wheel_lookup.
    destruct (wheel s !! l_hand l) as [m|]; [|by injection Hs as <-]. unfold slot_remove_task in *. rewrite ag_set_wheel. destruct (m !! i) as [t|]; by injection Hs as <-.
  - change (insts (ag_sys k pre s)) with (insts s). destruct (decide (insts s !! rec = None)); [|discriminate Hs].
    destruct (t_maxpar t) as [mx|]; [|by injection Hs as <-]. rewrite ag_flag. destruct (flags s !! t_id t) as [m|]; cbn [fmap option_fmap option_map]; [|by injection Hs as <-].
    change (m_num (ag_mark k m)) with (m_num m). destruct (mx <=? m_num m); by injection Hs as <-.
  - destruct (get_maximum_running_time pf t (l_ts l)) as [e|]; by injection Hs as <-.
  - by injection Hs as <-.
  - destruct (down_count_and_set_valid pf t) as [t'|]; [destruct (t_valid t')|]; by injection Hs as <-.
  - destruct (get_next_exec_timestamp pf t) as [[[exec|] t']|]; [|by injection Hs as <-|by injection Hs as <-].
    destruct (wf_loop s Hwf l) as [_ Hnx]; [by rewrite Et|]. assert (l_next l < SLOTS) as Hnl by (rewrite Hnx; apply N.mod_lt; discriminate).
    destruct (add64 pf (park_distance exec (l_ts l)) (l_next l)) as [sum|] eqn:Es.
    + destruct (proj2 (wf_wheel s Hwf (sum mod SLOTS)) ltac:(apply N.mod_lt; discriminate)) as [m Em]. rewrite Em in Hs. injection Hs as <-.
      assert (exec + SLOTS < U64) as Hf by (apply (Hfar (t_uid t) (t_id t) (iters s) (l_ts l) exec); left). clear Hfar Hno.
      assert (park_distance exec (l_ts l) + SLOTS < U64) as Hd.
      { unfold park_distance, checked_sub. case_match; [case_match; simplify_eq; lia|]. unfold SLOTS, U64 in *. lia. }
      set (ds := park_distance exec (l_ts l)) in *. assert (turn k (l_next l) < SLOTS) as Ht by (by apply turn_bound).
      rewrite add64_small in * by (clear -Hd Hnl Ht; lia). injection Es as <-.
      assert ((ds + turn k (l_next l)) mod SLOTS = turn k ((ds + l_next l) mod SLOTS)) as ->.
      { rewrite turn_mod, turn_lt by done. rewrite N.add_mod_idemp_r by discriminate. f_equal. lia. }
      rewrite ag_wheel_lookup, Em, ag_set_wheel. reflexivity.
    + exfalso. injection Hs as <-. destruct pf; [by apply (proj1 (Hno eq_refl))|]. by apply release_add in Es.
  - rewrite ag_locked. destruct (mark_locked s i); [discriminate Hs|]. rewrite ag_flag. destruct (flags s !! i) as [m|]; cbn [fmap option_fmap option_map]; [|by injection Hs as <-].
    injection Hs as <-. replace (if b then inc_num (set_slot_mark (turn k sl) (ag_mark k m)) else set_slot_mark (turn k sl) (ag_mark k m)) with (ag_mark k (if b then inc_num (set_slot_mark sl m) else set_slot_mark sl m)) by (by destruct b).
    rewrite ag_set_flags. reflexivity.
  - injection Hs as <-. change (hand (ag_sys k pre s)) with (turn k (hand s)). change (iters (ag_sys k pre s)) with (iters s + k). rewrite turn_next by done.
    replace (iters s + k + 1) with (iters s + 1 + k) by lia. rewrite turn_next by (apply N.mod_lt; discriminate). reflexivity.
  - discriminate Hs.
  - discriminate Hs.
Qed.

Lemma ag_other k pre pf lb s s1 : step pf lb s = Some s1 -> match lb with LTimer _ _ _ | LHandler => False | _ => True end -> step pf lb (ag_sys k pre s) = Some (ag_sys k pre s1).
Proof.
  intros Hs Hl. destruct lb; try destruct Hl; cbn [step] in *; try (by injection Hs as <-).
  all: unfold submit_insert, submit, next_check, next_take, chain_drop, inst_cancel, inst_listen, inst_return, inst_finish, inst_panic, sweep_recv, sweep_step, routine_panic, option_map in *.
  all: cbn [ag_sys used chains waiters hdrs insts spc recq heap tpc] in *.
  all: try (destruct (tpc s); try discriminate Hs; by injection Hs as <-).
  all: try (destruct (fresh_task t && negb (bool_decide (t_uid t ∈ used s))); [|discriminate Hs]; by injection Hs as <-).
  all: repeat match type of Hs with context [match ?x with _ => _ end] => destruct x; try discriminate Hs end.
  all: by injection Hs as <-.
Qed.

(* ------------------------------------------------------------------ *)
(** * Executions *)

Lemma far_mono lg lg' : far_from_end (lg' ++ lg) -> far_from_end lg.
Proof. intros [H1 H2]. split; [intros u i n g e H; apply (H1 u i n g e)|intros u i it ts e H; apply (H2 u i it ts e)]; apply elem_of_app; by right. Qed.
Lemma ag_run k pre pf t0 t1 s0 ls : s0 = ag_sys k pre (init t0 t1) -> forall s, run pf ls (init t0 t1) = Some s -> advances_clear pf t0 t1 k ls -> same_laps k (log s) -> far_from_end (log s) -> no_overflow pf s ->
  run pf ls s0 = Some (ag_sys k pre s).
Proof.
  intros ->. induction ls as [|lb ls IH] using rev_ind; intros s Hs Hun Hla Hfar Hno.
  - cbn [run] in *. injection Hs as <-. exact eq_refl.
  - apply run_snoc in Hs as (s1 & H1 & H2). destruct (step_log _ _ _ _ H2) as [lg El].
    assert (advances_clear pf t0 t1 k ls) as Hun1 by (intros l1 l2 x t -> Hx Hp; apply (Hun l1 (l2 ++ [lb]) x t); [by rewrite app_assoc|exact Hx|exact Hp]).
    assert (same_laps k (log s1)) as Hla1 by (intros u i n g e Hi; apply (Hla u i n g e); rewrite El; apply elem_of_app; by right).
    assert (far_from_end (log s1)) as Hfar1 by (apply (far_mono _ lg); rewrite <- El; exact Hfar).
    assert (no_overflow pf s1) as Hno1.
    { intros E. destruct (Hno E) as [N1 N2]. destruct (dead_stays _ _ _ _ H2) as [D1 D2]. split; intros H; [by apply N1, D1|by apply N2, D2]. }
    pose proof (IH s1 H1 Hun1 Hla1 Hfar1 Hno1) as Hx. assert (reachable pf t0 t1 s1) as Hr by (exists ls; exact H1). pose proof (wf_reach _ _ _ _ Hr) as Hwf.
    assert (forall t, hpc s1 = HAdv2 t -> clear_of_last k (hand s1)) as Had by (intros t Ht; exact (Hun ls [lb] s1 t eq_refl H1 Ht)).
    rewrite (run_app _ _ _ _ _ Hx). cbn [run]. clear H1 Hx IH Hr Hun Hun1.
    assert (step pf lb (ag_sys k pre s1) = Some (ag_sys k pre s)) as ->; [|exact eq_refl].
    destruct lb; try (apply ag_other; [exact H2|exact I]); cbn [step] in *; [by apply ag_timer|by apply ag_handler].
Qed.
(** What the new timer cannot do, the older one cannot do either. *)
Lemma ag_none k pre pf lb s : step pf lb s = None -> step pf lb (ag_sys k pre s) = None.
Proof.
  intros Hs. destruct lb; cbn [step] in *; try discriminate Hs.
  all: unfold submit_insert, submit, next_check, next_take, chain_drop, inst_cancel, inst_listen, inst_return, inst_finish, inst_panic, sweep_recv, sweep_step, routine_panic, option_map in *.
  all: cbn [ag_sys used chains waiters hdrs insts spc recq heap tpc] in *.
  all: try (destruct (fresh_task t && negb (bool_decide (t_uid t ∈ used s))); [discriminate Hs|reflexivity]).
  all: try (destruct (tpc s); try discriminate Hs; reflexivity).
  all: try (repeat match type of Hs with context [match ?x with _ => _ end] => destruct x; try discriminate Hs end; reflexivity).
  - unfold timer_step in *. change (tpc (ag_sys k pre s)) with (ag_tpc k (tpc s)). destruct (tpc s) as [l|l|l|l js|l js t|l js t r|l js t r e|l js t r|l js t b|l js i sl b|l| |]; cbn [ag_tpc]; try discriminate Hs; try reflexivity.
    + exfalso. repeat case_match; discriminate.
    + destruct js as [|j js]; [discriminate Hs|]. destruct ((j :: js) !! _) as [i|]; [|reflexivity]. exfalso. repeat case_match; discriminate.
    + change (insts (ag_sys k pre s)) with (insts s). destruct (decide _); [|reflexivity]. exfalso. repeat case_match; discriminate.
    + exfalso. repeat case_match; discriminate.
    + exfalso. repeat case_match; discriminate.
    + exfalso. repeat case_match; discriminate.
    + rewrite ag_locked. destruct (mark_locked s i); [reflexivity|]. exfalso. repeat case_match; discriminate.
  - unfold handler_step in *. change (hpc (ag_sys k pre s)) with (ag_hpc k (hpc s)). change (queue (ag_sys k pre s)) with (queue s).
    destruct (hpc s); cbn [ag_hpc]; try discriminate Hs; try reflexivity; try (exfalso; repeat case_match; discriminate).
    destruct (queue s); [reflexivity|discriminate Hs].
Qed.
(** All provisos, for all prefixes of an execution. *)
Definition regular (pf : profile) (t0 t1 k : N) (ls : list label) : Prop := forall ls1 ls2 s, ls = ls1 ++ ls2 -> run pf ls1 (init t0 t1) = Some s ->
  same_laps k (log s) /\ far_from_end (log s) /\ no_overflow pf s /\ forall t, hpc s = HAdv2 t -> clear_of_last k (hand s).
Lemma ag_run_eq k pre pf t0 t1 ls : regular pf t0 t1 k ls -> run pf ls (ag_sys k pre (init t0 t1)) = option_map (ag_sys k pre) (run pf ls (init t0 t1)).
Proof.
  induction ls as [|lb ls IH] using rev_ind; intros Hreg.
  - exact eq_refl.
  - assert (regular pf t0 t1 k ls) as Hreg1 by (intros l1 l2 x -> Hx; apply (Hreg l1 (l2 ++ [lb]) x); [by rewrite app_assoc|exact Hx]).
    rewrite !Inv.run_app, (IH Hreg1). destruct (run pf ls (init t0 t1)) as [s1|] eqn:E1; [|exact eq_refl]. cbn [option_map run].
    destruct (step pf lb s1) as [s2|] eqn:E2; [|rewrite (ag_none _ _ _ _ _ E2); exact eq_refl].
    assert (run pf (ls ++ [lb]) (init t0 t1) = Some s2) as E3 by (rewrite Inv.run_app, E1; cbn [run]; rewrite E2; exact eq_refl).
    destruct (Hreg (ls ++ [lb]) [] s2 ltac:(by rewrite app_nil_r) E3) as (Hla & Hfar & Hno & _).
    assert (run pf (ls ++ [lb]) (ag_sys k pre (init t0 t1)) = Some (ag_sys k pre s2)) as E4.
    { apply (ag_run k pre pf t0 t1 _ (ls ++ [lb]) eq_refl s2 E3); [|exact Hla|exact Hfar|exact Hno].
      intros l1 l2 x t El Hx Hp. destruct (Hreg l1 l2 x El Hx) as (_ & _ & _ & Hc). exact (Hc t Hp). }
    rewrite Inv.run_app, (IH Hreg1) in E4. cbn [option_map run] in E4. exact E4.
Qed.
(** In particular if there is no [advance_task]. *)
Definition advancing (p : handler_pc) : bool := match p with HAdv1 _ _ | HAdv2 _ | HAdv3 _ _ => true | _ => false end.
Lemma advancing_step pf lb s s1 : step pf lb s = Some s1 -> advancing (hpc s) = false -> unadvanced (log s1) -> advancing (hpc s1) = false.
Proof.
  intros H E Hun. unfold unadvanced in Hun. step_inv H; inst_shape; fsimpl; try exact E; try reflexivity. all: try (rewrite E in *; discriminate).
  all: try (match goal with H : hpc _ = _ |- _ => rewrite H in E end; discriminate E).
  all: exfalso; match goal with H : queue _ = EAdvance ?i :: _ |- _ => apply (Hun i) end; fsimpl; left.
Qed.
Lemma unadvanced_clear pf t0 t1 k ls s : run pf ls (init t0 t1) = Some s -> unadvanced (log s) -> advances_clear pf t0 t1 k ls.
Proof.
  intros Hs Hun ls1 ls2 s1 t -> H1 Hp. rewrite Inv.run_app, H1 in Hs.
  assert (unadvanced (log s1)) as Hun1.
  { destruct (Scen.run_log _ _ _ _ Hs) as [lg El]. intros i Hi. apply (Hun i). rewrite El. apply elem_of_app. by right. }
  assert (advancing (hpc s1) = false) as E; [|rewrite Hp in E; discriminate E].
  clear Hs Hp Hun ls2. revert s1 H1 Hun1. induction ls1 as [|lb ls1 IH] using rev_ind; intros s1 H1 Hun1.
  - cbn [run] in H1. injection H1 as <-. exact eq_refl.
  - apply run_snoc in H1 as (x & H1 & H2). apply (advancing_step _ _ _ _ H2); [|exact Hun1]. apply (IH x H1).
    destruct (step_log _ _ _ _ H2) as [lg El]. intros i Hi. apply (Hun1 i). rewrite El. apply elem_of_app. by right.
Qed.

(** A timer nobody uses: [k] ticks after its creation. *)
Definition idle (w : wheel_t) (k g ts : N) (lg : list obs) : sys :=
  Sys w ∅ (k mod SLOTS) g true (TCheck {| l_ts := ts; l_hand := k mod SLOTS; l_next := (k + 1) mod SLOTS |}) HIdle None [] ∅ [] [] SSleep ∅ ∅ ∅ ∅ ∅ k lg.
Definition blank (w : wheel_t) : Prop := forall i, w !! i = if i <? SLOTS then Some ∅ else None.
Lemma idle_tick pf w k g ts now lg : blank w -> run pf (replicate 5 (LTimer 0 0 now)) (idle w k g ts lg) = Some (idle w (k + 1) ts now (OTick (k + 1) now :: lg)).
Proof.
  intros Hw. assert (k mod SLOTS < SLOTS) as Hlt by (apply N.mod_lt; discriminate). apply N.ltb_lt in Hlt as Hb.
  set (l := {| l_ts := ts; l_hand := k mod SLOTS; l_next := (k + 1) mod SLOTS |}). set (s0 := idle w k g ts lg).
  assert (wheel s0 !! l_hand l = Some ∅) as E1 by (change (w !! (k mod SLOTS) = Some ∅); by rewrite Hw, Hb).
  assert (slot_arrival_time_tasks ∅ = ([], ∅)) as E2.
  { unfold slot_arrival_time_tasks. by rewrite ?map_filter_empty, ?map_to_list_empty, ?fmap_empty. }
  assert (<[l_hand l := ∅]> w = w) as E3 by (apply insert_id; exact E1).
  change (replicate 5 (LTimer 0 0 now)) with [LTimer 0 0 now; LTimer 0 0 now; LTimer 0 0 now; LTimer 0 0 now; LTimer 0 0 now].
  cbn [run step].
  change (timer_step pf 0 0 now s0) with (Some (set_tpc (TStore l) s0)). cbv iota.
  change (timer_step pf 0 0 now (set_tpc (TStore l) s0)) with (Some (set_tpc (TScan l) (set_gtime ts s0))). cbv iota.
  assert (timer_step pf 0 0 now (set_tpc (TScan l) (set_gtime ts s0)) = Some (set_tpc (TLoop l []) (set_gtime ts s0))) as ->.
  { unfold timer_step. fsimpl. rewrite E1, E2. change (wheel s0) with w. rewrite E3. reflexivity. }
  change (timer_step pf 0 0 now (set_tpc (TLoop l []) (set_gtime ts s0))) with (Some (set_tpc (TLapse l) (set_gtime ts s0))). cbv iota.
  unfold timer_step. fsimpl. unfold s0, idle. fsimpl. subst l. cbn [l_next l_hand l_ts].
  rewrite ?N.add_mod_idemp_l by discriminate. reflexivity.
Qed.
Lemma blank_turn k w : blank w -> ag_wheel k w = w.
Proof.
  intros Hw. apply map_eq. intros y. destruct (turn_onto k y) as [x <-]. unfold ag_wheel. rewrite lookup_kmap by apply _. rewrite !Hw.
  destruct (x <? SLOTS) eqn:E; [apply N.ltb_lt in E|apply N.ltb_ge in E].
  - assert (turn k x < SLOTS) as Ht by (by apply turn_bound). apply N.ltb_lt in Ht. by rewrite Ht.
  - destruct (turn k x <? SLOTS) eqn:Et; [|done]. apply N.ltb_lt in Et. apply turn_bound in Et. lia.
Qed.
Lemma blank_init : blank (init_task_wheel (N.to_nat SLOTS)).
Proof. intros i. rewrite init_wheel_lookup, N2Nat.id. destruct (i <? SLOTS) eqn:E; [apply N.ltb_lt in E; by rewrite bool_decide_true|apply N.ltb_ge in E; rewrite bool_decide_false; [done|lia]]. Qed.
Lemma idle_init t0 t1 : init t0 t1 = idle (init_task_wheel (N.to_nat SLOTS)) 0 t0 t1 [OTick 0 t1].
Proof. reflexivity. Qed.
Lemma idle_aged k pre t0 t1 : idle (init_task_wheel (N.to_nat SLOTS)) k t0 t1 (OTick k t1 :: pre) = ag_sys k pre (init t0 t1).
Proof.
  rewrite idle_init. unfold idle, ag_sys. fsimpl. rewrite (blank_turn k _ blank_init), fmap_empty. cbn [ag_tpc ag_loop l_ts l_hand l_next].
  rewrite !N.add_0_l. cbn [ag_tpc]. unfold ag_loop. cbn [l_ts l_hand l_next].
  rewrite !turn_mod. rewrite !N.add_0_l. replace (1 + k) with (k + 1) by lia. reflexivity.
Qed.
(** The ticks of the idle time, with the readings [rs] of the clock, oldest first. *)
Fixpoint ticks (k : N) (rs : list N) : list obs := match rs with [] => [] | r :: q => ticks (k + 1) q ++ [OTick k r] end.
Lemma last_next (r : N) q d : List.last (r :: q) d = List.last q r.
Proof. revert r d. induction q as [|x q IH]; intros r d; [done|]. change (List.last (x :: q) d = List.last (x :: q) r). by rewrite !IH. Qed.
Lemma idle_ticks pf w rs : blank w -> forall k g ts now lg,
  exists ls, run pf ls (idle w k g ts lg) = Some (idle w (k + N.of_nat (length rs) + 1) (List.last rs ts) now (OTick (k + N.of_nat (length rs) + 1) now :: ticks (k + 1) rs ++ lg)).
Proof.
  intros Hw. induction rs as [|r rs IH]; intros k g ts now lg.
  - exists (replicate 5 (LTimer 0 0 now)). rewrite idle_tick by done. cbn [length ticks app List.last]. rewrite N.add_0_r. reflexivity.
  - destruct (IH (k + 1) ts r now (OTick (k + 1) r :: lg)) as (ls & Hls). exists (replicate 5 (LTimer 0 0 r) ++ ls).
    rewrite (run_app _ _ _ _ _ (idle_tick pf w k g ts r lg Hw)). rewrite Hls, last_next. cbn [length ticks]. rewrite <- app_assoc. cbn [app].
    replace (k + 1 + N.of_nat (length rs) + 1) with (k + N.of_nat (S (length rs)) + 1) by lia. reflexivity.
Qed.
