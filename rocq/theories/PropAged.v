(** C80: how long the timer has been running makes no difference. *)
From Verif Require Import Tactics Inv Arrival Sched Cases Scen Apart Names Shift Aged.
From Verif Require PropTiming PropLimit.

(** The full claim.  An older timer was created at [ta], has read the clock [length rs + 1] times, as [tb] and then [rs],
    and was not used; it goes on as a new one does. *)
Definition C80_age : Prop := forall pf t0 t1 s ta tb rs, reachable pf t0 t1 s -> List.last rs tb = t0 -> far_from_end (log s) -> no_overflow pf s ->
  exists s', reachable pf ta tb s' /\ log s' = map (ag_obs (N.of_nat (length rs) + 1)) (log s) ++ ticks 0 (tb :: rs).

(** False: a task due in 3598 seconds is started on time by a new timer, by a timer which is one tick old it is started an hour late. *)
Definition farb (lg : list obs) : bool :=
  forallb (fun o => match o with OPlan _ _ _ _ e | OPark _ _ _ _ e => e + SLOTS <? U64 | _ => true end) lg.
Lemma farb_ok lg : farb lg = true -> far_from_end lg.
Proof.
  unfold farb. rewrite forallb_forall. intros H. split.
  - intros u i n g e He. apply elem_of_list_In, H in He. by apply N.ltb_lt.
  - intros u i it ts e He. apply elem_of_list_In, H in He. by apply N.ltb_lt.
Qed.
Definition alive (s : sys) : bool := match tpc s, hpc s with TDead, _ | _, HDead => false | _, _ => true end.
Lemma alive_ok pf s : alive s = true -> no_overflow pf s.
Proof. unfold alive. intros H _. split; intros E; rewrite E in H; [|destruct (tpc s)]; discriminate H. Qed.
Theorem C80_age_refuted : ~ C80_age.
Proof.
  intros H.
  destruct (scen_alone Debug 100 100 [Do (LTimer 0 0 0); Do (LTimer 0 0 0); Do (LAdd (every 1 5 3598 100)); Handle; Ticks 3601] (every 1 5 3598 100)
    (fun s => let lg := map (ag_obs 1) (log s) ++ [OTick 0 100] in farb (log s) && alive s && quietb (every 1 5 3598 100) lg && nearb 1 lg &&
       sees (OAdded 1 5 1 0 0) lg (fun l1 l2 => bool_decide (plan_of 1 l2 = Some (5, 1, 100, 3698)) && is (first_run 1 l1) (Some 3600)))) as (s & Ha & HP);
    [left; right; right; left|vm_compute; reflexivity|].
  cbv zeta in HP. facts HP. destruct Ha as (Hr & Hs & _). apply alive_ok with (pf := Debug) in HP2.
  destruct (H Debug 100 100 s 100 100 [] Hr eq_refl (farb_ok _ HP3) HP2) as (s' & Hr' & E). clear Hr H HP2 HP3. change (N.of_nat (length []) + 1) with 1 in E. change (ticks 0 [100]) with [OTick 0 100] in E.
  match goal with H : bool_decide _ = true |- _ => apply bool_decide_eq_true in H; rename H into HPl end. rewrite <- E in *.
  assert (submitted (every 1 5 3598 100) (log s')) as Hs'.
  { destruct Hs as (e & He & Hsub). exists e. split; [|exact Hsub].
    rewrite E. apply elem_of_app. left. exact (elem_of_list_fmap_1 (ag_obs 1) _ _ He). }
  assert (alone Debug 100 100 (every 1 5 3598 100) s') as Ha'.
  { split; [exact Hr'|]. split; [exact Hs'|]. split; [apply (quietb_ok _ _ _ _ _ Hr' Hs'); assumption|apply nearb_ok; assumption]. }
  destruct (PropTiming.C02_first_run_on_time_partial _ _ _ _ _ _ _ _ _ _ _ Ha' El) as (k & g & d & Hp & _ & Hx).
  change (t_uid (every 1 5 3598 100)) with 1 in *. rewrite HPl in Hp. injection Hp as <- <- <-. rewrite HP in Hx.
  specialize (Hx ltac:(unfold SLOTS, U64; lia) ltac:(lia) ltac:(lia)). vm_compute in Hx. discriminate Hx.
Qed.
Print Assumptions C80_age_refuted.

(** What holds: if [advance_task] never meets the last slot, in the new timer or the older one, and if the ways to the slots of
    added tasks lead past slot 0 as often.  (Missing for the full claim: nothing more can be proved, see above and C20.) *)
Theorem C80_age_partial pf t0 t1 ls s ta tb rs : run pf ls (init t0 t1) = Some s -> List.last rs tb = t0 -> far_from_end (log s) -> no_overflow pf s ->
  advances_clear pf t0 t1 (N.of_nat (length rs) + 1) ls -> same_laps (N.of_nat (length rs) + 1) (log s) ->
  exists s', reachable pf ta tb s' /\ log s' = map (ag_obs (N.of_nat (length rs) + 1)) (log s) ++ ticks 0 (tb :: rs) /\
    (hand s' = turn (N.of_nat (length rs) + 1) (hand s) /\ gtime s' = gtime s /\ iters s' = iters s + (N.of_nat (length rs) + 1)) /\
    (forall i, m_num <$> flags s' !! i = m_num <$> flags s !! i) /\
    (forall i sl t, sits s i sl t -> sits s' i (turn (N.of_nat (length rs) + 1) sl) t).
Proof.
  intros Hs <- Hfar Hno Hun Hla. set (k := N.of_nat (length rs) + 1) in *. set (pre := ticks 0 (tb :: rs)).
  destruct (idle_ticks pf _ rs blank_init 0 ta tb t1 [OTick 0 tb]) as [l0 Hl0]. rewrite <- idle_init in Hl0.
  change (ticks (0 + 1) rs ++ [OTick 0 tb]) with pre in Hl0. rewrite N.add_0_l in Hl0. change (N.of_nat (length rs) + 1) with k in Hl0. rewrite idle_aged in Hl0.
  pose proof (ag_run k pre pf (List.last rs tb) t1 _ ls eq_refl s Hs Hun Hla Hfar Hno) as Hx.
  exists (ag_sys k pre s). split; [exists (l0 ++ ls); rewrite run_app, Hl0; exact Hx|]. clear Hs Hl0 Hx Hun.
  split; [reflexivity|]. split; [split; [reflexivity|split; reflexivity]|]. split.
  - intros i. cbn [ag_sys flags]. rewrite lookup_fmap. by destruct (flags s !! i).
  - intros i sl t (m & Hm & Ht). exists m. split; [|exact Ht]. cbn [ag_sys wheel]. unfold ag_wheel. by rewrite lookup_kmap by apply _.
Qed.
Print Assumptions C80_age_partial.

(** And nothing else: the older timer can do exactly the steps that the new one can do, with the same effects. *)
Theorem C80_exactly pf t1 ta tb rs : exists s0, reachable pf ta tb s0 /\ log s0 = OTick (N.of_nat (length rs) + 1) t1 :: ticks 0 (tb :: rs) /\
  forall ls, regular pf (List.last rs tb) t1 (N.of_nat (length rs) + 1) ls ->
  match run pf ls (init (List.last rs tb) t1), run pf ls s0 with
  | Some s, Some s' => log s' = map (ag_obs (N.of_nat (length rs) + 1)) (log s) ++ ticks 0 (tb :: rs)
  | None, None => True
  | _, _ => False
  end.
Proof.
  set (k := N.of_nat (length rs) + 1) in *. set (pre := ticks 0 (tb :: rs)).
  destruct (idle_ticks pf _ rs blank_init 0 ta tb t1 [OTick 0 tb]) as [l0 Hl0]. rewrite <- idle_init in Hl0.
  change (ticks (0 + 1) rs ++ [OTick 0 tb]) with pre in Hl0. rewrite N.add_0_l in Hl0. change (N.of_nat (length rs) + 1) with k in Hl0. rewrite idle_aged in Hl0.
  exists (ag_sys k pre (init (List.last rs tb) t1)). split; [exists l0; exact Hl0|]. clear Hl0. split; [exact eq_refl|].
  intros ls Hreg. rewrite (ag_run_eq k pre pf _ t1 ls Hreg). clear Hreg. destruct (run pf ls (init (List.last rs tb) t1)) as [s|]; [exact eq_refl|exact I].
Qed.
Print Assumptions C80_exactly.

(** A timer whose age is a number of whole revolutions does as a new one, whatever the delays and the calls. *)
Theorem C80_whole_turns pf t0 t1 s ta tb rs : reachable pf t0 t1 s -> List.last rs tb = t0 -> far_from_end (log s) -> no_overflow pf s ->
  (N.of_nat (length rs) + 1) mod SLOTS = 0 ->
  exists s', reachable pf ta tb s' /\ log s' = map (ag_obs (N.of_nat (length rs) + 1)) (log s) ++ ticks 0 (tb :: rs).
Proof.
  intros [ls Hr] Hl Hfar Hno Hk. destruct (C80_age_partial pf t0 t1 ls s ta tb rs Hr Hl Hfar Hno) as (s' & H1 & H2 & _); [| |exists s'; split; [exact H1|exact H2]].
  - intros ls1 ls2 x t _ _ _. left. exact Hk.
  - intros u i n g e _. do 2 f_equal. rewrite <- (N.add_mod_idemp_r n) by discriminate. rewrite Hk, N.add_0_r. reflexivity.
Qed.
Print Assumptions C80_whole_turns.

(** So does any timer, if no task is advanced and no added task is due behind the end of the revolution. *)
Definition within (k : N) (lg : list obs) : Prop := forall u i n g e, OPlan u i n g e ∈ lg ->
  add_distance e g i + n mod SLOTS + 1 < SLOTS /\ add_distance e g i + (n + k) mod SLOTS + 1 < SLOTS.
Theorem C80_within pf t0 t1 s ta tb rs : reachable pf t0 t1 s -> List.last rs tb = t0 -> far_from_end (log s) -> no_overflow pf s ->
  unadvanced (log s) -> within (N.of_nat (length rs) + 1) (log s) ->
  exists s', reachable pf ta tb s' /\ log s' = map (ag_obs (N.of_nat (length rs) + 1)) (log s) ++ ticks 0 (tb :: rs).
Proof.
  intros [ls Hr] Hl Hfar Hno Hun Hk. destruct (C80_age_partial pf t0 t1 ls s ta tb rs Hr Hl Hfar Hno) as (s' & H1 & H2 & _); [| |exists s'; split; [exact H1|exact H2]].
  - exact (unadvanced_clear _ _ _ _ _ _ Hr Hun).
  - intros u i n g e He. apply Hk in He as [E1 E2]. rewrite !N.div_small by assumption. reflexivity.
Qed.
Print Assumptions C80_within.

(** A task with a limit is started twice and times out, another one is removed; the older timer has been idle for 100 ticks. *)
Definition C80_acts : list act :=
  [Do (LInsert (timed 3 (limited 2 (every 1 11 5 100)))); Do (LAdd (every 2 22 7 100)); Handle; Ticks 9; Handle; Do LSweepRecv; Do (LSweep 0 200); Do (LSweep 0 200); Handle; Do (LRemove 22); Handle; Ticks 8].
Definition unadvancedb (lg : list obs) : bool := forallb (fun o => match o with OPop (EAdvance _) => false | _ => true end) lg.
Definition withinb (k : N) (lg : list obs) : bool :=
  forallb (fun o => match o with OPlan _ i n g e => (add_distance e g i + n mod SLOTS + 1 <? SLOTS) && (add_distance e g i + (n + k) mod SLOTS + 1 <? SLOTS) | _ => true end) lg.
Lemma withinb_ok k lg : withinb k lg = true -> within k lg.
Proof.
  unfold withinb. rewrite forallb_forall. intros H u i n g e He. apply elem_of_list_In, H in He. cbn beta iota in He. apply andb_prop in He as [E1 E2]. by rewrite <- !N.ltb_lt.
Qed.
Example C80_example pf : exists s, reachable pf 100 100 s /\ far_from_end (log s) /\ no_overflow pf s /\ unadvanced (log s) /\ within 100 (log s) /\
  existsb (fun o => match o with OLaunch 1 11 _ 106 _ => true | _ => false end) (map (ag_obs 100) (log s)) = true /\
  existsb (fun o => match o with OLaunch 1 11 _ 111 _ => true | _ => false end) (map (ag_obs 100) (log s)) = true /\
  existsb (fun o => match o with OSweep 11 _ _ _ => true | _ => false end) (map (ag_obs 100) (log s)) = true.
Proof.
  assert (after pf 100 100 C80_acts (fun s => farb (log s) && alive s && unadvancedb (log s) && withinb 100 (log s) &&
    existsb (fun o => match o with OLaunch 1 11 _ 106 _ => true | _ => false end) (map (ag_obs 100) (log s)) &&
    existsb (fun o => match o with OLaunch 1 11 _ 111 _ => true | _ => false end) (map (ag_obs 100) (log s)) &&
    existsb (fun o => match o with OSweep 11 _ _ _ => true | _ => false end) (map (ag_obs 100) (log s))) = true) as H by (destruct pf; vm_compute; reflexivity).
  apply after_reach in H as (s & Hr & H). repeat (apply andb_prop in H as [H ?]). exists s. split; [exact Hr|]. clear Hr.
  split; [by apply farb_ok|]. split; [by apply alive_ok|]. split; [|split; [|split; [assumption|split; assumption]]].
  - intros i Hi. unfold unadvancedb in *. match goal with H : forallb (fun o => match o with OPop _ => _ | _ => _ end) _ = true |- _ => rewrite forallb_forall in H; apply elem_of_list_In, H in Hi end. discriminate Hi.
  - by apply withinb_ok.
Qed.
(** An idle hour. *)
Example C80_hour_example : exists rs, List.last rs 100 = 100 /\ (N.of_nat (length rs) + 1) mod SLOTS = 0.
Proof. exists (replicate (N.to_nat 3599) 100). vm_compute. split; reflexivity. Qed.
(** With an advance: task 11 is due in 1000 seconds, is advanced and starts in the next tick; the older timer has been idle for 100 ticks. *)
Fixpoint clearb (pf : profile) (k : N) (ls : list label) (s : sys) : bool :=
  match hpc s with HAdv2 _ => (hand s + 1 <? SLOTS) && (turn k (hand s) + 1 <? SLOTS) | _ => true end &&
  match ls with [] => true | lb :: q => match step pf lb s with Some s' => clearb pf k q s' | None => true end end.
Lemma clearb_ok pf k ls s : clearb pf k ls s = true -> forall ls1 ls2 s1 t, ls = ls1 ++ ls2 -> run pf ls1 s = Some s1 -> hpc s1 = HAdv2 t -> clear_of_last k (hand s1).
Proof.
  revert s. induction ls as [|lb ls IH]; intros s H ls1 ls2 s1 t El H1 Hp; (destruct ls1 as [|x ls1]; [injection H1 as <-|]).
  - cbn [clearb] in H. rewrite Hp in H. apply andb_prop in H as [H _]. apply andb_prop in H as [E1 E2]. right. split; by apply N.ltb_lt.
  - discriminate El.
  - cbn [clearb] in H. rewrite Hp in H. apply andb_prop in H as [H _]. apply andb_prop in H as [E1 E2]. right. split; by apply N.ltb_lt.
  - injection El as <- El. cbn [clearb run] in *. apply andb_prop in H as [_ H]. destruct (step pf lb s) as [s2|]; [|discriminate H1]. exact (IH s2 H ls1 ls2 s1 t El H1 Hp).
Qed.
Definition C80_labels : list label :=
  [LAdd (every 1 11 1000 100)] ++ replicate 4 LHandler ++ [LAdvance 11] ++ replicate 4 LHandler ++ replicate 15 (LTimer 0 7 101).
Example C80_advance_example pf : exists s, run pf C80_labels (init 100 100) = Some s /\ far_from_end (log s) /\ no_overflow pf s /\ advances_clear pf 100 100 100 C80_labels /\ same_laps 100 (log s) /\
  existsb (fun o => match o with OPop (EAdvance 11) => true | _ => false end) (log s) = true /\
  existsb (fun o => match o with OLaunch 1 11 7 101 101 => true | _ => false end) (map (ag_obs 100) (log s)) = true.
Proof.
  assert (match run pf C80_labels (init 100 100) with Some s => farb (log s) && alive s && withinb 100 (log s) &&
    existsb (fun o => match o with OPop (EAdvance 11) => true | _ => false end) (log s) &&
    existsb (fun o => match o with OLaunch 1 11 7 101 101 => true | _ => false end) (map (ag_obs 100) (log s)) | None => false end = true) as H by (destruct pf; vm_compute; reflexivity).
  assert (clearb pf 100 C80_labels (init 100 100) = true) as Hc by (destruct pf; vm_compute; reflexivity).
  pose proof (clearb_ok _ _ _ _ Hc) as Ha. clear Hc. destruct (run pf C80_labels (init 100 100)) as [s|]; [|discriminate H]. exists s. split; [exact eq_refl|].
  apply andb_prop in H as [H H5]. apply andb_prop in H as [H H4]. apply andb_prop in H as [H H3]. apply andb_prop in H as [H1 H2].
  split; [exact (farb_ok _ H1)|]. split; [exact (alive_ok _ _ H2)|]. split; [exact Ha|]. clear Ha. split; [|split; [exact H4|exact H5]].
  intros u i n g e He. apply (withinb_ok _ _ H3) in He as [E1 E2]. rewrite !N.div_small by assumption. reflexivity.
Qed.
(** All prefixes of this execution meet the provisos. *)
Fixpoint regularb (pf : profile) (k : N) (ls : list label) (s : sys) : bool :=
  withinb k (log s) && farb (log s) && alive s && match hpc s with HAdv2 _ => (hand s + 1 <? SLOTS) && (turn k (hand s) + 1 <? SLOTS) | _ => true end &&
  match ls with [] => true | lb :: q => match step pf lb s with Some s' => regularb pf k q s' | None => true end end.
Lemma regularb_now pf k ls s : regularb pf k ls s = true -> same_laps k (log s) /\ far_from_end (log s) /\ no_overflow pf s /\ forall t, hpc s = HAdv2 t -> clear_of_last k (hand s).
Proof.
  intros H. assert (withinb k (log s) && farb (log s) && alive s && match hpc s with HAdv2 _ => (hand s + 1 <? SLOTS) && (turn k (hand s) + 1 <? SLOTS) | _ => true end = true) as H'.
  { destruct ls; cbn [regularb] in H; by apply andb_prop in H as [? _]. }
  clear H. apply andb_prop in H' as [H H4]. apply andb_prop in H as [H H3]. apply andb_prop in H as [H1 H2]. split; [|split; [exact (farb_ok _ H2)|split; [exact (alive_ok _ _ H3)|]]].
  - intros u i n g e He. apply (withinb_ok _ _ H1) in He as [E1 E2]. rewrite !N.div_small by assumption. reflexivity.
  - intros t Et. rewrite Et in H4. apply andb_prop in H4 as [E1 E2]. right. split; by apply N.ltb_lt.
Qed.
Lemma regularb_ok pf k ls s : regularb pf k ls s = true -> forall ls1 ls2 s1, ls = ls1 ++ ls2 -> run pf ls1 s = Some s1 ->
  same_laps k (log s1) /\ far_from_end (log s1) /\ no_overflow pf s1 /\ forall t, hpc s1 = HAdv2 t -> clear_of_last k (hand s1).
Proof.
  revert s. induction ls as [|lb ls IH]; intros s H ls1 ls2 s1 El H1; (destruct ls1 as [|x ls1]; [injection H1 as <-; exact (regularb_now _ _ _ _ H)|]).
  - discriminate El.
  - injection El as <- El. cbn [regularb run] in *. apply andb_prop in H as [_ H]. destruct (step pf lb s) as [s2|]; [|discriminate H1]. exact (IH s2 H ls1 ls2 s1 El H1).
Qed.
Example C80_exactly_example pf : regular pf 100 100 100 C80_labels.
Proof.
  assert (regularb pf 100 C80_labels (init 100 100) = true) as H by (destruct pf; vm_compute; reflexivity). exact (regularb_ok _ _ _ _ H).
Qed.
