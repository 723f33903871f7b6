(** C78: ids are only names. *)
From Verif Require Import Tactics Inv Cases Scen Apart Names.
From Verif Require PropTiming PropLimit.

Theorem C78_only_names pf t0 t1 F s : one_to_one F -> reachable pf t0 t1 s -> same_overdue F (log s) ->
  exists s', reachable pf t0 t1 s' /\ log s' = map (n_obs F) (log s) /\
    (hand s' = hand s /\ gtime s' = gtime s /\ iters s' = iters s) /\
    (forall i, (m_num <$> flags s' !! nid F i) = (m_num <$> flags s !! i) /\ (m_slot <$> flags s' !! nid F i) = (m_slot <$> flags s !! i)) /\
    (forall i sl t, sits s i sl t -> sits s' (nid F i) sl (n_task F t)).
Proof.
  intros HF [ls Hs] Ho. destruct (n_run F HF pf t0 t1 ls s Hs Ho) as (ls' & x & Hx & ids & _ & Ex). exists x. split; [exists ls'; exact Hx|]. clear Hs Hx. subst x.
  split; [reflexivity|]. split; [split; [reflexivity|split; reflexivity]|]. split.
  - intros i. cbn [n_sys flags]. rewrite rmap_lookup by (by apply nid_inj). destruct (flags s !! i); done.
  - intros i sl t (m & Hm & Ht). exists (n_slot F m). rewrite n_wheel, Hm. split; [done|]. unfold n_slot. rewrite rmap_lookup, Ht by (by apply nid_inj). done.
Qed.
Print Assumptions C78_only_names.

(** Without overdue tasks the new ids are arbitrary. *)
Theorem C78_any_ids pf t0 t1 F s : one_to_one F -> reachable pf t0 t1 s -> (forall u i k g d, OPlan u i k g d ∈ log s -> g <= d) ->
  exists s', reachable pf t0 t1 s' /\ log s' = map (n_obs F) (log s).
Proof.
  intros HF Hr Hn. destruct (C78_only_names pf t0 t1 F s HF Hr) as (s' & H1 & H2 & _).
  { intros u i k g d Hp Hlt. apply Hn in Hp. lia. }
  exists s'. split; [exact H1|exact H2].
Qed.
Print Assumptions C78_any_ids.

(** What holds for some ids, holds for all others, if they are the same modulo 3600. *)
Theorem C78_transfer pf t0 t1 F (Q : list obs -> Prop) : one_to_one F -> (forall i, nid F i mod 3600 = i mod 3600) ->
  (forall s, reachable pf t0 t1 s -> Q (log s)) -> forall s, reachable pf t0 t1 s -> Q (map (n_obs F) (log s)).
Proof.
  intros HF Hm HQ s Hr. destruct (C78_only_names pf t0 t1 F s HF Hr) as (s' & H1 & H2 & _).
  { intros u i k g d _ _. apply Hm. }
  rewrite <- H2. exact (HQ s' H1).
Qed.
Print Assumptions C78_transfer.

(** Two ids change places, and the instances get other numbers. *)
Definition swap (a b i : N) : N := if i =? a then b else if i =? b then a else i.
Definition swapped (a b : N) : naming := Naming (swap a b) Z.succ.
Lemma swapped_ok a b : a < U64 -> b < U64 -> one_to_one (swapped a b).
Proof.
  intros Ha Hb. split; [|split]; cbn [nid nrec swapped]; unfold swap.
  - intros i j. destruct (i =? a) eqn:E1, (j =? a) eqn:E2; try destruct (i =? b) eqn:E3; try destruct (j =? b) eqn:E4; lia.
  - intros r q. apply Z.succ_inj.
  - intros i Hi. destruct (i =? a); [done|]. by destruct (i =? b).
Qed.

(** The tasks 11 and 22 are added in time; 22 has a parallel limit, its first instance is cancelled. *)
Definition C78_acts : list act :=
  [Do (LInsert (every 1 11 5 100)); Do (LAdd (limited 1 (every 2 22 7 100))); Handle; Ticks 9; Handle; Do (LCancel 22 0); Do (LCancel 22 1); Handle; Do (LNextCheck 1); Do (LNextTry 1); Ticks 7; Handle].
Definition in_time (lg : list obs) : bool := forallb (fun o => match o with OPlan _ _ _ g d => g <=? d | _ => true end) lg.
Definition C78_seen (s : sys) : bool :=
  in_time (log s) && existsb (fun o => match o with OLaunch 1 22 _ 6 106 => true | _ => false end) (map (n_obs (swapped 11 22)) (log s)) &&
  existsb (fun o => match o with OLaunch 2 11 _ 8 108 => true | _ => false end) (map (n_obs (swapped 11 22)) (log s)) &&
  existsb (fun o => match o with OQuit 11 _ => true | _ => false end) (map (n_obs (swapped 11 22)) (log s)).
Example C78_example : exists s, one_to_one (swapped 11 22) /\ reachable Debug 100 100 s /\ (forall u i k g d, OPlan u i k g d ∈ log s -> g <= d) /\ C78_seen s = true.
Proof.
  assert (after Debug 100 100 C78_acts C78_seen = true) as H by (vm_compute; reflexivity).
  apply after_reach in H as (s & Hr & H). exists s. split; [by apply swapped_ok|]. split; [exact Hr|]. split; [|exact H].
  intros u i k g d Hp. clear Hr. unfold C78_seen in H. destruct (in_time (log s)) eqn:Et; [|discriminate H]. unfold in_time in Et. rewrite forallb_forall in Et. apply elem_of_list_In in Hp. apply Et in Hp. lia.
Qed.

Example C78_transfer_example : one_to_one (swapped 11 3611) /\ (forall i, nid (swapped 11 3611) i mod 3600 = i mod 3600) /\ nid (swapped 11 3611) 11 = 3611 /\
  forall s t mx, reachable Debug 100 100 s -> t_maxpar t = Some mx -> PropLimit.sole t (map (n_obs (swapped 11 3611)) (log s)) ->
    N.of_nat (length (running (t_id t) (map (n_obs (swapped 11 3611)) (log s)))) <= mx.
Proof.
  assert (one_to_one (swapped 11 3611)) as HF by (by apply swapped_ok).
  assert (forall i, nid (swapped 11 3611) i mod 3600 = i mod 3600) as Hm.
  { intros i. cbn [nid swapped]. unfold swap. destruct (i =? 11) eqn:E1; [apply N.eqb_eq in E1 as ->; done|]. destruct (i =? 3611) eqn:E2; [apply N.eqb_eq in E2 as ->; done|done]. }
  split; [exact HF|]. split; [exact Hm|]. split; [reflexivity|]. intros s t mx Hr Ht.
  refine (C78_transfer Debug 100 100 (swapped 11 3611) (fun lg => PropLimit.sole t lg -> N.of_nat (length (running (t_id t) lg)) <= mx) HF Hm _ s Hr).
  intros s' Hr' Hso. exact (PropLimit.C07_limit_holds Debug 100 100 s' t mx Hr' Hso Ht).
Qed.

(** The proviso is needed: an overdue task starts at a time which depends on its id. *)
Theorem C78_proviso_needed : exists s, reachable Debug 200 200 s /\ one_to_one (swapped 5 6) /\
  ~ exists s', reachable Debug 200 200 s' /\ log s' = map (n_obs (swapped 5 6)) (log s).
Proof.
  destruct (scen_alone Debug 200 200 [Do (LTimer 0 0 0); Do (LTimer 0 0 0); Do (LAdd (every 1 5 20 100)); Handle; Ticks 20] (every 1 5 20 100)
    (fun s => let lg := map (n_obs (swapped 5 6)) (log s) in quietb (every 1 6 20 100) lg && nearb 1 lg &&
       sees (OAdded 1 6 0 6 0) lg (fun l1 l2 => bool_decide (plan_of 1 l2 = Some (6, 0, 200, 120)) && is (first_run 1 l1) (Some 6)))) as (s & Ha & HP);
    [left; right; right; left|vm_compute; reflexivity|].
  cbv zeta in HP. facts HP. destruct Ha as (Hr & Hs & _). exists s. split; [exact Hr|]. split; [by apply swapped_ok|]. intros (s' & Hr' & E). clear Hr.
  match goal with H : bool_decide _ = true |- _ => apply bool_decide_eq_true in H; rename H into HPl end. rewrite <- E in *.
  assert (submitted (every 1 6 20 100) (log s')) as Hs'.
  { destruct Hs as (e & He & Hsub). exists (n_event (swapped 5 6) e). split.
    - rewrite E. exact (elem_of_list_fmap_1 (n_obs (swapped 5 6)) _ _ He).
    - destruct Hsub as [-> | [-> | ->]]; unfold submits; cbn; auto. }
  assert (alone Debug 200 200 (every 1 6 20 100) s') as Ha'.
  { split; [exact Hr'|]. split; [exact Hs'|]. split; [exact (quietb_ok _ _ _ _ _ Hr' Hs' HP1)|exact (nearb_ok _ _ HP0)]. }
  destruct (PropTiming.C38_overdue_runs_at_once_partial _ _ _ _ _ _ _ _ _ _ _ Ha' El) as (k & g & d & Hp & _ & Hx).
  change (t_uid (every 1 6 20 100)) with 1 in *. rewrite HPl in Hp. injection Hp as <- <- <-. rewrite HP in Hx.
  specialize (Hx ltac:(lia) ltac:(unfold SLOTS, U64; lia) ltac:(lia)). vm_compute in Hx. discriminate Hx.
Qed.
Print Assumptions C78_proviso_needed.
