(** C77: a group of tasks behaves as if it were alone in the timer. *)
From Verif Require Import Tactics Inv Own Life Count Quiet Cases Inst Ended Chain Scen Apart ApartRun.
From Verif Require PropLimit.

(** The part of the timer that belongs to the ids picked by [P]: the chains
    handed out for tasks of these ids, and the instances started for them. *)
Definition ours (P : N -> bool) (lg : list obs) : part :=
  Part P
    (fun c => existsb (fun o => match o with OSend (EAdd t) | OSend (EInsert t) | OSend (EUpdate t) => (t_uid t =? c) && P (t_id t) | _ => false end) lg)
    (fun r => existsb (fun o => match o with OLaunch _ i r' _ _ => (r' =? r)%Z && P i | _ => false end) lg).
(** What there is to see of these ids: their events, plans, starts, ends, timeouts
    and what their users get to know; and the ticks of the clock. *)
Definition our_log (P : N -> bool) (lg : list obs) : list obs := List.filter (obs_in (ours P lg)) lg.
(** The steps of a timer whose users only ever name these ids. *)
Definition our_step (P : N -> bool) (lb : label) : Prop :=
  match lb with
  | LAdd t | LInsert t | LUpdate t => P (t_id t) = true
  | LRemove i | LAdvance i | LCancel i _ => P i = true
  | _ => True
  end.

Lemma ours_parted pf t0 t1 P s : reachable pf t0 t1 s -> parted (ours P (log s)) (log s).
Proof.
  intros Hr. pose proof (rec_reach _ _ _ _ Hr) as Hrec. pose proof (cnt_reach _ _ _ _ Hr) as Hcnt. clear Hr. split; cbn [ours pch prec pid].
  - intros u i r it ts H. apply eq_bool_prop_intro. rewrite !Is_true_true, existsb_exists. split.
    + intros (o & Ho & E). apply elem_of_list_In in Ho. destruct o; try discriminate E. apply andb_prop in E as [E1 E2]. apply Z.eqb_eq in E1. subst.
      apply (ri_launch s Hrec) in H, Ho. congruence.
    + intros E. exists (OLaunch u i r it ts). split; [by apply elem_of_list_In|]. by rewrite Z.eqb_refl.
  - intros t H. apply eq_bool_prop_intro. rewrite !Is_true_true, existsb_exists. split.
    + intros (o & Ho & E). apply elem_of_list_In in Ho. destruct o as [| | | | | | | | | | | | |e|]; try discriminate E.
      assert (exists t', submits t' e /\ (t_uid t' =? t_uid t) && P (t_id t') = true) as (t' & Ht' & E').
      { destruct e; try discriminate E; eexists; (split; [|exact E]); unfold submits; auto. }
      apply andb_prop in E' as [E1 E2]. apply N.eqb_eq in E1. assert (t' = t) as -> by (apply (ci_uniq s Hcnt); [by exists e|done..]). done.
    + intros E. destruct H as (e & He & Ht). exists (OSend e). split; [by apply elem_of_list_In|].
      destruct Ht as [-> | [-> | ->]]; by rewrite N.eqb_refl.
Qed.

Theorem C77_as_if_alone pf t0 t1 P ls s :
  run pf ls (init t0 t1) = Some s -> uncut pf P t0 t1 ls ->
  exists ls' s', run pf ls' (init t0 t1) = Some s' /\ Forall (our_step P) ls' /\
    log s' = our_log P (log s) /\
    (hand s' = hand s /\ gtime s' = gtime s /\ iters s' = iters s) /\
    (forall i, P i = true -> flags s' !! i = flags s !! i /\ trace s' !! i = trace s !! i /\ forall sl t, sits s' i sl t <-> sits s i sl t).
Proof.
  intros Hs Hu. assert (reachable pf t0 t1 s) as Hr by (exists ls; exact Hs).
  destruct (part_run pf t0 t1 (ours P (log s)) ls s Hs (ours_parted _ _ _ _ _ Hr) Hu) as (ls' & s' & F & Hs' & Hx). exists ls', s'. clear Hs Hu Hr.
  split; [exact Hs'|]. clear Hs'. destruct Hx as (tp & hp & hb & sp & us & -> & _). split.
  { eapply Forall_impl; [exact F|]. intros lb H. destruct lb; exact H || exact I. }
  clear F. split; [reflexivity|]. split; [split; [reflexivity|split; reflexivity]|]. intros i Hi. unfold sits, part_of. cbn [flags trace wheel ours pid].
  split; [by apply keep_t|]. split; [by apply keep_t|]. intros sl t. rewrite keepw_lookup. split.
  - intros (m & Hm & Ht). destruct (wheel s !! sl) as [m0|]; [|discriminate Hm]. injection Hm as <-. rewrite keep_t in Ht by done. eauto.
  - intros (m & Hm & Ht). rewrite Hm. exists (keep P m). split; [reflexivity|]. by rewrite keep_t.
Qed.
Print Assumptions C77_as_if_alone.

(** A round of the sweeper takes at most 200 timeouts. As long as there are fewer
    at any one time, nothing of the others is felt. *)
Theorem C77_few_timeouts pf t0 t1 P s : reachable pf t0 t1 s -> (forall nw, swept_at nw (log s) < 200) ->
  exists ls' s', run pf ls' (init t0 t1) = Some s' /\ Forall (our_step P) ls' /\ log s' = our_log P (log s).
Proof.
  intros [ls Hs] Hf. destruct (C77_as_if_alone pf t0 t1 P ls s Hs (few_uncut _ _ _ _ _ _ Hs Hf)) as (ls' & s' & H1 & H2 & H3 & _).
  exists ls', s'. split; [exact H1|]. split; [exact H2|exact H3].
Qed.
Print Assumptions C77_few_timeouts.

(** What holds of every timer which only knows these ids holds of their part of any timer. *)
Theorem C77_transfer pf t0 t1 P (Q : list obs -> Prop) :
  (forall ls s, run pf ls (init t0 t1) = Some s -> Forall (our_step P) ls -> Q (log s)) ->
  forall s, reachable pf t0 t1 s -> (forall nw, swept_at nw (log s) < 200) -> Q (our_log P (log s)).
Proof.
  intros HQ s Hr Hf. destruct (C77_few_timeouts pf t0 t1 P s Hr Hf) as (ls' & s' & H1 & H2 & H3). rewrite <- H3. exact (HQ ls' s' H1 H2).
Qed.
Print Assumptions C77_transfer.
(** For instance the parallel limit (C07), read off the part alone. *)
Example C77_transfer_example pf t0 t1 t mx : t_maxpar t = Some mx ->
  forall s, reachable pf t0 t1 s -> (forall nw, swept_at nw (log s) < 200) ->
  PropLimit.sole t (our_log (N.eqb (t_id t)) (log s)) -> N.of_nat (length (running (t_id t) (our_log (N.eqb (t_id t)) (log s)))) <= mx.
Proof.
  intros Hm s Hr Hf. refine (C77_transfer pf t0 t1 (N.eqb (t_id t)) (fun lg => PropLimit.sole t lg -> N.of_nat (length (running (t_id t) lg)) <= mx) _ s Hr Hf).
  intros ls s' Hs' _ Hso. exact (PropLimit.C07_limit_holds pf t0 t1 s' t mx (ex_intro _ ls Hs') Hso Hm).
Qed.

(** A timer with two ids; both are started and time out, one is cancelled. *)
Definition C77_acts : list act :=
  [Do (LInsert (timed 3 (every 1 11 5 100))); Do (LAdd (timed 3 (every 2 22 5 100))); Handle; Ticks 7; Handle; Do LSweepRecv; Do LSweepRecv; Do (LRemove 22);
   Do (LSweep 0 200); Do (LSweep 0 200); Do (LSweep 0 200); Do (LSweep 0 200); Handle; Ticks 5; Do (LNextCheck 1); Do (LNextTry 1); Handle].
Definition at_most_two (lg : list obs) : bool := N.of_nat (length (List.filter (fun o => match o with OSweep _ _ _ _ => true | _ => false end) lg)) <=? 2.
Definition C77_seen (s : sys) : bool :=
  at_most_two (log s) &&
  existsb (fun o => match o with OLaunch 1 11 _ 6 106 => true | _ => false end) (our_log (N.eqb 11) (log s)) &&
  existsb (fun o => match o with OSweep 11 _ 109 200 => true | _ => false end) (our_log (N.eqb 11) (log s)) &&
  existsb (fun o => match o with ONext 1 _ => true | _ => false end) (our_log (N.eqb 11) (log s)) &&
  existsb (fun o => match o with ONotify _ _ => true | _ => false end) (our_log (N.eqb 11) (log s)) &&
  existsb (fun o => match o with OLaunch 2 22 _ 6 106 => true | _ => false end) (log s) &&
  existsb (fun o => match o with OSweep 22 _ _ _ => true | _ => false end) (log s) &&
  Nat.ltb (length (our_log (N.eqb 11) (log s))) (length (log s)).
Lemma two_few lg : at_most_two lg = true -> forall nw, swept_at nw lg < 200.
Proof.
  intros H nw. apply N.leb_le in H. unfold swept_at.
  assert (length (List.filter (fun o => match o with OSweep _ _ _ n => (n =? nw)%N | _ => false end) lg) <= length (List.filter (fun o => match o with OSweep _ _ _ _ => true | _ => false end) lg))%nat as Hle.
  { clear H. induction lg as [|o lg IH]; [done|]. cbn [List.filter]. destruct o; try exact IH. destruct (_ =? nw)%N; cbn [length]; lia. }
  lia.
Qed.
Example C77_example : exists ls s, run Debug ls (init 100 100) = Some s /\ uncut Debug (N.eqb 11) 100 100 ls /\ (forall nw, swept_at nw (log s) < 200) /\ C77_seen s = true.
Proof.
  assert (after Debug 100 100 C77_acts C77_seen = true) as H by (vm_compute; reflexivity).
  apply after_reach in H as (s & [ls Hs] & H). exists ls, s. split; [exact Hs|].
  assert (forall nw, swept_at nw (log s) < 200) as Hf.
  { apply two_few. clear Hs. unfold C77_seen in H. destruct (at_most_two (log s)); [reflexivity|discriminate H]. }
  split; [exact (few_uncut _ _ _ _ _ _ Hs Hf)|]. split; [exact Hf|exact H].
Qed.
