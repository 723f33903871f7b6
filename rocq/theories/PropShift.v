(** C79: the date makes no difference. *)
From Verif Require Import Tactics Inv Count Sched Cases Scen Apart Names Shift.
From Verif Require PropLimit.

Theorem C79_any_date pf t0 t1 d s : reachable pf t0 t1 s -> in_range d (log s) -> no_overflow pf s ->
  exists s', reachable pf (t0 + d) (t1 + d) s' /\ log s' = map (x_obs d) (log s) /\
    (hand s' = hand s /\ gtime s' = gtime s + d /\ iters s' = iters s) /\
    (forall i, flags s' !! i = flags s !! i) /\
    (forall i sl t, sits s i sl t -> sits s' i sl (x_task d t)).
Proof.
  intros [ls Hs] Hin Hno. destruct (x_run d pf t0 t1 ls s Hs Hin Hno) as (ls' & x & Hx & ids & _ & Ex). exists x. split; [exists ls'; exact Hx|]. clear Hs Hx. subst x.
  split; [reflexivity|]. split; [split; [reflexivity|split; reflexivity]|]. split; [reflexivity|].
  intros i sl t (m & Hm & Ht). exists (x_slot d m). rewrite x_wheel, Hm. split; [done|]. unfold x_slot. rewrite lookup_fmap, Ht. done.
Qed.
Print Assumptions C79_any_date.

(** In the release profile nothing overflows visibly, so only the dates matter. *)
Theorem C79_release t0 t1 d s : reachable Release t0 t1 s -> in_range d (log s) ->
  exists s', reachable Release (t0 + d) (t1 + d) s' /\ log s' = map (x_obs d) (log s).
Proof.
  intros Hr Hin. destruct (C79_any_date Release t0 t1 d s Hr Hin) as (s' & H1 & H2 & _); [intros E; discriminate E|]. exists s'. split; [exact H1|exact H2].
Qed.
Print Assumptions C79_release.

(** All dates and times of an execution are below 2^62: hundred thousand million years from now. *)
Definition this_age (lg : list obs) : Prop :=
  (forall t, submitted t lg -> first_date t < 2^62 /\ forall m, t_maxrun t = Some m -> m < 2^62) /\
  (forall u i k g e, OPlan u i k g e ∈ lg -> e < 2^62) /\ (forall u i it ts e, OPark u i it ts e ∈ lg -> e < 2^62) /\
  (forall u i r it ts, OLaunch u i r it ts ∈ lg -> ts < 2^62).
Lemma this_age_range d lg : this_age lg -> d <= 2^62 -> in_range d lg.
Proof.
  change (2^62) with 4611686018427387904. intros (A1 & A2 & A3 & A4) Hd. unfold in_range, U64. change (2^62) with 4611686018427387904 in *. split; [|split; [|split]].
  - intros t H. destruct (A1 t H) as [H1 _]. lia.
  - intros u i k g e H. apply A2 in H. lia.
  - intros u i it ts e H. apply A3 in H. lia.
  - intros u i r it ts t m H Ht _ Hm. apply A4 in H. apply (proj2 (A1 t Ht)) in Hm. lia.
Qed.
(** No date within reach, such as 2^31 or 2^32 seconds, is special. *)
Theorem C79_no_special_date t0 t1 d s : reachable Release t0 t1 s -> this_age (log s) -> d <= 2^62 ->
  exists s', reachable Release (t0 + d) (t1 + d) s' /\ log s' = map (x_obs d) (log s).
Proof. intros Hr Ha Hd. exact (C79_release t0 t1 d s Hr (this_age_range d _ Ha Hd)). Qed.
Print Assumptions C79_no_special_date.

(** What holds for timers created at one date, holds for timers created at any other. *)
Theorem C79_transfer pf t0 t1 d (Q : list obs -> Prop) : (forall s, reachable pf (t0 + d) (t1 + d) s -> Q (log s)) ->
  forall s, reachable pf t0 t1 s -> in_range d (log s) -> no_overflow pf s -> Q (map (x_obs d) (log s)).
Proof.
  intros HQ s Hr Hin Hno. destruct (C79_any_date pf t0 t1 d s Hr Hin Hno) as (s' & H1 & H2 & _). rewrite <- H2. exact (HQ s' H1).
Qed.
Print Assumptions C79_transfer.

(** The tasks 11 and 22 are started, one times out; all is moved over 2^31. *)
Definition C79_acts : list act :=
  [Do (LInsert (timed 3 (every 1 11 5 100))); Do (LAdd (every 2 22 7 100)); Handle; Ticks 9; Handle; Do LSweepRecv; Do (LSweep 0 200); Do (LSweep 0 200); Handle; Do (LRemove 22); Handle; Ticks 5].
Definition young (b : N) (lg : list obs) : bool :=
  forallb (fun o => match o with
    | OSend (EAdd t) | OSend (EInsert t) | OSend (EUpdate t) => (first_date t <? b) && match t_maxrun t with Some m => m <? b | None => true end
    | OPlan _ _ _ _ e | OPark _ _ _ _ e => e <? b
    | OLaunch _ _ _ _ ts => ts <? b
    | _ => true end) lg.
Lemma young_ok lg : young (2^62) lg = true -> this_age lg.
Proof.
  unfold young. rewrite forallb_forall. intros H.
  assert (forall o, o ∈ lg -> match o with
    | OSend (EAdd t) | OSend (EInsert t) | OSend (EUpdate t) => (first_date t <? 2^62) && match t_maxrun t with Some m => m <? 2^62 | None => true end
    | OPlan _ _ _ _ e | OPark _ _ _ _ e => e <? 2^62
    | OLaunch _ _ _ _ ts => ts <? 2^62
    | _ => true end = true) as Hy by (intros o Ho; apply H; by apply elem_of_list_In). clear H. split; [|split; [|split]].
  - intros t (e & He & Ht). apply Hy in He. assert ((first_date t <? 2^62) && match t_maxrun t with Some m => m <? 2^62 | None => true end = true) as E by (destruct Ht as [-> | [-> | ->]]; exact He).
    apply andb_prop in E as [E1 E2]. split; [by apply N.ltb_lt|]. intros m Em. rewrite Em in E2. by apply N.ltb_lt.
  - intros u i k g e He. apply Hy in He. by apply N.ltb_lt.
  - intros u i it ts e He. apply Hy in He. by apply N.ltb_lt.
  - intros u i r it ts He. apply Hy in He. by apply N.ltb_lt.
Qed.
Definition C79_seen (s : sys) : bool :=
  young (2^62) (log s) && existsb (fun o => match o with OLaunch 1 11 _ 6 2147483690 => true | _ => false end) (map (x_obs 2147483584) (log s)) &&
  existsb (fun o => match o with OSweep 11 _ 2147483693 2147483784 => true | _ => false end) (map (x_obs 2147483584) (log s)) &&
  existsb (fun o => match o with OPark 2 22 _ _ 2147483698 => true | _ => false end) (map (x_obs 2147483584) (log s)).
Example C79_example pf : exists s, reachable pf 100 100 s /\ this_age (log s) /\ in_range 2147483584 (log s) /\ no_overflow pf s /\ C79_seen s = true.
Proof.
  assert (after pf 100 100 C79_acts (fun s => C79_seen s && match tpc s, hpc s with TDead, _ | _, HDead => false | _, _ => true end) = true) as H by (destruct pf; vm_compute; reflexivity).
  apply after_reach in H as (s & Hr & H). apply andb_prop in H as [H Hd]. exists s. split; [exact Hr|]. clear Hr.
  assert (this_age (log s)) as Ha. { apply young_ok. unfold C79_seen in H. destruct (young (2^62) (log s)); [reflexivity|discriminate H]. }
  split; [exact Ha|]. split; [apply (this_age_range _ _ Ha); vm_compute; discriminate|]. split; [|exact H].
  intros _. split; intros E; rewrite E in Hd; [|destruct (tpc s)]; discriminate Hd.
Qed.
(** For instance: the parallel limit (C07), from one date to another. *)
Example C79_transfer_example t mx : t_maxpar t = Some mx -> forall s, reachable Release 100 100 s -> this_age (log s) ->
  PropLimit.sole t (map (x_obs (2^31)) (log s)) -> N.of_nat (length (running (t_id t) (map (x_obs (2^31)) (log s)))) <= mx.
Proof.
  intros Hm s Hr Ha. refine (C79_transfer Release 100 100 (2^31) (fun lg => PropLimit.sole t lg -> N.of_nat (length (running (t_id t) lg)) <= mx) _ s Hr _ _).
  - intros s' Hr' Hso. exact (PropLimit.C07_limit_holds Release _ _ s' t mx Hr' Hso Hm).
  - apply (this_age_range _ _ Ha). vm_compute. discriminate.
  - intros E. discriminate E.
Qed.

(** The range is needed: due times beyond 2^64 do not exist. *)
Lemma due_below pf t0 t1 s t e : reachable pf t0 t1 s -> submitted t (log s) -> e ∈ planned (t_uid t) (log s) -> e < U64.
Proof.
  intros Hr Ht He. destruct (f_sub _ _ (finv_reach _ _ _ _ Hr) t Ht) as (i & Hf & _). clear Hr Ht. revert He. induction Hf as [|l i1 z i2 Hf IH Hn]; [by intros ?%elem_of_nil|].
  intros [->|H]%elem_of_cons; [|by apply IH]. unfold as_u64. pose proof (Z.mod_pos_bound z (Z.of_N U64) ltac:(unfold U64; lia)). lia.
Qed.
Definition firsts_below (b : N) (lg : list obs) : bool :=
  forallb (fun o => match o with OSend (EAdd t) | OSend (EInsert t) | OSend (EUpdate t) => first_date t <? b | _ => true end) lg.
Theorem C79_range_needed : exists d s, reachable Release 100 100 s /\ (forall t, submitted t (log s) -> first_date t + d < U64) /\
  ~ exists s', reachable Release (100 + d) (100 + d) s' /\ log s' = map (x_obs d) (log s).
Proof.
  destruct (scen_alone Release 100 100 [Do (LTimer 0 0 0); Do (LTimer 0 0 0); Do (LAdd (every 1 11 5 100)); Handle; Ticks 9] (every 1 11 5 100)
    (fun s => firsts_below 106 (log s) && bool_decide (Some (110 + (U64 - 107)) = head (planned 1 (map (x_obs (U64 - 107)) (log s)))))) as (s & Ha & HP);
    [left; right; right; left|vm_compute; reflexivity|].
  destruct Ha as (Hr & Hs & _). exists (U64 - 107), s. split; [exact Hr|]. clear Hr. apply andb_prop in HP as [HF HP]. apply bool_decide_eq_true in HP. split.
  - intros t (e & He & Ht). unfold firsts_below in HF. rewrite forallb_forall in HF. apply elem_of_list_In, HF in He.
    assert (first_date t < 106) as Hlt by (apply N.ltb_lt; destruct Ht as [-> | [-> | ->]]; exact He). clear HP HF He Hs. unfold U64. lia.
  - intros (s' & Hr' & E). rewrite <- E in HP.
    assert (submitted (x_task (U64 - 107) (every 1 11 5 100)) (log s')) as Hs'.
    { destruct Hs as (e & He & Hsub). exists (x_event (U64 - 107) e). split.
      - rewrite E. exact (elem_of_list_fmap_1 (x_obs (U64 - 107)) _ _ He).
      - destruct Hsub as [-> | [-> | ->]]; unfold submits; cbn [x_event]; auto. }
    assert (110 + (U64 - 107) < U64) as Hlt.
    { apply (due_below _ _ _ _ _ _ Hr' Hs'). change (t_uid (x_task (U64 - 107) (every 1 11 5 100))) with 1. clear -HP. destruct (planned 1 (log s')) as [|e l]; [discriminate HP|]. injection HP as <-. left. }
    clear -Hlt. unfold U64 in Hlt. lia.
Qed.
Print Assumptions C79_range_needed.
