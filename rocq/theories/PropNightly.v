(** C29: the nightly and the stable variant of quit_one_task_handler. *)
From Coq Require Import Sorting.Sorted.
From Verif Require Import Tactics Inv Cases Scen.

(* ------------------------------------------------------------------ *)
(** ** The two variants, statement by statement

    The handle that is asked to quit, and the lists afterwards; [None]: Err before
    any handle is touched.  Both return the result of its quit. *)

(** [quit_one_task_handler] under cfg(RUSTC_IS_NIGHTLY)
    (/repo/src/timer/runtime_trace/task_handle.rs:43-84).  The cursor: the
    elements before it, last one first, and those from it on. *)
Fixpoint cursor_loop (rec : Z) (before : list hbox) (from : list hbox) : option (hbox * list hbox) :=
  match from with
  | [] => None                                                   (* current() is None: 56-61 *)
  | hb :: after =>
      if (rec <? hb_rec hb)%Z then None                          (* 63-68 *)
      else if (hb_rec hb =? rec)%Z then Some (hb, reverse before ++ after)   (* 70-72, remove_current: 78-81 *)
      else cursor_loop rec (hb :: before) after                  (* move_next: 74 *)
  end.
Definition quit_nightly (tid : N) (rec : Z) (tr : gmap N (list hbox)) : option (hbox * gmap N (list hbox)) :=
  match tr !! tid with
  | None => None
  | Some l => match cursor_loop rec [] l with Some (hb, l') => Some (hb, <[tid := l']> tr) | None => None end
  end.

(** The same under cfg(not(RUSTC_IS_NIGHTLY)) (task_handle.rs:86-118): position,
    split_off, pop_front, append. *)
Fixpoint position (rec : Z) (l : list hbox) : option nat :=
  match l with
  | [] => None
  | hb :: r => if (hb_rec hb =? rec)%Z then Some 0%nat else match position rec r with Some i => Some (S i) | None => None end
  end.
Definition quit_stable (tid : N) (rec : Z) (tr : gmap N (list hbox)) : option (hbox * gmap N (list hbox)) :=
  match tr !! tid with
  | None => None
  | Some l =>
      match position rec l with
      | None => None
      | Some i =>
          let rest := take i l in
          match drop i l with                                    (* split_off(index), pop_front *)
          | [] => None
          | hb :: tail => Some (hb, <[tid := rest ++ tail]> tr)  (* append *)
          end
      end
  end.

(* ------------------------------------------------------------------ *)
(** ** Lists *)

Definition rec_le (a b : hbox) : Prop := (hb_rec a <= hb_rec b)%Z.

Lemma position_spec rec l : match position rec l with
  | None => Forall (fun hb => hb_rec hb <> rec) l
  | Some i => exists hb r, drop i l = hb :: r /\ hb_rec hb = rec /\ Forall (fun hb => hb_rec hb <> rec) (take i l)
  end.
Proof.
  induction l as [|hb l IH]; cbn [position]; [constructor|]. destruct (Z.eqb_spec (hb_rec hb) rec) as [E|E].
  - exists hb, l. repeat split; [done|]. constructor.
  - destruct (position rec l) as [i|]; [|by constructor]. destruct IH as (x & r & H1 & H2 & H3). exists x, r. cbn [drop take]. repeat split; [done|done|by constructor].
Qed.
Lemma take_rec_position rec l : take_rec hb_rec rec l =
  match position rec l with Some i => match drop i l with hb :: tail => Some (hb, take i l ++ tail) | [] => None end | None => None end.
Proof.
  induction l as [|hb l IH]; cbn [take_rec position]; [done|]. destruct (Z.eqb_spec (hb_rec hb) rec) as [E|E].
  - rewrite decide_True by done. done.
  - rewrite decide_False by done. rewrite IH. destruct (position rec l) as [i|]; [|done]. cbn [drop take Datatypes.app]. by destruct (drop i l).
Qed.
(** The cursor finds nothing else than the other variant would. *)
Lemma cursor_sound rec l : forall b hb l', cursor_loop rec b l = Some (hb, l') ->
  exists l'', take_rec hb_rec rec l = Some (hb, l'') /\ l' = reverse b ++ l''.
Proof.
  induction l as [|x l IH]; intros b hb l' H; cbn [cursor_loop take_rec] in *; [done|].
  destruct (Z.ltb_spec rec (hb_rec x)); [done|]. destruct (Z.eqb_spec (hb_rec x) rec) as [E|E].
  - rewrite decide_True by done. simplify_eq. by exists l.
  - rewrite decide_False by done. apply IH in H as (l'' & -> & ->). exists (x :: l''). split; [done|]. by rewrite reverse_cons, <- app_assoc.
Qed.
Lemma cursor_none rec l b : StronglySorted rec_le l -> cursor_loop rec b l = None -> take_rec hb_rec rec l = None.
Proof.
  revert b. induction l as [|x l IH]; intros b Hs H; cbn [cursor_loop take_rec] in *; [done|].
  apply StronglySorted_inv in Hs as [Hs Hx].
  destruct (Z.ltb_spec rec (hb_rec x)) as [Hlt|Hle].
  - rewrite decide_False by lia. assert (take_rec hb_rec rec l = None) as ->; [|done].
    rewrite take_rec_position. pose proof (position_spec rec l) as Hp. destruct (position rec l) as [i|]; [|done].
    destruct Hp as (y & r & Hd & Hy & _). exfalso. rewrite Forall_forall in Hx.
    assert (y ∈ l) as Hin by (rewrite <- (take_drop i l), Hd; set_solver). specialize (Hx _ Hin). unfold rec_le in Hx. lia.
  - destruct (Z.eqb_spec (hb_rec x) rec) as [E|E]; [done|]. rewrite decide_False by done. by rewrite (IH _ Hs H).
Qed.
Lemma cursor_sorted rec l : StronglySorted rec_le l -> cursor_loop rec [] l = take_rec hb_rec rec l.
Proof.
  intros Hs. destruct (cursor_loop rec [] l) as [[hb l']|] eqn:E.
  - apply cursor_sound in E as (l'' & -> & ->). done.
  - symmetry. by eapply cursor_none.
Qed.

(** On lists whose record ids do not decrease the two do the same. *)
Theorem C29_sorted_lists tid rec tr :
  (forall l, tr !! tid = Some l -> StronglySorted rec_le l) -> quit_nightly tid rec tr = quit_stable tid rec tr.
Proof.
  intros H. unfold quit_nightly, quit_stable. destruct (tr !! tid) as [l|]; [|done]. rewrite (cursor_sorted rec l (H l eq_refl)), take_rec_position.
  destruct (position rec l) as [i|]; [|done]. by destruct (drop i l).
Qed.
Print Assumptions C29_sorted_lists.
(** On any list: what the nightly variant quits, the stable one would quit. *)
Theorem C29_nightly_sound tid rec tr r : quit_nightly tid rec tr = Some r -> quit_stable tid rec tr = Some r.
Proof.
  unfold quit_nightly, quit_stable. destruct (tr !! tid) as [l|]; [|done]. destruct (cursor_loop rec [] l) as [[hb l']|] eqn:E; [|done].
  apply cursor_sound in E as (l'' & E & ->). rewrite take_rec_position in E. destruct (position rec l) as [i|]; [|done].
  destruct (drop i l) as [|x tl]; [done|]. intros [= <-]. by simplify_eq.
Qed.
Print Assumptions C29_nightly_sound.
(** The model of the whole system uses the stable variant. *)
Lemma system_stable tid rec tr : quit_one_task_handler tid rec tr = snd <$> quit_stable tid rec tr.
Proof.
  unfold quit_one_task_handler, quit_stable. destruct (tr !! tid) as [l|]; [|done]. rewrite take_rec_position.
  destruct (position rec l) as [i|]; [|done]. by destruct (drop i l).
Qed.

(* ------------------------------------------------------------------ *)
(** ** The lists of the running system *)

(** The record ids of the started instances, newest first. *)
Definition launched (lg : list obs) : list Z := omap (fun o => match o with OLaunch _ _ rec _ _ => Some rec | _ => None end) lg.
(** They were handed out in increasing order. *)
Definition rising (lg : list obs) : Prop := StronglySorted (fun a b => (b < a)%Z) (launched lg).

(** The handles of a task, in the list, on their way to it, and about to be sent. *)
Definition appends (tid : N) (q : list event) : list Z :=
  omap (fun e => match e with EAppend i hb => if i =? tid then Some (hb_rec hb) else None | _ => None end) q.
Definition pending (tid : N) (p : timer_pc) : list Z := match p with TSend _ _ t r _ => if t_id t =? tid then [r] else [] | _ => [] end.
Definition handles (s : sys) (tid : N) : list Z := (hb_rec <$> default [] (trace s !! tid)) ++ appends tid (queue s) ++ pending tid (tpc s).

Lemma launched_inst lg l : Forall inst_obs lg -> launched (lg ++ l) = launched l.
Proof. unfold launched. induction 1 as [|o lg Ho _ IH]; [done|]. cbn [Datatypes.app]. by destruct o. Qed.
Lemma launched_pub ok p l : launched (pub_entries ok p ++ l) = launched l.
Proof. destruct p; [destruct ok|]; done. Qed.
Lemma appends_app tid q q' : appends tid (q ++ q') = appends tid q ++ appends tid q'.
Proof. apply omap_app. Qed.
Lemma quit_trace tid rec tr tr' i : quit_one_task_handler tid rec tr = Some tr' ->
  (hb_rec <$> default [] (tr' !! i)) `sublist_of` (hb_rec <$> default [] (tr !! i)).
Proof.
  unfold quit_one_task_handler. destruct (tr !! tid) as [l|] eqn:E; [|done]. destruct (take_rec hb_rec rec l) as [[hb l']|] eqn:Et; [|done].
  intros [= <-]. destruct (decide (i = tid)) as [->|Hne]; [|by rewrite lookup_insert_ne]. rewrite lookup_insert, E.
  change (hb_rec <$> l' `sublist_of` hb_rec <$> l). clear E. revert l' Et. induction l as [|x l IH]; intros l' Et; cbn [take_rec] in Et; [done|]. case_decide; simplify_eq.
  - apply sublist_cons. done.
  - destruct (take_rec hb_rec rec l) as [[y r]|]; [|done]. simplify_eq. rewrite !fmap_cons. apply sublist_skip. by apply IH.
Qed.

Lemma appends_cons tid i hb q : appends tid (EAppend i hb :: q) = (if i =? tid then [hb_rec hb] else []) ++ appends tid q.
Proof. unfold appends. cbn [omap list_omap]. by destruct (i =? tid). Qed.
Lemma insert_trace i hb tr tid X :
  (hb_rec <$> default [] (trace_insert i hb tr !! tid)) ++ X = (hb_rec <$> default [] (tr !! tid)) ++ (if i =? tid then [hb_rec hb] else []) ++ X.
Proof.
  unfold trace_insert. destruct (N.eqb_spec i tid) as [->|Hne].
  - rewrite lookup_insert. change (default [] (Some ?x)) with x. by rewrite fmap_app, <- app_assoc.
  - by rewrite lookup_insert_ne.
Qed.

Lemma handles_step pf lb s s' tid : step pf lb s = Some s' ->
  handles s tid `sublist_of` reverse (launched (log s)) -> handles s' tid `sublist_of` reverse (launched (log s')).
Proof.
  intros Hs IH. unfold handles in *.
  step_inv Hs.
  all: try (fsimpl; exact IH).
  all: try (inst_cases; isimpl).
  all: fsimpl; fsimpl_in IH; rewrite ?launched_pub, ?appends_app in *; rewrite ?app_nil_r in *.
  all: try exact IH.
  all: repeat match goal with E : queue _ = _ |- _ => rewrite E in *; clear E | E : tpc _ = _ |- _ => rewrite E in *; clear E end.
  all: try exact IH.
  all: try (etrans; [apply sublist_app; [eapply quit_trace; eassumption|reflexivity]|exact IH]).
  all: try (rewrite insert_trace; rewrite appends_cons, <- app_assoc in IH; exact IH).
  all: try (repeat case_match; exact IH).
  - change (launched (_ :: log s)) with (rec0 :: launched (log s)). rewrite reverse_cons, app_assoc. apply sublist_app; [exact IH|].
    cbn [pending]. destruct (t_id t =? tid); [reflexivity|apply sublist_nil_l].
  - change (launched (_ :: log s)) with (rec0 :: launched (log s)). rewrite reverse_cons. by apply sublist_inserts_r.
  - rewrite appends_cons, app_nil_r. exact IH.
Qed.
Lemma handles_reach pf t0 t1 s tid : reachable pf t0 t1 s -> handles s tid `sublist_of` reverse (launched (log s)).
Proof.
  apply (reach_ind pf t0 t1 (fun s => handles s tid `sublist_of` reverse (launched (log s)))).
  - apply sublist_nil_l.
  - intros lb s1 s2 _ IH Hs. by eapply handles_step.
Qed.

Lemma sorted_sublist {A} (R : A -> A -> Prop) (l k : list A) : l `sublist_of` k -> StronglySorted R k -> StronglySorted R l.
Proof.
  induction 1 as [|x l k Hs IH|x l k Hs IH]; intros H; [constructor| |].
  - apply StronglySorted_inv in H as [H1 H2]. constructor; [auto|]. rewrite Forall_forall in *. intros y Hy. apply H2.
    by eapply elem_of_submseteq, sublist_submseteq.
  - apply StronglySorted_inv in H as [H1 _]. auto.
Qed.
Lemma sorted_reverse l : StronglySorted (fun a b => (b < a)%Z) l -> StronglySorted Z.le (reverse l).
Proof.
  induction 1 as [|x l Hs IH Hx]; [constructor|]. rewrite reverse_cons.
  assert (Forall (fun y => (y < x)%Z) (reverse l)) as Hr by (rewrite Forall_forall in *; intros y Hy; apply Hx; by apply elem_of_reverse).
  clear Hx Hs. induction IH as [|y k Hk IHk Hy]; cbn [Datatypes.app]; [repeat constructor|]. apply Forall_cons in Hr as [H1 H2].
  constructor; [auto|]. apply Forall_app. split; [done|]. constructor; [lia|constructor].
Qed.
Lemma sorted_fmap l : StronglySorted Z.le (hb_rec <$> l) -> StronglySorted rec_le l.
Proof.
  induction l as [|x l IH]; intros H; [constructor|]. rewrite fmap_cons in H. apply StronglySorted_inv in H as [H1 H2]. constructor; [auto|].
  rewrite Forall_fmap in H2. exact H2.
Qed.

(* ------------------------------------------------------------------ *)
(** ** C29 *)

(** Whenever the record ids were handed out in increasing order, the two variants
    quit the same handle, leave the same lists, and fail for the same ids; and so
    does the function the model of the system uses. *)
Theorem C29_same_effect pf t0 t1 s tid rec :
  reachable pf t0 t1 s -> rising (log s) ->
  quit_nightly tid rec (trace s) = quit_stable tid rec (trace s) /\
  quit_one_task_handler tid rec (trace s) = snd <$> quit_nightly tid rec (trace s).
Proof.
  intros Hr Hi. assert (quit_nightly tid rec (trace s) = quit_stable tid rec (trace s)) as E; [|split; [done|by rewrite E, system_stable]].
  apply C29_sorted_lists. intros l Hl. apply sorted_fmap. eapply sorted_sublist; [|by apply sorted_reverse].
  pose proof (handles_reach _ _ _ _ tid Hr) as Hh. unfold handles in Hh. rewrite Hl in Hh. change (default [] (Some l)) with l in Hh.
  etrans; [|exact Hh]. by apply sublist_inserts_r.
Qed.
Print Assumptions C29_same_effect.

(** Without that order they differ: the nightly variant gives up at the first
    larger id. *)
Example C29_unordered :
  let l := [HBox 1 7 0 None; HBox 1 5 0 None] in
  quit_nightly 1 5 {[1 := l]} = None /\ fst <$> quit_stable 1 5 {[1 := l]} = Some (HBox 1 5 0 None).
Proof. split; vm_compute; reflexivity. Qed.

(** Three running instances of a task: quitting the second one. *)
Definition nightly_acts : list act :=
  [Do (LTimer 0 0 0); Do (LTimer 0 0 0); Do (LInsert (every 1 11 3 100)); Handle; Ticks 12; Handle].
Definition risingb (l : list Z) : bool := match l with [c; b; a] => (a <? b)%Z && (b <? c)%Z | _ => false end.
Example C29_example : exists s hb tr, reachable Debug 100 100 s /\ rising (log s) /\
  quit_nightly 11 1 (trace s) = Some (hb, tr) /\ hb_rec hb = 1%Z /\ (hb_rec <$> default [] (trace s !! 11)) = [0; 1; 2]%Z /\
  (hb_rec <$> default [] (tr !! 11)) = [0; 2]%Z.
Proof.
  destruct (after_reach Debug 100 100 nightly_acts (fun s => risingb (launched (log s)) &&
    match quit_nightly 11 1 (trace s) with
    | Some (hb, tr) => (hb_rec hb =? 1)%Z && bool_decide ((hb_rec <$> default [] (trace s !! 11)) = [0; 1; 2]%Z) &&
        bool_decide ((hb_rec <$> default [] (tr !! 11)) = [0; 2]%Z)
    | None => false
    end)) as (s & Hr & H); [vm_compute; reflexivity|].
  rewrite andb_true_iff in H. destruct H as [H1 H2]. destruct (quit_nightly 11 1 (trace s)) as [[hb tr]|] eqn:E; [|done].
  rewrite !andb_true_iff in H2. destruct H2 as [[H2 H3] H4]. exists s, hb, tr. split; [done|]. split.
  { unfold rising. destruct (launched (log s)) as [|c [|b [|a [|]]]]; try discriminate H1. cbn [risingb] in H1.
    rewrite andb_true_iff in H1. destruct H1. repeat constructor; lia. }
  split; [done|]. split; [lia|]. split; [by apply bool_decide_eq_true in H3|by apply bool_decide_eq_true in H4].
Qed.
