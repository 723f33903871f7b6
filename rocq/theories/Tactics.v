(** Proof tactics: case analysis on a step, simplification of field accesses. *)
From Verif Require Export Base System Spec.

(** Reduces field accesses of states built by setters. *)
Ltac fsimpl :=
  cbn [wheel flags hand gtime motiv tpc hpc hpub queue trace recq heap spc insts hdrs chains waiters used iters log
    set_wheel set_flags set_hand set_gtime set_motiv set_tpc set_hpc set_hpub set_queue set_trace set_recq set_heap
    set_spc set_insts set_hdrs set_chains set_waiters set_used set_iters set_log emit enqueue complete drop_mark
    abandon_opt abandon_chain fst snd].
Ltac fsimpl_in H :=
  cbn [wheel flags hand gtime motiv tpc hpc hpub queue trace recq heap spc insts hdrs chains waiters used iters log
    set_wheel set_flags set_hand set_gtime set_motiv set_tpc set_hpc set_hpub set_queue set_trace set_recq set_heap
    set_spc set_insts set_hdrs set_chains set_waiters set_used set_iters set_log emit enqueue complete drop_mark
    abandon_opt abandon_chain fst snd] in H.
Ltac fsimpl_all := repeat match goal with H : _ |- _ => progress fsimpl_in H end; fsimpl.

Ltac destruct_inner H :=
  repeat match type of H with
  | None = Some _ => discriminate H
  | context [match ?x with _ => _ end] =>
      lazymatch x with
      | context [match _ with _ => _ end] => fail
      | _ => first [is_var x; destruct x | destruct x eqn:?]
      end
  | _ => progress (cbn beta iota zeta in H)
  end.

(* ------------------------------------------------------------------ *)
(** * What the events about instances do *)

(** Entries that only these events add to the log. *)
Definition inst_obs (o : obs) : Prop :=
  match o with OQuit _ _ | ONotify _ _ | OPublic _ => True | _ => False end.

Definition same_place (m m' : mark) : Prop := m_id m' = m_id m /\ m_slot m' = m_slot m.
Lemma same_place_refl m : same_place m m.
Proof. split; done. Qed.

(** The general shape of the effect of ECancel, ETimeout, EFinish and EAppend. *)
Definition inst_effect (s s' : sys) : Prop :=
  exists tr fl hd wt ch rq lg,
    s' = set_log (lg ++ log s) (set_trace tr (set_flags fl (set_hdrs hd (set_waiters wt
           (set_chains ch (set_recq rq (set_hpc HIdle (set_hpub None s)))))))) /\
    Forall inst_obs lg /\
    (forall k m', fl !! k = Some m' -> exists m, flags s !! k = Some m /\ same_place m m') /\
    (forall k m, flags s !! k = Some m -> exists m', fl !! k = Some m').

Lemma get_maintainer_shape m s : exists ch m1,
  get_maintainer m s = (m1, set_chains ch s) /\ same_place m m1 /\ m_num m1 = m_num m.
Proof.
  unfold get_maintainer. destruct (m_chain m) as [[cid l]|] eqn:Hm.
  - case_match.
    + eexists _, _. split; [unfold abandon_chain; reflexivity|done].
    + exists (chains s), m. split; [destruct s; reflexivity|done].
  - exists (chains s), m. split; [destruct s; reflexivity|done].
Qed.

Lemma notify_shape m rec st s : exists ok m1 hd wt ch lg,
  notify_cancel_finish m rec st s =
    (ok, m1, set_log (lg ++ log s) (set_hdrs hd (set_waiters wt (set_chains ch s)))) /\
  same_place m m1 /\ m_num m1 = m_num m /\ Forall inst_obs lg.
Proof.
  unfold notify_cancel_finish.
  destruct (get_maintainer_shape m s) as (ch & m1 & -> & Hp & Hn).
  destruct (m_chain m1) as [[cid l]|] eqn:Hm; [destruct (take_rec id rec l) as [[z l']|]|].
  - eexists _, _, _, _, ch, [ONotify rec st]. split; [reflexivity|].
    split; [exact Hp|split; [exact Hn|repeat constructor]].
  - eexists _, _, (hdrs s), (waiters s), ch, []. split; [reflexivity|done].
  - eexists _, _, (hdrs s), (waiters s), ch, []. split; [reflexivity|done].
Qed.

Lemma flags_insert_place tid m m' (f : gmap N mark) :
  same_place m m' -> f !! tid = Some m ->
  (forall k m2, <[tid := m']> f !! k = Some m2 -> exists m1, f !! k = Some m1 /\ same_place m1 m2) /\
  (forall k m1, f !! k = Some m1 -> exists m2, <[tid := m']> f !! k = Some m2).
Proof.
  intros Hp Hf; split; intros k x H; destruct (decide (k = tid)) as [->|Hne].
  - rewrite lookup_insert in H. simplify_eq. eauto.
  - rewrite lookup_insert_ne in H by done. eauto using same_place_refl.
  - rewrite lookup_insert. eauto.
  - rewrite lookup_insert_ne by done. eauto.
Qed.

Definition pub_entries (ok : bool) (p : option pubev) : list obs :=
  match p with Some p => if ok then [OPublic p] else [] | None => [] end.
Lemma complete_log ok s : log (complete ok s) = pub_entries ok (hpub s) ++ log s.
Proof. fsimpl. destruct (hpub s); [destruct ok|]; done. Qed.
Lemma pub_entries_obs ok p : Forall inst_obs (pub_entries ok p).
Proof. destruct p; [destruct ok|]; repeat constructor. Qed.

Lemma inst_effect_intro s x ok tr fl hd wt ch rq lg :
  x = complete ok (set_log (lg ++ log s) (set_trace tr (set_flags fl (set_hdrs hd (set_waiters wt
        (set_chains ch (set_recq rq s))))))) ->
  Forall inst_obs lg ->
  (forall k m', fl !! k = Some m' -> exists m, flags s !! k = Some m /\ same_place m m') ->
  (forall k m, flags s !! k = Some m -> exists m', fl !! k = Some m') ->
  inst_effect s x.
Proof.
  intros -> Hlg H1 H2.
  exists tr, fl, hd, wt, ch, rq, (pub_entries ok (hpub s) ++ lg).
  split; [|split; [|done]].
  - unfold complete. fsimpl. rewrite <- app_assoc.
    destruct (hpub s); [destruct ok|]; destruct s; reflexivity.
  - apply Forall_app; auto using pub_entries_obs.
Qed.

Lemma flags_id_place (f : gmap N mark) :
  (forall k m', f !! k = Some m' -> exists m, f !! k = Some m /\ same_place m m') /\
  (forall k m, f !! k = Some m -> exists m', f !! k = Some m').
Proof. split; eauto using same_place_refl. Qed.

Lemma cancel_task_effect i tid rec st s : inst_effect s (cancel_task i tid rec st s).
Proof.
  unfold cancel_task. destruct (quit_one_task_handler tid rec (trace s)) as [tr|].
  2: { apply inst_effect_intro with (ok := false) (tr := trace s) (fl := flags s) (hd := hdrs s)
         (wt := waiters s) (ch := chains s) (rq := recq s) (lg := []);
         [destruct s; reflexivity|constructor|apply flags_id_place..]. }
  fsimpl. destruct (flags s !! tid) as [m|] eqn:Hm.
  2: { apply inst_effect_intro with (ok := false) (tr := tr) (fl := flags s) (hd := hdrs s)
         (wt := waiters s) (ch := chains s) (rq := recq s) (lg := [OQuit tid rec]);
         [destruct s; reflexivity|repeat constructor|apply flags_id_place..]. }
  destruct (m_chain (dec_num m)) eqn:Hc.
  - destruct (notify_shape (dec_num m) rec st (emit (OQuit tid rec) (set_trace tr s)))
      as (ok & m1 & hd & wt & ch & lg & Hn & Hp & _ & Hlg).
    unfold emit in Hn. fsimpl_in Hn. unfold emit. fsimpl. rewrite Hn.
    destruct (flags_insert_place tid m m1 (flags s) Hp Hm) as [H1 H2].
    apply inst_effect_intro with (ok := ok) (tr := tr) (fl := <[tid := m1]> (flags s)) (hd := hd)
         (wt := wt) (ch := ch) (rq := recq s) (lg := lg ++ [OQuit tid rec]); auto.
    + rewrite <- app_assoc. destruct s; reflexivity.
    + apply Forall_app; split; [done|repeat constructor].
  - destruct (flags_insert_place tid m (dec_num m) (flags s)) as [H1 H2]; [done..|].
    apply inst_effect_intro with (ok := true) (tr := tr) (fl := <[tid := dec_num m]> (flags s)) (hd := hdrs s)
         (wt := waiters s) (ch := chains s) (rq := recq s) (lg := [OQuit tid rec]);
         [destruct s; reflexivity|repeat constructor|done..].
Qed.

Lemma finish_task_effect tid rec s : inst_effect s (finish_task tid rec s).
Proof.
  unfold finish_task. destruct (quit_one_task_handler tid rec (trace s)) as [tr|].
  2: { apply inst_effect_intro with (ok := false) (tr := trace s) (fl := flags s) (hd := hdrs s)
         (wt := waiters s) (ch := chains s) (rq := recq s) (lg := []);
         [destruct s; reflexivity|constructor|apply flags_id_place..]. }
  fsimpl. destruct (flags s !! tid) as [m|] eqn:Hm.
  2: { apply inst_effect_intro with (ok := true) (tr := tr) (fl := flags s) (hd := hdrs s)
         (wt := waiters s) (ch := chains s) (rq := recq s) (lg := [OQuit tid rec]);
         [destruct s; reflexivity|repeat constructor|apply flags_id_place..]. }
  destruct (m_chain m) eqn:Hc.
  - destruct (notify_shape m rec COMPLETED (emit (OQuit tid rec) (set_trace tr s)))
      as (ok & m1 & hd & wt & ch & lg & Hn & Hp & _ & Hlg).
    unfold emit in Hn. fsimpl_in Hn. unfold emit. fsimpl. rewrite Hn.
    destruct ok.
    + destruct (flags_insert_place tid m (dec_num m1) (flags s) Hp Hm) as [H1 H2].
      apply inst_effect_intro with (ok := true) (tr := tr) (fl := <[tid := dec_num m1]> (flags s)) (hd := hd)
         (wt := wt) (ch := ch) (rq := recq s) (lg := lg ++ [OQuit tid rec]); auto.
      * rewrite <- app_assoc. destruct s; reflexivity.
      * apply Forall_app; split; [done|repeat constructor].
    + destruct (flags_insert_place tid m m1 (flags s) Hp Hm) as [H1 H2].
      apply inst_effect_intro with (ok := false) (tr := tr) (fl := <[tid := m1]> (flags s)) (hd := hd)
         (wt := wt) (ch := ch) (rq := recq s) (lg := lg ++ [OQuit tid rec]); auto.
      * rewrite <- app_assoc. destruct s; reflexivity.
      * apply Forall_app; split; [done|repeat constructor].
  - destruct (flags_insert_place tid m (dec_num m) (flags s)) as [H1 H2]; [done..|].
    apply inst_effect_intro with (ok := true) (tr := tr) (fl := <[tid := dec_num m]> (flags s)) (hd := hdrs s)
         (wt := waiters s) (ch := chains s) (rq := recq s) (lg := [OQuit tid rec]);
         [destruct s; reflexivity|repeat constructor|done..].
Qed.

Lemma maintain_mark_shape tid rec s : exists fl hd ch,
  maintain_mark tid rec s = set_flags fl (set_hdrs hd (set_chains ch s)) /\
  (forall k m', fl !! k = Some m' -> exists m, flags s !! k = Some m /\ same_place m m') /\
  (forall k m, flags s !! k = Some m -> exists m', fl !! k = Some m').
Proof.
  unfold maintain_mark. destruct (flags s !! tid) as [m|] eqn:Hm.
  - destruct (get_maintainer_shape m s) as (ch & m1 & -> & Hp & Hn).
    destruct (m_chain m1) as [[cid l]|] eqn:Hc.
    + destruct (flags_insert_place tid m (set_m_chain (Some (cid, l ++ [rec])) m1) (flags s)) as [H1 H2]; [done..|].
      eexists _, _, _. split; [unfold push_instance; reflexivity|]. fsimpl. auto.
    + destruct (flags_insert_place tid m m1 (flags s)) as [H1 H2]; [done..|].
      eexists _, (hdrs s), ch. split; [destruct s; reflexivity|]. fsimpl. auto.
  - exists (flags s), (hdrs s), (chains s). split; [destruct s; reflexivity|apply flags_id_place].
Qed.

Lemma maintain_task_status_effect tid hb s : inst_effect s (maintain_task_status tid hb s).
Proof.
  unfold maintain_task_status.
  destruct (maintain_mark_shape tid (hb_rec hb) s) as (fl & hd & ch & -> & H1 & H2).
  destruct (hb_end hb) as [d|].
  - apply inst_effect_intro with (ok := true) (lg := []) (wt := waiters s) (fl := fl) (hd := hd) (ch := ch)
      (rq := recq s ++ [RUnit d (hb_tid hb) (hb_rec hb)]) (tr := trace_insert tid hb (trace s));
      [destruct s; reflexivity|constructor|done..].
  - apply inst_effect_intro with (ok := true) (lg := []) (wt := waiters s) (fl := fl) (hd := hd) (ch := ch)
      (rq := recq s) (tr := trace_insert tid hb (trace s));
      [destruct s; reflexivity|constructor|done..].
Qed.

(** [step_inv H]: all ways in which [H : step pf lb s = Some s'] can hold; the
    events about instances stay folded. *)
Ltac step_inv H :=
  match type of H with step _ ?lb _ = Some _ => destruct lb; cbn [step] in H end;
  unfold submit_insert, submit, option_map, next_check, next_take, chain_drop, inst_cancel, inst_listen,
    inst_return, inst_finish, inst_panic, routine_panic, sweep_recv, sweep_step,
    timer_step, handler_step, dispatch, slot_remove_task in H;
  destruct_inner H; try discriminate H; try (injection H as H; subst).

(** Replaces a folded instance event by its general shape. *)
Ltac inst_shape :=
  let go L :=
    let tr := fresh "tr" in let fl := fresh "fl" in let hd := fresh "hd" in let wt := fresh "wt" in
    let ch := fresh "chs" in let rq := fresh "rq" in let lg := fresh "lg" in let E := fresh "E" in
    let Hlg := fresh "Hlg" in let Hfl1 := fresh "Hfl1" in let Hfl2 := fresh "Hfl2" in
    destruct L as (tr & fl & hd & wt & ch & rq & lg & E & Hlg & Hfl1 & Hfl2); rewrite E; clear E;
    fsimpl_in Hfl1; fsimpl_in Hfl2 in
  lazymatch goal with
  | |- context [cancel_task ?i ?tid ?rec ?st ?s] => go (cancel_task_effect i tid rec st s)
  | |- context [finish_task ?tid ?rec ?s] => go (finish_task_effect tid rec s)
  | |- context [maintain_task_status ?tid ?hb ?s] => go (maintain_task_status_effect tid hb s)
  | _ => idtac
  end.
