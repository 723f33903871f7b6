(** Consistently renaming ids and instances turns executions into executions. *)
From Verif Require Import Tactics Inv Arrival Frame Apart ApartRun.

(* ------------------------------------------------------------------ *)
(** * Specification *)

(** New names for the ids of tasks and for the record ids of instances. *)
Record naming := Naming { nid : N -> N; nrec : Z -> Z }.
Definition one_to_one (F : naming) : Prop :=
  (forall i j, nid F i = nid F j -> i = j) /\ (forall r q, nrec F r = nrec F q -> r = q) /\ (forall i, i < U64 -> nid F i < U64).

Definition n_task (F : naming) (t : task) : task := Task (t_uid t) (nid F (t_id t)) (t_freq t) (t_maxrun t) (t_cyl t) (t_valid t) (t_maxpar t).
Definition n_box (F : naming) (h : hbox) : hbox := HBox (nid F (hb_tid h)) (nrec F (hb_rec h)) (hb_start h) (hb_end h).
Definition n_boxes (F : naming) (l : list hbox) : list hbox := n_box F <$> l.
Definition n_event (F : naming) (e : event) : event :=
  match e with
  | EStop => EStop
  | EAdd t => EAdd (n_task F t) | EInsert t => EInsert (n_task F t) | EUpdate t => EUpdate (n_task F t)
  | ERemove i => ERemove (nid F i) | EAdvance i => EAdvance (nid F i)
  | ECancel i r => ECancel (nid F i) (nrec F r) | ETimeout i r => ETimeout (nid F i) (nrec F r)
  | EFinish i r t o => EFinish (nid F i) (nrec F r) t o
  | EAppend i h => EAppend (nid F i) (n_box F h)
  end.
Definition n_pub (F : naming) (p : pubev) : pubev :=
  match p with
  | PRemove i => PRemove (nid F i) | PRunning i r => PRunning (nid F i) (nrec F r)
  | PFinish i r t o => PFinish (nid F i) (nrec F r) t o | PTimeout i r => PTimeout (nid F i) (nrec F r)
  end.
Definition n_obs (F : naming) (o : obs) : obs :=
  match o with
  | OLaunch u i r it ts => OLaunch u (nid F i) (nrec F r) it ts
  | OSkip u i it ts => OSkip u (nid F i) it ts
  | OQuit i r => OQuit (nid F i) (nrec F r)
  | ONotify r st => ONotify (nrec F r) st
  | OPublic p => OPublic (n_pub F p)
  | OPop e => OPop (n_event F e)
  | OSweep i r d n => OSweep (nid F i) (nrec F r) d n
  | OTick it ts => OTick it ts
  | ONext c (NGot r) => ONext c (NGot (nrec F r))
  | ONext c x => ONext c x
  | OSend e => OSend (n_event F e)
  | OPlan u i k g d => OPlan u (nid F i) k g d
  | OAdded u i n sl c => OAdded u (nid F i) n sl c
  | OPark u i it ts d => OPark u (nid F i) it ts d
  | OEnd u i => OEnd u (nid F i)
  | ODrop u i w => ODrop u (nid F i) w
  end.
(** add_task puts an overdue task [id mod 3600] slots ahead (event_handle.rs:288),
    so for these the residue of the id matters. *)
Definition same_overdue (F : naming) (lg : list obs) : Prop :=
  forall u i k g d, OPlan u i k g d ∈ lg -> d < g -> nid F i mod SLOTS = i mod SLOTS.

(* ------------------------------------------------------------------ *)
(** * Renaming states *)

Definition rmap {K A B} `{Countable K} (f : K -> K) (g : A -> B) (m : gmap K A) : gmap K B := kmap (M2 := gmap K) f (g <$> m).
Lemma rmap_lookup {K A B} `{Countable K} (f : K -> K) `{!Inj (=) (=) f} (g : A -> B) (m : gmap K A) i : rmap f g m !! f i = g <$> m !! i.
Proof. unfold rmap. by rewrite lookup_kmap, lookup_fmap by done. Qed.
Lemma rmap_insert {K A B} `{Countable K} (f : K -> K) `{!Inj (=) (=) f} (g : A -> B) (m : gmap K A) i x : rmap f g (<[i := x]> m) = <[f i := g x]> (rmap f g m).
Proof. unfold rmap. by rewrite fmap_insert, kmap_insert by done. Qed.
Lemma rmap_delete {K A B} `{Countable K} (f : K -> K) `{!Inj (=) (=) f} (g : A -> B) (m : gmap K A) i : rmap f g (delete i m) = delete (f i) (rmap f g m).
Proof. unfold rmap. by rewrite fmap_delete, kmap_delete by done. Qed.
Lemma rmap_alter {K A B} `{Countable K} (f : K -> K) `{!Inj (=) (=) f} (g : A -> B) (h : A -> A) (h' : B -> B) (m : gmap K A) i :
  (forall x, g (h x) = h' (g x)) -> rmap f g (alter h i m) = alter h' (f i) (rmap f g m).
Proof.
  intros E. unfold rmap. rewrite <- kmap_alter by done. f_equal. apply map_eq. intros j. rewrite lookup_fmap. destruct (decide (j = i)) as [->|Hn].
  - rewrite !lookup_alter, lookup_fmap. destruct (m !! i); cbn; [by rewrite E|done].
  - by rewrite !lookup_alter_ne, lookup_fmap by done.
Qed.
Lemma rmap_empty {K A B} `{Countable K} (f : K -> K) (g : A -> B) : rmap f g (∅ : gmap K A) = ∅.
Proof. unfold rmap. by rewrite fmap_empty, kmap_empty. Qed.
Lemma vmap_alter {K A B} `{Countable K} (g : A -> B) (h : A -> A) (h' : B -> B) (m : gmap K A) i :
  (forall x, g (h x) = h' (g x)) -> g <$> alter h i m = alter h' i (g <$> m).
Proof.
  intros E. apply map_eq. intros j. rewrite lookup_fmap. destruct (decide (j = i)) as [->|Hn].
  - rewrite !lookup_alter, lookup_fmap. destruct (m !! i); cbn; [by rewrite E|done].
  - by rewrite !lookup_alter_ne, lookup_fmap by done.
Qed.

Definition n_slot (F : naming) (m : slot) : slot := rmap (nid F) (n_task F) m.
Definition n_mark (F : naming) (m : mark) : mark := Mark (nid F (m_id m)) (m_slot m) (m_num m) ((fun c : N * list Z => (fst c, nrec F <$> snd c)) <$> m_chain m).
Definition n_unit (F : naming) (u : runit) : runit := RUnit (u_deadline u) (nid F (u_tid u)) (nrec F (u_rec u)).
Definition n_inst (F : naming) (i : inst) : inst := Inst (nid F (i_tid i)) (i_uid i) (i_gate i) (i_fate i).
Definition n_hdr (F : naming) (h : hdr) : hdr := Hdr (h_state h) (nid F (h_tid h)) (h_chain h).
Definition n_chain (F : naming) (c : chain) : chain := Chain (c_state c) (nrec F <$> c_buf c) (nrec F <$> c_got c) (c_pend c).
Definition n_waiter (F : naming) (w : waiter) : waiter := Waiter (nrec F (w_rec w)) (w_phase w).
Definition n_hpc (F : naming) (p : handler_pc) : handler_pc :=
  match p with
  | HIdle => HIdle | HDead => HDead
  | HAdd1 t c h k => HAdd1 (n_task F t) c h k | HAdd2 t c sl => HAdd2 (n_task F t) c sl | HAdd3 i c sl => HAdd3 (nid F i) c sl
  | HUpd t sl => HUpd (n_task F t) sl | HAdv1 i sl => HAdv1 (nid F i) sl | HAdv2 t => HAdv2 (n_task F t) | HAdv3 t sl => HAdv3 (n_task F t) sl
  | HRem1 i sl => HRem1 (nid F i) sl | HRem2 i ok => HRem2 (nid F i) ok
  end.
(** The ids still to be dealt with may come in another order. *)
Definition pc_ids (p : timer_pc) : list N :=
  match p with TLoop _ ids | TMaint _ ids _ | TSpawn _ ids _ _ | TSend _ ids _ _ _ | TGate _ ids _ _ | TPark _ ids _ _ | TMark _ ids _ _ _ => ids | _ => [] end.
Definition n_tpc (F : naming) (ids : list N) (p : timer_pc) : timer_pc :=
  match p with
  | TCheck l => TCheck l | TStore l => TStore l | TScan l => TScan l | TLapse l => TLapse l | TStopped => TStopped | TDead => TDead
  | TLoop l _ => TLoop l ids
  | TMaint l _ t => TMaint l ids (n_task F t)
  | TSpawn l _ t r => TSpawn l ids (n_task F t) (nrec F r)
  | TSend l _ t r e => TSend l ids (n_task F t) (nrec F r) e
  | TGate l _ t r => TGate l ids (n_task F t) (nrec F r)
  | TPark l _ t b => TPark l ids (n_task F t) b
  | TMark l _ i sl b => TMark l ids (nid F i) sl b
  end.
Definition n_sys (F : naming) (ids : list N) (s : sys) : sys :=
  Sys (n_slot F <$> wheel s) (rmap (nid F) (n_mark F) (flags s)) (hand s) (gtime s) (motiv s) (n_tpc F ids (tpc s)) (n_hpc F (hpc s)) (n_pub F <$> hpub s)
    (n_event F <$> queue s) (rmap (nid F) (n_boxes F) (trace s)) (n_unit F <$> recq s) (n_unit F <$> heap s) (spc s)
    (rmap (nrec F) (n_inst F) (insts s)) (rmap (nrec F) (n_hdr F) (hdrs s)) (n_chain F <$> chains s) (n_waiter F <$> waiters s) (used s) (iters s)
    (n_obs F <$> log s).
Definition renamed (F : naming) (s x : sys) : Prop := exists ids, ids ≡ₚ nid F <$> pc_ids (tpc s) /\ x = n_sys F ids s.
Definition n_label (F : naming) (lb : label) : label :=
  match lb with
  | LAdd t => LAdd (n_task F t) | LInsert t => LInsert (n_task F t) | LUpdate t => LUpdate (n_task F t)
  | LRemove i => LRemove (nid F i) | LAdvance i => LAdvance (nid F i) | LCancel i r => LCancel (nid F i) (nrec F r)
  | LInstCancel w r => LInstCancel w (nrec F r)
  | LTimer ch r now => LTimer ch (nrec F r) now
  | LFinish r now out => LFinish (nrec F r) now out | LPanic r => LPanic (nrec F r)
  | _ => lb
  end.

Global Instance nid_inj F : one_to_one F -> Inj (=) (=) (nid F).
Proof. intros [H _]. exact H. Qed.
Global Instance nrec_inj F : one_to_one F -> Inj (=) (=) (nrec F).
Proof. intros (_ & H & _). exact H. Qed.
Global Hint Extern 0 (one_to_one _) => assumption : typeclass_instances.

(* ------------------------------------------------------------------ *)
(** * Steps commute with renaming *)

Lemma n_take {A B} (F : naming) (HF : one_to_one F) (g : A -> B) (k : A -> Z) (k' : B -> Z) r (l : list A) : (forall x, k' (g x) = nrec F (k x)) ->
  take_rec k' (nrec F r) (g <$> l) = (fun p : A * list A => (g (fst p), g <$> snd p)) <$> take_rec k r l.
Proof.
  intros E. induction l as [|x l IH]; [done|]. cbn. rewrite E. destruct (decide (k x = r)) as [->|Hn].
  - rewrite decide_True by done. done.
  - rewrite decide_False. 2: { intros H. apply Hn. by apply (nrec_inj F HF). }
    change (list_fmap A B g l) with (g <$> l). rewrite IH. destruct (take_rec k r l) as [[y l']|]; done.
Qed.
Lemma n_eqb F (HF : one_to_one F) i j : (nid F i =? nid F j) = (i =? j).
Proof. destruct (i =? j) eqn:E; [apply N.eqb_eq in E as ->; apply N.eqb_refl|]. apply N.eqb_neq in E. apply N.eqb_neq. intros H. apply E. by apply (nid_inj F HF). Qed.
Ltac nsimpl := unfold n_sys, enqueue, emit, abandon_chain, set_wheel, set_flags, set_hand, set_gtime, set_motiv, set_tpc, set_hpc, set_hpub, set_queue, set_trace, set_recq,
  set_heap, set_spc, set_insts, set_hdrs, set_chains, set_waiters, set_used, set_iters, set_log; fsimpl.

Lemma n_complete F ids ok s : complete ok (n_sys F ids s) = n_sys F ids (complete ok s).
Proof. unfold complete. nsimpl. destruct (hpub s); [destruct ok|]; done. Qed.
Lemma n_get_maintainer F ids m s : get_maintainer (n_mark F m) (n_sys F ids s) = let '(m1, s1) := get_maintainer m s in (n_mark F m1, n_sys F ids s1).
Proof.
  unfold get_maintainer. destruct m as [i sl n [[c l]|]]; [|done]. cbn [n_mark m_chain fmap option_fmap option_map fst snd].
  assert (chain_state (n_sys F ids s) c = chain_state s c) as -> by (unfold chain_state; cbn [n_sys chains]; rewrite lookup_fmap; destruct (chains s !! c); done).
  destruct (decide _); [|done]. f_equal. nsimpl. f_equal. symmetry. apply vmap_alter. done.
Qed.
Lemma n_notify F (HF : one_to_one F) ids r st s : notify_instance (nrec F r) st (n_sys F ids s) = n_sys F ids (notify_instance r st s).
Proof.
  unfold notify_instance. nsimpl. f_equal.
  - symmetry. apply rmap_alter; [by apply nrec_inj|]. done.
  - apply map_eq. intros j. rewrite !lookup_fmap. destruct (waiters s !! j) as [[q ph]|]; [|done]. cbn. f_equal. unfold wake, n_waiter. cbn.
    destruct (decide (q = r)) as [->|Hn].
    + rewrite decide_True by done. by destruct ph.
    + rewrite decide_False; [done|]. intros E. apply Hn. by apply (nrec_inj F HF).
Qed.
Lemma n_notify_cancel F (HF : one_to_one F) ids m r st s : notify_cancel_finish (n_mark F m) (nrec F r) st (n_sys F ids s) =
  let '(ok, m1, s1) := notify_cancel_finish m r st s in (ok, n_mark F m1, n_sys F ids s1).
Proof.
  unfold notify_cancel_finish. rewrite n_get_maintainer. destruct (get_maintainer m s) as [m1 s1]. destruct m1 as [i sl n [[c l]|]]; [|done].
  cbn [n_mark m_chain fmap option_fmap option_map fst snd]. rewrite (n_take F HF (nrec F) id id) by done.
  destruct (take_rec id r l) as [[y l']|]; [|done]. cbn [fmap option_fmap option_map fst snd]. by rewrite n_notify.
Qed.
Lemma n_quit F (HF : one_to_one F) i r (tr : gmap N (list hbox)) : quit_one_task_handler (nid F i) (nrec F r) (rmap (nid F) (n_boxes F) tr) =
  rmap (nid F) (n_boxes F) <$> quit_one_task_handler i r tr.
Proof.
  unfold quit_one_task_handler. rewrite rmap_lookup by (by apply nid_inj). destruct (tr !! i) as [l|]; [|done]. cbn [fmap option_fmap option_map].
  unfold n_boxes at 1. rewrite (n_take F HF (n_box F) hb_rec hb_rec) by done. destruct (take_rec hb_rec r l) as [[y l']|]; [|done].
  cbn. f_equal. symmetry. apply rmap_insert. by apply nid_inj.
Qed.
Lemma n_set_flags F (HF : one_to_one F) ids i m s : set_flags (<[nid F i := n_mark F m]> (flags (n_sys F ids s))) (n_sys F ids s) = n_sys F ids (set_flags (<[i := m]> (flags s)) s).
Proof. nsimpl. f_equal. symmetry. apply rmap_insert. by apply nid_inj. Qed.
Lemma n_cancel F (HF : one_to_one F) ids b i r st s : cancel_task b (nid F i) (nrec F r) st (n_sys F ids s) = n_sys F ids (cancel_task b i r st s).
Proof.
  unfold cancel_task. change (trace (n_sys F ids s)) with (rmap (nid F) (n_boxes F) (trace s)). rewrite n_quit by done. destruct (quit_one_task_handler i r (trace s)) as [tr|]; [|by rewrite <- n_complete].
  cbn [fmap option_fmap option_map]. 
  change (emit (OQuit (nid F i) (nrec F r)) (set_trace (rmap (nid F) (n_boxes F) tr) (n_sys F ids s))) with (n_sys F ids (emit (OQuit i r) (set_trace tr s))).
  generalize (emit (OQuit i r) (set_trace tr s)). clear s tr. intros s.
  change (flags (n_sys F ids s)) with (rmap (nid F) (n_mark F) (flags s)) at 1. rewrite rmap_lookup by (by apply nid_inj). destruct (flags s !! i) as [m|]; [|by rewrite <- n_complete].
  cbn [fmap option_fmap option_map]. change (dec_num (n_mark F m)) with (n_mark F (dec_num m)). generalize (dec_num m). clear m. intros m.
  cbn [n_mark m_chain]. rewrite (n_notify_cancel F HF ids m). destruct (m_chain m) as [c|]; cbn [fmap option_fmap option_map].
  - destruct (notify_cancel_finish m r st s) as [[ok m2] s2]. by rewrite n_set_flags, n_complete.
  - by rewrite n_set_flags, n_complete.
Qed.
Lemma n_finish F (HF : one_to_one F) ids i r s : finish_task (nid F i) (nrec F r) (n_sys F ids s) = n_sys F ids (finish_task i r s).
Proof.
  unfold finish_task. change (trace (n_sys F ids s)) with (rmap (nid F) (n_boxes F) (trace s)). rewrite n_quit by done. destruct (quit_one_task_handler i r (trace s)) as [tr|]; [|by rewrite <- n_complete].
  cbn [fmap option_fmap option_map]. 
  change (emit (OQuit (nid F i) (nrec F r)) (set_trace (rmap (nid F) (n_boxes F) tr) (n_sys F ids s))) with (n_sys F ids (emit (OQuit i r) (set_trace tr s))).
  generalize (emit (OQuit i r) (set_trace tr s)). clear s tr. intros s.
  change (flags (n_sys F ids s)) with (rmap (nid F) (n_mark F) (flags s)) at 1. rewrite rmap_lookup by (by apply nid_inj). destruct (flags s !! i) as [m|]; [|by rewrite <- n_complete].
  cbn [fmap option_fmap option_map].
  cbn [n_mark m_chain]. rewrite (n_notify_cancel F HF ids m). destruct (m_chain m) as [c|]; cbn [fmap option_fmap option_map].
  - destruct (notify_cancel_finish m r COMPLETED s) as [[ok m2] s2]. change (dec_num (n_mark F m2)) with (n_mark F (dec_num m2)). destruct ok; by rewrite n_set_flags, n_complete.
  - change (dec_num (n_mark F m)) with (n_mark F (dec_num m)). by rewrite n_set_flags, n_complete.
Qed.
Lemma n_maintain_mark F (HF : one_to_one F) ids i r s : maintain_mark (nid F i) (nrec F r) (n_sys F ids s) = n_sys F ids (maintain_mark i r s).
Proof.
  unfold maintain_mark. change (flags (n_sys F ids s)) with (rmap (nid F) (n_mark F) (flags s)) at 1. rewrite rmap_lookup by (by apply nid_inj). destruct (flags s !! i) as [m|]; [|done]. cbn [fmap option_fmap option_map].
  rewrite n_get_maintainer. destruct (get_maintainer m s) as [m1 s1]. destruct m1 as [j sl n [[c l]|]]; cbn [n_mark m_chain fmap option_fmap option_map fst snd].
  - replace (set_m_chain (Some (c, (nrec F <$> l) ++ [nrec F r])) _) with (n_mark F (set_m_chain (Some (c, l ++ [r])) (Mark j sl n (Some (c, l))))).
    2: { unfold n_mark, set_m_chain. cbn. f_equal. f_equal. f_equal. by rewrite fmap_app. }
    replace (push_instance (nid F i) c (nrec F r) (n_sys F ids s1)) with (n_sys F ids (push_instance i c r s1)).
    2: { unfold push_instance. nsimpl. f_equal; [exact (rmap_insert (nrec F) (n_hdr F) (hdrs s1) r (Hdr RUNNING i c))|]. apply vmap_alter. intros x. unfold n_chain. cbn. by rewrite fmap_app. }
    exact (n_set_flags F HF ids i _ (push_instance i c r s1)).
  - change (Mark (nid F j) sl n None) with (n_mark F (Mark j sl n None)). by rewrite n_set_flags.
Qed.
Lemma n_maintain F (HF : one_to_one F) ids i hb s : maintain_task_status (nid F i) (n_box F hb) (n_sys F ids s) = n_sys F ids (maintain_task_status i hb s).
Proof.
  unfold maintain_task_status. cbn [n_box hb_rec hb_end hb_tid]. rewrite n_maintain_mark by done. generalize (maintain_mark i (hb_rec hb) s). clear s. intros s.
  rewrite <- n_complete. f_equal.
  assert (match hb_end hb with Some d => set_recq (recq (n_sys F ids s) ++ [RUnit d (nid F (hb_tid hb)) (nrec F (hb_rec hb))]) (n_sys F ids s) | None => n_sys F ids s end =
    n_sys F ids match hb_end hb with Some d => set_recq (recq s ++ [RUnit d (hb_tid hb) (hb_rec hb)]) s | None => s end) as ->.
  { destruct (hb_end hb); [|done]. nsimpl. by rewrite fmap_app. }
  generalize match hb_end hb with Some d => set_recq (recq s ++ [RUnit d (hb_tid hb) (hb_rec hb)]) s | None => s end. clear s. intros s.
  nsimpl. f_equal. unfold trace_insert. rewrite rmap_insert, rmap_lookup by (by apply nid_inj). f_equal. destruct (trace s !! i); cbn; [|done]. unfold n_boxes. by rewrite fmap_app.
Qed.
Lemma n_abandon F ids c s : abandon_opt c (n_sys F ids s) = n_sys F ids (abandon_opt c s).
Proof. unfold abandon_opt. nsimpl. f_equal. destruct c; [|done]. symmetry. by apply vmap_alter. Qed.
Lemma n_drop F ids m s : drop_mark (n_mark F <$> m) (n_sys F ids s) = n_sys F ids (drop_mark m s).
Proof. unfold drop_mark. rewrite <- n_abandon. f_equal. destruct m as [[i sl n [c|]]|]; done. Qed.

Lemma n_dispatch F (HF : one_to_one F) ids e s : dispatch (n_event F e) (n_sys F ids s) = n_sys F ids (dispatch e s).
Proof.
  destruct e; cbn [n_event dispatch].
  - by rewrite <- n_complete.
  - done.
  - done.
  - change (flags (n_sys F ids s)) with (rmap (nid F) (n_mark F) (flags s)) at 1. cbn [n_task t_id]. rewrite rmap_lookup by (by apply nid_inj). destruct (flags s !! t_id t); cbn; [done|by rewrite <- n_complete].
  - change (flags (n_sys F ids s)) with (rmap (nid F) (n_mark F) (flags s)) at 1. rewrite rmap_lookup by (by apply nid_inj). destruct (flags s !! tid); cbn; done.
  - by apply n_cancel.
  - by apply n_cancel.
  - by apply n_finish.
  - by apply n_maintain.
  - change (flags (n_sys F ids s)) with (rmap (nid F) (n_mark F) (flags s)) at 1. rewrite rmap_lookup by (by apply nid_inj). destruct (flags s !! tid); cbn; [done|by rewrite <- n_complete].
Qed.
Lemma n_public F e : public_of (n_event F e) = n_pub F <$> public_of e.
Proof. by destruct e. Qed.
Lemma n_next_exec F pf t : get_next_exec_timestamp pf (n_task F t) =
  match get_next_exec_timestamp pf t with Ret (o, t') => Ret (o, n_task F t') | Panic => Panic end.
Proof. unfold get_next_exec_timestamp. cbn [n_task t_freq]. destruct (next_alarm_timestamp pf (t_freq t)) as [[o f]|]; done. Qed.
Lemma n_scan F ids s : next_scan (n_sys F ids s) = next_scan s.
Proof. unfold next_scan. cbn [n_sys tpc iters]. by destruct (tpc s). Qed.

Lemma n_slot_add F (HF : one_to_one F) m t : slot_add_task (n_slot F m) (n_task F t) = n_slot F (slot_add_task m t).
Proof. symmetry. exact (rmap_insert (nid F) (n_task F) m (t_id t) t). Qed.
Lemma n_slot_update F (HF : one_to_one F) m t : slot_update_task (n_slot F m) (n_task F t) = n_slot F (slot_update_task m t).
Proof. unfold slot_update_task. destruct (_ !! _), (_ !! _); by apply n_slot_add. Qed.
Lemma n_slot_remove F (HF : one_to_one F) m i : slot_remove_task (n_slot F m) (nid F i) = (n_task F <$> m !! i, n_slot F (delete i m)).
Proof. unfold slot_remove_task, n_slot. by rewrite rmap_lookup, rmap_delete by (by apply nid_inj). Qed.
Lemma n_set_wheel F ids sl m s : set_wheel (<[sl := n_slot F m]> (wheel (n_sys F ids s))) (n_sys F ids s) = n_sys F ids (set_wheel (<[sl := m]> (wheel s)) s).
Proof. nsimpl. f_equal. by rewrite fmap_insert. Qed.
Lemma n_wheel F ids s sl : wheel (n_sys F ids s) !! sl = n_slot F <$> wheel s !! sl.
Proof. cbn [n_sys wheel]. by rewrite lookup_fmap. Qed.

Lemma n_handler F (HF : one_to_one F) ids pf s s1 : handler_step pf s = Some s1 -> (forall t c h k, hpc s = HAdd1 t c h k -> h < SLOTS) ->
  same_overdue F (log s1) -> handler_step pf (n_sys F ids s) = Some (n_sys F ids s1).
Proof.
  intros Hs Hh Ho. unfold handler_step in *. change (hpc (n_sys F ids s)) with (n_hpc F (hpc s)). destruct (hpc s) as [|t c h k|t c sl|i c sl|t sl|i sl|t|t sl|i sl|i ok|] eqn:Eh; cbn [n_hpc].
  - change (queue (n_sys F ids s)) with (n_event F <$> queue s). destruct (queue s) as [|e q]; [discriminate Hs|]. injection Hs as <-. cbn [fmap list_fmap]. f_equal.
    rewrite <- n_dispatch by done. rewrite n_public. reflexivity.
  - specialize (Hh t c h k eq_refl). rewrite n_next_exec. destruct (get_next_exec_timestamp pf t) as [[[exec|] t']|]; [|injection Hs as <-|injection Hs as <-; by rewrite <- ?Eh].
    + cbn [n_task t_id t_uid]. change (gtime (n_sys F ids s)) with (gtime s).
      assert (add_distance exec (gtime s) (nid F (t_id t)) = add_distance exec (gtime s) (t_id t)) as ->.
      { unfold add_distance in *. destruct (checked_sub exec (gtime s)) eqn:Ec; [done|]. unfold checked_sub in Ec. destruct (gtime s <=? exec) eqn:El; [discriminate Ec|].
        apply N.leb_gt in El. pose proof (N.mod_lt (t_id t) SLOTS ltac:(discriminate)) as Hm.
        rewrite add64_small in Hs by (unfold SLOTS, U64 in *; lia). cbn [res_bind] in Hs. rewrite add64_small in Hs by (unfold SLOTS, U64 in *; lia).
        injection Hs as <-. eapply (Ho (t_uid t) (t_id t) k (gtime s) exec); [left|exact El]. }
      destruct (let! a := add64 pf (add_distance exec (gtime s) (t_id t)) h in add64 pf a 1) as [seed|]; injection Hs as <-; done.
    + rewrite <- n_complete, <- n_abandon. reflexivity.
  - cbn [n_task t_id t_uid t_cyl]. rewrite n_wheel, n_scan. injection Hs as <-. destruct (wheel s !! sl) as [m|]; cbn [fmap option_fmap option_map]; [|done].
    change (Task _ (nid F _) _ _ _ _ _) with (n_task F t). rewrite n_slot_add, n_set_wheel by done. done.
  - injection Hs as <-. change (flags (n_sys F ids s)) with (rmap (nid F) (n_mark F) (flags s)) at 1. rewrite rmap_lookup by (by apply nid_inj).
    rewrite <- n_complete, <- n_drop, <- n_set_flags by done. do 4 f_equal. destruct c; done.
  - injection Hs as <-. rewrite n_wheel. rewrite <- n_complete. do 2 f_equal. destruct (wheel s !! sl) as [m|]; cbn [fmap option_fmap option_map].
    + rewrite n_slot_update by done. by rewrite n_set_wheel.
    + done.
  - rewrite n_wheel. destruct (wheel s !! sl) as [m|]; cbn [fmap option_fmap option_map].
    + rewrite n_slot_remove by done. unfold slot_remove_task in Hs. rewrite n_set_wheel. destruct (m !! i); cbn; injection Hs as <-; [done|by rewrite <- n_complete].
    + injection Hs as <-. by rewrite n_complete.
  - by injection Hs as <-.
  - rewrite n_wheel. destruct (wheel s !! sl) as [m|]; cbn [fmap option_fmap option_map]; injection Hs as <-; [|by rewrite n_complete].
    by rewrite n_slot_add, n_set_wheel, n_complete.
  - rewrite n_wheel. destruct (wheel s !! sl) as [m|]; cbn [fmap option_fmap option_map]; injection Hs as <-; [|done].
    rewrite n_slot_remove by done. cbn [snd]. by rewrite n_set_wheel.
  - injection Hs as <-. change (flags (n_sys F ids s)) with (rmap (nid F) (n_mark F) (flags s)). rewrite rmap_lookup by (by apply nid_inj).
    rewrite <- n_complete, <- n_drop by done. do 3 f_equal. nsimpl. f_equal. symmetry. apply rmap_delete. by apply nid_inj.
  - discriminate Hs.
Qed.

(** ** The scheduler *)
Lemma n_check_arrived F t : check_arrived (n_task F t) = let '(b, t') := check_arrived t in (b, n_task F t').
Proof. unfold check_arrived. cbn [n_task t_cyl]. by destruct (t_cyl t =? 0). Qed.
Lemma n_arrival_map F (HF : one_to_one F) m : snd (slot_arrival_time_tasks (n_slot F m)) = n_slot F (snd (slot_arrival_time_tasks m)).
Proof.
  unfold slot_arrival_time_tasks, n_slot, rmap. cbn [snd]. rewrite <- kmap_fmap by (by apply nid_inj). f_equal. rewrite <- !map_fmap_compose. apply map_fmap_ext. intros k t _.
  cbn. rewrite n_check_arrived. by destruct (check_arrived t).
Qed.
Lemma n_arrival_ids F (HF : one_to_one F) m : (forall k t, m !! k = Some t -> t_id t = k) ->
  fst (slot_arrival_time_tasks (n_slot F m)) ≡ₚ nid F <$> fst (slot_arrival_time_tasks m).
Proof.
  intros Hk. assert (forall k t, n_slot F m !! k = Some t -> exists t0, t = n_task F t0 /\ m !! t_id t0 = Some t0 /\ nid F (t_id t0) = k) as Hn.
  { intros k t H. unfold n_slot, rmap in H. apply lookup_kmap_Some in H as (i & -> & H); [|by apply nid_inj]. rewrite lookup_fmap in H.
    destruct (m !! i) as [t0|] eqn:E; [|discriminate H]. injection H as <-. exists t0. rewrite (Hk _ _ E). auto. }
  assert (forall k t, n_slot F m !! k = Some t -> t_id t = k) as Hk' by (intros k t H; destruct (Hn k t H) as (t0 & -> & _ & E); exact E).
  apply NoDup_Permutation; [by apply arrival_nodup|apply NoDup_fmap; [by apply nid_inj|by apply arrival_nodup]|].
  intros x. rewrite arrival_elem by done. rewrite elem_of_list_fmap. split.
  - intros (t & Ht & Ha). destruct (Hn x t Ht) as (t0 & -> & Hm & <-). exists (t_id t0). split; [done|]. apply arrival_elem; [done|]. exists t0. split; [done|].
    rewrite n_check_arrived in Ha. by destruct (check_arrived t0).
  - intros (i & -> & Hi). apply arrival_elem in Hi as (t & Ht & Ha); [|done]. exists (n_task F t). unfold n_slot. rewrite rmap_lookup, Ht by (by apply nid_inj).
    split; [done|]. rewrite n_check_arrived. by destruct (check_arrived t).
Qed.
Lemma n_pick F ids ids' ch x : ids' ≡ₚ nid F <$> ids -> ids !! ch = Some x -> exists ch', ids' !! ch' = Some (nid F x) /\ delete ch' ids' ≡ₚ nid F <$> delete ch ids.
Proof.
  intros Hp Hx. apply delete_Permutation in Hx. apply (fmap_Permutation (nid F)) in Hx. cbn in Hx. rewrite Hx in Hp.
  assert (nid F x ∈ ids') as Hin by (rewrite Hp; left). apply elem_of_list_lookup in Hin as [ch' Hc]. exists ch'. split; [done|].
  apply delete_Permutation in Hc. rewrite Hc in Hp. by apply Permutation_cons_inv in Hp.
Qed.
Lemma n_locked F (HF : one_to_one F) ids s i : mark_locked (n_sys F ids s) (nid F i) = mark_locked s i.
Proof. unfold mark_locked. cbn [n_sys hpc]. destruct (hpc s); cbn [n_hpc n_task t_id]; try done; by apply n_eqb. Qed.

Lemma n_timer F (HF : one_to_one F) pf ch rec now s s1 x : wf s -> renamed F s x -> timer_step pf ch rec now s = Some s1 ->
  exists ch' x1, timer_step pf ch' (nrec F rec) now x = Some x1 /\ renamed F s1 x1.
Proof.
  intros Hwf (ids & Hids & ->) Hs. unfold timer_step in *. change (tpc (n_sys F ids s)) with (n_tpc F ids (tpc s)).
  destruct (tpc s) as [l|l|l|l js|l js t|l js t r|l js t r e|l js t r|l js t b|l js i sl b|l| |] eqn:Et; cbn [n_tpc pc_ids] in *.
  - injection Hs as <-. exists 0%nat. eexists. split; [reflexivity|]. exists []. split; [fsimpl; by destruct (motiv s)|]. nsimpl. by destruct (motiv s).
  - injection Hs as <-. exists 0%nat. eexists. split; [reflexivity|]. exists []. split; [done|]. done.
  - exists 0%nat. rewrite n_wheel. destruct (wheel s !! l_hand l) as [m|] eqn:Em; cbn [fmap option_fmap option_map].
    + pose proof (n_arrival_ids F HF m (fun k t => wf_key s Hwf _ _ k t Em)) as Hp. pose proof (n_arrival_map F HF m) as Hm.
      destruct (slot_arrival_time_tasks (n_slot F m)) as [is' m2]. destruct (slot_arrival_time_tasks m) as [is m1]. cbn [fst snd] in *. subst m2. injection Hs as <-.
      eexists. split; [reflexivity|]. exists is'. split; [exact Hp|]. rewrite n_set_wheel. done.
    + injection Hs as <-. eexists. split; [reflexivity|]. exists []. done.
  - destruct js as [|j js'].
    + injection Hs as <-. symmetry in Hids. apply Permutation_nil in Hids as ->. exists 0%nat. eexists. split; [reflexivity|]. exists []. done.
    + destruct ((j :: js') !! ch) as [i|] eqn:Ei; [|discriminate Hs]. destruct (n_pick F _ _ _ _ Hids Ei) as (ch' & Hc & Hp). exists ch'.
      destruct ids as [|j0 ids']; [by rewrite lookup_nil in Hc|]. rewrite Hc. clear Hc Ei Hids. set (is0 := j0 :: ids'). fold is0 in Hp. revert Hp. generalize (delete ch' is0). intros is1 Hp. revert Hs Hp. generalize (delete ch (j :: js')). intros js Hs Hp.
      rewrite n_wheel. destruct (wheel s !! l_hand l) as [m|]; cbn [fmap option_fmap option_map].
      * rewrite n_slot_remove by done. unfold slot_remove_task in Hs. rewrite n_set_wheel. destruct (m !! i) as [t|]; cbn [fmap option_fmap option_map]; injection Hs as <-.
        all: eexists; split; [reflexivity|]; exists is1; split; [exact Hp|reflexivity].
      * injection Hs as <-. eexists. split; [reflexivity|]. exists is1. split; [exact Hp|reflexivity].
  - exists 0%nat. change (insts (n_sys F ids s)) with (rmap (nrec F) (n_inst F) (insts s)). destruct (decide (insts s !! rec = None)) as [E|E]; [|discriminate Hs].
    rewrite decide_True by (rewrite rmap_lookup, E by (by apply nrec_inj); done). cbn [n_task t_maxpar t_id t_uid].
    change (flags (n_sys F ids s)) with (rmap (nid F) (n_mark F) (flags s)). rewrite rmap_lookup by (by apply nid_inj).
    destruct (t_maxpar t) as [mx|].
    2: { injection Hs as <-. eexists. split; [reflexivity|]. exists ids. split; [exact Hids|reflexivity]. }
    destruct (flags s !! t_id t) as [m|]; cbn [fmap option_fmap option_map n_mark m_num].
    2: { injection Hs as <-. eexists. split; [reflexivity|]. exists ids. split; [exact Hids|reflexivity]. }
    destruct (mx <=? m_num m); injection Hs as <-; (eexists; split; [reflexivity|]; exists ids; split; [exact Hids|reflexivity]).
  - exists 0%nat. change (get_maximum_running_time pf (n_task F t) (l_ts l)) with (get_maximum_running_time pf t (l_ts l)). destruct (get_maximum_running_time pf t (l_ts l)) as [e|]; injection Hs as <-.
    + eexists. split; [reflexivity|]. exists ids. split; [exact Hids|]. nsimpl. f_equal. symmetry. exact (rmap_insert (nrec F) (n_inst F) (insts s) r (Inst (t_id t) (t_uid t) false IRunning)).
    + eexists. split; [reflexivity|]. exists []. split; [done|]. nsimpl. f_equal. symmetry. exact (rmap_insert (nrec F) (n_inst F) (insts s) r (Inst (t_id t) (t_uid t) true IRunning)).
  - exists 0%nat. injection Hs as <-. eexists. split; [reflexivity|]. exists ids. split; [exact Hids|]. nsimpl. f_equal. by rewrite fmap_app.
  - exists 0%nat. unfold down_count_and_set_valid in *. cbn [n_task t_freq]. destruct (down_count pf (t_freq t)) as [f|]; cbn [res_bind] in *.
    + cbn [set_valid set_freq t_valid] in *. destruct (negb (is_down_over f)); injection Hs as <-.
      all: eexists; split; [reflexivity|]; exists ids; split; [exact Hids|]; nsimpl; f_equal; symmetry; apply rmap_alter; [by apply nrec_inj|done].
    + injection Hs as <-. eexists; split; [reflexivity|]; exists []; split; [done|]; nsimpl; f_equal; symmetry; apply rmap_alter; [by apply nrec_inj|done].
  - exists 0%nat. rewrite n_next_exec. destruct (get_next_exec_timestamp pf t) as [[[exec|] t']|]; [| |injection Hs as <-; eexists; split; [reflexivity|]; by exists []].
    + destruct (add64 pf (park_distance exec (l_ts l)) (l_next l)) as [sum|]; [|injection Hs as <-; eexists; split; [reflexivity|]; by exists []].
      rewrite n_wheel. destruct (wheel s !! (sum mod SLOTS)) as [m|]; cbn [fmap option_fmap option_map]; injection Hs as <-.
      * change (set_cylinder_line (park_distance exec (l_ts l) / SLOTS) (n_task F t')) with (n_task F (set_cylinder_line (park_distance exec (l_ts l) / SLOTS) t')).
        rewrite n_slot_add, n_set_wheel by done. eexists. split; [reflexivity|]. exists ids. split; [exact Hids|reflexivity].
      * eexists. split; [reflexivity|]. exists ids. split; [exact Hids|reflexivity].
    + injection Hs as <-. eexists. split; [reflexivity|]. exists ids. split; [exact Hids|reflexivity].
  - exists 0%nat. rewrite n_locked by done. destruct (mark_locked s i); [discriminate Hs|].
    change (flags (n_sys F ids s)) with (rmap (nid F) (n_mark F) (flags s)) at 1. rewrite rmap_lookup by (by apply nid_inj). destruct (flags s !! i) as [m|]; cbn [fmap option_fmap option_map]; injection Hs as <-.
    + replace (if b then inc_num (set_slot_mark sl (n_mark F m)) else set_slot_mark sl (n_mark F m)) with (n_mark F (if b then inc_num (set_slot_mark sl m) else set_slot_mark sl m)) by (by destruct b).
      rewrite n_set_flags by done. eexists. split; [reflexivity|]. exists ids. split; [exact Hids|reflexivity].
    + eexists. split; [reflexivity|]. exists ids. split; [exact Hids|reflexivity].
  - exists 0%nat. injection Hs as <-. eexists. split; [reflexivity|]. exists []. done.
  - discriminate Hs.
  - discriminate Hs.
Qed.

(** ** The others *)
Lemma n_enqueue F ids e s : enqueue (n_event F e) (n_sys F ids s) = n_sys F ids (enqueue e s).
Proof. nsimpl. f_equal. by rewrite fmap_app. Qed.
Lemma n_fresh F (HF : one_to_one F) t : fresh_task t = true -> fresh_task (n_task F t) = true.
Proof.
  unfold fresh_task. cbn [n_task t_id t_freq t_maxrun t_maxpar t_cyl t_valid]. rewrite !andb_true_iff. intros [[[[[H H1] H2] H3] H4] H5]. repeat split; try done.
  apply N.ltb_lt in H. apply N.ltb_lt. by apply HF.
Qed.
Lemma n_submit F (HF : one_to_one F) ids (ev : task -> event) t s s1 : n_event F (ev t) = ev (n_task F t) -> submit ev t s = Some s1 -> submit ev (n_task F t) (n_sys F ids s) = Some (n_sys F ids s1).
Proof.
  intros He Hs. unfold submit in *. destruct (fresh_task t) eqn:Ef; [|discriminate Hs]. rewrite (n_fresh F HF t Ef). cbn [andb] in *.
  change (used (n_sys F ids s)) with (used s). cbn [n_task t_uid]. destruct (negb _); [|discriminate Hs]. injection Hs as <-. f_equal. rewrite <- n_enqueue, He. reflexivity.
Qed.
Lemma n_chain_lookup F ids s c : chains (n_sys F ids s) !! c = n_chain F <$> chains s !! c.
Proof. cbn [n_sys chains]. by rewrite lookup_fmap. Qed.
Lemma n_waiter_lookup F ids s c : waiters (n_sys F ids s) !! c = n_waiter F <$> waiters s !! c.
Proof. cbn [n_sys waiters]. by rewrite lookup_fmap. Qed.
Lemma n_least F h : least_deadline (n_unit F <$> h) = least_deadline h.
Proof. induction h as [|u h IH]; [done|]. cbn. change (list_fmap runit runit (n_unit F) h) with (n_unit F <$> h). by rewrite IH. Qed.
Lemma n_delete F ch (h : list runit) : n_unit F <$> delete ch h = delete ch (n_unit F <$> h).
Proof. revert ch. induction h as [|u h IH]; intros [|ch]; [done..|]. cbn. f_equal. apply IH. Qed.

Lemma n_other F (HF : one_to_one F) ids pf lb s s1 : step pf lb s = Some s1 ->
  match lb with LTimer _ _ _ | LHandler => False | _ => True end -> step pf (n_label F lb) (n_sys F ids s) = Some (n_sys F ids s1).
Proof.
  intros Hs Hl. destruct lb; try destruct Hl; cbn [step n_label] in *.
  - by apply n_submit.
  - unfold submit_insert, option_map in *. destruct (submit EInsert t s) as [s'|] eqn:E; [|discriminate Hs]. rewrite (n_submit F HF ids EInsert t s s') by done. injection Hs as <-.
    f_equal. nsimpl. f_equal. by rewrite fmap_insert.
  - by apply n_submit.
  - injection Hs as <-. f_equal. apply (n_enqueue F ids (ERemove tid)).
  - injection Hs as <-. f_equal. apply (n_enqueue F ids (EAdvance tid)).
  - injection Hs as <-. f_equal. apply (n_enqueue F ids (ECancel tid rec)).
  - injection Hs as <-. f_equal. apply (n_enqueue F ids EStop).
  - unfold next_check in *. rewrite n_chain_lookup. destruct (chains s !! c) as [x|]; [|discriminate Hs]. cbn [fmap option_fmap option_map n_chain c_state c_buf c_got c_pend].
    destruct (c_state x =? DROPPED); [discriminate Hs|]. destruct (c_state x =? ABANDONED); injection Hs as <-; [done|]. f_equal. nsimpl. f_equal. by rewrite fmap_insert.
  - unfold next_take in *. rewrite n_chain_lookup. destruct (chains s !! c) as [[st bf gt pd]|]; [|discriminate Hs]. cbn [fmap option_fmap option_map n_chain c_state c_buf c_got c_pend] in *.
    destruct pd as [|pd]; [discriminate Hs|]. destruct bf as [|r b]; cbn [list_fmap].
    + destruct (st =? ABANDONED); injection Hs as <-; f_equal; nsimpl; f_equal; by rewrite fmap_insert.
    + injection Hs as <-. f_equal. nsimpl. f_equal. rewrite fmap_insert. unfold n_chain at 2. cbn [c_state c_buf c_got c_pend]. by rewrite fmap_app.
  - unfold next_take in *. rewrite n_chain_lookup. destruct (chains s !! c) as [[st bf gt pd]|]; [|discriminate Hs]. cbn [fmap option_fmap option_map n_chain c_state c_buf c_got c_pend] in *.
    destruct pd as [|pd]; [discriminate Hs|]. destruct bf as [|r b]; cbn [list_fmap].
    + destruct (st =? ABANDONED); [|discriminate Hs]. injection Hs as <-; f_equal; nsimpl; f_equal; by rewrite fmap_insert.
    + injection Hs as <-. f_equal. nsimpl. f_equal. rewrite fmap_insert. unfold n_chain at 2. cbn [c_state c_buf c_got c_pend]. by rewrite fmap_app.
  - unfold chain_drop in *. rewrite n_chain_lookup. destruct (chains s !! c) as [[st bf gt pd]|]; [|discriminate Hs]. cbn [fmap option_fmap option_map n_chain c_state c_buf c_got c_pend] in *.
    destruct pd as [|pd]; [|discriminate Hs]. destruct (st =? DROPPED); [discriminate Hs|]. injection Hs as <-. f_equal. nsimpl. f_equal. by rewrite fmap_insert.
  - unfold inst_cancel in *. rewrite n_waiter_lookup. change (hdrs (n_sys F ids s)) with (rmap (nrec F) (n_hdr F) (hdrs s)). rewrite rmap_lookup by (by apply nrec_inj).
    destruct (waiters s !! w); [discriminate Hs|]. destruct (hdrs s !! rec) as [[st i c]|]; [|discriminate Hs]. cbn [fmap option_fmap option_map n_hdr h_state h_tid h_chain] in *. rewrite n_chain_lookup.
    destruct (chains s !! c) as [x|]; [|discriminate Hs]. cbn [fmap option_fmap option_map n_chain c_got].
    destruct (bool_decide (rec ∈ c_got x)) eqn:Eb; [|discriminate Hs]. apply bool_decide_eq_true in Eb. rewrite bool_decide_true by (by apply elem_of_list_fmap_1).
    cbn [andb] in *. destruct (st =? RUNNING); [|discriminate Hs]. injection Hs as <-. f_equal. rewrite <- n_enqueue. f_equal. nsimpl. f_equal. by rewrite fmap_insert.
  - unfold inst_listen in *. rewrite n_waiter_lookup. destruct (waiters s !! w) as [[r ph]|]; [|discriminate Hs]. destruct ph; try discriminate Hs. injection Hs as <-. cbn. f_equal. nsimpl. f_equal. by rewrite fmap_insert.
  - unfold inst_return in *. rewrite n_waiter_lookup. destruct (waiters s !! w) as [[r ph]|]; [|discriminate Hs]. destruct ph; try discriminate Hs. cbn [fmap option_fmap option_map n_waiter w_rec w_phase].
    change (hdrs (n_sys F ids s)) with (rmap (nrec F) (n_hdr F) (hdrs s)). rewrite rmap_lookup by (by apply nrec_inj). destruct (hdrs s !! r) as [h|]; [|discriminate Hs]. injection Hs as <-.
    cbn [fmap option_fmap option_map]. f_equal. nsimpl. f_equal. by rewrite fmap_insert.
  - unfold routine_panic in *. cbn [n_sys tpc]. destruct (tpc s); try discriminate Hs. by injection Hs as <-.
  - unfold inst_finish in *. change (insts (n_sys F ids s)) with (rmap (nrec F) (n_inst F) (insts s)) at 1. rewrite rmap_lookup by (by apply nrec_inj). destruct (insts s !! rec) as [[i u g f]|]; [|discriminate Hs].
    destruct g; [|discriminate Hs]. destruct f; try discriminate Hs. injection Hs as <-. cbn [fmap option_fmap option_map n_inst i_tid i_uid i_gate i_fate]. f_equal. rewrite <- n_enqueue. f_equal. nsimpl. f_equal.
    symmetry. exact (rmap_insert (nrec F) (n_inst F) (insts s) rec (Inst i u true IEnded)).
  - unfold inst_panic in *. change (insts (n_sys F ids s)) with (rmap (nrec F) (n_inst F) (insts s)) at 1. rewrite rmap_lookup by (by apply nrec_inj). destruct (insts s !! rec) as [[i u g f]|]; [|discriminate Hs].
    destruct f; try discriminate Hs. injection Hs as <-. cbn [fmap option_fmap option_map n_inst i_tid i_uid i_gate i_fate]. f_equal. nsimpl. f_equal.
    symmetry. exact (rmap_insert (nrec F) (n_inst F) (insts s) rec (Inst i u g IPanicked)).
  - unfold sweep_recv in *. cbn [n_sys spc recq]. destruct (spc s); [|discriminate Hs]. destruct (recq s) as [|u q]; [discriminate Hs|]. by injection Hs as <-.
  - unfold sweep_step in *. change (spc (n_sys F ids s)) with (spc s). change (heap (n_sys F ids s)) with (n_unit F <$> heap s). destruct (spc s) as [|nw k]; [by injection Hs as <-|].
    destruct (k =? 0); [by injection Hs as <-|]. rewrite n_least. destruct (least_deadline (heap s)) as [d|]; [|by injection Hs as <-]. destruct (d <=? nw); [|by injection Hs as <-].
    rewrite list_lookup_fmap. destruct (heap s !! ch) as [u|]; [|discriminate Hs]. cbn [fmap option_fmap option_map n_unit u_deadline u_tid u_rec]. destruct (u_deadline u =? d); [|discriminate Hs].
    injection Hs as <-. f_equal. rewrite <- n_delete.
    change (set_heap (n_unit F <$> delete ch (heap s)) (n_sys F ids s)) with (n_sys F ids (set_heap (delete ch (heap s)) s)).
    change (ETimeout (nid F (u_tid u)) (nrec F (u_rec u))) with (n_event F (ETimeout (u_tid u) (u_rec u))). rewrite n_enqueue. reflexivity.
Qed.

(* ------------------------------------------------------------------ *)
(** * Executions *)

Lemma tpc_other pf lb s s1 : step pf lb s = Some s1 -> match lb with LTimer _ _ _ | LRoutinePanic => False | _ => True end -> tpc s1 = tpc s.
Proof.
  intros Hs Hl. destruct lb; try destruct Hl; cbn [step] in Hs; try (by injection Hs as <-).
  all: try (by apply handler_frame in Hs as [? _]).
  all: unfold submit_insert, submit, next_check, next_take, chain_drop, inst_cancel, inst_listen, inst_return, inst_finish, inst_panic, sweep_recv, sweep_step, option_map in Hs.
  all: destruct_inner Hs; try discriminate Hs; by injection Hs as <-.
Qed.
Lemma n_step F (HF : one_to_one F) pf t0 t1 lb s s1 x : reachable pf t0 t1 s -> renamed F s x -> step pf lb s = Some s1 -> same_overdue F (log s1) ->
  exists lb' x1, step pf lb' x = Some x1 /\ renamed F s1 x1.
Proof.
  intros Hr Hx Hs Ho. pose proof (wf_reach _ _ _ _ Hr) as Hwf. destruct lb as [| | | | | | | | | | | | | |ch rec now| | | | | |] eqn:El.
  15: { destruct (n_timer F HF pf ch rec now s s1 x Hwf Hx Hs) as (ch' & x1 & H1 & H2). by exists (LTimer ch' (nrec F rec) now), x1. }
  16: { destruct Hx as (ids & Hids & ->). exists LHandler, (n_sys F ids s1). split.
    - cbn [step]. apply n_handler; [done|exact Hs| |exact Ho]. intros t c h k Eh. pose proof (wf_hpc s Hwf) as Hh. rewrite Eh in Hh. destruct Hh as [-> _]. apply N.mod_lt. discriminate.
    - exists ids. split; [|done]. apply handler_frame in Hs as [-> _]. exact Hids. }
  15: { destruct Hx as (ids & Hids & ->). exists LRoutinePanic, (n_sys F [] s1). cbn [step] in *. unfold routine_panic in *. cbn [n_sys tpc]. destruct (tpc s); try discriminate Hs. injection Hs as <-. split; [done|]. by exists []. }
  all: destruct Hx as (ids & Hids & ->); exists (n_label F lb), (n_sys F ids s1); rewrite El; (split; [apply n_other; [done|exact Hs|exact I]|]); exists ids; (split; [|done]); rewrite (tpc_other _ _ _ _ Hs I); exact Hids.
Qed.
Lemma same_overdue_mono F lg lg' : same_overdue F (lg' ++ lg) -> same_overdue F lg.
Proof. intros H u i k g d Hin. apply (H u i k g d). apply elem_of_app. by right. Qed.

Lemma n_init_wheel F (HF : one_to_one F) n : n_slot F <$> init_task_wheel n = init_task_wheel n.
Proof. apply map_eq. intros i. rewrite lookup_fmap, init_wheel_lookup. case_bool_decide; [|done]. cbn [fmap option_fmap option_map]. unfold n_slot. by rewrite rmap_empty. Qed.
Lemma n_init_n F (HF : one_to_one F) n t0 t1 : renamed F (init_n n t0 t1) (init_n n t0 t1).
Proof. exists []. split; [done|]. unfold init_n, n_sys. fsimpl. rewrite n_init_wheel, !rmap_empty, !fmap_empty by done. reflexivity. Qed.
Lemma n_run F (HF : one_to_one F) pf t0 t1 ls : forall s, run pf ls (init t0 t1) = Some s -> same_overdue F (log s) ->
  exists ls' x, run pf ls' (init t0 t1) = Some x /\ renamed F s x.
Proof.
  induction ls as [|lb ls IH] using rev_ind; intros s Hs Ho.
  - cbn [run] in Hs. injection Hs as <-. exists [], (init t0 t1). split; [exact eq_refl|]. exact (n_init_n F HF (N.to_nat SLOTS) t0 t1).
  - apply run_snoc in Hs as (s1 & H1 & H2). destruct (step_log _ _ _ _ H2) as [lg El].
    assert (same_overdue F (log s1)) as Ho1 by (apply (same_overdue_mono F _ lg); rewrite <- El; exact Ho).
    destruct (IH s1 H1 Ho1) as (ls' & x & Hx & Hn). assert (reachable pf t0 t1 s1) as Hr by (exists ls; exact H1).
    destruct (n_step F HF pf t0 t1 lb s1 s x Hr Hn H2 Ho) as (lb' & x1 & Hx1 & Hn1).
    exists (ls' ++ [lb']), x1. split; [|exact Hn1]. rewrite (run_app _ _ _ _ _ Hx). cbn [run]. rewrite Hx1. exact eq_refl.
Qed.
