(** A timer seen from a part of its ids: dropping all other ids from an
    execution leaves an execution. *)
From Verif Require Import Tactics Inv Own Life Count Quiet Cases Inst Ended Chain.

(* ------------------------------------------------------------------ *)
(** * Specification *)

(** [p] picks the ids, [u] the chains (by the task they were made with) and
    [q] the instances that are looked at. *)
Record part := Part { pid : N -> bool; pch : N -> bool; prec : Z -> bool }.

Definition event_in (A : part) (e : event) : bool :=
  match e with
  | EStop => true
  | EAdd t | EInsert t | EUpdate t => pid A (t_id t)
  | ERemove i | EAdvance i | ECancel i _ | ETimeout i _ | EFinish i _ _ _ | EAppend i _ => pid A i
  end.
Definition pub_id (p : pubev) : N :=
  match p with PRemove i | PRunning i _ | PFinish i _ _ _ | PTimeout i _ => i end.
Definition obs_in (A : part) (o : obs) : bool :=
  match o with
  | OLaunch _ i _ _ _ | OSkip _ i _ _ | OQuit i _ | OSweep i _ _ _ | OPlan _ i _ _ _ | OAdded _ i _ _ _
  | OPark _ i _ _ _ | OEnd _ i | ODrop _ i _ => pid A i
  | ONotify r _ => prec A r
  | ONext c _ => pch A c
  | OPublic p => pid A (pub_id p)
  | OPop e | OSend e => event_in A e
  | OTick _ _ => true
  end.
(** The calls of a user who only knows the ids of the part. *)
Definition call_in (A : part) (lb : label) : bool :=
  match lb with
  | LAdd t | LInsert t | LUpdate t => pid A (t_id t)
  | LRemove i | LAdvance i | LCancel i _ => pid A i
  | _ => true
  end.
(** Chains and instances belong to the part iff their ids do. *)
Definition parted (A : part) (lg : list obs) : Prop :=
  (forall u i r it ts, OLaunch u i r it ts ∈ lg -> prec A r = pid A i) /\
  (forall t, submitted t lg -> pch A (t_uid t) = pid A (t_id t)).

(* ------------------------------------------------------------------ *)
(** * Parts of maps *)

Definition keep {K V} `{Countable K} (f : K -> bool) (m : gmap K V) : gmap K V := filter (fun kv => f (fst kv) = true) m.
Lemma keep_lookup {K V} `{Countable K} (f : K -> bool) (m : gmap K V) k : keep f m !! k = if f k then m !! k else None.
Proof.
  unfold keep. destruct (f k) eqn:E.
  - destruct (m !! k) as [x|] eqn:Ex.
    + by apply map_filter_lookup_Some.
    + apply map_filter_lookup_None. by left.
  - apply map_filter_lookup_None. right. intros x _. cbn. by rewrite E.
Qed.
Lemma keep_t {K V} `{Countable K} (f : K -> bool) (m : gmap K V) k : f k = true -> keep f m !! k = m !! k.
Proof. intros E. by rewrite keep_lookup, E. Qed.
Lemma keep_none {K V} `{Countable K} (f : K -> bool) (m : gmap K V) k : m !! k = None -> keep f m !! k = None.
Proof. intros E. rewrite keep_lookup, E. by destruct (f k). Qed.
Lemma keep_insert {K V} `{Countable K} (f : K -> bool) (m : gmap K V) k x : f k = true -> keep f (<[k := x]> m) = <[k := x]> (keep f m).
Proof.
  intros E. apply map_eq. intros j. rewrite keep_lookup. destruct (decide (j = k)) as [->|Hn].
  - by rewrite E, !lookup_insert.
  - by rewrite !lookup_insert_ne, keep_lookup by done.
Qed.
Lemma keep_insert_f {K V} `{Countable K} (f : K -> bool) (m : gmap K V) k x : f k = false -> keep f (<[k := x]> m) = keep f m.
Proof.
  intros E. apply map_eq. intros j. rewrite !keep_lookup. destruct (f j) eqn:Ej; [|done].
  rewrite lookup_insert_ne; [done|]. intros ->. congruence.
Qed.
Lemma keep_delete {K V} `{Countable K} (f : K -> bool) (m : gmap K V) k : f k = true -> keep f (delete k m) = delete k (keep f m).
Proof.
  intros E. apply map_eq. intros j. rewrite keep_lookup. destruct (decide (j = k)) as [->|Hn].
  - by rewrite E, !lookup_delete.
  - by rewrite !lookup_delete_ne, keep_lookup by done.
Qed.
Lemma keep_delete_f {K V} `{Countable K} (f : K -> bool) (m : gmap K V) k : f k = false -> keep f (delete k m) = keep f m.
Proof.
  intros E. apply map_eq. intros j. rewrite !keep_lookup. destruct (f j) eqn:Ej; [|done].
  rewrite lookup_delete_ne; [done|]. intros ->. congruence.
Qed.
Lemma keep_alter {K V} `{Countable K} (f : K -> bool) (g : V -> V) (m : gmap K V) k : f k = true -> keep f (alter g k m) = alter g k (keep f m).
Proof.
  intros E. apply map_eq. intros j. rewrite keep_lookup. destruct (decide (j = k)) as [->|Hn].
  - by rewrite E, !lookup_alter, keep_t.
  - by rewrite !lookup_alter_ne, keep_lookup by done.
Qed.
Lemma keep_alter_f {K V} `{Countable K} (f : K -> bool) (g : V -> V) (m : gmap K V) k : f k = false -> keep f (alter g k m) = keep f m.
Proof.
  intros E. apply map_eq. intros j. rewrite !keep_lookup. destruct (f j) eqn:Ej; [|done].
  rewrite lookup_alter_ne; [done|]. intros ->. congruence.
Qed.
Lemma keep_empty {K V} `{Countable K} (f : K -> bool) : keep f (∅ : gmap K V) = ∅.
Proof. apply map_eq. intros j. rewrite keep_lookup, lookup_empty. by destruct (f j). Qed.

Definition keep_waiters (f : Z -> bool) (m : gmap N waiter) : gmap N waiter := filter (fun kv => f (w_rec (snd kv)) = true) m.
Lemma keepv_lookup f m w : keep_waiters f m !! w = match m !! w with Some x => if f (w_rec x) then Some x else None | None => None end.
Proof.
  unfold keep_waiters. destruct (m !! w) as [x|] eqn:E.
  - destruct (f (w_rec x)) eqn:Ex; [by apply map_filter_lookup_Some|]. apply map_filter_lookup_None. right. intros y Hy. cbn. rewrite E in Hy. injection Hy as <-. by rewrite Ex.
  - apply map_filter_lookup_None. by left.
Qed.
Lemma keepv_insert f m w x : f (w_rec x) = true -> keep_waiters f (<[w := x]> m) = <[w := x]> (keep_waiters f m).
Proof.
  intros E. apply map_eq. intros j. rewrite keepv_lookup. destruct (decide (j = w)) as [->|Hn].
  - by rewrite !lookup_insert, E.
  - by rewrite !lookup_insert_ne, keepv_lookup by done.
Qed.
Lemma keepv_insert_f f m w x : f (w_rec x) = false -> (forall y, m !! w = Some y -> f (w_rec y) = false) -> keep_waiters f (<[w := x]> m) = keep_waiters f m.
Proof.
  intros E Hm. apply map_eq. intros j. rewrite !keepv_lookup. destruct (decide (j = w)) as [->|Hn].
  - rewrite lookup_insert, E. destruct (m !! w) as [y|]; [|done]. by rewrite (Hm y eq_refl).
  - by rewrite lookup_insert_ne by done.
Qed.
Lemma wake_rec r w : w_rec (wake r w) = w_rec w.
Proof. unfold wake. destruct (decide _); [|done]. by destruct (w_phase w). Qed.
Lemma keepv_wake f r m : keep_waiters f (wake r <$> m) = wake r <$> keep_waiters f m.
Proof.
  apply map_eq. intros j. rewrite keepv_lookup, !lookup_fmap, keepv_lookup. destruct (m !! j) as [x|]; [|done]. cbn. rewrite wake_rec. by destruct (f (w_rec x)).
Qed.
Lemma keepv_wake_f f r m : f r = false -> keep_waiters f (wake r <$> m) = keep_waiters f m.
Proof.
  intros E. apply map_eq. intros j. rewrite !keepv_lookup, !lookup_fmap. destruct (m !! j) as [x|]; [|done]. cbn. rewrite wake_rec. destruct (f (w_rec x)) eqn:Ex; [|done].
  unfold wake. rewrite decide_False; [done|]. intros E2. congruence.
Qed.

Definition keep_wheel (f : N -> bool) (w : wheel_t) : wheel_t := keep f <$> w.
Lemma keepw_lookup f w sl : keep_wheel f w !! sl = keep f <$> w !! sl.
Proof. apply lookup_fmap. Qed.
Lemma keepw_insert f w sl m : keep_wheel f (<[sl := m]> w) = <[sl := keep f m]> (keep_wheel f w).
Proof. apply fmap_insert. Qed.
Lemma keepw_same f w sl m m' : w !! sl = Some m -> keep f m' = keep f m -> keep_wheel f (<[sl := m']> w) = keep_wheel f w.
Proof. intros E E2. rewrite keepw_insert, E2. apply insert_id. by rewrite keepw_lookup, E. Qed.
Lemma keep_arrival f m : snd (slot_arrival_time_tasks (keep f m)) = keep f (snd (slot_arrival_time_tasks m)).
Proof.
  unfold slot_arrival_time_tasks. cbn [snd]. apply map_eq. intros j. rewrite lookup_fmap, !keep_lookup, lookup_fmap. by destruct (f j).
Qed.
Lemma arrival_elem m x : (forall k t, m !! k = Some t -> t_id t = k) ->
  x ∈ fst (slot_arrival_time_tasks m) <-> exists t, m !! x = Some t /\ fst (check_arrived t) = true.
Proof.
  intros Hk. unfold slot_arrival_time_tasks. cbn [fst]. rewrite elem_of_list_fmap. split.
  - intros ([k t] & -> & Hx). apply elem_of_list_filter in Hx as [H1 H2]. apply elem_of_map_to_list in H2. cbn in *. rewrite (Hk _ _ H2). eauto.
  - intros (t & Ht & Ha). exists (x, t). cbn. split; [by rewrite (Hk _ _ Ht)|]. apply elem_of_list_filter. split; [done|]. by apply elem_of_map_to_list.
Qed.
Lemma arrival_nodup m : (forall k t, m !! k = Some t -> t_id t = k) -> NoDup (fst (slot_arrival_time_tasks m)).
Proof.
  intros Hk. unfold slot_arrival_time_tasks. cbn [fst]. apply NoDup_fmap_2_strong.
  - intros [k t] [k2 t2] H1 H2 E. apply elem_of_list_filter in H1 as [_ H1]. apply elem_of_list_filter in H2 as [_ H2].
    apply elem_of_map_to_list in H1, H2. cbn in E. rewrite (Hk _ _ H1), (Hk _ _ H2) in E. subst. congruence.
  - apply NoDup_filter, NoDup_map_to_list.
Qed.
Lemma elem_lfilter {T} (f : T -> bool) l x : x ∈ List.filter f l <-> x ∈ l /\ f x = true.
Proof. rewrite !elem_of_list_In. apply filter_In. Qed.
Lemma nodup_lfilter {T} (f : T -> bool) l : NoDup l -> NoDup (List.filter f l).
Proof.
  induction 1 as [|x l Hx Hl IH]; cbn; [constructor|]. destruct (f x); [|done]. constructor; [|done]. rewrite elem_lfilter. naive_solver.
Qed.
Lemma arrival_ids f m : (forall k t, m !! k = Some t -> t_id t = k) ->
  fst (slot_arrival_time_tasks (keep f m)) ≡ₚ List.filter f (fst (slot_arrival_time_tasks m)).
Proof.
  intros Hk. assert (forall k t, keep f m !! k = Some t -> t_id t = k) as Hk'.
  { intros k t. rewrite keep_lookup. destruct (f k); [apply Hk|discriminate]. }
  apply NoDup_Permutation; [by apply arrival_nodup|by apply nodup_lfilter, arrival_nodup|].
  intros x. rewrite elem_lfilter, !arrival_elem by done. rewrite keep_lookup. destruct (f x); naive_solver.
Qed.
Lemma lfilter_perm {T} (f : T -> bool) l l' : l ≡ₚ l' -> List.filter f l ≡ₚ List.filter f l'.
Proof.
  induction 1 as [| x l l' Hl IH | x y l | l l' l'' H1 IH1 H2 IH2]; cbn; [done| | |by etrans].
  - by destruct (f x); rewrite IH.
  - destruct (f x), (f y); try done. constructor.
Qed.
Lemma lfilter_app {T} (f : T -> bool) l l' : List.filter f (l ++ l') = List.filter f l ++ List.filter f l'.
Proof. apply List.filter_app. Qed.
(** Taking one out by its position. *)
Lemma pick_in {T} (f : T -> bool) ids ids' ch (x : T) : ids' ≡ₚ List.filter f ids -> ids !! ch = Some x -> f x = true ->
  exists ch', ids' !! ch' = Some x /\ delete ch' ids' ≡ₚ List.filter f (delete ch ids).
Proof.
  intros Hp Hx Hf. apply delete_Permutation in Hx. apply (lfilter_perm f) in Hx. cbn in Hx. rewrite Hf in Hx. rewrite Hx in Hp.
  assert (x ∈ ids') as Hin by (rewrite Hp; left). apply elem_of_list_lookup in Hin as [ch' Hc]. exists ch'. split; [done|].
  apply delete_Permutation in Hc. rewrite Hc in Hp. by apply Permutation_cons_inv in Hp.
Qed.
Lemma pick_out {T} (f : T -> bool) ids ch (x : T) : ids !! ch = Some x -> f x = false -> List.filter f (delete ch ids) = List.filter f ids.
Proof.
  revert ch. induction ids as [|y ids IH]; intros [|ch] Hx Hf; try discriminate Hx.
  - injection Hx as ->. change (delete 0%nat (x :: ids)) with ids. cbn [List.filter]. by rewrite Hf.
  - change (delete (S ch) (y :: ids)) with (y :: delete ch ids). cbn [List.filter]. by rewrite (IH ch Hx Hf).
Qed.
Lemma pick_at {T} (f : T -> bool) ids ch (x : T) : ids !! ch = Some x -> f x = true ->
  exists ch', List.filter f ids !! ch' = Some x /\ List.filter f (delete ch ids) = delete ch' (List.filter f ids).
Proof.
  revert ch. induction ids as [|y ids IH]; intros [|ch] Hx Hf; try discriminate Hx.
  - injection Hx as ->. change (delete 0%nat (x :: ids)) with ids. cbn [List.filter]. rewrite Hf. by exists 0%nat.
  - change (delete (S ch) (y :: ids)) with (y :: delete ch ids). cbn [List.filter]. destruct (IH ch Hx Hf) as (c & H1 & H2). destruct (f y); [|by exists c]. exists (S c). by rewrite H2.
Qed.

(* ------------------------------------------------------------------ *)
(** * Whose chains and instances *)

Definition launched (i : N) (r : Z) (lg : list obs) : Prop := exists u it ts, OLaunch u i r it ts ∈ lg.
Record belong (s : sys) : Prop := {
  be_list : forall i m c l r, flags s !! i = Some m -> m_chain m = Some (c, l) -> r ∈ l -> launched i r (log s);
  be_hdr : forall r h, hdrs s !! r = Some h -> launched (h_tid h) r (log s) /\ ins (h_chain h) (h_tid h) (log s);
  be_send : forall l ids t r e, tpc s = TSend l ids t r e -> launched (t_id t) r (log s);
  be_gate : forall l ids t r, tpc s = TGate l ids t r -> launched (t_id t) r (log s);
  be_app : forall i hb, EAppend i hb ∈ queue s -> launched i (hb_rec hb) (log s) /\ hb_tid hb = i
}.
Lemma launched_mono i r lg lg' : launched i r lg -> launched i r (lg' ++ lg).
Proof. intros (u & it & ts & H). exists u, it, ts. apply elem_of_app. by right. Qed.
Lemma belong_step pf t0 t1 lb s s' : reachable pf t0 t1 s -> belong s -> step pf lb s = Some s' -> belong s'.
Proof.
  intros Hr [H1 H2 H3 H4 H5] Hs. destruct (step_log _ _ _ _ Hs) as [lg El].
  assert (forall i r, launched i r (log s) -> launched i r (log s')) as Hm by (intros; rewrite El; by apply launched_mono).
  assert (forall c i, ins c i (log s) -> ins c i (log s')) as Hi by (intros; by eapply ins_mono).
  pose proof (ch_mark _ (chain_reach _ _ _ _ Hr)) as Hc.
  clear El. split.
  - intros i m c l r. revert Hm. clear Hi Hc H2 H3 H4. step_inv Hs; inst_cases; isimpl; intros Hm Hf Hch Hin; try (apply Hm; eauto; fail).
    all: first [apply lookup_insert_Some in Hf as [[<- <-]|[_ Hf]] | apply lookup_delete_Some in Hf as [_ Hf]]; try (apply Hm; eauto; fail).
    all: cbn [m_chain set_m_chain dec_num dec_if negb inc_num set_slot_mark fmap option_fmap option_map] in Hch; try discriminate Hch.
    all: try (apply Hm; eauto; fail).
    all: try (injection Hch as -> <-; apply Hm; eapply H1; [eassumption..|]; match goal with E : take_rec _ _ _ = Some _ |- _ => apply take_rec_perm in E as [E _]; rewrite E; by right end).
    + injection Hch as -> <-. apply Hm. apply elem_of_app in Hin as [Hin|Hin%elem_of_list_singleton]; [by eapply H1|]. subst r. apply H5. left.
    + destruct c0 as [c0|]; [|discriminate Hch]. injection Hch as _ <-. by apply elem_of_nil in Hin.
  - intros r h. revert Hm Hi. clear H1 H3 H4. step_inv Hs; inst_cases; isimpl; intros Hm Hi Hh; try (destruct (H2 _ _ Hh); auto; fail).
    all: try (apply lookup_alter_Some in Hh as [(<- & x & Hx & ->)|[_ Hh]]; [cbn [h_tid h_chain]; destruct (H2 _ _ Hx); auto|destruct (H2 _ _ Hh); auto]; fail).
    apply lookup_insert_Some in Hh as [[<- <-]|[_ Hh]]; [|destruct (H2 _ _ Hh); auto]. cbn [h_tid h_chain]. split; [apply Hm, H5; left|]. apply Hi, Hc. by eexists _, _.
  - intros l ids t r e. revert Hm. clear H1 H2 H5 Hi Hc. step_inv Hs; inst_cases; isimpl; intros Hm E; try discriminate E; try (apply Hm; eauto; fail).
    injection E as <- <- <- <- <-. eexists _, _, _. left.
  - intros l ids t r. revert Hm. clear H1 H2 H5 Hi Hc. step_inv Hs; inst_cases; isimpl; intros Hm E; try discriminate E; try (apply Hm; eauto; fail).
    injection E as <- <- <- <-. apply Hm. by eapply H3.
  - intros i hb. revert Hm. clear H1 H2 H4 Hi Hc. step_inv Hs; inst_cases; isimpl; intros Hm E; try (destruct (H5 _ _ E); auto; fail).
    all: try (apply elem_of_app in E as [E|E%elem_of_list_singleton]; [destruct (H5 _ _ E); auto|try discriminate E]).
    all: try (destruct (H5 i hb) as [? ?]; [right; exact E|auto]; fail).
    injection E as -> ->. cbn [hb_rec hb_tid]. split; [apply Hm; by eapply H3|done].
Qed.
Lemma belong_reach pf t0 t1 s : reachable pf t0 t1 s -> belong s.
Proof.
  apply reach_ind; [|intros; by eapply belong_step]. split.
  - intros i m c l r H. change (flags (init t0 t1)) with (∅ : gmap N mark) in H. rewrite lookup_empty in H. discriminate H.
  - intros r h H. change (hdrs (init t0 t1)) with (∅ : gmap Z hdr) in H. rewrite lookup_empty in H. discriminate H.
  - intros l ids t r e H. change (tpc (init t0 t1)) with (tpc (init_n 0 t0 t1)) in H. discriminate H.
  - intros l ids t r H. change (tpc (init t0 t1)) with (tpc (init_n 0 t0 t1)) in H. discriminate H.
  - intros i hb H. change (queue (init t0 t1)) with (@nil event) in H. by apply elem_of_nil in H.
Qed.

(* ------------------------------------------------------------------ *)
(** * The part of a state *)

Definition unit_in (A : part) (u : runit) : bool := pid A (u_tid u).
Definition handler_in (A : part) (p : handler_pc) : bool :=
  match p with
  | HAdd1 t _ _ _ | HAdd2 t _ _ | HUpd t _ | HAdv2 t | HAdv3 t _ => pid A (t_id t)
  | HAdd3 i _ _ | HAdv1 i _ | HRem1 i _ | HRem2 i _ => pid A i
  | HIdle | HDead => false
  end.
(** The scheduler is seen between two tasks while it deals with another's. *)
Definition timer_in (A : part) (p p' : timer_pc) : Prop :=
  match p with
  | TCheck _ | TStore _ | TScan _ | TLapse _ | TStopped => p' = p
  | TLoop l ids => exists ids', ids' ≡ₚ List.filter (pid A) ids /\ p' = TLoop l ids'
  | TMaint l ids t => exists ids', ids' ≡ₚ List.filter (pid A) ids /\ p' = if pid A (t_id t) then TMaint l ids' t else TLoop l ids'
  | TSpawn l ids t r => exists ids', ids' ≡ₚ List.filter (pid A) ids /\ p' = if pid A (t_id t) then TSpawn l ids' t r else TLoop l ids'
  | TSend l ids t r e => exists ids', ids' ≡ₚ List.filter (pid A) ids /\ p' = if pid A (t_id t) then TSend l ids' t r e else TLoop l ids'
  | TGate l ids t r => exists ids', ids' ≡ₚ List.filter (pid A) ids /\ p' = if pid A (t_id t) then TGate l ids' t r else TLoop l ids'
  | TPark l ids t b => exists ids', ids' ≡ₚ List.filter (pid A) ids /\ p' = if pid A (t_id t) then TPark l ids' t b else TLoop l ids'
  | TMark l ids i sl b => exists ids', ids' ≡ₚ List.filter (pid A) ids /\ p' = if pid A i then TMark l ids' i sl b else TLoop l ids'
  | TDead => p' = TDead \/ exists l ids, p' = TLoop l ids
  end.
Definition hand_in (A : part) (p p' : handler_pc) : Prop :=
  match p with HDead => p' = HDead \/ p' = HIdle | _ => p' = if handler_in A p then p else HIdle end.
Definition round_in (p p' : sweeper_pc) : Prop :=
  match p with SSleep => p' = SSleep | SRound nw k => exists k', k <= k' /\ p' = SRound nw k' end.
Definition part_of (A : part) (tp : timer_pc) (hp : handler_pc) (hb : option pubev) (sp : sweeper_pc) (us : gset N) (s : sys) : sys :=
  Sys (keep_wheel (pid A) (wheel s)) (keep (pid A) (flags s)) (hand s) (gtime s) (motiv s) tp hp hb
    (List.filter (event_in A) (queue s)) (keep (pid A) (trace s)) (List.filter (unit_in A) (recq s)) (List.filter (unit_in A) (heap s)) sp
    (keep (prec A) (insts s)) (keep (prec A) (hdrs s)) (keep (pch A) (chains s)) (keep_waiters (prec A) (waiters s)) us (iters s)
    (List.filter (obs_in A) (log s)).
Definition seen (A : part) (s s' : sys) : Prop :=
  exists tp hp hb sp us, s' = part_of A tp hp hb sp us s /\ timer_in A (tpc s) tp /\ hand_in A (hpc s) hp /\
    hb = (if handler_in A (hpc s) then hpub s else None) /\ round_in (spc s) sp /\ us ⊆ used s.

(** ** One step of a user, a running instance or the sweeper *)
Ltac parts := unfold part_of; fsimpl; rewrite ?lfilter_app; cbn [List.filter event_in obs_in unit_in].
(** The same thread states, another shared state. *)
Lemma seen_same A s s' us tp hp hb sp :
  timer_in A (tpc s) tp -> hand_in A (hpc s) hp -> hb = (if handler_in A (hpc s) then hpub s else None) -> round_in (spc s) sp -> us ⊆ used s ->
  s' = part_of A tp hp hb sp us s -> seen A s s'.
Proof. intros. exists tp, hp, hb, sp, us. eauto 10. Qed.

(** A step of the whole is one of the part, or none. *)
Definition follows (pf : profile) (A : part) (s1 x : sys) : Prop :=
  exists ls x1, Forall (fun lb => call_in A lb = true) ls /\ run pf ls x = Some x1 /\ seen A s1 x1.
Lemma follows_step pf A s1 x lb x1 : call_in A lb = true -> step pf lb x = Some x1 -> seen A s1 x1 -> follows pf A s1 x.
Proof. intros Hc Hs Hx. exists [lb], x1. split; [by repeat constructor|]. cbn [run]. by rewrite Hs. Qed.
Lemma follows_not pf A s1 x : seen A s1 x -> follows pf A s1 x.
Proof. intros Hx. exists [], x. split; [constructor|]. by split. Qed.

Lemma follow_submit pf A s s1 x ev lb t : seen A s x -> submit ev t s = Some s1 -> event_in A (ev t) = pid A (t_id t) -> call_in A lb = pid A (t_id t) ->
  (forall y, step pf lb y = submit ev t y) -> follows pf A s1 x.
Proof.
  intros (tp & hp & hb & sp & us & -> & Htp & Hhp & Hhb & Hsp & Hus) Hs He Hl Hy.
  unfold submit in Hs. destruct (fresh_task t && _) eqn:E; [|discriminate Hs]. injection Hs as <-. apply andb_prop in E as [E1 E2].
  destruct (pid A (t_id t)) eqn:Ep.
  - eapply (follows_step _ _ _ _ lb); [exact Hl| |].
    + rewrite Hy. unfold submit. rewrite E1. cbn [andb]. parts. rewrite bool_decide_false; [reflexivity|]. apply negb_true_iff, bool_decide_eq_false in E2. set_solver.
    + apply (seen_same A _ _ ({[t_uid t]} ∪ us) tp hp hb sp); fsimpl; try done; [set_solver|]. parts. by rewrite He.
  - apply follows_not. apply (seen_same A _ _ us tp hp hb sp); fsimpl; try done; [set_solver|]. parts. by rewrite He, app_nil_r.
Qed.
Lemma follow_send pf A s x e lb : seen A s x -> call_in A lb = event_in A e -> (forall y, step pf lb y = Some (enqueue e y)) -> follows pf A (enqueue e s) x.
Proof.
  intros (tp & hp & hb & sp & us & -> & Htp & Hhp & Hhb & Hsp & Hus) Hl Hy. destruct (event_in A e) eqn:Ee.
  - eapply (follows_step _ _ _ _ lb); [exact Hl|by rewrite Hy|]. apply (seen_same A _ _ us tp hp hb sp); fsimpl; try done. parts. by rewrite Ee.
  - apply follows_not. apply (seen_same A _ _ us tp hp hb sp); fsimpl; try done. parts. by rewrite Ee, app_nil_r.
Qed.
Lemma follow_call pf A s s1 x lb : seen A s x -> step pf lb s = Some s1 ->
  match lb with LAdd _ | LInsert _ | LUpdate _ | LRemove _ | LAdvance _ | LCancel _ _ | LStop => True | _ => False end ->
  parted A (log s1) -> follows pf A s1 x.
Proof.
  intros Hx Hs Hl [_ HU]. destruct lb; try destruct Hl; cbn [step] in Hs.
  - by apply (follow_submit pf A s s1 x EAdd (LAdd t) t).
  - destruct Hx as (tp & hp & hb & sp & us & -> & Htp & Hhp & Hhb & Hsp & Hus).
    unfold submit_insert, submit, option_map in Hs. destruct (fresh_task t && _) eqn:E; [|discriminate Hs]. injection Hs as <-. apply andb_prop in E as [E1 E2].
    assert (pch A (t_uid t) = pid A (t_id t)) as Hc by (apply HU; exists (EInsert t); fsimpl; split; [left|right; by left]).
    destruct (pid A (t_id t)) eqn:Ep.
    + eapply (follows_step _ _ _ _ (LInsert t)); [exact Ep| |].
      * cbn [step]. unfold submit_insert, submit, option_map. rewrite E1. cbn [andb]. parts. rewrite bool_decide_false; [reflexivity|]. apply negb_true_iff, bool_decide_eq_false in E2. set_solver.
      * apply (seen_same A _ _ ({[t_uid t]} ∪ us) tp hp hb sp); fsimpl; try done; [set_solver|]. parts. by rewrite Ep, keep_insert.
    + apply follows_not. apply (seen_same A _ _ us tp hp hb sp); fsimpl; try done; [set_solver|]. parts. by rewrite Ep, app_nil_r, keep_insert_f.
  - by apply (follow_submit pf A s s1 x EUpdate (LUpdate t) t).
  - injection Hs as <-. by apply (follow_send pf A s x _ (LRemove tid)).
  - injection Hs as <-. by apply (follow_send pf A s x _ (LAdvance tid)).
  - injection Hs as <-. by apply (follow_send pf A s x _ (LCancel tid rec)).
  - injection Hs as <-. by apply (follow_send pf A s x _ LStop).
Qed.

Lemma follow_chain pf A s s1 x lb : seen A s x -> step pf lb s = Some s1 ->
  match lb with LNextCheck _ | LNextTry _ | LNextRecv _ | LChainDrop _ => True | _ => False end -> follows pf A s1 x.
Proof.
  intros (tp & hp & hb & sp & us & -> & Htp & Hhp & Hhb & Hsp & Hus) Hs Hl.
  destruct (match lb with LNextCheck c | LNextTry c | LNextRecv c | LChainDrop c => pch A c | _ => false end) eqn:Ec.
  - destruct lb; try destruct Hl; cbn [step] in Hs.
    all: match goal with |- follows _ _ _ _ => idtac end.
    all: match type of Hs with _ = Some _ => idtac end.
    1: apply (follows_step _ _ _ _ (LNextCheck c) (part_of A tp hp hb sp us s1)).
    4: apply (follows_step _ _ _ _ (LNextTry c) (part_of A tp hp hb sp us s1)).
    7: apply (follows_step _ _ _ _ (LNextRecv c) (part_of A tp hp hb sp us s1)).
    10: apply (follows_step _ _ _ _ (LChainDrop c) (part_of A tp hp hb sp us s1)).
    all: try reflexivity.
    all: cbn [step]; unfold next_check, next_take, chain_drop in *; revert Hs; unfold part_of at 1; fsimpl; rewrite ?keep_t by exact Ec.
    all: intros Hs; destruct_inner Hs; try discriminate Hs; injection Hs as <-.
    all: repeat match goal with E : ?a = true |- context [?a] => rewrite E | E : ?a = false |- context [?a] => rewrite E end.
    all: first [apply (seen_same A _ _ us tp hp hb sp); done | parts; rewrite ?Ec, ?keep_insert by exact Ec; reflexivity].
  - apply follows_not. apply (seen_same A _ _ us tp hp hb sp).
    all: destruct lb; try destruct Hl; cbn [step] in Hs; unfold next_check, next_take, chain_drop in Hs; destruct_inner Hs; try discriminate Hs; injection Hs as <-; fsimpl; try done.
    all: parts; rewrite ?Ec, ?keep_insert_f by exact Ec; reflexivity.
Qed.

Lemma launched_in A lg i r : parted A lg -> launched i r lg -> prec A r = pid A i.
Proof. intros [H _] (u & it & ts & Hx). by eapply H. Qed.
Lemma ins_in A lg c i : parted A lg -> ins c i lg -> pch A c = pid A i.
Proof. intros [_ H] (t & Hx & <- & <-). apply H. exists (EInsert t). split; [done|right; by left]. Qed.
Lemma inst_in A s r i : parted A (log s) -> rec_inv s -> insts s !! r = Some i -> prec A r = pid A (i_tid i).
Proof. intros Hp Hr Hi. destruct (ri_inst s Hr r (i_tid i) (i_uid i)) as (it & ts & H); [by rewrite Hi|]. apply (launched_in A (log s)); [done|]. by exists (i_uid i), it, ts. Qed.

Lemma follow_inst pf A s s1 x lb : seen A s x -> step pf lb s = Some s1 -> parted A (log s) -> rec_inv s -> belong s ->
  match lb with LInstCancel _ _ | LListen _ | LReturn _ | LFinish _ _ _ | LPanic _ => True | _ => False end -> follows pf A s1 x.
Proof.
  intros (tp & hp & hb & sp & us & -> & Htp & Hhp & Hhb & Hsp & Hus) Hs Hp Hr Hb Hl. destruct lb; try destruct Hl; cbn [step] in Hs.
  - unfold inst_cancel in Hs. destruct (waiters s !! w) as [?|] eqn:Ew; [discriminate Hs|]. destruct (hdrs s !! rec) as [h|] eqn:Eh; [|discriminate Hs].
    destruct (chains s !! h_chain h) as [ch|] eqn:Ec; [|discriminate Hs]. destruct (bool_decide _ && _) eqn:Eb; [|discriminate Hs]. injection Hs as <-.
    destruct (be_hdr s Hb _ _ Eh) as [H1 H2]. apply (launched_in A) in H1; [|done]. apply (ins_in A) in H2; [|done].
    destruct (pid A (h_tid h)) eqn:Ep.
    + eapply (follows_step _ _ _ _ (LInstCancel w rec)); [reflexivity| |].
      * cbn [step]. unfold inst_cancel. parts. rewrite keepv_lookup, Ew, keep_t, Eh, keep_t, Ec, Eb by done. reflexivity.
      * apply (seen_same A _ _ us tp hp hb sp); fsimpl; try done. parts. by rewrite Ep, keepv_insert.
    + apply follows_not. apply (seen_same A _ _ us tp hp hb sp); fsimpl; try done. parts. rewrite Ep, app_nil_r, keepv_insert_f; [done|done|]. intros y Hy. congruence.
  - unfold inst_listen in Hs. destruct (waiters s !! w) as [[r ph]|] eqn:Ew; [|discriminate Hs]. destruct ph; try discriminate Hs. injection Hs as <-. destruct (prec A r) eqn:Ep.
    + eapply (follows_step _ _ _ _ (LListen w)); [reflexivity| |].
      * cbn [step]. unfold inst_listen. parts. rewrite keepv_lookup, Ew. cbn [w_rec]. rewrite Ep. reflexivity.
      * apply (seen_same A _ _ us tp hp hb sp); fsimpl; try done. parts. by rewrite keepv_insert.
    + apply follows_not. apply (seen_same A _ _ us tp hp hb sp); fsimpl; try done. parts. rewrite keepv_insert_f; [done|done|]. intros y Hy. rewrite Ew in Hy. by injection Hy as <-.
  - unfold inst_return in Hs. destruct (waiters s !! w) as [[r ph]|] eqn:Ew; [|discriminate Hs]. destruct ph; try discriminate Hs. destruct (hdrs s !! r) as [h|] eqn:Eh; [|discriminate Hs]. injection Hs as <-. destruct (prec A r) eqn:Ep.
    + eapply (follows_step _ _ _ _ (LReturn w)); [reflexivity| |].
      * cbn [step]. unfold inst_return. parts. rewrite keepv_lookup, Ew. cbn [w_rec]. rewrite Ep, keep_t, Eh by done. reflexivity.
      * apply (seen_same A _ _ us tp hp hb sp); fsimpl; try done. parts. by rewrite keepv_insert.
    + apply follows_not. apply (seen_same A _ _ us tp hp hb sp); fsimpl; try done. parts. rewrite keepv_insert_f; [done|done|]. intros y Hy. rewrite Ew in Hy. by injection Hy as <-.
  - unfold inst_finish in Hs. destruct (insts s !! rec) as [i|] eqn:Ei; [|discriminate Hs]. pose proof (inst_in _ _ _ _ Hp Hr Ei) as Hin.
    destruct i as [i u g f]. destruct g; [|discriminate Hs]. destruct f; try discriminate Hs. injection Hs as <-. cbn [i_tid] in Hin. destruct (pid A i) eqn:Ep.
    + eapply (follows_step _ _ _ _ (LFinish rec now out)); [reflexivity| |].
      * cbn [step]. unfold inst_finish. parts. rewrite keep_t, Ei by done. reflexivity.
      * apply (seen_same A _ _ us tp hp hb sp); fsimpl; try done. parts. by rewrite Ep, keep_insert.
    + apply follows_not. apply (seen_same A _ _ us tp hp hb sp); fsimpl; try done. parts. by rewrite Ep, app_nil_r, keep_insert_f.
  - unfold inst_panic in Hs. destruct (insts s !! rec) as [i|] eqn:Ei; [|discriminate Hs]. pose proof (inst_in _ _ _ _ Hp Hr Ei) as Hin.
    destruct i as [i u g f]. destruct f; try discriminate Hs. injection Hs as <-. cbn [i_tid] in Hin. destruct (pid A i) eqn:Ep.
    + eapply (follows_step _ _ _ _ (LPanic rec)); [reflexivity| |].
      * cbn [step]. unfold inst_panic. parts. rewrite keep_t, Ei by done. reflexivity.
      * apply (seen_same A _ _ us tp hp hb sp); fsimpl; try done. parts. by rewrite keep_insert.
    + apply follows_not. apply (seen_same A _ _ us tp hp hb sp); fsimpl; try done. parts. by rewrite keep_insert_f.
Qed.

(** ** One step of the sweeper *)
Lemma least_spec h : match least_deadline h with None => h = [] | Some d => (exists u, u ∈ h /\ u_deadline u = d) /\ forall u, u ∈ h -> d <= u_deadline u end.
Proof.
  induction h as [|u h IH]; [done|]. cbn [least_deadline]. destruct (least_deadline h) as [d|].
  - destruct IH as [(v & Hv & Ed) Hd]. split.
    + destruct (N.min_spec (u_deadline u) d) as [[H1 ->]|[H1 ->]]; [exists u; split; [left|done]|exists v; split; [by right|done]].
    + intros w [->|Hw]%elem_of_cons; [lia|]. specialize (Hd _ Hw). lia.
  - subst h. split; [exists u; split; [left|done]|]. intros w [->|Hw%elem_of_nil]%elem_of_cons; [lia|done].
Qed.
Lemma follow_sweep pf A s s1 x lb : seen A s x -> step pf lb s = Some s1 ->
  match lb with LSweepRecv | LSweep _ _ => True | _ => False end ->
  (forall nw u, spc s = SRound nw 0 -> u ∈ heap s -> unit_in A u = true -> nw < u_deadline u) -> follows pf A s1 x.
Proof.
  intros (tp & hp & hb & sp & us & -> & Htp & Hhp & Hhb & Hsp & Hus) Hs Hl Hcut. destruct lb; try destruct Hl; cbn [step] in Hs.
  - unfold sweep_recv in Hs. destruct (spc s) eqn:Es; [|discriminate Hs]. destruct (recq s) as [|u q] eqn:Eq; [discriminate Hs|]. injection Hs as <-. cbn [round_in] in Hsp. subst sp. destruct (unit_in A u) eqn:Eu.
    + eapply (follows_step _ _ _ _ LSweepRecv); [reflexivity| |].
      * cbn [step]. unfold sweep_recv. parts. rewrite Eq. cbn [List.filter]. rewrite Eu. reflexivity.
      * apply (seen_same A _ _ us tp hp hb SSleep); fsimpl; try done; [by rewrite Es|]. parts. by rewrite Eu.
    + apply follows_not. apply (seen_same A _ _ us tp hp hb SSleep); fsimpl; try done; [by rewrite Es|]. parts. rewrite Eq. cbn [List.filter]. by rewrite Eu.
  - unfold sweep_step in Hs. destruct (spc s) as [|nw k] eqn:Es.
    + injection Hs as <-. cbn [round_in] in Hsp. subst sp. eapply (follows_step _ _ _ _ (LSweep 0 now)); [reflexivity| |].
      * cbn [step]. unfold sweep_step. parts. reflexivity.
      * apply (seen_same A _ _ us tp hp hb (SRound now 200)); fsimpl; try done. exists 200. split; [lia|done].
    + destruct Hsp as (k' & Hk & ->).
      assert (forall u, unit_in A u = true -> u ∈ heap s -> u ∈ List.filter (unit_in A) (heap s)) as Hin by (intros u H1 H2; by apply elem_lfilter).
      assert (s1 = set_spc SSleep s -> (forall u, u ∈ List.filter (unit_in A) (heap s) -> nw < u_deadline u) -> follows pf A s1 (part_of A tp hp hb (SRound nw k') us s)) as Hrest.
      { intros -> Hno. eapply (follows_step _ _ _ _ (LSweep 0 now)); [reflexivity| |].
        - cbn [step]. unfold sweep_step. parts. instantiate (1 := set_spc SSleep (part_of A tp hp hb (SRound nw k') us s)). pose proof (least_spec (List.filter (unit_in A) (heap s))) as Hlt.
          destruct (k' =? 0); [reflexivity|]. destruct (least_deadline (List.filter (unit_in A) (heap s))) as [d|]; [|reflexivity]. destruct Hlt as [(u & Hu & <-) _]. specialize (Hno _ Hu). destruct (N.leb_spec (u_deadline u) nw); [lia|reflexivity].
        - apply (seen_same A _ _ us tp hp hb SSleep); fsimpl; try done. }
      destruct (N.eqb_spec k 0) as [->|Hk0].
      { injection Hs as <-. apply Hrest; [done|]. intros u [Hu1 Hu2]%elem_lfilter. by apply (Hcut nw u). }
      pose proof (least_spec (heap s)) as Hlt. destruct (least_deadline (heap s)) as [d|].
      2: { injection Hs as <-. apply Hrest; [done|]. rewrite Hlt. intros u Hu. by apply elem_of_nil in Hu. }
      destruct Hlt as [_ Hmin]. destruct (N.leb_spec d nw) as [Hd|Hd].
      2: { injection Hs as <-. apply Hrest; [done|]. intros u [Hu _]%elem_lfilter. specialize (Hmin _ Hu). lia. }
      destruct (heap s !! ch) as [u|] eqn:Eh; [|discriminate Hs]. destruct (N.eqb_spec (u_deadline u) d) as [Hud|]; [|discriminate Hs]. injection Hs as <-.
      destruct (unit_in A u) eqn:Eu.
      * destruct (pick_at (unit_in A) _ _ _ Eh Eu) as (ch' & Hc1 & Hc2).
        eapply (follows_step _ _ _ _ (LSweep ch' now)); [reflexivity| |].
        -- cbn [step]. unfold sweep_step. parts. destruct (N.eqb_spec k' 0) as [?|_]; [exfalso; lia|].
           pose proof (least_spec (List.filter (unit_in A) (heap s))) as Hlt. apply elem_of_list_lookup_2 in Hc1 as Hc3. destruct (least_deadline (List.filter (unit_in A) (heap s))) as [d'|]; [|exfalso; rewrite Hlt in Hc3; by apply elem_of_nil in Hc3].
           destruct Hlt as [(v & [Hv _]%elem_lfilter & Ev) Hmin']. specialize (Hmin' _ Hc3). specialize (Hmin _ Hv). assert (d' = d) as -> by lia. destruct (N.leb_spec d nw); [|exfalso; lia].
           rewrite Hc1. rewrite Hud, N.eqb_refl. reflexivity.
        -- apply (seen_same A _ _ us tp hp hb (SRound nw (k' - 1))); fsimpl; try done; [exists (k' - 1); split; [lia|done]|]. parts. unfold unit_in in Eu. rewrite Eu, Hc2, Hud. reflexivity.
      * apply follows_not. apply (seen_same A _ _ us tp hp hb (SRound nw k')); fsimpl; try done; [exists k'; split; [lia|done]|]. parts. rewrite (pick_out _ _ _ _ Eh Eu). unfold unit_in in Eu. by rewrite Eu, app_nil_r.
Qed.

(** ** One step of the scheduler *)
Lemma follow_timer pf A s s1 x lb : seen A s x -> step pf lb s = Some s1 ->
  match lb with LTimer _ _ _ | LRoutinePanic => True | _ => False end ->
  wf s -> belong s -> parted A (log s1) -> parted A (log s) -> follows pf A s1 x.
Proof.
  intros (tp & hp & hb & sp & us & -> & Htp & Hhp & Hhb & Hsp & Hus) Hs Hl Hwf Hb Hp1 Hp. destruct lb; try destruct Hl; cbn [step] in Hs.
  2: { unfold routine_panic in Hs. destruct (tpc s) eqn:Et; try discriminate Hs. injection Hs as <-. destruct Htp as (ids' & Hids & ->).
    destruct (pid A (t_id t)) eqn:Ep.
    - apply (follows_step _ _ _ _ LRoutinePanic (part_of A TDead hp hb sp us s)); [reflexivity..|]. apply (seen_same A _ _ us TDead hp hb sp); fsimpl; try done. by left.
    - apply follows_not. apply (seen_same A _ _ us (TLoop l ids') hp hb sp); fsimpl; try done. right. eauto. }
  unfold timer_step in Hs. destruct (tpc s) eqn:Et; cbn [timer_in] in Htp.
  - (* TCheck *) subst tp. injection Hs as <-.
    eapply (follows_step _ _ _ _ (LTimer 0 0 0)); [reflexivity|reflexivity|].
    apply (seen_same A _ _ us (if motiv s then TStore l else TStopped) hp hb sp); fsimpl; try done. by destruct (motiv s).
  - subst tp. injection Hs as <-. eapply (follows_step _ _ _ _ (LTimer 0 0 0)); [reflexivity|reflexivity|].
    apply (seen_same A _ _ us (TScan l) hp hb sp); fsimpl; try done.
  - subst tp. unfold slot_remove_task in *. destruct (wheel s !! l_hand l) as [m|] eqn:Ew.
    + destruct (slot_arrival_time_tasks m) as [ids m'] eqn:Ea. injection Hs as <-.
      assert (forall k t, m !! k = Some t -> t_id t = k) as Hk by (intros k t; by apply (wf_key s Hwf (l_hand l))).
      pose proof (arrival_ids (pid A) m Hk) as Hi. pose proof (keep_arrival (pid A) m) as Hm. rewrite Ea in Hi, Hm. cbn [fst snd] in Hi, Hm.
      destruct (slot_arrival_time_tasks (keep (pid A) m)) as [ids' m2] eqn:Ea2. cbn [fst snd] in Hi, Hm. subst m2.
      eapply (follows_step _ _ _ _ (LTimer 0 0 0)); [reflexivity| |].
      * cbn [step]. unfold timer_step. parts. rewrite keepw_lookup, Ew. cbn [fmap option_fmap option_map]. rewrite Ea2. reflexivity.
      * apply (seen_same A _ _ us (TLoop l ids') hp hb sp); fsimpl; try done; [by exists ids'|]. parts. by rewrite keepw_insert.
    + injection Hs as <-. eapply (follows_step _ _ _ _ (LTimer 0 0 0)); [reflexivity| |].
      * cbn [step]. unfold timer_step. parts. rewrite keepw_lookup, Ew. reflexivity.
      * apply (seen_same A _ _ us (TCheck l) hp hb sp); fsimpl; try done.
  - destruct Htp as (ids' & Hids & ->). destruct ids as [|i0 ids0].
    { injection Hs as <-. cbn [List.filter] in Hids. apply Permutation_nil_r in Hids. subst ids'. eapply (follows_step _ _ _ _ (LTimer 0 0 0)); [reflexivity|reflexivity|].
      apply (seen_same A _ _ us (TLapse l) hp hb sp); fsimpl; try done. }
    set (ids := i0 :: ids0) in *. clearbody ids. clear i0 ids0. destruct (ids !! ch) as [i|] eqn:Ei; [|discriminate Hs].
    destruct (pid A i) eqn:Ep.
    + destruct (pick_in _ _ _ _ _ Hids Ei Ep) as (ch' & Hc1 & Hc2). apply elem_of_list_lookup_2 in Hc1 as Hc3.
      assert (forall y, tpc y = TLoop l ids' -> timer_step pf ch' 0 0 y = match wheel y !! l_hand l with None => Some (set_tpc (TLoop l (delete ch' ids')) y)
         | Some m => match m !! i with Some t => Some (set_tpc (TMaint l (delete ch' ids') t) (set_wheel (<[l_hand l := delete i m]> (wheel y)) y))
                                     | None => Some (set_tpc (TLoop l (delete ch' ids')) (set_wheel (<[l_hand l := delete i m]> (wheel y)) y)) end end) as Hstep.
      { intros y Ey. unfold timer_step. rewrite Ey, Hc1. destruct ids'; [by apply elem_of_nil in Hc3|reflexivity]. }
      destruct (wheel s !! l_hand l) as [m|] eqn:Ew.
      * unfold slot_remove_task in Hs. destruct (m !! i) as [t|] eqn:Em; injection Hs as <-.
        -- assert (t_id t = i) as Hti by (by apply (wf_key s Hwf (l_hand l) m)).
           eapply (follows_step _ _ _ _ (LTimer ch' 0 0)); [reflexivity| |].
           ++ cbn [step]. rewrite Hstep by reflexivity. parts. rewrite keepw_lookup, Ew. cbn [fmap option_fmap option_map]. rewrite keep_t, Em by done. reflexivity.
           ++ apply (seen_same A _ _ us (TMaint l (delete ch' ids') t) hp hb sp); fsimpl; try done; [exists (delete ch' ids'); by rewrite Hti, Ep|]. parts. by rewrite keepw_insert, keep_delete.
        -- eapply (follows_step _ _ _ _ (LTimer ch' 0 0)); [reflexivity| |].
           ++ cbn [step]. rewrite Hstep by reflexivity. parts. rewrite keepw_lookup, Ew. cbn [fmap option_fmap option_map]. rewrite keep_t, Em by done. reflexivity.
           ++ apply (seen_same A _ _ us (TLoop l (delete ch' ids')) hp hb sp); fsimpl; try done; [by exists (delete ch' ids')|]. parts. by rewrite keepw_insert, keep_delete.
      * injection Hs as <-. eapply (follows_step _ _ _ _ (LTimer ch' 0 0)); [reflexivity| |].
        -- cbn [step]. rewrite Hstep by reflexivity. parts. rewrite keepw_lookup, Ew. reflexivity.
        -- apply (seen_same A _ _ us (TLoop l (delete ch' ids')) hp hb sp); fsimpl; try done; [by exists (delete ch' ids')].
    + pose proof (pick_out (pid A) _ _ _ Ei Ep) as Hc. apply follows_not.
      destruct (wheel s !! l_hand l) as [m|] eqn:Ew.
      * unfold slot_remove_task in Hs. destruct (m !! i) as [t|] eqn:Em; injection Hs as <-.
        -- assert (t_id t = i) as Hti by (by apply (wf_key s Hwf (l_hand l) m)).
           apply (seen_same A _ _ us (TLoop l ids') hp hb sp); fsimpl; try done; [exists ids'; by rewrite Hti, Ep, Hc|]. parts. rewrite (keepw_same _ _ _ _ _ Ew); [done|]. by apply keep_delete_f.
        -- apply (seen_same A _ _ us (TLoop l ids') hp hb sp); fsimpl; try done; [exists ids'; by rewrite Hc|]. parts. rewrite (keepw_same _ _ _ _ _ Ew); [done|]. by apply keep_delete_f.
      * injection Hs as <-. apply (seen_same A _ _ us (TLoop l ids') hp hb sp); fsimpl; try done. exists ids'. by rewrite Hc.
  - (* TMaint *) destruct Htp as (ids' & Hids & ->). destruct (decide (insts s !! rec = None)) as [Hrec|]; [|discriminate Hs].
    destruct (pid A (t_id t)) eqn:Ep.
    + assert (keep (prec A) (insts s) !! rec = None) as Hrec' by (by apply keep_none).
      destruct (t_maxpar t) as [mx|] eqn:Emx; [destruct (flags s !! t_id t) as [m|] eqn:Ef; [destruct (mx <=? m_num m) eqn:Eq|]|]; injection Hs as <-.
      all: eapply (follows_step _ _ _ _ (LTimer 0 rec 0)); [reflexivity|cbn [step]; unfold timer_step; parts; rewrite decide_True by exact Hrec'; rewrite ?Emx, ?keep_t, ?Ef, ?Eq by done; reflexivity|].
      1: apply (seen_same A _ _ us (TPark l ids' t false) hp hb sp).
      7: apply (seen_same A _ _ us (TSpawn l ids' t rec) hp hb sp).
      13: apply (seen_same A _ _ us (TLoop l ids') hp hb sp).
      19: apply (seen_same A _ _ us (TSpawn l ids' t rec) hp hb sp).
      all: fsimpl; try done; try (exists ids'; by rewrite ?Ep).
      all: parts; by rewrite ?Ep.
    + apply follows_not. apply (seen_same A _ _ us (TLoop l ids') hp hb sp); destruct (t_maxpar t) as [mx|]; try (destruct (flags s !! t_id t) as [m|]; [destruct (mx <=? m_num m) eqn:Eq|]); injection Hs as <-; fsimpl; try done.
      all: try (exists ids'; by rewrite ?Ep).
      all: parts; by rewrite ?Ep.
  - (* TSpawn *) destruct Htp as (ids' & Hids & ->).
    assert (prec A rec0 = pid A (t_id t)) as Hrec.
    { apply (launched_in A (log s1)); [done|]. eexists _, _, _. destruct (get_maximum_running_time pf t (l_ts l)); injection Hs as <-; fsimpl; left. }
    destruct (pid A (t_id t)) eqn:Ep; destruct (get_maximum_running_time pf t (l_ts l)) as [e|] eqn:Ee; injection Hs as <-.
    1,2: eapply (follows_step _ _ _ _ (LTimer 0 0 0)); [reflexivity|cbn [step]; unfold timer_step; parts; rewrite Ee; reflexivity|].
    1: apply (seen_same A _ _ us (TSend l ids' t rec0 e) hp hb sp).
    7: apply (seen_same A _ _ us TDead hp hb sp).
    13: apply follows_not, (seen_same A _ _ us (TLoop l ids') hp hb sp).
    19: apply follows_not, (seen_same A _ _ us (TLoop l ids') hp hb sp).
    all: fsimpl; try done; try (exists ids'; by rewrite ?Ep); try (by left); try (right; eauto; fail).
    all: parts; rewrite ?Ep; by rewrite ?keep_insert, ?keep_insert_f by done.
  - (* TSend *) destruct Htp as (ids' & Hids & ->). injection Hs as <-. destruct (pid A (t_id t)) eqn:Ep.
    + eapply (follows_step _ _ _ _ (LTimer 0 0 0)); [reflexivity|reflexivity|].
      apply (seen_same A _ _ us (TGate l ids' t rec0) hp hb sp); fsimpl; try done; [exists ids'; by rewrite ?Ep|]. parts. by rewrite Ep.
    + apply follows_not, (seen_same A _ _ us (TLoop l ids') hp hb sp); fsimpl; try done; [exists ids'; by rewrite ?Ep|]. parts. by rewrite Ep, app_nil_r.
  - (* TGate *) destruct Htp as (ids' & Hids & ->).
    assert (prec A rec0 = pid A (t_id t)) as Hrec by (apply (launched_in A (log s)); [done|]; by eapply (be_gate s Hb)).
    assert (forall t', down_count_and_set_valid pf t = Ret t' -> t_id t' = t_id t) as Hid.
    { intros t'. unfold down_count_and_set_valid. destruct (down_count pf (t_freq t)); [|discriminate]. cbn. intros E. by injection E as <-. }
    destruct (pid A (t_id t)) eqn:Ep; destruct (down_count_and_set_valid pf t) as [t'|] eqn:Ee; [destruct (t_valid t') eqn:Ev| |destruct (t_valid t') eqn:Ev|]; injection Hs as <-.
    1-3: eapply (follows_step _ _ _ _ (LTimer 0 0 0)); [reflexivity|cbn [step]; unfold timer_step; parts; rewrite Ee, ?Ev; reflexivity|].
    1: apply (seen_same A _ _ us (TPark l ids' t' true) hp hb sp).
    7: apply (seen_same A _ _ us (TLoop l ids') hp hb sp).
    13: apply (seen_same A _ _ us TDead hp hb sp).
    19: apply follows_not, (seen_same A _ _ us (TLoop l ids') hp hb sp).
    25: apply follows_not, (seen_same A _ _ us (TLoop l ids') hp hb sp).
    31: apply follows_not, (seen_same A _ _ us (TLoop l ids') hp hb sp).
    all: fsimpl; try done; try (exists ids'; by rewrite ?(Hid t'), ?Ep); try (by left); try (right; eauto; fail).
    all: parts; rewrite ?Ep; by rewrite ?keep_alter, ?keep_alter_f by done.
  - (* TPark *) destruct Htp as (ids' & Hids & ->). cbv zeta in Hs.
    assert (forall o t', get_next_exec_timestamp pf t = Ret (o, t') -> t_id t' = t_id t) as Hid by (intros o t' E; by eapply next_exec_id).
    destruct (get_next_exec_timestamp pf t) as [[[exec|] t']|] eqn:En.
    2: { injection Hs as <-. destruct (pid A (t_id t)) eqn:Ep.
      - eapply (follows_step _ _ _ _ (LTimer 0 0 0)); [reflexivity|cbn [step]; unfold timer_step; parts; rewrite En; reflexivity|].
        apply (seen_same A _ _ us (TLoop l ids') hp hb sp); fsimpl; try done; [by exists ids'|]. parts. by rewrite Ep.
      - apply follows_not, (seen_same A _ _ us (TLoop l ids') hp hb sp); fsimpl; try done; [by exists ids'|]. parts. by rewrite Ep. }
    2: { injection Hs as <-. destruct (pid A (t_id t)) eqn:Ep.
      - eapply (follows_step _ _ _ _ (LTimer 0 0 0)); [reflexivity|cbn [step]; unfold timer_step; parts; rewrite En; reflexivity|].
        apply (seen_same A _ _ us TDead hp hb sp); fsimpl; try done. by left.
      - apply follows_not, (seen_same A _ _ us (TLoop l ids') hp hb sp); fsimpl; try done. right. eauto. }
    specialize (Hid _ _ eq_refl).
    destruct (add64 pf (park_distance exec (l_ts l)) (l_next l)) as [sum|] eqn:Ea.
    2: { injection Hs as <-. destruct (pid A (t_id t)) eqn:Ep.
      - eapply (follows_step _ _ _ _ (LTimer 0 0 0)); [reflexivity|cbn [step]; unfold timer_step; parts; rewrite En; cbv zeta; rewrite Ea; reflexivity|].
        apply (seen_same A _ _ us TDead hp hb sp); fsimpl; try done. by left.
      - apply follows_not, (seen_same A _ _ us (TLoop l ids') hp hb sp); fsimpl; try done. right. eauto. }
    destruct (wheel s !! (sum mod SLOTS)) as [m|] eqn:Ew; injection Hs as <-; destruct (pid A (t_id t)) eqn:Ep.
    1,3: eapply (follows_step _ _ _ _ (LTimer 0 0 0)); [reflexivity|cbn [step]; unfold timer_step; parts; rewrite En; cbv zeta; rewrite Ea, keepw_lookup, Ew; reflexivity|].
    1: apply (seen_same A _ _ us (TMark l ids' (t_id t) (sum mod SLOTS) upd) hp hb sp).
    7: apply (seen_same A _ _ us (TLoop l ids') hp hb sp).
    13: apply follows_not, (seen_same A _ _ us (TLoop l ids') hp hb sp).
    19: apply follows_not, (seen_same A _ _ us (TLoop l ids') hp hb sp).
    all: fsimpl; try done; try (exists ids'; by rewrite ?Ep).
    all: parts; rewrite ?Ep; unfold slot_add_task.
    + f_equal. rewrite keepw_insert, keep_insert by (cbn [t_id set_cylinder_line]; by rewrite Hid). reflexivity.
    + f_equal. rewrite (keepw_same _ _ _ _ _ Ew); [reflexivity|]. apply keep_insert_f. cbn [t_id set_cylinder_line]. by rewrite Hid.
  - (* TMark *) destruct Htp as (ids' & Hids & ->). destruct (mark_locked s tid) eqn:El; [discriminate Hs|]. destruct (pid A tid) eqn:Ep.
    + assert (mark_locked (part_of A (TMark l ids' tid sl upd) hp hb sp us s) tid = false) as El'.
      { unfold mark_locked in *. change (hpc (part_of A (TMark l ids' tid sl upd) hp hb sp us s)) with hp. clear - El Hhp. destruct (hpc s); cbn [hand_in handler_in] in Hhp; try (rewrite Hhp; try match goal with |- context [pid ?a ?b] => destruct (pid a b) end; first [done|exact El]). by destruct Hhp as [->| ->]. }
      destruct (flags s !! tid) as [m|] eqn:Ef; injection Hs as <-.
      all: eapply (follows_step _ _ _ _ (LTimer 0 0 0)); [reflexivity|cbn [step]; unfold timer_step; change (tpc (part_of A (TMark l ids' tid sl upd) hp hb sp us s)) with (TMark l ids' tid sl upd); cbn iota; rewrite El'; parts; rewrite keep_t, Ef by done; reflexivity|].
      all: apply (seen_same A _ _ us (TLoop l ids') hp hb sp); fsimpl; try done; try (by exists ids').
      parts. by rewrite keep_insert.
    + apply follows_not, (seen_same A _ _ us (TLoop l ids') hp hb sp).
      all: destruct (flags s !! tid) as [m|] eqn:Ef; injection Hs as <-; fsimpl; try done; try (by exists ids').
      parts. by rewrite keep_insert_f.
  - (* TLapse *) subst tp. injection Hs as <-. eapply (follows_step _ _ _ _ (LTimer 0 0 now)); [reflexivity|reflexivity|].
    eapply (seen_same A _ _ us _ hp hb sp); fsimpl; try done.
  - discriminate Hs.
  - discriminate Hs.
Qed.

(** ** One step of the event handler *)
Lemma part_complete A tp hp sp us ok y : (forall p, hpub y = Some p -> pid A (pub_id p) = true) ->
  complete ok (part_of A tp hp (hpub y) sp us y) = part_of A tp HIdle None sp us (complete ok y).
Proof. intros H. parts. destruct (hpub y) as [p|]; [|reflexivity]. destruct ok; [|reflexivity]. cbn [List.filter obs_in]. by rewrite (H p eq_refl). Qed.
Lemma part_complete_out A tp hp hb sp us ok y : (forall p, hpub y = Some p -> pid A (pub_id p) = false) ->
  part_of A tp hp hb sp us (complete ok y) = part_of A tp hp hb sp us y.
Proof. intros H. parts. destruct (hpub y) as [p|]; [|reflexivity]. destruct ok; [|reflexivity]. cbn [List.filter obs_in]. by rewrite (H p eq_refl). Qed.
Lemma quit_keep A tid rec tr : pid A tid = true -> quit_one_task_handler tid rec (keep (pid A) tr) = keep (pid A) <$> quit_one_task_handler tid rec tr.
Proof.
  intros E. unfold quit_one_task_handler. rewrite keep_t by done. destruct (tr !! tid) as [l|]; [|done]. destruct (take_rec hb_rec rec l) as [[x l']|]; [|done]. cbn. by rewrite keep_insert.
Qed.
Lemma quit_out A tid rec tr tr' : pid A tid = false -> quit_one_task_handler tid rec tr = Some tr' -> keep (pid A) tr' = keep (pid A) tr.
Proof.
  intros E. unfold quit_one_task_handler. destruct (tr !! tid) as [l|]; [|done]. destruct (take_rec hb_rec rec l) as [[x l']|]; [|done]. intros H. injection H as <-. by apply keep_insert_f.
Qed.
Lemma ended_fun fin tid rec st s a b : ended fin tid rec st s a -> ended fin tid rec st s b -> a = b.
Proof. intros H1 H2. destruct H1, H2; try congruence; simplify_eq; try congruence; done. Qed.
Lemma appended_fun tid hb s a b : appended tid hb s a -> appended tid hb s b -> a = b.
Proof. intros H1 H2. destruct H1, H2; try congruence; simplify_eq; try congruence; done. Qed.

(** The mark of an id has chains and instances of this id. *)
Definition mark_in (A : part) (tid : N) (y : sys) : Prop :=
  forall m c l, flags y !! tid = Some m -> m_chain m = Some (c, l) -> pch A c = pid A tid /\ forall r, r ∈ l -> prec A r = pid A tid.
Lemma chain_state_in A tp hp hb sp us y c : pch A c = true -> chain_state (part_of A tp hp hb sp us y) c = chain_state y c.
Proof. intros E. unfold chain_state. parts. by rewrite keep_t. Qed.
Ltac by_con C := refine (eq_ind _ _ C _ _).
Lemma ended_part A tp hp sp us fin tid rec st y z : pid A tid = true -> mark_in A tid y -> (forall p, hpub y = Some p -> pid A (pub_id p) = true) ->
  ended fin tid rec st y z -> ended fin tid rec st (part_of A tp hp (hpub y) sp us y) (part_of A tp HIdle None sp us z).
Proof.
  intros Ep Hm Hpub Hz. set (y' := part_of A tp hp (hpub y) sp us y).
  assert (forall tr, quit_one_task_handler tid rec (trace y) = Some tr -> quit_one_task_handler tid rec (trace y') = Some (keep (pid A) tr)) as Hq.
  { intros tr E. change (trace y') with (keep (pid A) (trace y)). by rewrite quit_keep, E. }
  assert (flags y' !! tid = flags y !! tid) as Hf by (change (flags y') with (keep (pid A) (flags y)); by rewrite keep_t).
  assert (forall m c l, flags y !! tid = Some m -> m_chain m = Some (c, l) -> pch A c = true /\ forall r, r ∈ l -> prec A r = true) as Hm'.
  { intros m c l H1 H2. rewrite <- Ep. eauto. }
  destruct Hz as [E|tr E E2|tr m E E2 E3|tr m c l E E2 E3 E4|tr m c l E E2 E3 E4 E5|tr m c l z l' E E2 E3 E4 E5].
  - by_con (ended_unknown fin tid rec st y' ltac:(change (trace y') with (keep (pid A) (trace y)); by rewrite quit_keep, E)). by apply part_complete.
  - by_con (ended_nomark fin tid rec st y' _ (Hq _ E) ltac:(by rewrite Hf)). rewrite <- (part_complete A tp hp) by exact Hpub. f_equal. unfold quit_state. parts. by rewrite Ep.
  - by_con (ended_nochain fin tid rec st y' _ m (Hq _ E) ltac:(by rewrite Hf) E3). rewrite <- (part_complete A tp hp) by exact Hpub. f_equal. unfold quit_state. parts. by rewrite Ep, keep_insert.
  - destruct (Hm' _ _ _ E2 E3) as [Hc _].
    by_con (ended_dropped fin tid rec st y' _ m c l (Hq _ E) ltac:(by rewrite Hf) E3 ltac:(unfold y'; by rewrite chain_state_in)). rewrite <- (part_complete A tp hp) by exact Hpub. f_equal. unfold quit_state. parts. by rewrite Ep, keep_insert, keep_alter.
  - destruct (Hm' _ _ _ E2 E3) as [Hc _].
    by_con (ended_unlisted fin tid rec st y' _ m c l (Hq _ E) ltac:(by rewrite Hf) E3 ltac:(unfold y'; by rewrite chain_state_in) E5). rewrite <- (part_complete A tp hp) by exact Hpub. f_equal. unfold quit_state. parts. by rewrite Ep, keep_insert.
  - destruct (Hm' _ _ _ E2 E3) as [Hc Hr]. apply take_rec_perm in E5 as E6. destruct E6 as [E6 E7]. assert (prec A rec = true) as Er by (apply Hr; rewrite E6, <- E7; left).
    by_con (ended_notified fin tid rec st y' _ m c l z l' (Hq _ E) ltac:(by rewrite Hf) E3 ltac:(unfold y'; by rewrite chain_state_in) E5). rewrite <- (part_complete A tp hp) by exact Hpub. f_equal. unfold notify_instance, quit_state. parts. by rewrite Ep, Er, keep_insert, keep_alter, keepv_wake.
Qed.
Lemma ended_out A tp hp hb sp us fin tid rec st y z : pid A tid = false -> mark_in A tid y -> (forall p, hpub y = Some p -> pid A (pub_id p) = false) ->
  ended fin tid rec st y z -> part_of A tp hp hb sp us z = part_of A tp hp hb sp us y.
Proof.
  intros Ep Hm Hpub Hz.
  assert (forall m c l, flags y !! tid = Some m -> m_chain m = Some (c, l) -> pch A c = false /\ forall r, r ∈ l -> prec A r = false) as Hm'.
  { intros m c l H1 H2. rewrite <- Ep. eauto. }
  destruct Hz as [E|tr E E2|tr m E E2 E3|tr m c l E E2 E3 E4|tr m c l E E2 E3 E4 E5|tr m c l z l' E E2 E3 E4 E5]; rewrite part_complete_out by exact Hpub; try reflexivity.
  all: unfold notify_instance, quit_state; parts; rewrite Ep, (quit_out A tid rec _ _ Ep E), ?keep_insert_f by done; try reflexivity.
  - destruct (Hm' _ _ _ E2 E3) as [Hc _]. by rewrite keep_alter_f.
  - destruct (Hm' _ _ _ E2 E3) as [Hc Hr]. apply take_rec_perm in E5 as [E6 E7]. assert (prec A rec = false) as Er by (apply Hr; rewrite E6, <- E7; left).
    by rewrite Er, keep_alter_f, keepv_wake_f.
Qed.
Lemma trace_insert_keep A tid hb tr : pid A tid = true -> trace_insert tid hb (keep (pid A) tr) = keep (pid A) (trace_insert tid hb tr).
Proof. intros E. unfold trace_insert. by rewrite keep_t, keep_insert. Qed.
Lemma unit_of_in A hb : List.filter (unit_in A) (unit_of hb) = if pid A (hb_tid hb) then unit_of hb else [].
Proof. unfold unit_of. destruct (hb_end hb); cbn; [|by destruct (pid A _)]. unfold unit_in. cbn. by destruct (pid A _). Qed.
Lemma registered_part A tp hp sp us tid hb y : pid A tid = true -> hb_tid hb = tid -> (forall p, hpub y = Some p -> pid A (pub_id p) = true) ->
  registered tid hb (part_of A tp hp (hpub y) sp us y) = part_of A tp HIdle None sp us (registered tid hb y).
Proof.
  intros Ep Et Hpub. unfold registered. rewrite <- (part_complete A tp hp) by exact Hpub. f_equal. parts. by rewrite unit_of_in, Et, Ep, trace_insert_keep.
Qed.
Lemma appended_part A tp hp sp us tid hb y z : pid A tid = true -> mark_in A tid y -> hb_tid hb = tid -> prec A (hb_rec hb) = true -> (forall p, hpub y = Some p -> pid A (pub_id p) = true) ->
  appended tid hb y z -> appended tid hb (part_of A tp hp (hpub y) sp us y) (part_of A tp HIdle None sp us z).
Proof.
  intros Ep Hm Et Er Hpub Hz. set (y' := part_of A tp hp (hpub y) sp us y).
  assert (flags y' !! tid = flags y !! tid) as Hf by (change (flags y') with (keep (pid A) (flags y)); by rewrite keep_t).
  assert (forall m c l, flags y !! tid = Some m -> m_chain m = Some (c, l) -> pch A c = true) as Hm'.
  { intros m c l H1 H2. rewrite <- Ep. by eapply Hm. }
  destruct Hz as [E2|m E2 E3|m c l E2 E3 E4|m c l E2 E3 E4].
  - by_con (appended_nomark tid hb y' ltac:(by rewrite Hf)). by apply registered_part.
  - by_con (appended_nochain tid hb y' m ltac:(by rewrite Hf) E3). rewrite <- (registered_part A tp hp) by (try done; exact Hpub). f_equal. parts. by rewrite keep_insert.
  - pose proof (Hm' _ _ _ E2 E3) as Hc. by_con (appended_dropped tid hb y' m c l ltac:(by rewrite Hf) E3 ltac:(unfold y'; by rewrite chain_state_in)). rewrite <- (registered_part A tp hp) by (try done; exact Hpub). f_equal. parts. by rewrite keep_insert, keep_alter.
  - pose proof (Hm' _ _ _ E2 E3) as Hc. by_con (appended_pushed tid hb y' m c l ltac:(by rewrite Hf) E3 ltac:(unfold y'; by rewrite chain_state_in)). rewrite <- (registered_part A tp hp) by (try done; exact Hpub). f_equal. unfold push_instance. parts. by rewrite !keep_insert, keep_alter.
Qed.
Lemma registered_out A tp hp hb0 sp us tid hb y : pid A tid = false -> hb_tid hb = tid -> (forall p, hpub y = Some p -> pid A (pub_id p) = false) ->
  part_of A tp hp hb0 sp us (registered tid hb y) = part_of A tp hp hb0 sp us y.
Proof.
  intros Ep Et Hpub. unfold registered. rewrite part_complete_out by exact Hpub. parts. rewrite unit_of_in, Et, Ep, app_nil_r. unfold trace_insert. by rewrite keep_insert_f.
Qed.
Lemma appended_out A tp hp hb0 sp us tid hb y z : pid A tid = false -> mark_in A tid y -> hb_tid hb = tid -> prec A (hb_rec hb) = false -> (forall p, hpub y = Some p -> pid A (pub_id p) = false) ->
  appended tid hb y z -> part_of A tp hp hb0 sp us z = part_of A tp hp hb0 sp us y.
Proof.
  intros Ep Hm Et Er Hpub Hz.
  assert (forall m c l, flags y !! tid = Some m -> m_chain m = Some (c, l) -> pch A c = false) as Hm'.
  { intros m c l H1 H2. rewrite <- Ep. by eapply Hm. }
  destruct Hz as [E2|m E2 E3|m c l E2 E3 E4|m c l E2 E3 E4]; rewrite registered_out by (try done; exact Hpub); try reflexivity.
  - parts. by rewrite keep_insert_f.
  - pose proof (Hm' _ _ _ E2 E3) as Hc. parts. by rewrite keep_insert_f, keep_alter_f.
  - pose proof (Hm' _ _ _ E2 E3) as Hc. unfold push_instance. parts. by rewrite !keep_insert_f, keep_alter_f.
Qed.
