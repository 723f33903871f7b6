(** Moving all clock readings and dates by the same number of seconds turns executions into executions. *)
From Verif Require Import Tactics Inv Own Count Sched Arrival Frame Apart ApartRun Names.

(* ------------------------------------------------------------------ *)
(** * Specification *)

(** The same schedule [d] seconds later. *)
Definition x_secs (d : N) (x : sstate) : sstate := SState (ss_start x + d) (ss_first x) (ss_step x).
Definition x_cron (d : N) (c : cron_iter) : cron_iter :=
  CronIter (fun z => option_map (fun y => y + Z.of_N d)%Z (ci_next c (z - Z.of_N d)%Z)) (ci_prev c + Z.of_N d)%Z (ci_done c).
Definition x_freq (d : N) (f : freq) : freq :=
  match f with
  | CronExpressionRepeated c => CronExpressionRepeated (x_cron d c)
  | CronExpressionCountDown n c => CronExpressionCountDown n (x_cron d c)
  | SecondsRepeated x => SecondsRepeated (x_secs d x)
  | SecondsCountDown n x => SecondsCountDown n (x_secs d x)
  end.
Definition x_task (d : N) (t : task) : task := Task (t_uid t) (t_id t) (x_freq d (t_freq t)) (t_maxrun t) (t_cyl t) (t_valid t) (t_maxpar t).
Definition x_box (d : N) (h : hbox) : hbox := HBox (hb_tid h) (hb_rec h) (hb_start h + d) ((fun e => e + d) <$> hb_end h).
Definition x_event (d : N) (e : event) : event :=
  match e with
  | EAdd t => EAdd (x_task d t) | EInsert t => EInsert (x_task d t) | EUpdate t => EUpdate (x_task d t)
  | EFinish i r t o => EFinish i r (t + d) o
  | EAppend i h => EAppend i (x_box d h)
  | _ => e
  end.
Definition x_pub (d : N) (p : pubev) : pubev := match p with PFinish i r t o => PFinish i r (t + d) o | _ => p end.
(** The same happens, [d] seconds later. *)
Definition x_obs (d : N) (o : obs) : obs :=
  match o with
  | OLaunch u i r it ts => OLaunch u i r it (ts + d)
  | OSkip u i it ts => OSkip u i it (ts + d)
  | OPublic p => OPublic (x_pub d p)
  | OPop e => OPop (x_event d e)
  | OSweep i r e n => OSweep i r (e + d) (n + d)
  | OTick it ts => OTick it (ts + d)
  | OSend e => OSend (x_event d e)
  | OPlan u i k g e => OPlan u i k (g + d) (e + d)
  | OPark u i it ts e => OPark u i it (ts + d) (e + d)
  | _ => o
  end.
(** All dates, moved by [d], are still below 2^64. *)
Definition first_date (t : task) : N := match t_freq t with SecondsRepeated x | SecondsCountDown _ x => ss_start x | _ => 0 end.
Definition in_range (d : N) (lg : list obs) : Prop :=
  (forall t, submitted t lg -> first_date t + d < U64) /\
  (forall u i k g e, OPlan u i k g e ∈ lg -> e + d + 1 < U64) /\
  (forall u i it ts e, OPark u i it ts e ∈ lg -> e + d + 1 < U64) /\
  (forall u i r it ts t m, OLaunch u i r it ts ∈ lg -> submitted t lg -> t_uid t = u -> t_maxrun t = Some m -> m + ts + d < U64).

(* ------------------------------------------------------------------ *)
(** * Moving states *)

Definition x_slot (d : N) (m : slot) : slot := x_task d <$> m.
Definition x_boxes (d : N) (l : list hbox) : list hbox := x_box d <$> l.
Definition x_unit (d : N) (u : runit) : runit := RUnit (u_deadline u + d) (u_tid u) (u_rec u).
Definition x_loop (d : N) (l : loop) : loop := Loop (l_ts l + d) (l_hand l) (l_next l).
Definition x_hpc (d : N) (p : handler_pc) : handler_pc :=
  match p with
  | HAdd1 t c h k => HAdd1 (x_task d t) c h k | HAdd2 t c sl => HAdd2 (x_task d t) c sl
  | HUpd t sl => HUpd (x_task d t) sl | HAdv2 t => HAdv2 (x_task d t) | HAdv3 t sl => HAdv3 (x_task d t) sl
  | _ => p
  end.
Definition x_tpc (d : N) (ids : list N) (p : timer_pc) : timer_pc :=
  match p with
  | TCheck l => TCheck (x_loop d l) | TStore l => TStore (x_loop d l) | TScan l => TScan (x_loop d l) | TLapse l => TLapse (x_loop d l) | TStopped => TStopped | TDead => TDead
  | TLoop l _ => TLoop (x_loop d l) ids
  | TMaint l _ t => TMaint (x_loop d l) ids (x_task d t)
  | TSpawn l _ t r => TSpawn (x_loop d l) ids (x_task d t) r
  | TSend l _ t r e => TSend (x_loop d l) ids (x_task d t) r ((fun e => e + d) <$> e)
  | TGate l _ t r => TGate (x_loop d l) ids (x_task d t) r
  | TPark l _ t b => TPark (x_loop d l) ids (x_task d t) b
  | TMark l _ i sl b => TMark (x_loop d l) ids i sl b
  end.
Definition x_spc (d : N) (p : sweeper_pc) : sweeper_pc := match p with SSleep => SSleep | SRound nw k => SRound (nw + d) k end.
Definition x_sys (d : N) (ids : list N) (s : sys) : sys :=
  Sys (x_slot d <$> wheel s) (flags s) (hand s) (gtime s + d) (motiv s) (x_tpc d ids (tpc s)) (x_hpc d (hpc s)) (x_pub d <$> hpub s)
    (x_event d <$> queue s) (x_boxes d <$> trace s) (x_unit d <$> recq s) (x_unit d <$> heap s) (x_spc d (spc s))
    (insts s) (hdrs s) (chains s) (waiters s) (used s) (iters s) (x_obs d <$> log s).
Definition moved (d : N) (s x : sys) : Prop := exists ids, ids ≡ₚ pc_ids (tpc s) /\ x = x_sys d ids s.
Definition x_label (d : N) (lb : label) : label :=
  match lb with
  | LAdd t => LAdd (x_task d t) | LInsert t => LInsert (x_task d t) | LUpdate t => LUpdate (x_task d t)
  | LTimer ch r now => LTimer ch r (now + d)
  | LFinish r now out => LFinish r (now + d) out
  | LSweep ch now => LSweep ch (now + d)
  | _ => lb
  end.

(* ------------------------------------------------------------------ *)
(** * Dates *)

Lemma as_u64_i64 x : x < U64 -> as_u64 (as_i64 x) = x.
Proof.
  intros H. unfold as_u64, as_i64. destruct (x <? 9223372036854775808) eqn:E.
  - rewrite Z.mod_small by (unfold U64 in *; lia). lia.
  - rewrite <- (Z.mod_unique (Z.of_N x - Z.of_N U64) (Z.of_N U64) (-1) (Z.of_N x)); [lia|left; unfold U64 in *; lia|lia].
Qed.
Lemma as_u64_move d z : as_u64 z + d < U64 -> as_u64 (z + Z.of_N d) = as_u64 z + d.
Proof.
  unfold as_u64. intros H. pose proof (Z.mod_pos_bound z (Z.of_N U64) ltac:(unfold U64; lia)) as Hb. pose proof (Z.div_mod z (Z.of_N U64) ltac:(unfold U64; lia)) as Hd.
  rewrite <- (Z.mod_unique (z + Z.of_N d) (Z.of_N U64) (z / Z.of_N U64) (z mod Z.of_N U64 + Z.of_N d)); [lia|left; lia|lia].
Qed.
Lemma add64_cases pf a b : (a + b < U64 /\ add64 pf a b = Ret (a + b)) \/ (U64 <= a + b /\ add64 pf a b = match pf with Debug => Panic | Release => Ret ((a + b) mod U64) end).
Proof. unfold add64. destruct (a + b <? U64) eqn:E; [left|right]; split; try done; lia. Qed.
Lemma add64_lt pf a b x : add64 pf a b = Ret x -> x < U64.
Proof. destruct (add64_cases pf a b) as [[H ->]|[H ->]]; [by intros [= <-]|]. destruct pf; [done|]. intros [= <-]. apply N.mod_lt. discriminate. Qed.
Lemma add64_move pf a b x d : a < U64 -> b < U64 -> a + d < U64 -> add64 pf a b = Ret x -> x + d < U64 -> add64 pf (a + d) b = Ret (x + d).
Proof.
  intros Ha Hb Had Hx Hd. destruct (add64_cases pf a b) as [[H E]|[H E]]; rewrite E in Hx.
  - injection Hx as <-. rewrite add64_small by lia. f_equal. lia.
  - destruct pf; [discriminate Hx|]. injection Hx as <-.
    assert ((a + b) mod U64 = a + b - U64) as Em by (symmetry; apply (N.mod_unique _ _ 1); lia). rewrite Em in *.
    destruct (add64_cases Release (a + d) b) as [[H1 E1]|[H1 E1]]; [lia|]. rewrite E1. f_equal. symmetry. apply (N.mod_unique _ _ 1); lia.
Qed.
Lemma add64_panic pf a b d : add64 pf a b = Panic -> add64 pf (a + d) b = Panic.
Proof.
  destruct (add64_cases pf a b) as [[H E]|[H E]]; rewrite E; [discriminate|]. destruct pf; [|discriminate]. intros _. destruct (add64_cases Debug (a + d) b) as [[H1 E1]|[H1 E1]]; [lia|done].
Qed.

(* ------------------------------------------------------------------ *)
(** * Steps commute with moving *)

Ltac xsimpl := unfold x_sys, enqueue, emit, abandon_chain, set_wheel, set_flags, set_hand, set_gtime, set_motiv, set_tpc, set_hpc, set_hpub, set_queue, set_trace, set_recq,
  set_heap, set_spc, set_insts, set_hdrs, set_chains, set_waiters, set_used, set_iters, set_log; fsimpl.

Lemma x_complete d ids ok s : complete ok (x_sys d ids s) = x_sys d ids (complete ok s).
Proof. unfold complete. xsimpl. destruct (hpub s); [destruct ok|]; done. Qed.
Lemma x_get_maintainer d ids m s : get_maintainer m (x_sys d ids s) = let '(m1, s1) := get_maintainer m s in (m1, x_sys d ids s1).
Proof.
  unfold get_maintainer. destruct m as [i sl n [[c l]|]]; [|done]. cbn [m_chain]. change (chain_state (x_sys d ids s) c) with (chain_state s c). destruct (decide _); done.
Qed.
Lemma x_notify_cancel d ids m r st s : notify_cancel_finish m r st (x_sys d ids s) =
  let '(ok, m1, s1) := notify_cancel_finish m r st s in (ok, m1, x_sys d ids s1).
Proof.
  unfold notify_cancel_finish. rewrite x_get_maintainer. destruct (get_maintainer m s) as [m1 s1]. destruct m1 as [i sl n [[c l]|]]; [|done].
  cbn [m_chain]. destruct (take_rec id r l) as [[y l']|]; done.
Qed.
Lemma x_take d r (l : list hbox) : take_rec hb_rec r (x_boxes d l) = (fun p : hbox * list hbox => (x_box d (fst p), x_boxes d (snd p))) <$> take_rec hb_rec r l.
Proof.
  induction l as [|x l IH]; [done|]. change (x_boxes d (x :: l)) with (x_box d x :: x_boxes d l). cbn [take_rec]. change (hb_rec (x_box d x)) with (hb_rec x).
  destruct (decide (hb_rec x = r)); [done|]. rewrite IH. destruct (take_rec hb_rec r l) as [[y l']|]; done.
Qed.
Lemma x_quit d i r (tr : gmap N (list hbox)) : quit_one_task_handler i r (x_boxes d <$> tr) = (fun x : gmap N (list hbox) => x_boxes d <$> x) <$> quit_one_task_handler i r tr.
Proof.
  unfold quit_one_task_handler. rewrite lookup_fmap. destruct (tr !! i) as [l|]; [|done]. cbn [fmap option_fmap option_map].
  rewrite x_take. destruct (take_rec hb_rec r l) as [[y l']|]; [|done]. cbn. f_equal. by rewrite fmap_insert.
Qed.
Lemma x_cancel d ids b i r st s : cancel_task b i r st (x_sys d ids s) = x_sys d ids (cancel_task b i r st s).
Proof.
  unfold cancel_task. change (trace (x_sys d ids s)) with (x_boxes d <$> trace s). rewrite x_quit. destruct (quit_one_task_handler i r (trace s)) as [tr|]; [|by rewrite <- x_complete].
  cbn [fmap option_fmap option_map].
  change (emit (OQuit i r) (set_trace (x_boxes d <$> tr) (x_sys d ids s))) with (x_sys d ids (emit (OQuit i r) (set_trace tr s))).
  generalize (emit (OQuit i r) (set_trace tr s)). clear s tr. intros s.
  change (flags (x_sys d ids s)) with (flags s). destruct (flags s !! i) as [m|]; [|by rewrite <- x_complete].
  generalize (dec_num m). clear m. intros m. rewrite (x_notify_cancel d ids m). destruct (m_chain m) as [c|].
  - destruct (notify_cancel_finish m r st s) as [[ok m2] s2]. rewrite <- x_complete. reflexivity.
  - rewrite <- x_complete. reflexivity.
Qed.
Lemma x_finish d ids i r s : finish_task i r (x_sys d ids s) = x_sys d ids (finish_task i r s).
Proof.
  unfold finish_task. change (trace (x_sys d ids s)) with (x_boxes d <$> trace s). rewrite x_quit. destruct (quit_one_task_handler i r (trace s)) as [tr|]; [|by rewrite <- x_complete].
  cbn [fmap option_fmap option_map].
  change (emit (OQuit i r) (set_trace (x_boxes d <$> tr) (x_sys d ids s))) with (x_sys d ids (emit (OQuit i r) (set_trace tr s))).
  generalize (emit (OQuit i r) (set_trace tr s)). clear s tr. intros s.
  change (flags (x_sys d ids s)) with (flags s). destruct (flags s !! i) as [m|]; [|by rewrite <- x_complete].
  rewrite (x_notify_cancel d ids m). destruct (m_chain m) as [c|].
  - destruct (notify_cancel_finish m r COMPLETED s) as [[ok m2] s2]. destruct ok; rewrite <- x_complete; reflexivity.
  - rewrite <- x_complete. reflexivity.
Qed.
Lemma x_maintain_mark d ids i r s : maintain_mark i r (x_sys d ids s) = x_sys d ids (maintain_mark i r s).
Proof.
  unfold maintain_mark. change (flags (x_sys d ids s)) with (flags s). destruct (flags s !! i) as [m|]; [|done].
  rewrite x_get_maintainer. destruct (get_maintainer m s) as [m1 s1]. destruct m1 as [j sl n [[c l]|]]; reflexivity.
Qed.
Lemma x_maintain d ids i hb s : maintain_task_status i (x_box d hb) (x_sys d ids s) = x_sys d ids (maintain_task_status i hb s).
Proof.
  unfold maintain_task_status. cbn [x_box hb_rec hb_end hb_tid]. rewrite x_maintain_mark. generalize (maintain_mark i (hb_rec hb) s). clear s. intros s.
  rewrite <- x_complete. f_equal.
  assert (match (fun e => e + d) <$> hb_end hb with Some e => set_recq (recq (x_sys d ids s) ++ [RUnit e (hb_tid hb) (hb_rec hb)]) (x_sys d ids s) | None => x_sys d ids s end =
    x_sys d ids match hb_end hb with Some e => set_recq (recq s ++ [RUnit e (hb_tid hb) (hb_rec hb)]) s | None => s end) as ->.
  { destruct (hb_end hb); [|done]. cbn [fmap option_fmap option_map]. xsimpl. by rewrite fmap_app. }
  generalize match hb_end hb with Some d => set_recq (recq s ++ [RUnit d (hb_tid hb) (hb_rec hb)]) s | None => s end. clear s. intros s.
  xsimpl. f_equal. unfold trace_insert. rewrite fmap_insert, lookup_fmap. f_equal. destruct (trace s !! i); cbn; [|done]. unfold x_boxes. by rewrite fmap_app.
Qed.
Lemma x_dispatch d ids e s : dispatch (x_event d e) (x_sys d ids s) = x_sys d ids (dispatch e s).
Proof.
  destruct e; cbn [x_event dispatch].
  - by rewrite <- x_complete.
  - done.
  - done.
  - change (flags (x_sys d ids s)) with (flags s). cbn [x_task t_id]. destruct (flags s !! t_id t); [done|by rewrite <- x_complete].
  - change (flags (x_sys d ids s)) with (flags s). destruct (flags s !! tid); done.
  - apply x_cancel.
  - apply x_cancel.
  - apply x_finish.
  - apply x_maintain.
  - change (flags (x_sys d ids s)) with (flags s). destruct (flags s !! tid); [done|by rewrite <- x_complete].
Qed.
Lemma x_public d e : public_of (x_event d e) = x_pub d <$> public_of e.
Proof. by destruct e. Qed.

(** ** The next due time *)
(** The dates in a task, moved by [d], are still below 2^64. *)
Definition dated (d : N) (t : task) : Prop :=
  match t_freq t with SecondsRepeated x | SecondsCountDown _ x => ss_start x + d < U64 /\ ss_step x < U64 | _ => True end.
Lemma x_ss_next pf d x e x' : ss_start x + d < U64 -> ss_step x < U64 -> ss_next pf x = Ret (e, x') -> e + d + 1 < U64 -> ss_next pf (x_secs d x) = Ret (e + d, x_secs d x').
Proof.
  intros H1 H2 H He. unfold ss_next in *. cbn [x_secs ss_start ss_first ss_step]. destruct (add64 pf (ss_start x) (if ss_first x then 0 else ss_step x)) as [y|] eqn:E; [|discriminate H].
  cbn [res_bind] in H. destruct (add64 pf y 1) as [z|] eqn:Ez; [|discriminate H]. injection H as <- <-.
  rewrite (add64_move pf _ _ y d) by (try exact E; destruct (ss_first x); unfold U64 in *; lia). cbn [res_bind].
  rewrite add64_small in Ez by lia. injection Ez as <-. rewrite add64_small by lia. cbn [res_bind]. unfold x_secs. cbn. f_equal. f_equal. f_equal. lia.
Qed.
Lemma x_cron_step d c : cron_step (x_cron d c) = let '(o, c') := cron_step c in (option_map (fun z => z + Z.of_N d)%Z o, x_cron d c').
Proof.
  unfold cron_step. cbn [x_cron ci_next ci_prev ci_done]. destruct (ci_done c) eqn:Ed; [cbn; unfold x_cron; by rewrite Ed|]. rewrite Z.add_simpl_r. destruct (ci_next c (ci_prev c)); reflexivity.
Qed.
Lemma ss_next_lt pf x e x' : ss_next pf x = Ret (e, x') -> e < U64.
Proof.
  unfold ss_next. destruct (add64 pf (ss_start x) (if ss_first x then 0 else ss_step x)) as [y|] eqn:E; [|discriminate]. cbn [res_bind]. destruct (add64 pf y 1); [|discriminate]. intros [= <- <-]. by eapply add64_lt.
Qed.
Lemma x_next pf d t e t' : dated d t -> get_next_exec_timestamp pf t = Ret (Some e, t') -> e + d + 1 < U64 -> get_next_exec_timestamp pf (x_task d t) = Ret (Some (e + d), x_task d t').
Proof.
  intros Hd H He. unfold dated in Hd. unfold get_next_exec_timestamp in *. cbn [x_task t_freq]. destruct (t_freq t) as [c|n c|x|n x]; cbn [x_freq next_alarm_timestamp] in *.
  1,2: rewrite x_cron_step; destruct (cron_step c) as [[z|] c']; cbn [res_bind option_map] in *; [|discriminate H]; injection H; intros <- <-; rewrite as_u64_move by lia; reflexivity.
  all: destruct Hd as [H1 H2]; destruct (ss_next pf x) as [[y x']|] eqn:E; cbn [res_bind option_map] in H; [|discriminate H]; pose proof (ss_next_lt _ _ _ _ E) as Hy;
    injection H; intros <- <-; rewrite as_u64_i64 in He by done; rewrite (x_ss_next pf d x y x') by done; cbn [res_bind option_map]; rewrite !as_u64_i64 by lia; reflexivity.
Qed.
Lemma x_next_none pf d t t' : get_next_exec_timestamp pf t = Ret (None, t') -> exists t2, get_next_exec_timestamp pf (x_task d t) = Ret (None, t2).
Proof.
  intros H. unfold get_next_exec_timestamp in *. cbn [x_task t_freq]. destruct (t_freq t) as [c|n c|x|n x]; cbn [x_freq next_alarm_timestamp] in *.
  1,2: rewrite x_cron_step; destruct (cron_step c) as [[z|] c']; cbn [res_bind option_map] in *; [discriminate H|eauto].
  all: destruct (ss_next pf x) as [[y x']|]; cbn [res_bind option_map] in H; discriminate H.
Qed.
Lemma release_next t : get_next_exec_timestamp Release t <> Panic.
Proof.
  unfold get_next_exec_timestamp. destruct (t_freq t) as [c|n c|x|n x]; cbn [next_alarm_timestamp]; try (destruct (cron_step c); discriminate).
  all: unfold ss_next, add64, res_bind; intros H; repeat case_match; simplify_eq.
Qed.

(** ** The dates of the tasks in the timer *)
Lemma follows_dated pf x0 l i : Spec.follows pf (inr x0) l i -> exists x, i = inr x /\ ss_step x = ss_step x0 /\
  match l with [] => x = x0 | e :: _ => e + 1 < U64 -> ss_start x = e + 1 end.
Proof.
  induction 1 as [|l i1 z i2 Hf (x1 & -> & Es & _) Hn]; [by exists x0|]. cbn [iter_next] in Hn. destruct (ss_next pf x1) as [[y x']|] eqn:E; [|discriminate Hn].
  injection Hn as <- <-. exists x'. pose proof (ss_next_lt _ _ _ _ E) as Hy. rewrite as_u64_i64 by done. split; [done|]. unfold ss_next in E.
  destruct (add64 pf (ss_start x1) _) as [y0|] eqn:E0; [|discriminate E]. cbn [res_bind] in E. destruct (add64 pf y0 1) as [w|] eqn:Ew; [|discriminate E]. injection E as <- <-. cbn [ss_step ss_start].
  split; [done|]. intros Hlt. rewrite add64_small in Ew by done. by injection Ew as <-.
Qed.
Lemma planned_in u e lg : e ∈ planned u lg -> (exists i k g, OPlan u i k g e ∈ lg) \/ exists i it ts, OPark u i it ts e ∈ lg.
Proof.
  induction lg as [|o lg IH]; [by intros ?%elem_of_nil|]. intros H.
  assert (e ∈ planned u lg \/ (exists i k g, o = OPlan u i k g e) \/ exists i it ts, o = OPark u i it ts e) as [H1|[(i & k & g & ->)|(i & it & ts & ->)]].
  { destruct o; cbn [planned] in H; auto.
    all: destruct (_ =? u) eqn:E; [apply N.eqb_eq in E as ->; apply elem_of_cons in H as [->|H]; eauto 10|auto]. }
  - destruct (IH H1) as [(i & k & g & ?)|(i & it & ts & ?)]; [left|right]; do 3 eexists; right; eassumption.
  - left. do 3 eexists. left.
  - right. do 3 eexists. left.
Qed.
Lemma submitted_fresh pf t0 t1 s t : reachable pf t0 t1 s -> submitted t (log s) -> fresh_task t = true.
Proof.
  revert s. apply (reach_ind pf t0 t1 (fun s => submitted t (log s) -> fresh_task t = true)).
  - intros (e & He & Ht). change (OSend e ∈ [OTick 0 t1]) in He. apply elem_of_list_singleton in He. discriminate He.
  - intros lb s s' _ IH Hs Ht. destruct (submitted_step _ _ _ _ _ Hs Ht) as [H|[(_ & H & _) _]]; [by apply IH|exact H].
Qed.
Lemma held_dated pf t0 t1 d s t : reachable pf t0 t1 s -> in_range d (log s) -> t ∈ held s -> dated d t.
Proof.
  intros Hr (R1 & R2 & R3 & _) Ht. destruct (ci_held _ (cnt_reach _ _ _ _ Hr) t Ht) as (a & Ha & Hu & _). pose proof (submitted_fresh _ _ _ _ _ Hr Ha) as Hfr.
  destruct (Sched.f_sub _ _ (Sched.finv_reach _ _ _ _ Hr) a Ha) as (i & Hf & Hi). specialize (Hi t Ht (eq_sym Hu)). specialize (R1 a Ha).
  assert (forall x0, iter_of (t_freq a) = inr x0 -> ss_start x0 + d < U64 /\ ss_step x0 < U64) as H0.
  { intros x0 E. unfold fresh_task, freq_in_range in Hfr. unfold first_date in R1. destruct (t_freq a); try discriminate E; injection E as <-; rewrite !andb_true_iff in Hfr; split; try done; lia. }
  assert (forall x, iter_of (t_freq t) = inr x -> ss_start x + d < U64 /\ ss_step x < U64) as H1.
  { intros x E. rewrite Hi in E. rewrite E in Hf. destruct (iter_of (t_freq a)) as [c|x0].
    - exfalso. clear -Hf. remember (inl c) as i0 eqn:E0. remember (inr x) as i1 eqn:E1. revert c x E0 E1. induction Hf as [|l j z j2 Hf IH Hn]; intros c x -> E1; [discriminate E1|].
      destruct j as [c1|x1]; [|by eapply IH]. cbn in Hn. destruct (cron_step c1). injection Hn as _ <-. discriminate E1.
    - specialize (H0 x0 eq_refl). apply follows_dated in Hf as (x' & [= <-] & Es & Hl). rewrite Es. destruct (planned (t_uid a) (log s)) as [|e l] eqn:El; [by subst|].
      assert (e ∈ planned (t_uid a) (log s)) as Hin by (rewrite El; left). apply planned_in in Hin as [(j & k & g & H)|(j & it & ts & H)]; [apply R2 in H|apply R3 in H].
      all: rewrite Hl by lia; split; [lia|apply H0]. }
  unfold dated. destruct (t_freq t); try done; by apply H1.
Qed.

(** ** The event handler *)
(** No thread died of an overflow. *)
Definition no_overflow (pf : profile) (s : sys) : Prop := pf = Debug -> tpc s <> TDead /\ hpc s <> HDead.
Lemma release_add a b : add64 Release a b <> Panic.
Proof. unfold add64. case_match; discriminate. Qed.

Lemma x_scan d ids s : next_scan (x_sys d ids s) = next_scan s.
Proof. unfold next_scan. cbn [x_sys tpc iters]. by destruct (tpc s). Qed.
Lemma x_slot_add d m t : slot_add_task (x_slot d m) (x_task d t) = x_slot d (slot_add_task m t).
Proof. unfold slot_add_task, x_slot. by rewrite fmap_insert. Qed.
Lemma x_slot_update d m t : slot_update_task (x_slot d m) (x_task d t) = x_slot d (slot_update_task m t).
Proof. unfold slot_update_task. destruct (_ !! _), (_ !! _); apply x_slot_add. Qed.
Lemma x_slot_remove d m i : slot_remove_task (x_slot d m) i = (x_task d <$> m !! i, x_slot d (delete i m)).
Proof. unfold slot_remove_task, x_slot. by rewrite lookup_fmap, fmap_delete. Qed.
Lemma x_set_wheel d ids sl m s : set_wheel (<[sl := x_slot d m]> (wheel (x_sys d ids s))) (x_sys d ids s) = x_sys d ids (set_wheel (<[sl := m]> (wheel s)) s).
Proof. xsimpl. f_equal. by rewrite fmap_insert. Qed.
Lemma x_wheel d ids s sl : wheel (x_sys d ids s) !! sl = x_slot d <$> wheel s !! sl.
Proof. cbn [x_sys wheel]. by rewrite lookup_fmap. Qed.
Lemma x_distance d e g i : add_distance (e + d) (g + d) i = add_distance e g i.
Proof.
  unfold add_distance, checked_sub. destruct (g <=? e) eqn:E; [apply N.leb_le in E|apply N.leb_gt in E].
  - replace (g + d <=? e + d) with true by (symmetry; apply N.leb_le; lia). lia.
  - replace (g + d <=? e + d) with false by (symmetry; apply N.leb_gt; lia). done.
Qed.
Lemma x_park_distance d e g : park_distance (e + d) (g + d) = park_distance e g.
Proof.
  unfold park_distance, checked_sub. destruct (g <=? e) eqn:E; [apply N.leb_le in E|apply N.leb_gt in E].
  - replace (g + d <=? e + d) with true by (symmetry; apply N.leb_le; lia). lia.
  - replace (g + d <=? e + d) with false by (symmetry; apply N.leb_gt; lia). done.
Qed.

Lemma x_handler d ids pf s s1 : handler_step pf s = Some s1 -> (forall t, t ∈ hpc_task (hpc s) -> dated d t) ->
  in_range d (log s1) -> no_overflow pf s1 -> handler_step pf (x_sys d ids s) = Some (x_sys d ids s1).
Proof.
  intros Hs Hd Hin Hno. unfold handler_step in *. change (hpc (x_sys d ids s)) with (x_hpc d (hpc s)). destruct (hpc s) as [|t c h k|t c sl|i c sl|t sl|i sl|t|t sl|i sl|i ok|] eqn:Eh; cbn [x_hpc].
  - change (queue (x_sys d ids s)) with (x_event d <$> queue s). destruct (queue s) as [|e q]; [discriminate Hs|]. injection Hs as <-. cbn [fmap list_fmap]. f_equal.
    rewrite <- x_dispatch. rewrite x_public. reflexivity.
  - assert (dated d t) as Hdt by (apply Hd; cbn; by left). destruct (get_next_exec_timestamp pf t) as [[[exec|] t']|] eqn:En.
    + destruct (let! a := add64 pf (add_distance exec (gtime s) (t_id t)) h in add64 pf a 1) as [seed|] eqn:Es.
      * injection Hs as <-. rewrite (x_next pf d t exec t' Hdt En).
        2: { destruct Hin as (_ & R2 & _). apply (R2 (t_uid t) (t_id t) k (gtime s) exec). left. }
        change (gtime (x_sys d ids s)) with (gtime s + d). change (t_id (x_task d t)) with (t_id t). rewrite x_distance, Es. reflexivity.
      * injection Hs as <-. exfalso. destruct pf; [destruct (Hno eq_refl) as [_ H]; by apply H|].
        destruct (add64 Release _ h) eqn:E1 in Es; [by apply release_add in Es|by apply release_add in E1].
    + injection Hs as <-. destruct (x_next_none pf d t t' En) as [t2 ->]. rewrite <- x_complete. reflexivity.
    + injection Hs as <-. exfalso. destruct pf; [destruct (Hno eq_refl) as [_ H]; by apply H|]. by apply release_next in En.
  - cbn [x_task t_id t_uid t_cyl]. rewrite x_wheel, x_scan. injection Hs as <-. destruct (wheel s !! sl) as [m|]; cbn [fmap option_fmap option_map]; [|done].
    change (Task _ _ _ _ _ _ _) with (x_task d t). rewrite x_slot_add, x_set_wheel. done.
  - injection Hs as <-. change (flags (x_sys d ids s)) with (flags s). rewrite <- x_complete. reflexivity.
  - injection Hs as <-. rewrite x_wheel. rewrite <- x_complete. do 2 f_equal. destruct (wheel s !! sl) as [m|]; cbn [fmap option_fmap option_map].
    + by rewrite x_slot_update, x_set_wheel.
    + done.
  - rewrite x_wheel. destruct (wheel s !! sl) as [m|]; cbn [fmap option_fmap option_map].
    + rewrite x_slot_remove. unfold slot_remove_task in Hs. rewrite x_set_wheel. destruct (m !! i); cbn; injection Hs as <-; [done|by rewrite <- x_complete].
    + injection Hs as <-. by rewrite x_complete.
  - by injection Hs as <-.
  - rewrite x_wheel. destruct (wheel s !! sl) as [m|]; cbn [fmap option_fmap option_map]; injection Hs as <-; [|by rewrite x_complete].
    by rewrite x_slot_add, x_set_wheel, x_complete.
  - rewrite x_wheel. destruct (wheel s !! sl) as [m|]; cbn [fmap option_fmap option_map]; injection Hs as <-; [|done].
    rewrite x_slot_remove. cbn [snd]. by rewrite x_set_wheel.
  - injection Hs as <-. change (flags (x_sys d ids s)) with (flags s). rewrite <- x_complete. reflexivity.
  - discriminate Hs.
Qed.

(** ** The scheduler *)
Lemma x_check_arrived d t : check_arrived (x_task d t) = let '(b, t') := check_arrived t in (b, x_task d t').
Proof. unfold check_arrived. cbn [x_task t_cyl]. by destruct (t_cyl t =? 0). Qed.
Lemma x_arrival_map d m : snd (slot_arrival_time_tasks (x_slot d m)) = x_slot d (snd (slot_arrival_time_tasks m)).
Proof.
  unfold slot_arrival_time_tasks, x_slot. cbn [snd]. rewrite <- !map_fmap_compose. apply map_fmap_ext. intros k t _. cbn. rewrite x_check_arrived. by destruct (check_arrived t).
Qed.
Lemma x_arrival_ids d m : (forall k t, m !! k = Some t -> t_id t = k) -> fst (slot_arrival_time_tasks (x_slot d m)) ≡ₚ fst (slot_arrival_time_tasks m).
Proof.
  intros Hk. assert (forall k t, x_slot d m !! k = Some t -> t_id t = k) as Hk'.
  { intros k t H. unfold x_slot in H. rewrite lookup_fmap in H. destruct (m !! k) as [t0|] eqn:E; [|discriminate H]. injection H as <-. by apply Hk in E. }
  apply NoDup_Permutation; [by apply arrival_nodup|by apply arrival_nodup|].
  intros x. rewrite !arrival_elem by done. unfold x_slot. rewrite lookup_fmap. split.
  - intros (t & Ht & Ha). destruct (m !! x) as [t0|]; [|discriminate Ht]. injection Ht as <-. exists t0. split; [done|]. rewrite x_check_arrived in Ha. by destruct (check_arrived t0).
  - intros (t & -> & Ha). exists (x_task d t). split; [done|]. rewrite x_check_arrived. by destruct (check_arrived t).
Qed.
Lemma x_pick (ids ids' : list N) ch x : ids' ≡ₚ ids -> ids !! ch = Some x -> exists ch', ids' !! ch' = Some x /\ delete ch' ids' ≡ₚ delete ch ids.
Proof.
  intros Hp Hx. apply delete_Permutation in Hx. rewrite Hx in Hp.
  assert (x ∈ ids') as Hin by (rewrite Hp; left). apply elem_of_list_lookup in Hin as [ch' Hc]. exists ch'. split; [done|].
  apply delete_Permutation in Hc. rewrite Hc in Hp. by apply Permutation_cons_inv in Hp.
Qed.
Lemma x_locked d ids s i : mark_locked (x_sys d ids s) i = mark_locked s i.
Proof. unfold mark_locked. cbn [x_sys hpc]. by destruct (hpc s). Qed.
Lemma x_down d f : is_down_over (x_freq d f) = is_down_over f.
Proof. by destruct f as [?|[|?] ?|?|[|?] ?]. Qed.
Lemma x_down_count pf d f f' : down_count pf f = Ret f' -> down_count pf (x_freq d f) = Ret (x_freq d f').
Proof. destruct f; cbn [x_freq down_count]; try (by intros [= <-]). all: destruct (sub64 pf n 1); cbn [res_bind]; [|discriminate]; by intros [= <-]. Qed.
Lemma release_down f : down_count Release f <> Panic.
Proof. destruct f; cbn [down_count]; try discriminate. all: unfold sub64; case_match; discriminate. Qed.
Lemma x_set_freq d f t : set_freq (x_freq d f) (x_task d t) = x_task d (set_freq f t).
Proof. done. Qed.

Lemma x_timer d pf ch rec now s s1 x : wf s -> moved d s x -> timer_step pf ch rec now s = Some s1 ->
  (forall t, t ∈ tpc_task (tpc s) -> dated d t /\ exists a, submitted a (log s) /\ t_uid a = t_uid t /\ t_maxrun a = t_maxrun t) ->
  in_range d (log s1) -> no_overflow pf s1 ->
  exists ch' x1, timer_step pf ch' rec (now + d) x = Some x1 /\ moved d s1 x1.
Proof.
  intros Hwf (ids & Hids & ->) Hs Hd Hin Hno.
  assert (forall A (r : res A), r = Panic -> (tpc s1 = TDead) -> (pf = Release -> r <> Panic) -> False) as Hbad.
  { intros A r Hr Ht Hrel. destruct pf; [by apply (proj1 (Hno eq_refl))|by apply Hrel]. }
  unfold timer_step in *. change (tpc (x_sys d ids s)) with (x_tpc d ids (tpc s)).
  destruct (tpc s) as [l|l|l|l js|l js t|l js t r|l js t r e|l js t r|l js t b|l js i sl b|l| |] eqn:Et; cbn [x_tpc pc_ids tpc_task] in *.
  - injection Hs as <-. exists 0%nat. eexists. split; [reflexivity|]. exists []. split; [fsimpl; by destruct (motiv s)|]. xsimpl. by destruct (motiv s).
  - injection Hs as <-. exists 0%nat. eexists. split; [reflexivity|]. exists []. split; [done|]. done.
  - exists 0%nat. change (l_hand (x_loop d l)) with (l_hand l). rewrite x_wheel. destruct (wheel s !! l_hand l) as [m|] eqn:Em; cbn [fmap option_fmap option_map].
    + pose proof (x_arrival_ids d m (fun k t => wf_key s Hwf _ _ k t Em)) as Hp. pose proof (x_arrival_map d m) as Hm.
      destruct (slot_arrival_time_tasks (x_slot d m)) as [is' m2]. destruct (slot_arrival_time_tasks m) as [is m1]. cbn [fst snd] in *. subst m2. injection Hs as <-.
      eexists. split; [reflexivity|]. exists is'. split; [exact Hp|]. rewrite x_set_wheel. done.
    + injection Hs as <-. eexists. split; [reflexivity|]. exists []. done.
  - change (l_hand (x_loop d l)) with (l_hand l). destruct js as [|j js'].
    + injection Hs as <-. symmetry in Hids. apply Permutation_nil in Hids as ->. exists 0%nat. eexists. split; [reflexivity|]. exists []. done.
    + destruct ((j :: js') !! ch) as [i|] eqn:Ei; [|discriminate Hs]. destruct (x_pick _ _ _ _ Hids Ei) as (ch' & Hc & Hp). exists ch'.
      destruct ids as [|j0 ids']; [by rewrite lookup_nil in Hc|]. rewrite Hc. clear Hc Ei Hids. set (is0 := j0 :: ids'). fold is0 in Hp. revert Hp. generalize (delete ch' is0). intros is1 Hp. revert Hs Hp. generalize (delete ch (j :: js')). intros js Hs Hp.
      rewrite x_wheel. destruct (wheel s !! l_hand l) as [m|]; cbn [fmap option_fmap option_map].
      * rewrite x_slot_remove. unfold slot_remove_task in Hs. rewrite x_set_wheel. destruct (m !! i) as [t|]; cbn [fmap option_fmap option_map]; injection Hs as <-.
        all: eexists; split; [reflexivity|]; exists is1; split; [exact Hp|reflexivity].
      * injection Hs as <-. eexists. split; [reflexivity|]. exists is1. split; [exact Hp|reflexivity].
  - exists 0%nat. change (insts (x_sys d ids s)) with (insts s). destruct (decide (insts s !! rec = None)) as [E|E]; [|discriminate Hs].
    cbn [x_task t_maxpar t_id t_uid]. change (flags (x_sys d ids s)) with (flags s). change (Task (t_uid t) (t_id t) (x_freq d (t_freq t)) (t_maxrun t) (t_cyl t) (t_valid t) (t_maxpar t)) with (x_task d t).
    destruct (t_maxpar t) as [mx|].
    2: { injection Hs as <-. eexists. split; [reflexivity|]. exists ids. split; [exact Hids|reflexivity]. }
    destruct (flags s !! t_id t) as [m|].
    2: { injection Hs as <-. eexists. split; [reflexivity|]. exists ids. split; [exact Hids|reflexivity]. }
    destruct (mx <=? m_num m); injection Hs as <-; (eexists; split; [reflexivity|]; exists ids; split; [exact Hids|reflexivity]).
  - exists 0%nat. destruct (Hd t ltac:(by left)) as (_ & a & Ha & Hu & Hm). destruct Hin as (_ & _ & _ & R4).
    unfold get_maximum_running_time in *. cbn [x_task t_maxrun]. destruct (t_maxrun t) as [m|].
    + assert (m + l_ts l + d < U64) as Hr.
      { destruct (add64 pf m (l_ts l)); cbn [res_bind] in Hs; injection Hs as <-; (eapply (R4 (t_uid t) (t_id t) r (iters s) (l_ts l) a m); [left| |exact Hu|exact Hm]).
        all: destruct Ha as (e & He & Ht); exists e; (split; [right; exact He|exact Ht]). }
      rewrite add64_small in Hs by lia. cbn [x_loop l_ts]. rewrite add64_small by lia. cbn [res_bind] in *. injection Hs as <-. eexists. split; [reflexivity|]. exists ids. split; [exact Hids|].
      rewrite N.add_assoc. reflexivity.
    + injection Hs as <-. eexists. split; [reflexivity|]. exists ids. split; [exact Hids|]. reflexivity.
  - exists 0%nat. injection Hs as <-. eexists. split; [reflexivity|]. exists ids. split; [exact Hids|]. xsimpl. f_equal. by rewrite fmap_app.
  - exists 0%nat. unfold down_count_and_set_valid in *. cbn [x_task t_freq]. destruct (down_count pf (t_freq t)) as [f|] eqn:Ef; cbn [res_bind] in *.
    + rewrite (x_down_count pf d _ f Ef). cbn [res_bind]. rewrite x_down. cbn [set_valid set_freq t_valid] in *. destruct (negb (is_down_over f)); injection Hs as <-.
      all: eexists; split; [reflexivity|]; exists ids; split; [exact Hids|]; reflexivity.
    + exfalso. injection Hs as <-. apply (Hbad _ _ Ef); [done|]. intros ->. apply release_down.
  - exists 0%nat. destruct (Hd t ltac:(by left)) as (Hdt & _). destruct (get_next_exec_timestamp pf t) as [[[exec|] t']|] eqn:En.
    + destruct (add64 pf (park_distance exec (l_ts l)) (l_next l)) as [sum|] eqn:Es.
      * destruct (proj2 (wf_wheel s Hwf (sum mod SLOTS)) ltac:(apply N.mod_lt; discriminate)) as [m Em].
        rewrite Em in Hs. injection Hs as <-. rewrite (x_next pf d t exec t' Hdt En).
        2: { destruct Hin as (_ & _ & R3 & _). apply (R3 (t_uid t) (t_id t) (iters s) (l_ts l) exec). left. }
        cbn [x_loop l_ts l_next]. rewrite x_park_distance, Es, x_wheel, Em. cbn [fmap option_fmap option_map].
        change (set_cylinder_line (park_distance exec (l_ts l) / SLOTS) (x_task d t')) with (x_task d (set_cylinder_line (park_distance exec (l_ts l) / SLOTS) t')).
        rewrite x_slot_add, x_set_wheel. eexists. split; [reflexivity|]. exists ids. split; [exact Hids|reflexivity].
      * exfalso. injection Hs as <-. apply (Hbad _ _ Es); [done|]. intros ->. apply release_add.
    + injection Hs as <-. destruct (x_next_none pf d t t' En) as [t2 ->]. eexists. split; [reflexivity|]. exists ids. split; [exact Hids|reflexivity].
    + exfalso. injection Hs as <-. apply (Hbad _ _ En); [done|]. intros ->. apply release_next.
  - exists 0%nat. rewrite x_locked. destruct (mark_locked s i); [discriminate Hs|].
    change (flags (x_sys d ids s)) with (flags s). destruct (flags s !! i) as [m|]; injection Hs as <-.
    all: eexists; split; [reflexivity|]; exists ids; split; [exact Hids|reflexivity].
  - exists 0%nat. injection Hs as <-. eexists. split; [reflexivity|]. exists []. done.
  - discriminate Hs.
  - discriminate Hs.
Qed.

(** ** The others *)
Lemma x_enqueue d ids e s : enqueue (x_event d e) (x_sys d ids s) = x_sys d ids (enqueue e s).
Proof. xsimpl. f_equal. by rewrite fmap_app. Qed.
Lemma x_fresh d t : fresh_task t = true -> first_date t + d < U64 -> fresh_task (x_task d t) = true.
Proof.
  unfold fresh_task, first_date. cbn [x_task t_id t_freq t_maxrun t_maxpar t_cyl t_valid]. rewrite !andb_true_iff. intros [[[[[H H1] H2] H3] H4] H5] Hd. repeat split; try done.
  destruct (t_freq t); cbn [x_freq freq_in_range x_secs ss_start ss_step] in *; try done; rewrite !andb_true_iff in *; repeat split; try tauto; by apply N.ltb_lt.
Qed.
Lemma x_submit d ids (ev : task -> event) t s s1 : x_event d (ev t) = ev (x_task d t) -> submits t (ev t) -> in_range d (log s1) -> submit ev t s = Some s1 ->
  submit ev (x_task d t) (x_sys d ids s) = Some (x_sys d ids s1).
Proof.
  intros He Hev Hin Hs. unfold submit in *. destruct (fresh_task t) eqn:Ef; [|discriminate Hs]. cbn [andb] in Hs. change (used (x_sys d ids s)) with (used s). change (t_uid (x_task d t)) with (t_uid t).
  destruct (negb _) eqn:Eb; [|discriminate Hs]. injection Hs as <-. rewrite (x_fresh d t Ef).
  2: { destruct Hin as (R1 & _). apply R1. exists (ev t). split; [left|exact Hev]. }
  cbn [andb]. rewrite <- x_enqueue, He. reflexivity.
Qed.
Lemma x_least d (h : list runit) : least_deadline (x_unit d <$> h) = (fun e => e + d) <$> least_deadline h.
Proof.
  induction h as [|u h IH]; [done|]. change (x_unit d <$> u :: h) with (x_unit d u :: (x_unit d <$> h)). cbn [least_deadline]. rewrite IH. destruct (least_deadline h); [|done].
  cbn. f_equal. lia.
Qed.
Lemma x_delete d ch (h : list runit) : x_unit d <$> delete ch h = delete ch (x_unit d <$> h).
Proof. revert ch. induction h as [|u h IH]; intros [|ch]; [done..|]. cbn. f_equal. apply IH. Qed.

Lemma x_other d ids pf lb s s1 : step pf lb s = Some s1 -> in_range d (log s1) ->
  match lb with LTimer _ _ _ | LHandler => False | _ => True end -> step pf (x_label d lb) (x_sys d ids s) = Some (x_sys d ids s1).
Proof.
  intros Hs Hin Hl. destruct lb; try destruct Hl; cbn [step x_label] in *.
  - apply x_submit; [done|by left|done|done].
  - unfold submit_insert, option_map in *. destruct (submit EInsert t s) as [s'|] eqn:E; [|discriminate Hs]. injection Hs as <-. rewrite (x_submit d ids EInsert t s s'); [|done|by right; left|exact Hin|exact E].
    reflexivity.
  - apply x_submit; [done|by right; right|done|done].
  - injection Hs as <-. f_equal. apply (x_enqueue d ids (ERemove tid)).
  - injection Hs as <-. f_equal. apply (x_enqueue d ids (EAdvance tid)).
  - injection Hs as <-. f_equal. apply (x_enqueue d ids (ECancel tid rec)).
  - injection Hs as <-. f_equal. apply (x_enqueue d ids EStop).
  - unfold next_check in *. change (chains (x_sys d ids s)) with (chains s). destruct (chains s !! c) as [x|]; [|discriminate Hs].
    destruct (c_state x =? DROPPED); [discriminate Hs|]. destruct (c_state x =? ABANDONED); by injection Hs as <-.
  - unfold next_take in *. change (chains (x_sys d ids s)) with (chains s). destruct (chains s !! c) as [[st bf gt pd]|]; [|discriminate Hs]. cbn [c_state c_buf c_got c_pend] in *.
    destruct pd as [|pd]; [discriminate Hs|]. destruct bf as [|r b]; [destruct (st =? ABANDONED)|]; by injection Hs as <-.
  - unfold next_take in *. change (chains (x_sys d ids s)) with (chains s). destruct (chains s !! c) as [[st bf gt pd]|]; [|discriminate Hs]. cbn [c_state c_buf c_got c_pend] in *.
    destruct pd as [|pd]; [discriminate Hs|]. destruct bf as [|r b]; [destruct (st =? ABANDONED); [|discriminate Hs]|]; by injection Hs as <-.
  - unfold chain_drop in *. change (chains (x_sys d ids s)) with (chains s). destruct (chains s !! c) as [[st bf gt pd]|]; [|discriminate Hs]. cbn [c_state c_buf c_got c_pend] in *.
    destruct pd as [|pd]; [|discriminate Hs]. destruct (st =? DROPPED); [discriminate Hs|]. by injection Hs as <-.
  - unfold inst_cancel in *. change (waiters (x_sys d ids s)) with (waiters s). change (hdrs (x_sys d ids s)) with (hdrs s). change (chains (x_sys d ids s)) with (chains s).
    destruct (waiters s !! w); [discriminate Hs|]. destruct (hdrs s !! rec) as [[st i c]|]; [|discriminate Hs]. cbn [h_state h_tid h_chain] in *.
    destruct (chains s !! c) as [x|]; [|discriminate Hs]. destruct (bool_decide (rec ∈ c_got x)); [|discriminate Hs].
    cbn [andb] in *. destruct (st =? RUNNING); [|discriminate Hs]. injection Hs as <-. f_equal. rewrite <- x_enqueue. reflexivity.
  - unfold inst_listen in *. change (waiters (x_sys d ids s)) with (waiters s). destruct (waiters s !! w) as [[r ph]|]; [|discriminate Hs]. destruct ph; try discriminate Hs. by injection Hs as <-.
  - unfold inst_return in *. change (waiters (x_sys d ids s)) with (waiters s). destruct (waiters s !! w) as [[r ph]|]; [|discriminate Hs]. destruct ph; try discriminate Hs. cbn [w_rec w_phase] in *.
    change (hdrs (x_sys d ids s)) with (hdrs s). destruct (hdrs s !! r) as [h|]; [|discriminate Hs]. by injection Hs as <-.
  - unfold routine_panic in *. cbn [x_sys tpc]. destruct (tpc s); try discriminate Hs. by injection Hs as <-.
  - unfold inst_finish in *. change (insts (x_sys d ids s)) with (insts s). destruct (insts s !! rec) as [[i u g f]|]; [|discriminate Hs].
    destruct g; [|discriminate Hs]. destruct f; try discriminate Hs. injection Hs as <-. cbn [i_tid i_uid i_gate i_fate]. f_equal. rewrite <- x_enqueue. reflexivity.
  - unfold inst_panic in *. change (insts (x_sys d ids s)) with (insts s). destruct (insts s !! rec) as [[i u g f]|]; [|discriminate Hs].
    destruct f; try discriminate Hs. by injection Hs as <-.
  - unfold sweep_recv in *. cbn [x_sys spc recq]. destruct (spc s); [|discriminate Hs]. destruct (recq s) as [|u q]; [discriminate Hs|]. by injection Hs as <-.
  - unfold sweep_step in *. change (spc (x_sys d ids s)) with (x_spc d (spc s)). change (heap (x_sys d ids s)) with (x_unit d <$> heap s). destruct (spc s) as [|nw k]; cbn [x_spc]; [by injection Hs as <-|].
    destruct (k =? 0); [by injection Hs as <-|]. rewrite x_least. destruct (least_deadline (heap s)) as [e|]; cbn [fmap option_fmap option_map]; [|by injection Hs as <-].
    assert ((e + d <=? nw + d) = (e <=? nw)) as -> by (destruct (e <=? nw) eqn:E; [apply N.leb_le in E; apply N.leb_le|apply N.leb_gt in E; apply N.leb_gt]; lia).
    destruct (e <=? nw); [|by injection Hs as <-].
    rewrite list_lookup_fmap. destruct (heap s !! ch) as [u|]; [|discriminate Hs]. cbn [fmap option_fmap option_map x_unit u_deadline u_tid u_rec].
    assert ((u_deadline u + d =? e + d) = (u_deadline u =? e)) as -> by (destruct (u_deadline u =? e) eqn:E; [apply N.eqb_eq in E; apply N.eqb_eq|apply N.eqb_neq in E; apply N.eqb_neq]; lia).
    destruct (u_deadline u =? e); [|discriminate Hs].
    injection Hs as <-. f_equal. rewrite <- x_delete.
    change (set_heap (x_unit d <$> delete ch (heap s)) (x_sys d ids s)) with (x_sys d ids (set_heap (delete ch (heap s)) s)).
    change (ETimeout (u_tid u) (u_rec u)) with (x_event d (ETimeout (u_tid u) (u_rec u))) at 1. rewrite x_enqueue. reflexivity.
Qed.

(* ------------------------------------------------------------------ *)
(** * Executions *)

Lemma dead_stays pf lb s s1 : step pf lb s = Some s1 -> (tpc s = TDead -> tpc s1 = TDead) /\ (hpc s = HDead -> hpc s1 = HDead).
Proof.
  intros Hs. split; intros E.
  - destruct lb as [| | | | | | | | | | | | | |ch rec now| | | | | |] eqn:El; try (rewrite (tpc_other _ _ _ _ Hs I); exact E).
    + cbn [step] in Hs. unfold timer_step in Hs. rewrite E in Hs. discriminate Hs.
    + cbn [step] in Hs. unfold routine_panic in Hs. rewrite E in Hs. discriminate Hs.
  - revert Hs E. intros H E. step_inv H; inst_shape; fsimpl; try exact E. all: try (rewrite E in *; discriminate).
Qed.
Lemma in_range_mono d lg lg' : in_range d (lg' ++ lg) -> in_range d lg.
Proof.
  assert (forall o, o ∈ lg -> o ∈ lg' ++ lg) as Hm by (intros o H; apply elem_of_app; by right).
  assert (forall t, submitted t lg -> submitted t (lg' ++ lg)) as Hsub by (intros t (e & He & Ht); exists e; auto).
  intros (R1 & R2 & R3 & R4). split; [|split; [|split]].
  - intros t H. by apply R1, Hsub.
  - intros u i k g e H. apply (R2 u i k g e). by apply Hm.
  - intros u i it ts e H. apply (R3 u i it ts e). by apply Hm.
  - intros u i r it ts t m H Ht. apply (R4 u i r it ts t m); auto.
Qed.
Lemma x_step d pf t0 t1 lb s s1 x : reachable pf t0 t1 s -> moved d s x -> step pf lb s = Some s1 -> in_range d (log s1) -> no_overflow pf s1 ->
  exists lb' x1, step pf lb' x = Some x1 /\ moved d s1 x1.
Proof.
  intros Hr Hx Hs Hin Hno. pose proof (wf_reach _ _ _ _ Hr) as Hwf. destruct (step_log _ _ _ _ Hs) as [lg El0].
  assert (in_range d (log s)) as Hin0 by (apply (in_range_mono d _ lg); rewrite <- El0; exact Hin).
  assert (forall t, t ∈ held s -> dated d t) as Hd by (intros t Ht; by eapply held_dated).
  destruct lb as [| | | | | | | | | | | | | |ch rec now| | | | | |] eqn:El.
  15: { destruct (x_timer d pf ch rec now s s1 x Hwf Hx Hs) as (ch' & x1 & H1 & H2); [|exact Hin|exact Hno|by exists (LTimer ch' rec (now + d)), x1].
    intros t Ht. assert (t ∈ held s) as Hh by (unfold held; rewrite !elem_of_app; auto). split; [by apply Hd|].
    destruct (ci_held _ (cnt_reach _ _ _ _ Hr) t Hh) as (a & Ha & Hu & _ & Hm & _). by exists a. }
  16: { destruct Hx as (ids & Hids & ->). exists LHandler, (x_sys d ids s1). split.
    - cbn [step]. apply x_handler; [exact Hs| |exact Hin|exact Hno]. intros t Ht. apply Hd. unfold held. rewrite !elem_of_app. auto.
    - exists ids. split; [|done]. apply handler_frame in Hs as [-> _]. exact Hids. }
  15: { destruct Hx as (ids & Hids & ->). exists LRoutinePanic, (x_sys d [] s1). cbn [step] in *. unfold routine_panic in *. cbn [x_sys tpc]. destruct (tpc s); try discriminate Hs. injection Hs as <-. split; [done|]. by exists []. }
  all: destruct Hx as (ids & Hids & ->); exists (x_label d lb), (x_sys d ids s1); rewrite El; (split; [apply x_other; [exact Hs|exact Hin|exact I]|]); exists ids; (split; [|done]); rewrite (tpc_other _ _ _ _ Hs I); exact Hids.
Qed.

Lemma x_init_wheel d n : x_slot d <$> init_task_wheel n = init_task_wheel n.
Proof. apply map_eq. intros i. rewrite lookup_fmap, init_wheel_lookup. case_bool_decide; [|done]. cbn [fmap option_fmap option_map]. unfold x_slot. by rewrite fmap_empty. Qed.
Lemma x_init_n d n t0 t1 : moved d (init_n n t0 t1) (init_n n (t0 + d) (t1 + d)).
Proof. exists []. split; [done|]. unfold init_n, x_sys. fsimpl. rewrite x_init_wheel, !fmap_empty. reflexivity. Qed.
Lemma x_run d pf t0 t1 ls : forall s, run pf ls (init t0 t1) = Some s -> in_range d (log s) -> no_overflow pf s ->
  exists ls' x, run pf ls' (init (t0 + d) (t1 + d)) = Some x /\ moved d s x.
Proof.
  induction ls as [|lb ls IH] using rev_ind; intros s Hs Hin Hno.
  - cbn [run] in Hs. injection Hs as <-. exists [], (init (t0 + d) (t1 + d)). split; [exact eq_refl|]. exact (x_init_n d (N.to_nat SLOTS) t0 t1).
  - apply run_snoc in Hs as (s1 & H1 & H2). destruct (step_log _ _ _ _ H2) as [lg El].
    assert (in_range d (log s1)) as Hin1 by (apply (in_range_mono d _ lg); rewrite <- El; exact Hin).
    assert (no_overflow pf s1) as Hno1.
    { intros E. destruct (Hno E) as [N1 N2]. destruct (dead_stays _ _ _ _ H2) as [D1 D2]. split; intros H; [by apply N1, D1|by apply N2, D2]. }
    destruct (IH s1 H1 Hin1 Hno1) as (ls' & x & Hx & Hn). assert (reachable pf t0 t1 s1) as Hr by (exists ls; exact H1).
    destruct (x_step d pf t0 t1 lb s1 s x Hr Hn H2 Hin Hno) as (lb' & x1 & Hx1 & Hn1).
    exists (ls' ++ [lb']), x1. split; [|exact Hn1]. rewrite (run_app _ _ _ _ _ Hx). cbn [run]. rewrite Hx1. exact eq_refl.
Qed.
