(** C24, C25, C27: what TaskBuilder builds, and what it frees. *)
From Verif Require Import Base Builder.

(* ------------------------------------------------------------------ *)
(** ** C24: interval frequencies *)

(** The twelve setters, by form and unit. *)
Inductive tunit := Seconds | Minutes | Hours | Days.
Definition seconds_per (u : tunit) : N := match u with Seconds => 1 | Minutes => 60 | Hours => 3600 | Days => 86400 end.
Definition set_interval (pf : profile) (k : form) (u : tunit) (v : N) : builder -> res builder :=
  match k, u with
  | Once, Seconds => set_frequency_once_by_seconds v
  | Once, Minutes => set_frequency_once_by_minutes pf v
  | Once, Hours => set_frequency_once_by_hours pf v
  | Once, Days => set_frequency_once_by_days pf v
  | Repeated, Seconds => set_frequency_repeated_by_seconds v
  | Repeated, Minutes => set_frequency_repeated_by_minutes pf v
  | Repeated, Hours => set_frequency_repeated_by_hours pf v
  | Repeated, Days => set_frequency_repeated_by_days pf v
  | CountDown n, Seconds => set_frequency_count_down_by_seconds v n
  | CountDown n, Minutes => set_frequency_count_down_by_minutes pf v n
  | CountDown n, Hours => set_frequency_count_down_by_hours pf v n
  | CountDown n, Days => set_frequency_count_down_by_days pf v n
  end.
(** Setting the interval and building the task in second [now]. *)
Definition build_interval (pf : profile) (an : zone -> string -> option cron_iter) (h : strings) (uid : N) (k : form) (u : tunit) (v now : N)
    (b : builder) : res (option (res (freq_error + task))) :=
  let! b' := set_interval pf k u v b in Ret (spawn pf an now h uid b').

(** The first [n] due times of a task. *)
Fixpoint due_times (pf : profile) (n : nat) (t : task) : res (list (option N)) :=
  match n with
  | O => Ret []
  | S m => let! (d, t') := get_next_exec_timestamp pf t in let! ds := due_times pf m t' in Ret (d :: ds)
  end.
(** The advertised ones: [step] seconds apart, the first one [step] after [now]. *)
Definition advertised (now step : N) (n : nat) : list (option N) := (fun i => Some (now + N.of_nat i * step)) <$> seq 1 n.
(** How often the task may run. *)
Definition runs (k : form) : N := match k with Once => 1 | Repeated => U64 - 1 | CountDown n => n end.

Lemma as_u64_i64 x : x < U64 -> as_u64 (as_i64 x) = x.
Proof.
  intros H. unfold as_u64, as_i64. destruct (N.ltb_spec x 9223372036854775808).
  - rewrite Z.mod_small; [lia|]. unfold U64 in *. lia.
  - replace (Z.of_N x - Z.of_N U64)%Z with (Z.of_N x + -1 * Z.of_N U64)%Z by lia.
    rewrite Z_mod_plus_full, Z.mod_small; [lia|]. unfold U64 in *. lia.
Qed.
Lemma mul64_small pf a b : a * b < U64 -> mul64 pf a b = Ret (a * b).
Proof. intros H. unfold mul64. apply N.ltb_lt in H. by rewrite H. Qed.
Lemma add64_debug a b x : add64 Debug a b = Ret x -> x = a + b /\ a + b < U64.
Proof. unfold add64. destruct (N.ltb_spec (a + b) U64); [|done]. intros [= <-]. done. Qed.
Lemma mul64_debug a b x : mul64 Debug a b = Ret x -> x = a * b /\ a * b < U64.
Proof. unfold mul64. destruct (N.ltb_spec (a * b) U64); [|done]. intros [= <-]. done. Qed.

(** The frequency the builder gets. *)
Definition secs_of (b : builder) : option (form * N) := match b_freq b with BSecs k s => Some (k, s) | BCron _ _ => None end.
Definition set_to (k : form) (s : N) (b : builder) : builder := Builder (BSecs k s) (b_tid b) (b_maxrun b) (b_maxpar b) (b_candy b) (b_zone b).
Lemma set_interval_ok pf k u v b : v * seconds_per u < U64 -> set_interval pf k u v b = Ret (set_to k (v * seconds_per u) b).
Proof.
  intros H. destruct k, u; cbn [set_interval seconds_per] in *;
    unfold set_frequency_once_by_minutes, set_frequency_once_by_hours, set_frequency_once_by_days, set_frequency_repeated_by_minutes,
      set_frequency_repeated_by_hours, set_frequency_repeated_by_days, set_frequency_count_down_by_minutes, set_frequency_count_down_by_hours,
      set_frequency_count_down_by_days, set_frequency_once_by_seconds, set_frequency_repeated_by_seconds, set_frequency_count_down_by_seconds;
    rewrite ?mul64_small by (unfold ONE_DAY, ONE_HOUR, ONE_MINUTE, ONE_SECOND in *; lia);
    cbn [res_bind]; unfold set_to, set_bfreq.
  all: match goal with |- Ret ?A = Ret ?B => cut (b_freq A = b_freq B); cbn [b_freq]; [intros ->; reflexivity|f_equal] end.
  all: unfold ONE_DAY, ONE_HOUR, ONE_MINUTE, ONE_SECOND; lia.
Qed.
Lemma set_interval_debug k u v b b' : set_interval Debug k u v b = Ret b' -> b' = set_to k (v * seconds_per u) b.
Proof.
  intros H.
  assert (u = Seconds \/ v * seconds_per u < U64) as [->|Hs].
  { destruct k, u; [tauto| | | |tauto| | | |tauto| | |]; right; revert H; cbn [set_interval];
      unfold set_frequency_once_by_minutes, set_frequency_once_by_hours, set_frequency_once_by_days, set_frequency_repeated_by_minutes,
        set_frequency_repeated_by_hours, set_frequency_repeated_by_days, set_frequency_count_down_by_minutes, set_frequency_count_down_by_hours,
        set_frequency_count_down_by_days;
      destruct (mul64 Debug _ v) as [x|] eqn:E; cbn [res_bind]; intros H; simplify_eq; apply mul64_debug in E as [_ E];
      unfold ONE_DAY, ONE_HOUR, ONE_MINUTE, ONE_SECOND in E; cbn [seconds_per]; lia. }
  - destruct k; cbn [set_interval] in H; injection H as <-; unfold set_to; cbn [seconds_per]; rewrite N.mul_1_r; reflexivity.
  - rewrite set_interval_ok in H by done. congruence.
Qed.

(** The task, and its due times as long as they fit. *)
Definition secs_freq (k : form) (s : sstate) : freq :=
  match k with Once => SecondsCountDown 1 s | Repeated => SecondsRepeated s | CountDown n => SecondsCountDown n s end.
Definition task_of (uid : N) (b : builder) (f : freq) : task := Task uid (b_tid b) f (b_maxrun b) 0 true (b_maxpar b).
Lemma spawn_secs pf an now h uid k s b :
  spawn pf an now h uid (set_to k s b) =
  Some (if s =? 0 then Ret (inl DisInitTime)
        else let! st := add64 pf now s in Ret (inr (task_of uid b (secs_freq k (step_by st s))))).
Proof.
  unfold spawn, set_to, task_of. cbn [b_freq b_zone b_tid b_maxrun b_maxpar]. destruct k; cbn [read_freq try_from secs_freq];
    destruct (s =? 0); try done; by destruct (add64 pf now s).
Qed.
Lemma next_secs pf k t s :
  t_freq t = secs_freq k s ->
  get_next_exec_timestamp pf t = let! (x, s') := ss_next pf s in Ret (Some (as_u64 (as_i64 x)), set_freq (secs_freq k s') t).
Proof.
  intros E. unfold get_next_exec_timestamp. rewrite E. destruct k; cbn [secs_freq next_alarm_timestamp]; by destruct (ss_next pf s) as [[x s']|].
Qed.
(** The state of the iterator after [i] due times. *)
Definition ss_at (now step : N) (i : nat) : sstate :=
  match i with O => step_by (now + step) step | S _ => SState (now + N.of_nat i * step + 1) false (step - 1) end.
Lemma ss_at_next pf now step i :
  step ≠ 0 -> now + N.of_nat (S i) * step + 1 < U64 -> ss_next pf (ss_at now step i) = Ret (now + N.of_nat (S i) * step, ss_at now step (S i)).
Proof.
  intros H0 H. unfold ss_next. destruct i as [|i]; cbn [ss_at step_by ss_start ss_first ss_step].
  - rewrite add64_small by lia. cbn [res_bind]. rewrite add64_small by lia. cbn [res_bind]. repeat first [lia | progress f_equal].
  - rewrite add64_small by lia. cbn [res_bind]. rewrite add64_small by lia. cbn [res_bind]. repeat first [lia | progress f_equal].
Qed.
Lemma ss_at_debug now step i x s' :
  step ≠ 0 -> ss_next Debug (ss_at now step i) = Ret (x, s') ->
  x = now + N.of_nat (S i) * step /\ s' = ss_at now step (S i) /\ now + N.of_nat (S i) * step + 1 < U64.
Proof.
  intros H0 H. destruct (decide (now + N.of_nat (S i) * step + 1 < U64)) as [Hs|Hs].
  - rewrite ss_at_next in H by done. by simplify_eq.
  - exfalso. revert H. unfold ss_next. destruct (add64 Debug (ss_start _) _) as [y|] eqn:E1; cbn [res_bind]; [|done].
    destruct (add64 Debug y 1) as [z|] eqn:E2; cbn [res_bind]; [|done]. intros _. apply add64_debug in E1 as [E1 _], E2 as [_ E2].
    destruct i; cbn [ss_at step_by ss_start ss_first ss_step] in E1; lia.
Qed.

Lemma due_times_at pf k now step n : forall i t,
  step ≠ 0 -> t_freq t = secs_freq k (ss_at now step i) -> now + N.of_nat (i + n) * step + 1 < U64 ->
  due_times pf n t = Ret ((fun i => Some (now + N.of_nat i * step)) <$> seq (S i) n).
Proof.
  induction n as [|n IH]; intros i t H0 Ht H; [done|]. cbn [due_times seq]. rewrite (next_secs _ _ _ _ Ht), ss_at_next by lia.
  cbn [res_bind]. rewrite (IH (S i)); [|done|done|lia]. cbn [res_bind]. rewrite fmap_cons, as_u64_i64 by lia. done.
Qed.
Lemma due_times_debug k now step n : forall i t ds,
  step ≠ 0 -> t_freq t = secs_freq k (ss_at now step i) -> due_times Debug n t = Ret ds ->
  ds = (fun i => Some (now + N.of_nat i * step)) <$> seq (S i) n.
Proof.
  induction n as [|n IH]; intros i t ds H0 Ht H; [by simplify_eq/=|]. cbn [due_times] in H. rewrite (next_secs _ _ _ _ Ht) in H.
  destruct (ss_next Debug (ss_at now step i)) as [[x s']|] eqn:E; cbn [res_bind] in H; [|done].
  apply ss_at_debug in E as (Ex & -> & Hs); [|done].
  destruct (due_times Debug n _) as [ds'|] eqn:E2; cbn [res_bind] in H; [|done]. injection H as <-.
  cbn [seq]. rewrite fmap_cons, as_u64_i64 by lia. rewrite Ex. f_equal. refine (IH (S i) _ _ H0 _ E2). reflexivity.
Qed.

(** The due times of a task that was built in second [now] from an interval are
    the advertised ones, in both profiles, as long as the numbers fit 64 bits. *)
Theorem C24_due_times pf an h uid k u v now b n :
  v ≠ 0 -> now + N.of_nat (S n) * (v * seconds_per u) + 1 < U64 ->
  exists t, build_interval pf an h uid k u v now b = Ret (Some (Ret (inr t))) /\
            due_times pf (S n) t = Ret (advertised now (v * seconds_per u) (S n)) /\
            t_id t = b_tid b /\ residual_time (t_freq t) = runs k.
Proof.
  intros Hv H. assert (v * seconds_per u ≠ 0) as H0 by (destruct u; cbn [seconds_per]; lia).
  unfold build_interval. rewrite set_interval_ok by lia. cbn [res_bind]. rewrite spawn_secs.
  destruct (N.eqb_spec (v * seconds_per u) 0) as [|_]; [done|]. rewrite add64_small by lia. cbn [res_bind].
  eexists. split; [reflexivity|]. split; [|split; [done|by destruct k]].
  apply (due_times_at pf k now (v * seconds_per u) (S n) 0); done.
Qed.
Print Assumptions C24_due_times.

(** The interval zero is rejected. *)
Theorem C24_zero pf an h uid k u now b : build_interval pf an h uid k u 0 now b = Ret (Some (Ret (inl DisInitTime))).
Proof.
  unfold build_interval. rewrite set_interval_ok by (unfold U64; lia). cbn [res_bind]. rewrite spawn_secs. done.
Qed.
Print Assumptions C24_zero.

(** With overflow checks on, a due time that is produced at all is the advertised
    one: what does not fit panics. *)
Theorem C24_checked an h uid k u v now b t n ds :
  build_interval Debug an h uid k u v now b = Ret (Some (Ret (inr t))) -> due_times Debug n t = Ret ds ->
  ds = advertised now (v * seconds_per u) n.
Proof.
  unfold build_interval. destruct (set_interval Debug k u v b) as [b'|] eqn:E; cbn [res_bind]; [|done].
  apply set_interval_debug in E as ->. rewrite spawn_secs. destruct (N.eqb_spec (v * seconds_per u) 0) as [|H0]; [done|].
  destruct (add64 Debug now _) as [st|] eqn:E; cbn [res_bind]; [|done]. apply add64_debug in E as [-> _]. intros H. simplify_eq.
  intros H. refine (due_times_debug k now (v * seconds_per u) n 0 _ _ H0 _ H). reflexivity.
Qed.
Print Assumptions C24_checked.

(** An example; and what an unchecked overflow gives: 2^62 minutes are rejected
    as zero, and "every 307445734561825861 minutes" means every 44 seconds. *)
Definition no_cron (z : zone) (e : string) : option cron_iter := None.
Example C24_example :
  (exists t, build_interval Debug no_cron ∅ 7 Repeated Minutes 5 1000 (set_task_id 3 new_builder) = Ret (Some (Ret (inr t))) /\
             due_times Debug 4 t = Ret [Some 1300; Some 1600; Some 1900; Some 2200]) /\
  build_interval Debug no_cron ∅ 7 Repeated Minutes 4611686018427387904 1000 new_builder = Panic /\
  build_interval Release no_cron ∅ 7 Repeated Minutes 4611686018427387904 1000 new_builder = Ret (Some (Ret (inl DisInitTime))) /\
  (exists t, build_interval Release no_cron ∅ 7 Repeated Minutes 307445734561825861 1000 new_builder = Ret (Some (Ret (inr t))) /\
             due_times Release 3 t = Ret [Some 1044; Some 1088; Some 1132]).
Proof. split; [|split; [|split]]; [eexists; split; [vm_compute; reflexivity|vm_compute; reflexivity]|reflexivity|vm_compute; reflexivity|eexists; split; [vm_compute; reflexivity|vm_compute; reflexivity]]. Qed.

(* ------------------------------------------------------------------ *)
(** ** C25: once at a time stamp *)

(** The setter is called in second [set_at], the task built in second [now]. *)
Definition build_at_stamp (pf : profile) (an : zone -> string -> option cron_iter) (h : strings) (uid : N) (ts set_at now : N) (b : builder)
    : option (res (freq_error + task)) :=
  spawn pf an now h uid (set_frequency_once_by_timestamp_seconds set_at ts b).
(** What is wanted: due at the time stamp, or in a second if it is not in the future. *)
Definition wanted_stamp (ts now : N) : N := if now <? ts then ts else now + 1.

(** The property, in the best case of a task built in the second of the setter. *)
Definition C25_full : Prop :=
  forall pf an h uid ts now b, ts + 1 < U64 -> now + 2 < U64 ->
    exists t, build_at_stamp pf an h uid ts now now b = Some (Ret (inr t)) /\
              due_times pf 1 t = Ret [Some (wanted_stamp ts now)].
(** It fails when the time stamp is the current second: the interval is zero and
    building the task fails. *)
Theorem C25_full_refuted : ~ C25_full.
Proof.
  intros H. destruct (H Debug no_cron ∅ 1 1000 1000 new_builder eq_refl eq_refl) as (t & Ht & _). vm_compute in Ht. done.
Qed.
Print Assumptions C25_full_refuted.
(** Every case: [set_at <= now].  Missing for the property: a time stamp equal to
    the second of the setter, and a task that is not built at once. *)
Theorem C25_partial pf an h uid ts set_at now b :
  set_at <= now -> ts + (now - set_at) + 1 < U64 -> now + 2 < U64 ->
  if ts =? set_at then build_at_stamp pf an h uid ts set_at now b = Some (Ret (inl DisInitTime))
  else exists t, build_at_stamp pf an h uid ts set_at now b = Some (Ret (inr t)) /\
                 due_times pf 1 t = Ret [Some (if set_at <? ts then ts + (now - set_at) else now + 1)] /\
                 residual_time (t_freq t) = 1 /\ t_id t = b_tid b.
Proof.
  intros Hle H1 H2. unfold build_at_stamp, set_frequency_once_by_timestamp_seconds, checked_sub.
  change (set_bfreq (BSecs Once ?s) b) with (set_to Once s b). rewrite spawn_secs.
  destruct (N.eqb_spec ts set_at) as [->|Hne].
  - rewrite N.leb_refl, N.sub_diag. done.
  - assert (exists d, d ≠ 0 /\ default ONE_SECOND (if set_at <=? ts then Some (ts - set_at) else None) = d /\
                      now + d = if set_at <? ts then ts + (now - set_at) else now + 1) as (d & Hd & -> & Hdue).
    { destruct (N.leb_spec set_at ts), (N.ltb_spec set_at ts); [|exfalso; lia|exfalso; lia|].
      - exists (ts - set_at). split; [lia|]. split; [reflexivity|]. lia.
      - exists 1. split; [lia|]. split; [reflexivity|]. lia. }
    destruct (N.eqb_spec d 0); [done|]. rewrite <- Hdue. assert (now + d + 1 < U64) by (rewrite Hdue; destruct (N.ltb_spec set_at ts); lia).
    rewrite add64_small by lia. cbn [res_bind]. eexists. split; [reflexivity|]. split; [|done].
    rewrite (due_times_at pf Once now d 1 0); [|done|done|lia]. change (N.of_nat 1) with 1. cbn [seq fmap list_fmap]. change (N.of_nat 1) with 1. by rewrite N.mul_1_l.
Qed.
Print Assumptions C25_partial.
(** An example: due at the time stamp; in the past: a second from now; built
    three seconds after the setter: three seconds late. *)
Example C25_example :
  (exists t, build_at_stamp Debug no_cron ∅ 1 1500 1000 1000 new_builder = Some (Ret (inr t)) /\ due_times Debug 1 t = Ret [Some 1500]) /\
  (exists t, build_at_stamp Debug no_cron ∅ 1 900 1000 1000 new_builder = Some (Ret (inr t)) /\ due_times Debug 1 t = Ret [Some 1001]) /\
  (exists t, build_at_stamp Debug no_cron ∅ 1 1500 1000 1003 new_builder = Some (Ret (inr t)) /\ due_times Debug 1 t = Ret [Some 1503]).
Proof. split; [|split]; (eexists; split; [vm_compute; reflexivity|vm_compute; reflexivity]). Qed.

(* ------------------------------------------------------------------ *)
(** ** C27: free *)

(** How often a string is freed. *)
Definition is_free (l : N) (e : mev) : bool := match e with MFree l' => l' =? l | _ => false end.
Definition frees (l : N) (ev : list mev) : nat := length (filter (fun e => is_free l e = true) ev).

(** The property. *)
Definition C27_full : Prop :=
  forall cs m ev, do_calls cs start = Some (m, ev) ->
  forall l, (frees l ev <= 1)%nat /\ (MUser l ∈ ev -> frees l ev = 0%nat).
(** Three safe programs.  The first calls free twice; the second frees two copies
    of a builder; the third chooses another expression after a candy one: free
    releases the string of the program, and the candy one stays. *)
Definition two_frees : list call := [CNew 1; CCandy 1 Once "@daily"; CFree 1; CFree 1].
Definition two_copies : list call := [CNew 1; CCandy 1 Repeated "@daily"; CCopy 1 2; CFree 1; CFree 2].
Definition user_string : list call := [CStr "0 0 * * * * *"; CNew 1; CCandy 1 Once "@daily"; CCron 1 Once 0; CFree 1].
Example C27_programs :
  (snd <$> do_calls two_frees start) = Some [MLeak 0; MFree 0; MFree 0] /\
  (snd <$> do_calls two_copies start) = Some [MLeak 0; MFree 0; MFree 0] /\
  (snd <$> do_calls user_string start) = Some [MUser 0; MLeak 1; MFree 0].
Proof. split; [|split]; vm_compute; reflexivity. Qed.
Theorem C27_full_refuted : ~ C27_full.
Proof.
  intros H. destruct (do_calls two_frees start) as [[m ev]|] eqn:E; [|vm_compute in E; done].
  destruct (H _ _ _ E 0) as [H1 _]. vm_compute in E. simplify_eq. vm_compute in H1. lia.
Qed.
Print Assumptions C27_full_refuted.

(** *** Programs that use free as its comment asks

    Per builder variable: no candy expression so far; a candy one was set; freed,
    so not to be used any more.  A
    builder with a candy expression is not copied and gets no other cron
    expression; nothing is done with a freed one, except to make it new. *)
Inductive stage := Plain | Candied | Gone.
Definition use (x : N) (ok : stage -> bool) (to : stage -> stage) (d : gmap N stage) : option (gmap N stage) :=
  match d !! x with Some st => if ok st then Some (<[x := to st]> d) else None | None => None end.
Definition usable (st : stage) : bool := match st with Gone => false | _ => true end.
Definition plain (st : stage) : bool := match st with Plain => true | _ => false end.
Definition follow (c : call) (d : gmap N stage) : option (gmap N stage) :=
  match c with
  | CNew x => Some (<[x := Plain]> d)
  | CCopy x y => match use x plain (fun s => s) d with Some d => Some (<[y := Plain]> d) | None => None end
  | CStr _ => Some d
  | CCron x _ _ => use x plain (fun s => s) d
  | CCandy x _ _ => use x usable (fun _ => Candied) d
  | CSecs x _ _ => use x usable (fun s => s) d
  | CSpawn x => use x usable (fun s => s) d
  | CFree x => use x usable (fun _ => Gone) d
  end.
Fixpoint well_used (cs : list call) (d : gmap N stage) : bool :=
  match cs with [] => true | c :: r => match follow c d with Some d' => well_used r d' | None => false end end.

(** Reading a string that was freed. *)
Definition read_freed (ev : list mev) : Prop := exists ev1 ev2 l, ev = ev1 ++ MRead l :: ev2 /\ MFree l ∈ ev1.

(** The invariant: [ev] is what happened so far. *)
Record mem_inv (d : gmap N stage) (m : mem) (ev : list mev) : Prop := {
  mi_user : forall l, MUser l ∈ ev <-> l ∈ m_user m;
  mi_leak : forall l, MLeak l ∈ ev -> l ∉ m_user m /\ l < m_next m;
  mi_low : forall l, l ∈ m_user m -> l < m_next m;
  mi_free : forall l, MFree l ∈ ev -> MLeak l ∈ ev;
  mi_once : forall l, (frees l ev <= 1)%nat;
  mi_read : ~ read_freed ev;
  mi_vars : forall x b, m_vars m !! x = Some b -> exists st, d !! x = Some st /\
    match st with
    | Plain => b_candy b = false /\ match b_freq b with BCron _ l => l ∈ m_user m | BSecs _ _ => True end
    | Candied => match b_freq b with
                 | BCron _ l => MLeak l ∈ ev /\ MFree l ∉ ev /\ (forall y b' k, y ≠ x -> m_vars m !! y = Some b' -> d !! y = Some Candied -> b_freq b' ≠ BCron k l)
                 | BSecs _ _ => True
                 end
    | Gone => True
    end
}.
Lemma frees_app l a b : frees l (a ++ b) = (frees l a + frees l b)%nat.
Proof. unfold frees. by rewrite filter_app, app_length. Qed.
Lemma frees_pos l ev : (0 < frees l ev)%nat -> MFree l ∈ ev.
Proof.
  induction ev as [|e ev IH]; unfold frees in *; [cbn; lia|]. rewrite filter_cons. case_decide as E.
  - intros _. destruct e; cbn [is_free] in E; try discriminate E. apply N.eqb_eq in E as ->. apply elem_of_list_here.
  - intros H. apply elem_of_list_further, IH, H.
Qed.
Lemma read_freed_snoc ev e : read_freed (ev ++ [e]) -> read_freed ev \/ exists l, e = MRead l /\ MFree l ∈ ev.
Proof.
  intros (a & b & l & E & H). destruct b as [|x b _] using rev_ind.
  - apply app_inj_tail in E as [-> ->]. right. by exists l.
  - left. rewrite app_comm_cons, app_assoc in E. apply app_inj_tail in E as [-> _]. by exists a, b, l.
Qed.

Lemma elem_snoc {A} (x e : A) ev : x ∈ ev ++ [e] <-> x ∈ ev \/ x = e.
Proof. rewrite elem_of_app, elem_of_list_singleton. done. Qed.
Lemma frees_other l ev e : is_free l e = false -> frees l (ev ++ [e]) = frees l ev.
Proof. intros H. rewrite frees_app. unfold frees at 2. rewrite filter_cons, decide_False by congruence. cbn. lia. Qed.

(** What a variable's stage means. *)
Definition var_ok (d : gmap N stage) (m : mem) (ev : list mev) (x : N) (b : builder) (st : stage) : Prop :=
  match st with
  | Plain => b_candy b = false /\ match b_freq b with BCron _ l => l ∈ m_user m | BSecs _ _ => True end
  | Candied => match b_freq b with
               | BCron _ l => MLeak l ∈ ev /\ MFree l ∉ ev /\
                              (forall y b' k, y ≠ x -> m_vars m !! y = Some b' -> d !! y = Some Candied -> b_freq b' ≠ BCron k l)
               | BSecs _ _ => True
               end
  | Gone => True
  end.
(** Giving a variable a builder and a stage, when its string is no candied
    variable's. *)
Lemma set_var_inv d m ev x b st :
  mem_inv d m ev -> var_ok d m ev x b st ->
  (forall y b' k l, y ≠ x -> m_vars m !! y = Some b' -> d !! y = Some Candied -> st = Candied -> b_freq b' = BCron k l -> b_freq b ≠ BCron k l /\ forall k', b_freq b ≠ BCron k' l) ->
  mem_inv (<[x := st]> d) (set_var x b m) ev.
Proof.
  intros [H1 H2 H3 H4 H5 H6 H7] Hb Hu. split; try assumption. unfold set_var. cbn [m_vars m_user].
  intros y b' Hy. destruct (decide (y = x)) as [->|Hne].
  - rewrite lookup_insert in Hy. injection Hy as <-. exists st. rewrite lookup_insert. split; [done|].
    destruct st; [exact Hb| |done]. unfold var_ok in Hb. destruct (b_freq b) as [k l|]; [|done].
    destruct Hb as (B1 & B2 & B3). split; [done|]. split; [done|]. intros y b' k' Hyx. rewrite !lookup_insert_ne by done. by apply B3.
  - rewrite lookup_insert_ne in Hy by done. destruct (H7 _ _ Hy) as (st' & Hd & Hv). exists st'. rewrite lookup_insert_ne by done.
    split; [done|]. destruct st'; [exact Hv| |done]. destruct (b_freq b') as [k l|] eqn:Ef; [|done]. destruct Hv as (V1 & V2 & V3).
    split; [done|]. split; [done|]. intros z b'' k' Hz. destruct (decide (z = x)) as [->|Hzx].
    + rewrite !lookup_insert. intros [= <-] [= ->]. destruct (Hu _ _ _ _ Hne Hy Hd eq_refl Ef) as [_ Hx]. apply Hx.
    + rewrite !lookup_insert_ne by done. by apply V3.
Qed.

Lemma do_call_inv d m ev c d' m' e :
  mem_inv d m ev -> follow c d = Some d' -> do_call c m = Some (m', e) -> mem_inv d' m' (ev ++ e).
Proof.
  intros HI Hf Hc. pose proof HI as [H1 H2 H3 H4 H5 H6 H7]. destruct c as [x|x y|t|x k l|x k t|x k v|x|x]; cbn [do_call follow] in Hf, Hc; unfold with_var, use in *.
  - simplify_eq. rewrite app_nil_r. apply set_var_inv; [done|cbn; done|]. intros. discriminate.
  - destruct (m_vars m !! x) as [b|] eqn:Ex; [|done]. destruct (d !! x) as [st|] eqn:Ed; [|done]. destruct st; cbn [plain] in Hf; try discriminate Hf.
    simplify_eq. rewrite app_nil_r. rewrite (insert_id d x Plain Ed). destruct (H7 _ _ Ex) as (st & Hd & Hv). rewrite Ed in Hd. injection Hd as <-.
    apply set_var_inv; [done|exact Hv|]. intros. discriminate.
  - simplify_eq. split; cbn [m_user m_next m_vars].
    + intros l. rewrite elem_snoc, H1, elem_of_union, elem_of_singleton. naive_solver.
    + intros l. rewrite elem_snoc. intros [Hl|Hl]; [|discriminate]. destruct (H2 _ Hl). rewrite not_elem_of_union, not_elem_of_singleton. split; [split; [lia|done]|lia].
    + intros l. rewrite elem_of_union, elem_of_singleton. intros [->|Hl]; [lia|]. apply H3 in Hl. lia.
    + intros l. rewrite !elem_snoc. intros [Hl|Hl]; [|discriminate]. left. by apply H4.
    + intros l. rewrite frees_other by done. apply H5.
    + intros Hr. apply read_freed_snoc in Hr as [Hr|(l & Hl & _)]; [done|discriminate].
    + intros x b Hx. destruct (H7 _ _ Hx) as (st & Hd & Hv). exists st. split; [done|]. destruct st; [| |done].
      * destruct Hv as [V1 V2]. split; [done|]. destruct (b_freq b); [|done]. apply elem_of_union. by right.
      * destruct (b_freq b); [|done]. rewrite !elem_snoc. destruct Hv as (V1 & V2 & V3). split; [by left|]. split; [intros [?|?]; done|done].
  - destruct (m_vars m !! x) as [b|] eqn:Ex; [|done]. destruct (decide (l ∈ m_user m)) as [Hl|]; [|done]. destruct (d !! x) as [st|] eqn:Ed; [|done].
    destruct st; cbn [plain] in Hf; try discriminate Hf. simplify_eq. rewrite app_nil_r. destruct (H7 _ _ Ex) as (st & Hd & Hv). rewrite Ed in Hd. injection Hd as <-.
    apply set_var_inv; [done| |intros; discriminate]. split; [apply Hv|exact Hl].
  - destruct (m_vars m !! x) as [b|] eqn:Ex; [|done]. destruct (d !! x) as [st|] eqn:Ed; [|done].
    destruct (usable st) eqn:Eu; [|done]. simplify_eq. set (l := m_next m) in *.
    assert (mem_inv d (Mem (m_vars m) (m_user m) (l + 1)) (ev ++ [MLeak l])) as HI'.
    { split; cbn [m_user m_next m_vars].
      - intros l'. rewrite elem_snoc, H1. naive_solver.
      - intros l'. rewrite elem_snoc. intros [Hl|[= ->]]; [destruct (H2 _ Hl); split; [done|lia]|]. split; [|lia]. intros Hl. apply H3 in Hl. lia.
      - intros l' Hl. apply H3 in Hl. lia.
      - intros l'. rewrite !elem_snoc. intros [Hl|Hl]; [|discriminate]. left. by apply H4.
      - intros l'. rewrite frees_other by done. apply H5.
      - intros Hr. apply read_freed_snoc in Hr as [Hr|(l' & Hl & _)]; [done|discriminate].
      - intros y b' Hy. destruct (H7 _ _ Hy) as (st' & Hd & Hv). exists st'. split; [done|]. destruct st'; [done| |done].
        destruct (b_freq b'); [|done]. rewrite !elem_snoc. destruct Hv as (V1 & V2 & V3). split; [by left|]. split; [intros [?|?]; done|done]. }
    refine (set_var_inv d (Mem (m_vars m) (m_user m) (l + 1)) (ev ++ [MLeak l]) x (set_bfreq (BCron k l) (set_candy b)) Candied HI' _ _).
    + cbn [var_ok b_freq set_bfreq m_vars]. rewrite !elem_snoc. split; [by right|].
      split; [intros [Hl|?]; [|done]; apply H4, H2 in Hl;  lia|].
      intros y b' k' Hne Hy Hd E. destruct (H7 _ _ Hy) as (st' & Hd' & Hv). rewrite Hd in Hd'. injection Hd' as <-. rewrite E in Hv.
      destruct Hv as (V1 & _). apply H2 in V1. lia.
    + cbn [b_freq set_bfreq m_vars]. intros y b' k' l' Hne Hy Hd _ E. destruct (H7 _ _ Hy) as (st' & Hd' & Hv). rewrite Hd in Hd'. injection Hd' as <-. rewrite E in Hv.
      destruct Hv as (V1 & _). apply H2 in V1. split; [|intros k'']; intros [= _ ->]; lia.
  - destruct (m_vars m !! x) as [b|] eqn:Ex; [|done]. destruct (d !! x) as [st|] eqn:Ed; [|done].
    destruct (usable st) eqn:Eu; [|done]. simplify_eq. rewrite app_nil_r. destruct (H7 _ _ Ex) as (st' & Hd & Hv). rewrite Ed in Hd. injection Hd as <-.
    apply set_var_inv; [done| |]. { destruct st; [|done|done]. split; [apply Hv|done]. }
    intros y b' k' l _ _ _ _ _. split; [|intros k'']; discriminate.
  - destruct (m_vars m !! x) as [b|] eqn:Ex; [|done]. destruct (d !! x) as [st|] eqn:Ed; [|done].
    destruct (usable st) eqn:Eu; [|done]. simplify_eq. rewrite (insert_id d x st Ed). destruct (H7 _ _ Ex) as (st' & Hd & Hv). rewrite Ed in Hd. injection Hd as <-.
    destruct (b_freq b) as [k l|] eqn:Ef; [|by rewrite app_nil_r].
    assert (MFree l ∉ ev) as Hnf.
    { destruct st; [|apply Hv|done]. destruct Hv as [_ Hv]. intros Hl. apply H4, H2 in Hl. tauto. }
    split.
    + intros l'. rewrite elem_snoc, H1. naive_solver.
    + intros l'. rewrite elem_snoc. intros [Hl|Hl]; [|discriminate]. by apply H2.
    + exact H3.
    + intros l'. rewrite !elem_snoc. intros [Hl|Hl]; [|discriminate]. left. by apply H4.
    + intros l'. rewrite frees_other by done. apply H5.
    + intros Hr. apply read_freed_snoc in Hr as [Hr|(l' & Hl & Hl')]; [done|]. injection Hl as ->. done.
    + intros y b' Hy. destruct (H7 _ _ Hy) as (st' & Hd & Hv'). exists st'. split; [done|]. destruct st'; [done| |done].
      destruct (b_freq b'); [|done]. rewrite !elem_snoc. destruct Hv' as (V1 & V2 & V3). split; [by left|]. split; [intros [?|?]; done|done].
  - destruct (m_vars m !! x) as [b|] eqn:Ex; [|done]. destruct (d !! x) as [st|] eqn:Ed; [|done].
    destruct (usable st) eqn:Eu; [|done]. simplify_eq. destruct (H7 _ _ Ex) as (st' & Hd & Hv). rewrite Ed in Hd. injection Hd as <-.
    assert (mem_inv (<[x := Gone]> d) m' ev) as HI'.
    { pose proof (set_var_inv d m' ev x b Gone HI I) as HI'. unfold set_var in HI'. rewrite (insert_id _ _ _ Ex) in HI'. destruct m'. apply HI'. intros. discriminate. }
    destruct (b_candy b) eqn:Ec; [|by rewrite app_nil_r]. destruct (b_freq b) as [k l|] eqn:Ef; [|by rewrite app_nil_r].
    destruct st; [destruct Hv; discriminate| |discriminate Eu]. destruct Hv as (V1 & V2 & V3). clear HI. destruct HI' as [G1 G2 G3 G4 G5 G6 G7].
    split.
    + intros l'. rewrite elem_snoc, H1. naive_solver.
    + intros l'. rewrite elem_snoc. intros [Hl|Hl]; [|discriminate]. by apply H2.
    + exact H3.
    + intros l'. rewrite !elem_snoc. intros [Hl|[= ->]]; left; [by apply H4|done].
    + intros l'. destruct (decide (l' = l)) as [->|Hne].
      * rewrite frees_app. destruct (frees l ev) as [|n] eqn:En; [unfold frees; rewrite filter_cons, decide_True by apply N.eqb_refl; cbn; lia|].
        exfalso. apply V2, frees_pos. lia.
      * rewrite frees_other; [apply H5|]. cbn [is_free]. apply N.eqb_neq. congruence.
    + intros Hr. apply read_freed_snoc in Hr as [Hr|(l' & Hl & Hl')]; [done|]. discriminate Hl.
    + intros y b' Hy. destruct (G7 _ _ Hy) as (st' & Hd & Hv'). exists st'. split; [done|]. destruct st'; [done| |done].
      assert (y ≠ x) as Hyx by (intros ->; rewrite lookup_insert in Hd; discriminate).
      destruct (b_freq b') as [k' l'|] eqn:Ef'; [|done]. rewrite !elem_snoc. destruct Hv' as (W1 & W2 & W3).
      split; [by left|]. split; [|done]. intros [Hl|[= ->]]; [done|]. rewrite lookup_insert_ne in Hd by done. by apply (V3 _ _ k' Hyx Hy Hd).
Qed.

Lemma do_calls_inv cs : forall d m ev m' e,
  mem_inv d m ev -> well_used cs d = true -> do_calls cs m = Some (m', e) -> exists d', mem_inv d' m' (ev ++ e).
Proof.
  induction cs as [|c cs IH]; intros d m ev m' e HI Hw Hc; cbn [do_calls well_used] in *.
  - simplify_eq. rewrite app_nil_r. by exists d.
  - destruct (follow c d) as [d1|] eqn:Ef; [|done]. destruct (do_call c m) as [[m1 e1]|] eqn:E1; [|done].
    destruct (do_calls cs m1) as [[m2 e2]|] eqn:E2; [|done]. simplify_eq. rewrite app_assoc.
    eapply IH; [|done|done]. by eapply do_call_inv.
Qed.
Lemma start_inv : mem_inv ∅ start [].
Proof.
  split; cbn [start m_user m_vars m_next].
  - intros l. split; intros H; [by apply elem_of_nil in H|by apply elem_of_empty in H].
  - intros l H. by apply elem_of_nil in H.
  - intros l H. by apply elem_of_empty in H.
  - intros l H. by apply elem_of_nil in H.
  - intros l. unfold frees. cbn. lia.
  - intros (a & b & l & H & _). by destruct a.
  - intros x b H. rewrite lookup_empty in H. discriminate.
Qed.

(** A program that uses free so frees no string twice, none of its own, and reads
    none that is freed. *)
Theorem C27_free_partial cs m ev :
  well_used cs ∅ = true -> do_calls cs start = Some (m, ev) ->
  forall l, (frees l ev <= 1)%nat /\ (MUser l ∈ ev -> frees l ev = 0%nat) /\ (MFree l ∈ ev -> MLeak l ∈ ev) /\ ~ read_freed ev.
Proof.
  intros Hw Hc l. destruct (do_calls_inv _ _ _ _ _ _ start_inv Hw Hc) as (d & [H1 H2 H3 H4 H5 H6 H7]). cbn [app] in *.
  split; [apply H5|]. split; [|split; [apply H4|exact H6]]. intros Hu. destruct (frees l ev) as [|n] eqn:E; [done|]. exfalso.
  assert (MFree l ∈ ev) as Hf by (apply frees_pos; lia). apply H4, H2 in Hf. apply H1 in Hu. tauto.
Qed.
Print Assumptions C27_free_partial.

(** Without candy expressions nothing is ever freed. *)
Definition no_candy (c : call) : bool := match c with CCandy _ _ _ => false | _ => true end.
Theorem C27_without_candy cs m ev :
  forallb no_candy cs = true -> do_calls cs start = Some (m, ev) -> forall l, frees l ev = 0%nat.
Proof.
  assert (forall x b, m_vars start !! x = Some b -> b_candy b = false) as H0 by (intros x b H; cbn in H; rewrite lookup_empty in H; discriminate).
  revert H0. generalize start. revert ev. induction cs as [|c cs IH]; intros ev m0 H0 Hn Hc l; cbn [do_calls forallb] in *; [by simplify_eq|].
  apply andb_true_iff in Hn as [Hn1 Hn]. destruct (do_call c m0) as [[m1 e1]|] eqn:E1; [|done]. destruct (do_calls cs m1) as [[m2 e2]|] eqn:E2; [|done].
  simplify_eq. rewrite frees_app.
  assert (frees l e1 = 0%nat /\ forall x b, m_vars m1 !! x = Some b -> b_candy b = false) as [-> H1]; [|by rewrite (IH _ _ H1 Hn E2)].
  destruct c; cbn [do_call no_candy] in *; try discriminate Hn1; unfold with_var in E1;
    repeat match type of E1 with context [match ?o with Some _ => _ | None => _ end] => destruct o eqn:? ; [|discriminate E1] end;
    repeat case_decide; simplify_eq; (split; [try done|]); cbn [set_var m_vars]; try done;
    try (intros x' b'; rewrite lookup_insert_Some; intros [[<- <-]|[_ Hb]]; [cbn; eauto|by eapply H0]).
  - destruct (b_freq _); done.
  - rewrite (H0 _ _ Heqo). done.
Qed.
Print Assumptions C27_without_candy.

(** An example: two builders, one freed as asked, one never given a candy
    expression, copied, and freed in vain. *)
Example C27_example :
  let cs := [CStr "0 0 * * * * *"; CNew 1; CCandy 1 Once "@daily"; CSpawn 1; CSpawn 1; CNew 2; CCron 2 Repeated 0; CCopy 2 3; CSpawn 3; CFree 3; CFree 1] in
  well_used cs ∅ = true /\
  (snd <$> do_calls cs start) = Some [MUser 0; MLeak 1; MRead 1; MRead 1; MRead 0; MFree 1].
Proof. split; vm_compute; reflexivity. Qed.
