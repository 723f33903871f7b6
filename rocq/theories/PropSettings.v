(** C74: a task is built from the last settings made. *)
From Verif Require Import Base Cron Builder PropBuilder PropCron.

(** A call of a setter.  The setters of the frequency: an interval, a time stamp
    (called in second [set_at]), a cron expression. *)
Inductive setting :=
| SId (i : N) | SRunning (m : N) | SParallel (m : N) | SZone (z : zone)
| SInterval (k : form) (u : tunit) (v : N) | SStamp (set_at ts : N) | SCron (k : form) (str : N).
Definition set1 (pf : profile) (s : setting) (b : builder) : res builder :=
  match s with
  | SId i => Ret (set_task_id i b)
  | SRunning m => Ret (set_maximum_running_time m b)
  | SParallel m => Ret (set_maximum_parallel_runnable_num m b)
  | SZone z => Ret (set_schedule_iterator_time_zone z b)
  | SInterval k u v => set_interval pf k u v b
  | SStamp set_at ts => Ret (set_frequency_once_by_timestamp_seconds set_at ts b)
  | SCron k l => Ret (set_frequency_by_cron_str k l b)
  end.
(** The calls of a program on a builder, in their order. *)
Fixpoint set_all (pf : profile) (ss : list setting) (b : builder) : res builder :=
  match ss with
  | [] => Ret b
  | s :: r => let! b' := set1 pf s b in set_all pf r b'
  end.
(** A new builder, the calls, and the task built from it in second [now] on a thread that
    analysed [hist] before. *)
Definition analyzer (cr : cron_crate) (hist : list request) (now : N) (z : zone) (e : string) : option cron_iter :=
  ow_iter <$> (analyze_cron_expression cr z e (Z.of_N now) (analyses cr hist [])).1.1.
Definition make (pf : profile) (cr : cron_crate) (hist : list request) (h : strings) (uid : N) (ss : list setting) (now : N)
    : res (option (res (freq_error + task))) :=
  let! b := set_all pf ss new_builder in Ret (spawn pf (analyzer cr hist now) now h uid b).

(** The last settings. *)
Definition last_id (ss : list setting) : option N := last (omap (fun s => match s with SId i => Some i | _ => None end) ss).
Definition last_running (ss : list setting) : option N := last (omap (fun s => match s with SRunning m => Some m | _ => None end) ss).
Definition last_parallel (ss : list setting) : option N := last (omap (fun s => match s with SParallel m => Some m | _ => None end) ss).
Definition last_zone (ss : list setting) : option zone := last (omap (fun s => match s with SZone z => Some z | _ => None end) ss).
Inductive fsetting := FInterval (k : form) (u : tunit) (v : N) | FStamp (set_at ts : N) | FCron (k : form) (str : N).
Definition last_freq (ss : list setting) : option fsetting :=
  last (omap (fun s => match s with
                       | SInterval k u v => Some (FInterval k u v) | SStamp a ts => Some (FStamp a ts) | SCron k l => Some (FCron k l)
                       | _ => None end) ss).

(** What the builder holds after the calls. *)
Definition holds (pf : profile) (b : builder) (f : option fsetting) (d : bfreq) : Prop :=
  match f with
  | None => b_freq b = d
  | Some (FInterval k u v) => exists s, mul64 pf (seconds_per u) v = Ret s /\ b_freq b = BSecs k s
  | Some (FStamp a ts) => b_freq b = BSecs Once (default 1 (checked_sub ts a))
  | Some (FCron k l) => b_freq b = BCron k l
  end.
Lemma set_interval_all pf k u v b b' : v < U64 -> set_interval pf k u v b = Ret b' -> exists s, mul64 pf (seconds_per u) v = Ret s /\ b' = set_to k s b.
Proof.
  intros Hv. destruct k, u; cbn [set_interval seconds_per];
    unfold set_frequency_once_by_seconds, set_frequency_once_by_minutes, set_frequency_once_by_hours, set_frequency_once_by_days,
      set_frequency_repeated_by_seconds, set_frequency_repeated_by_minutes, set_frequency_repeated_by_hours, set_frequency_repeated_by_days,
      set_frequency_count_down_by_seconds, set_frequency_count_down_by_minutes, set_frequency_count_down_by_hours, set_frequency_count_down_by_days,
      ONE_MINUTE, ONE_HOUR, ONE_DAY.
  all: try (intros [= <-]; exists v; split; [by rewrite mul64_small, N.mul_1_l by lia|done]).
  all: destruct (mul64 pf _ v) as [s|]; cbn [res_bind]; [|done]; intros [= <-]; by exists s.
Qed.
(** The parameters are u64. *)
Definition fits (ss : list setting) : Prop := Forall (fun s => match s with SInterval _ _ v => v < U64 | _ => True end) ss.
Lemma set_all_snoc pf ss s b : set_all pf (ss ++ [s]) b = let! b' := set_all pf ss b in set1 pf s b'.
Proof.
  revert b. induction ss as [|x ss IH]; intros b; cbn [set_all app res_bind]; [by destruct (set1 pf s b)|].
  destruct (set1 pf x b); cbn [res_bind]; [apply IH|done].
Qed.
Record built (pf : profile) (ss : list setting) (b b' : builder) : Prop := {
  bu_id : b_tid b' = default (b_tid b) (last_id ss);
  bu_run : b_maxrun b' = match last_running ss with Some m => Some m | None => b_maxrun b end;
  bu_par : b_maxpar b' = match last_parallel ss with Some m => Some m | None => b_maxpar b end;
  bu_zone : b_zone b' = default (b_zone b) (last_zone ss);
  bu_freq : holds pf b' (last_freq ss) (b_freq b)
}.
Lemma set_all_built pf ss b b' : fits ss -> set_all pf ss b = Ret b' -> built pf ss b b'.
Proof.
  revert b'. induction ss as [|s ss IH] using rev_ind; intros b' Hf H.
  - injection H as <-. by split.
  - rewrite set_all_snoc in H. destruct (set_all pf ss b) as [b1|]; cbn [res_bind] in H; [|done].
    apply Forall_app in Hf as [Hf Hs]. apply Forall_inv in Hs. destruct (IH b1 Hf eq_refl) as [H1 H2 H3 H4 H5]. clear IH.
    split; unfold last_id, last_running, last_parallel, last_zone, last_freq in *; rewrite omap_app.
    all: destruct s as [i|m|m|z|k u v|a ts|k l]; cbn [omap list_omap set1] in *; rewrite ?app_nil_r, ?last_snoc.
    all: try (injection H as <-; first [exact H1|exact H2|exact H3|exact H4|exact H5|done]).
    all: apply set_interval_all in H as (x & Hx & ->); [|exact Hs]; try first [exact H1|exact H2|exact H3|exact H4].
    cbn. eauto.
Qed.

(* ------------------------------------------------------------------ *)
(** ** C74 *)

(** The id, the limits: the values set last, whatever else was set before, between and after;
    without a setting the id is 0 and there are no limits.  The task is fresh. *)
Theorem C74_settings pf cr hist h uid ss now t :
  make pf cr hist h uid ss now = Ret (Some (Ret (inr t))) -> fits ss ->
  t_uid t = uid /\ t_id t = default 0 (last_id ss) /\ t_maxrun t = last_running ss /\ t_maxpar t = last_parallel ss /\
  t_cyl t = 0 /\ t_valid t = true.
Proof.
  unfold make. intros H Hf. destruct (set_all pf ss new_builder) as [b|] eqn:E; cbn [res_bind] in H; [|done].
  apply set_all_built in E as [H1 H2 H3 _ _]; [|done]. injection H as H. unfold spawn in H.
  destruct (read_freq h (b_freq b)) as [f|]; [|done]. destruct (try_from _ _ _ _) as [[e|fi]|]; cbn [res_bind] in H; simplify_eq. cbn.
  rewrite H1, H2, H3. cbn. by destruct (last_running ss), (last_parallel ss).
Qed.
Print Assumptions C74_settings.

(** A call panics only because an interval does not fit 64 bits, and only with overflow checks. *)
Definition too_long (s : setting) : Prop := match s with SInterval _ u v => U64 <= v * seconds_per u | _ => False end.
Lemma set_interval_debug_panic k u v b : v < U64 -> set_interval Debug k u v b = Panic <-> U64 <= v * seconds_per u.
Proof.
  intros Hv. destruct (decide (v * seconds_per u < U64)) as [H|H]; [rewrite set_interval_ok by done; split; [done|lia]|].
  split; [lia|intros _]. destruct (set_interval Debug k u v b) as [b'|] eqn:E; [|done]. exfalso.
  apply set_interval_all in E as (s & Hs & _); [|done]. apply mul64_debug in Hs as [_ Hs]. lia.
Qed.
Lemma set_interval_release k u v b : set_interval Release k u v b <> Panic.
Proof.
  destruct k, u; cbn [set_interval]; unfold set_frequency_once_by_seconds, set_frequency_once_by_minutes, set_frequency_once_by_hours, set_frequency_once_by_days,
    set_frequency_repeated_by_seconds, set_frequency_repeated_by_minutes, set_frequency_repeated_by_hours, set_frequency_repeated_by_days,
    set_frequency_count_down_by_seconds, set_frequency_count_down_by_minutes, set_frequency_count_down_by_hours, set_frequency_count_down_by_days, mul64; repeat case_match; done.
Qed.
Theorem C74_panics pf cr hist h uid ss now :
  fits ss -> make pf cr hist h uid ss now = Panic <-> pf = Debug /\ Exists too_long ss.
Proof.
  intros Hf. unfold make. transitivity (set_all pf ss new_builder = Panic); [by destruct (set_all pf ss new_builder)|].
  generalize new_builder as b. induction ss as [|s ss IH]; intros b.
  - cbn [set_all]. split; [done|]. intros [_ H]. inversion H.
  - apply Forall_cons in Hf as [Hs Hf]. specialize (IH Hf). cbn [set_all]. rewrite Exists_cons.
    assert (set1 pf s b = Panic <-> pf = Debug /\ too_long s) as Hp.
    { destruct s as [i|m|m|z|k u v|a ts|k l]; cbn [set1 too_long]; try (split; [done|tauto]).
      destruct pf; [rewrite set_interval_debug_panic by done; tauto|]. split; [intros []%set_interval_release|by intros [? _]]. }
    destruct (set1 pf s b) as [b1|]; cbn [res_bind].
    + rewrite IH. split; [tauto|]. intros [? [?|?]]; [|tauto]. by assert (Ret b1 = Panic) by tauto.
    + assert (pf = Debug /\ too_long s) by tauto. tauto.
Qed.
Print Assumptions C74_panics.

(** The schedule is that of the last setter of the frequency; without one, once in a minute. *)
Lemma make_secs pf cr hist h uid ss now k s n b :
  set_all pf ss new_builder = Ret b -> b_freq b = BSecs k s -> s <> 0 -> now + N.of_nat (S n) * s + 1 < U64 ->
  exists t, make pf cr hist h uid ss now = Ret (Some (Ret (inr t))) /\ due_times pf (S n) t = Ret (advertised now s (S n)) /\ residual_time (t_freq t) = runs k.
Proof.
  intros E Hb H0 H. unfold make. rewrite E. cbn [res_bind]. replace b with (set_to k s b) by (destruct b; cbn in *; by rewrite Hb).
  rewrite spawn_secs. destruct (N.eqb_spec s 0) as [|_]; [done|]. rewrite add64_small by lia. cbn [res_bind].
  eexists. split; [reflexivity|]. split; [|by destruct k]. by apply (due_times_at pf k now s (S n) 0).
Qed.
Theorem C74_interval pf cr hist h uid ss now k u v n :
  fits ss -> make pf cr hist h uid ss now <> Panic -> last_freq ss = Some (FInterval k u v) ->
  v <> 0 -> now + N.of_nat (S n) * (v * seconds_per u) + 1 < U64 ->
  exists t, make pf cr hist h uid ss now = Ret (Some (Ret (inr t))) /\ due_times pf (S n) t = Ret (advertised now (v * seconds_per u) (S n)) /\
            residual_time (t_freq t) = runs k.
Proof.
  intros Hf Hp Hl Hv H. destruct (set_all pf ss new_builder) as [b|] eqn:E; [|exfalso; apply Hp; unfold make; by rewrite E].
  destruct (set_all_built _ _ _ _ Hf E) as [_ _ _ _ Hb]. rewrite Hl in Hb. destruct Hb as (s & Hs & Hb).
  rewrite mul64_small in Hs by lia. injection Hs as <-. rewrite (N.mul_comm v). rewrite (N.mul_comm v) in H.
  eapply make_secs; [exact E|exact Hb| |exact H]. destruct u; cbn [seconds_per]; lia.
Qed.
Print Assumptions C74_interval.
Theorem C74_stamp pf cr hist h uid ss now set_at ts :
  fits ss -> make pf cr hist h uid ss now <> Panic -> last_freq ss = Some (FStamp set_at ts) ->
  ts <> set_at -> now + ts + 2 < U64 ->
  exists t, make pf cr hist h uid ss now = Ret (Some (Ret (inr t))) /\
            due_times pf 1 t = Ret [Some (if set_at <? ts then now + (ts - set_at) else now + 1)] /\ residual_time (t_freq t) = 1.
Proof.
  intros Hf Hp Hl Hv H. destruct (set_all pf ss new_builder) as [b|] eqn:E; [|exfalso; apply Hp; unfold make; by rewrite E].
  destruct (set_all_built _ _ _ _ Hf E) as [_ _ _ _ Hb]. rewrite Hl in Hb. cbn [holds] in Hb. unfold checked_sub in Hb.
  destruct (N.ltb_spec set_at ts) as [Hlt|Hlt]; destruct (N.leb_spec set_at ts) as [Hle|Hle]; try (exfalso; lia); cbn [default from_option id] in Hb.
  - destruct (make_secs pf cr hist h uid ss now Once (ts - set_at) 0 b E Hb) as (t & Ht & Hd & Hr); [lia|lia|]. exists t. split; [exact Ht|].
    split; [|exact Hr]. rewrite Hd. unfold advertised. cbn [seq fmap list_fmap]. change (N.of_nat 1) with 1. by rewrite N.mul_1_l.
  - destruct (make_secs pf cr hist h uid ss now Once 1 0 b E Hb) as (t & Ht & Hd & Hr); [lia|lia|]. exists t. split; [exact Ht|].
    split; [|exact Hr]. rewrite Hd. reflexivity.
Qed.
Print Assumptions C74_stamp.
Theorem C74_default pf cr hist h uid ss now :
  fits ss -> last_freq ss = None -> now + 61 < U64 ->
  exists t, make pf cr hist h uid ss now = Ret (Some (Ret (inr t))) /\ due_times pf 1 t = Ret [Some (now + 60)] /\ residual_time (t_freq t) = 1.
Proof.
  intros Hf Hl H. destruct (set_all pf ss new_builder) as [b|] eqn:E.
  - destruct (set_all_built _ _ _ _ Hf E) as [_ _ _ _ Hb]. rewrite Hl in Hb.
    apply (make_secs pf cr hist h uid ss now Once 60 0 b E Hb); [done|]. change (N.of_nat 1) with 1. lia.
  - exfalso. assert (make pf cr hist h uid ss now = Panic) as Hx by (unfold make; by rewrite E). apply C74_panics in Hx as [_ Hx]; [|exact Hf].
    clear -Hl Hx. unfold last_freq in Hl. apply last_None in Hl. induction Hx as [s ss Hs|s ss _ IH]; [by destruct s|].
    apply IH. revert Hl. cbn. by destruct s.
Qed.
Print Assumptions C74_default.

(** The dates of a cron expression: each one is the first after the one before, the first one the first after [from].  When there is
    none, there will be none. *)
Fixpoint cron_dates (next : Z -> option Z) (n : nat) (from : Z) : list (option N) :=
  match n with
  | O => []
  | S m => match next from with Some d => Some (as_u64 d) :: cron_dates next m d | None => replicate n None end
  end.
Definition cron_freq (k : form) (c : cron_iter) : freq :=
  match k with Once => CronExpressionCountDown 1 c | Repeated => CronExpressionRepeated c | CountDown n => CronExpressionCountDown n c end.
Lemma cron_due pf k n : forall t c, t_freq t = cron_freq k c ->
  due_times pf n t = Ret (if ci_done c then replicate n None else cron_dates (ci_next c) n (ci_prev c)).
Proof.
  induction n as [|n IH]; intros t c Ht; [by destruct (ci_done c)|]. cbn [due_times cron_dates].
  assert (get_next_exec_timestamp pf t = Ret (option_map as_u64 (cron_step c).1, set_freq (cron_freq k (cron_step c).2) t)) as ->.
  { unfold get_next_exec_timestamp. rewrite Ht. destruct k; cbn [cron_freq next_alarm_timestamp]; by destruct (cron_step c). }
  cbn [res_bind]. rewrite (IH _ (cron_step c).2) by done. cbn [res_bind]. unfold cron_step. destruct (ci_done c) eqn:Ec; cbn [fst snd]; [by rewrite Ec|].
  by destruct (ci_next c (ci_prev c)).
Qed.
Theorem C74_cron pf cr hist h uid ss now k l e n :
  fits ss -> make pf cr hist h uid ss now <> Panic -> last_freq ss = Some (FCron k l) -> h !! l = Some e ->
  match cr_parse cr (trim_spaces e) with
  | None => make pf cr hist h uid ss now = Ret (Some (Ret (inl DisParse)))
  | Some sc =>
      exists t, make pf cr hist h uid ss now = Ret (Some (Ret (inr t))) /\
                due_times pf n t = Ret (cron_dates (cr_next cr sc (default Local (last_zone ss))) n (Z.of_N now)) /\ residual_time (t_freq t) = runs k
  end.
Proof.
  intros Hf Hp Hl He. destruct (set_all pf ss new_builder) as [b|] eqn:E; [|exfalso; apply Hp; unfold make; by rewrite E].
  destruct (set_all_built _ _ _ _ Hf E) as [_ _ _ Hz Hb]. rewrite Hl in Hb. cbn [holds] in Hb. cbn [new_builder b_zone] in Hz.
  assert (analyzer cr hist now (b_zone b) e = ow_iter <$> meaning cr (b_zone b) e (Z.of_N now)) as Ha by (unfold analyzer; by rewrite C26_invisible).
  unfold make. rewrite E. cbn [res_bind]. unfold spawn. rewrite Hb. cbn [read_freq]. rewrite He. unfold meaning in Ha. rewrite Hz in Ha |- *.
  destruct (cr_parse cr (trim_spaces e)) as [sc|]; cbn [fmap option_fmap option_map ow_iter] in Ha.
  - assert (try_from pf (analyzer cr hist now (default Local (last_zone ss))) now
              (FreqCron (match k with Once => CronOnce e | Repeated => CronRepeated e | CountDown n => CronCountDown n e end)) =
            Ret (inr (cron_freq k (CronIter (cr_next cr sc (default Local (last_zone ss))) (Z.of_N now) false)))) as ->.
    { destruct k; cbn [try_from cron_freq]; by rewrite Ha. }
    cbn [res_bind]. eexists. split; [reflexivity|]. split; [|by destruct k]. rewrite (cron_due pf k n _ (CronIter (cr_next cr sc (default Local (last_zone ss))) (Z.of_N now) false)) by done. done.
  - destruct k; cbn [try_from]; rewrite Ha; done.
Qed.
Print Assumptions C74_cron.

(** Two tasks from one builder that is set further in between; the settings in any order.  [sec2]: an expression that gives every even
    second, in any time zone but UTC one second later. *)
Definition sec2 : cron_crate :=
  CronCrate unit (fun e => if decide (e = "*/2"%string) then Some tt else None)
    (fun _ z t => Some (match z with Utc => t + 2 - t mod 2 | _ => t + 2 - t mod 2 + 1 end)%Z).
Definition calls1 : list setting := [SParallel 3; SInterval Repeated Minutes 5; SId 4; SZone Utc; SCron (CountDown 2) 9; SRunning 30; SId 6].
Definition calls2 : list setting := calls1 ++ [SInterval Once Hours 2; SParallel 1].
Example C74_example :
  (exists t, make Debug sec2 [] (<[9 := " */2 "%string]> ∅) 1 calls1 1001 = Ret (Some (Ret (inr t))) /\
     (t_id t, t_maxrun t, t_maxpar t) = (6, Some 30, Some 3) /\ residual_time (t_freq t) = 2 /\ due_times Debug 3 t = Ret [Some 1002; Some 1004; Some 1006]) /\
  (exists t, make Debug sec2 [] (<[9 := " */2 "%string]> ∅) 2 calls2 1001 = Ret (Some (Ret (inr t))) /\
     (t_id t, t_maxrun t, t_maxpar t) = (6, Some 30, Some 1) /\ residual_time (t_freq t) = 1 /\ due_times Debug 1 t = Ret [Some 8201]) /\
  fits calls2 /\ last_freq calls1 = Some (FCron (CountDown 2) 9) /\ last_freq calls2 = Some (FInterval Once Hours 2).
Proof.
  split; [|split; [|split; [|done]]].
  - eexists. split; [vm_compute; reflexivity|]. vm_compute. done.
  - eexists. split; [vm_compute; reflexivity|]. vm_compute. done.
  - repeat constructor.
Qed.
