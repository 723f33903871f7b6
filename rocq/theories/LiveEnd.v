(** Instances with a maximum running time in infinite executions. *)
From Verif Require Import Tactics Inv Own Life Count Cases Inst Ended Origin Account Arrival Fifo Way PropSweep PropEnd Live.

(** The clock passes every second: the scheduler and the sweeper read later and later times. *)
Definition clock_passes (lb : nat -> label) : Prop :=
  forall d, exists n, forall m, (n <= m)%nat -> match lb m with LTimer _ _ now | LSweep _ now => d <= now | _ => True end.

(** What holds stays until something else happens. *)
Lemma until (P Q : nat -> Prop) n m : (forall k, (n <= k)%nat -> P k -> P (S k) \/ Q (S k)) -> P n -> (n <= m)%nat ->
  P m \/ exists k, (n <= k <= m)%nat /\ Q k.
Proof.
  intros H HP Hm. induction Hm as [|m Hm [IH|(k & Hk & IH)]]; [by left| |right; exists k; split; [lia|done]].
  destruct (H m Hm IH) as [?|?]; [by left|right]. exists (S m). split; [lia|done].
Qed.
(** The first step of a kind. *)
Lemma first_such (P : nat -> Prop) `{!forall n, Decision (P n)} n m : (n <= m)%nat -> P m -> exists k, (n <= k <= m)%nat /\ P k /\ forall i, (n <= i < k)%nat -> ~ P i.
Proof.
  intros Hm Hx. remember (m - n)%nat as d eqn:Ed. revert n Hm Ed. induction d as [|d IH]; intros n Hm Ed.
  - exists m. split; [lia|]. split; [done|]. intros i Hi. lia.
  - destruct (decide (P n)) as [Hn|Hn]; [exists n; split; [lia|]; split; [done|]; intros i Hi; lia|].
    destruct (IH (S n) ltac:(lia) ltac:(lia)) as (k & Hk & H1 & H2). exists k. split; [lia|]. split; [done|]. intros i Hi. destruct (decide (i = n)) as [->|]; [done|]. apply H2. lia.
Qed.
Global Instance by_sweeper_dec lb : Decision (by_sweeper lb).
Proof. destruct lb; cbn; apply _. Defined.
Global Instance by_receiver_dec lb : Decision (by_receiver lb).
Proof. destruct lb; cbn; apply _. Defined.

(* ------------------------------------------------------------------ *)
(** * The event handler takes each event *)

Lemma taken pf t0 t1 σ lb e n : exec pf t0 t1 σ lb -> weakly_fair pf by_handler σ lb -> e ∈ queue (σ n) ->
  exists m, (n <= m)%nat /\ (hpc (σ m) = HDead \/ lb m = LHandler /\ hpc (σ m) = HIdle /\ exists q, queue (σ m) = e :: q).
Proof.
  intros He Hf Hin. apply elem_of_list_split in Hin as (q1 & q2 & Eq).
  destruct (handled _ _ _ _ _ He Hf _ n q1 (e :: q2) Eq (le_n _)) as (m & Hm & [Hd|[Hi Hp]]); [exists m; auto|].
  assert (exists q, queue (σ m) = e :: q) as Hq.
  { pose proof (fifo_reach _ _ _ _ (exec_reach _ _ _ _ _ n He)) as F1. pose proof (fifo_reach _ _ _ _ (exec_reach _ _ _ _ _ m He)) as F2.
    destruct (exec_log _ _ _ _ _ n m He Hm) as [l El]. rewrite El, sends_app, F1, <- El, Hp, Eq in F2. rewrite reverse_app, reverse_cons in F2.
    exists (q2 ++ reverse (sends l)). apply (inj reverse). apply (app_inv_tail (reverse q1 ++ pops (log (σ n)))). rewrite <- F2.
    rewrite reverse_cons, reverse_app, reverse_involutive. by rewrite <- !app_assoc. }
  destruct (Hf m) as (k & Hk & Hx).
  destruct (until (fun k => hpc (σ k) = HIdle /\ exists q, queue (σ k) = e :: q) (fun k => exists i, k = S i /\ (m <= i)%nat /\ lb i = LHandler /\ hpc (σ i) = HIdle /\ exists q, queue (σ i) = e :: q) m k) as [[H1 H2]|(j & Hj & i & -> & Hle & H)]; [|done|done| |].
  - intros i Hle [H1 H2]. destruct (match lb i with LHandler => true | _ => false end) eqn:Eb.
    + right. exists i. split; [done|]. split; [done|]. split; [by destruct (lb i)|done].
    + left. destruct (other_queue _ _ _ _ (ex_step _ _ _ _ _ He i)) as (E1 & _ & q & E2); [by destruct (lb i)|]. rewrite E1, E2. split; [done|].
      destruct H2 as [q' ->]. exists (q' ++ q). done.
  - exists k. split; [lia|]. right. destruct Hx as [Hx|Hx]; [by destruct (lb k)|]. exfalso. apply Hx, handler_enabled. rewrite H1. split; [done|]. intros _. destruct H2 as [q ->]. done.
  - exists i. split; [lia|]. by right.
Qed.

(* ------------------------------------------------------------------ *)
(** * The sweeper *)

Lemma sweeper_enabled pf s : enabled pf by_sweeper s.
Proof. exists (sweep_label 0 s). destruct (sweep_label_ok pf 0 s) as [H _]. split; [|done]. unfold sweep_label. repeat case_match; done. Qed.
Lemma sweeps_on pf t0 t1 σ lb : exec pf t0 t1 σ lb -> weakly_fair pf by_sweeper σ lb -> infinitely_often (fun m => by_sweeper (lb m)).
Proof. intros He Hf n. destruct (Hf n) as (m & Hm & [Hx|Hx]); [eauto|]. destruct Hx. apply sweeper_enabled. Qed.
Lemma spc_other pf lb s s' : step pf lb s = Some s' -> ~ by_sweeper lb -> spc s' = spc s.
Proof. intros Hs Hn. step_inv Hs; try (by destruct Hn); inst_cases; isimpl; fsimpl; done. Qed.
Lemma recq_other pf lb s s' : step pf lb s = Some s' -> ~ by_receiver lb -> exists us, recq s' = recq s ++ us.
Proof.
  intros Hs Hn. destruct (step_sweeps _ _ _ _ Hs) as [us E1 E2 E3 E4 E5 _|u E1 E2 E3|now E1 E2|now k ch u E1 E2 E3 E4 E5 E6 E7 E8 E9 E10 E11|now k E1 E2 E3].
  - by exists us.
  - exfalso. clear E2. revert E3. step_inv Hs; try (by destruct Hn); inst_cases; isimpl; fsimpl; intros E3; try (apply (f_equal length) in E3; cbn [length] in E3; rewrite ?app_length in E3; lia).
  - exists []. rewrite E2, app_nil_r. done.
  - exists []. by rewrite E9, app_nil_r.
  - exists []. rewrite E3, app_nil_r. done.
Qed.
Lemma next_sweep pf t0 t1 σ lb n : exec pf t0 t1 σ lb -> weakly_fair pf by_sweeper σ lb -> exists i, (n <= i)%nat /\ by_sweeper (lb i) /\ spc (σ i) = spc (σ n).
Proof.
  intros He Hf. destruct (sweeps_on _ _ _ _ _ He Hf n) as (m & Hm & Hx). destruct (first_such (fun m => by_sweeper (lb m)) n m Hm Hx) as (i & Hi & H1 & H2).
  exists i. split; [lia|]. split; [done|].
  destruct (until (fun k => (k <= i)%nat -> spc (σ k) = spc (σ n)) (fun _ => False) n i) as [H|(? & _ & [])]; [|done|lia|by apply H].
  intros k' Hk' IHk. left. intros Hle. rewrite <- IHk by lia. apply (spc_other pf (lb k')); [apply (ex_step _ _ _ _ _ He)|]. apply H2. lia.
Qed.
Lemma rests pf t0 t1 σ lb : exec pf t0 t1 σ lb -> weakly_fair pf by_sweeper σ lb -> infinitely_often (fun m => spc (σ m) = SSleep).
Proof.
  intros He Hf n. remember (round_left (spc (σ n))) as k eqn:Ek. revert n Ek. induction k as [k IH] using lt_wf_ind. intros n Ek.
  destruct (spc (σ n)) as [|now j] eqn:Es; [exists n; auto|].
  destruct (next_sweep _ _ _ _ _ n He Hf) as (i & Hi & H1 & E).
  pose proof (ex_step _ _ _ _ _ He i) as Hs. destruct (lb i); try done. cbn [step] in Hs. unfold sweep_step in Hs. rewrite E, Es in Hs.
  assert (spc (σ (S i)) = SSleep \/ j <> 0 /\ spc (σ (S i)) = SRound now (j - 1)) as [?|[Hj E2]].
  { destruct (j =? 0) eqn:Ej; [apply (f_equal (from_option spc SSleep)) in Hs; left; symmetry; exact Hs|]. destruct (least_deadline (heap (σ i))) as [dl|]; [|apply (f_equal (from_option spc SSleep)) in Hs; left; symmetry; exact Hs]. destruct (dl <=? now); [|apply (f_equal (from_option spc SSleep)) in Hs; left; symmetry; exact Hs].
    destruct (heap (σ i) !! ch) as [v|]; [|done]. destruct (u_deadline v =? dl); [|done]. apply (f_equal (from_option spc SSleep)) in Hs. right. split; [lia|]. symmetry. exact Hs. }
  { exists (S i). split; [lia|done]. }
  destruct (IH (round_left (spc (σ (S i)))) ltac:(subst k; rewrite E2; cbn; lia) (S i) eq_refl) as (m & ? & ?). exists m. split; [lia|done].
Qed.

(** The units with a deadline up to [d]. *)
Definition due_by (d : N) (us : list runit) : list runit := filter (fun u => u_deadline u <= d) us.
(** From some point on no more such units are registered. *)
Definition no_more (σ : nat -> sys) (d : N) : Prop :=
  exists n, forall m, (n <= m)%nat -> due_by d (registrations (log (σ m))) = due_by d (registrations (log (σ n))).
(** The same, until something else happens. *)
Definition no_more_until (W : nat -> Prop) (σ : nat -> sys) (d : N) : Prop :=
  exists n, forall m, (n <= m)%nat -> due_by d (registrations (log (σ m))) = due_by d (registrations (log (σ n))) \/ W m.

Lemma received pf t0 t1 σ lb u n : exec pf t0 t1 σ lb -> receives σ lb ->
  u ∈ recq (σ n) -> exists m, (n <= m)%nat /\ u ∈ heap (σ m).
Proof.
  intros He Hf Hin. apply elem_of_list_split in Hin as (q1 & q2 & Eq). revert n q2 Eq. induction q1 as [|v q1 IH]; intros n q2 Eq.
  all: assert (exists m, (n <= m)%nat /\ by_receiver (lb m) /\ exists us, recq (σ m) = recq (σ n) ++ us) as (m & Hm & Hb & us & Er).
  1,3: destruct (Hf n) as (m & Hm & Hx);
    destruct (until (fun k => exists us, recq (σ k) = recq (σ n) ++ us) (fun k => exists i, k = S i /\ (n <= i)%nat /\ by_receiver (lb i) /\ exists us, recq (σ i) = recq (σ n) ++ us) n m)
      as [[us H]|(k & Hk & i & -> & Hi & H)]; [|exists []; by rewrite app_nil_r|done| |exists i; split; [lia|done]];
    [intros k Hk [us E]; destruct (decide (by_receiver (lb k))) as [Hb|Hb]; [right; exists k; eauto|left];
     destruct (recq_other _ _ _ _ (ex_step _ _ _ _ _ He k) Hb) as [us' E']; exists (us ++ us'); by rewrite E', E, app_assoc|];
    destruct Hx as [Hx|Hx]; [exists m; eauto|rewrite Hx, Eq in H; discriminate H].
  all: pose proof (ex_step _ _ _ _ _ He m) as Hs; destruct (lb m); try done; cbn [step] in Hs; unfold sweep_recv in Hs; rewrite Er, Eq in Hs; cbn [app] in Hs;
    destruct (spc (σ m)); [|done]; injection Hs as Hs.
  - exists (S m). split; [lia|]. rewrite <- Hs. fsimpl. left.
  - destruct (IH (S m) (q2 ++ us)) as (m' & ? & ?); [rewrite <- Hs; fsimpl; by rewrite <- app_assoc|]. exists m'. split; [lia|done].
Qed.

Lemma swept_mono pf lb s s' d : step pf lb s = Some s' -> (length (due_by d (swept (log s))) <= length (due_by d (swept (log s'))))%nat.
Proof.
  intros Hs. destruct (step_log _ _ _ _ Hs) as [l ->]. rewrite swept_app. unfold due_by. rewrite filter_app, app_length. lia.
Qed.
Lemma heap_stays pf lb s s' u : step pf lb s = Some s' -> u ∈ heap s -> u ∈ heap s' \/ timeout_of u ∈ queue s'.
Proof.
  intros Hs Hu. destruct (step_sweeps _ _ _ _ Hs) as [us E1 E2 E3 E4 E5 _|v E1 E2 E3|now E1 E2|now k ch v E1 E2 E3 E4 E5 E6 E7 E8 E9 E10 E11|now k E1 E2 E3].
  - left. by rewrite E1.
  - left. rewrite E2. fsimpl. by right.
  - left. by rewrite E2.
  - rewrite (delete_Permutation _ _ _ E3), elem_of_cons in Hu. destruct Hu as [->|Hu]; [right; rewrite E8; apply elem_of_app; right; left|left; by rewrite E6].
  - left. by rewrite E3.
Qed.
(** A unit in the heap is worked off, unless units with earlier deadlines keep coming. *)
Lemma swept_out pf t0 t1 σ lb W u n : exec pf t0 t1 σ lb -> weakly_fair pf by_sweeper σ lb -> clock_passes lb -> no_more_until W σ (u_deadline u) ->
  u ∈ heap (σ n) -> exists m, (n <= m)%nat /\ (timeout_of u ∈ queue (σ m) \/ W m).
Proof.
  intros He Hw Hc (n1 & Hno) Hin. set (d := u_deadline u) in *. destruct (Hc d) as [n2 Hn2].
  set (left k := length (due_by d (recq (σ k) ++ heap (σ k)))). set (done k := length (due_by d (swept (log (σ k))))). set (all := length (due_by d (registrations (log (σ n1))))).
  assert (forall k, (n1 <= k)%nat -> (left k + done k = all)%nat \/ W k) as Hall.
  { intros k Hk. destruct (Hno k Hk) as [Hn|Hn]; [left|by right]. unfold left, done, all. rewrite <- Hn. unfold due_by. rewrite (C46_none_lost_or_doubled _ _ _ _ (exec_reach _ _ _ _ _ k He)).
    rewrite !filter_app, !app_length. lia. }
  assert (forall n m, (n <= m)%nat -> (done n <= done m)%nat) as Hmono.
  { intros a b Hab. induction Hab as [|b Hab IH]; [lia|]. pose proof (swept_mono _ _ _ _ d (ex_step _ _ _ _ _ He b)). unfold done in *. lia. }
  assert (forall n m, (n <= m)%nat -> u ∈ heap (σ n) -> u ∈ heap (σ m) \/ exists k, (n <= k <= m)%nat /\ timeout_of u ∈ queue (σ k)) as Hstay.
  { intros a b Hab Ha. apply (until (fun k => u ∈ heap (σ k)) (fun k => timeout_of u ∈ queue (σ k))); [|exact Ha|exact Hab]. intros k _ Hk. eapply heap_stays; [apply (ex_step _ _ _ _ _ He)|exact Hk]. }
  assert (forall k n, (n1 <= n)%nat -> (n2 <= n)%nat -> u ∈ heap (σ n) -> left n = k -> exists m, (n <= m)%nat /\ (timeout_of u ∈ queue (σ m) \/ W m)) as Hgo.
  2: { destruct (Hstay n (n + n1 + n2)%nat ltac:(lia) Hin) as [H|(k & Hk & H)]; [|exists k; split; [lia|by left]].
    destruct (Hgo _ (n + n1 + n2)%nat ltac:(lia) ltac:(lia) H eq_refl) as (m & ? & ?). exists m. split; [lia|assumption]. }
  clear n Hin. induction k as [k IH] using lt_wf_ind. intros n Hn1' Hn2' Hin Ek.
  destruct (rests _ _ _ _ _ He Hw n) as (m0 & Hm0 & E0). destruct (next_sweep _ _ _ _ _ m0 He Hw) as (i & Hi & Bi & Ei). rewrite E0 in Ei.
  assert (exists now, d <= now /\ spc (σ (S i)) = SRound now 200) as (now & Hnow & Ei').
  { pose proof (ex_step _ _ _ _ _ He i) as Hs. pose proof (Hn2 i ltac:(lia)) as Hx. destruct (lb i); try contradiction. cbn [step] in Hs. unfold sweep_step in Hs. rewrite Ei in Hs. injection Hs as <-. eauto. }
  destruct (next_sweep _ _ _ _ _ (S i) He Hw) as (j & Hj & Bj & Ej). rewrite Ei' in Ej.
  destruct (Hstay n j ltac:(lia) Hin) as [Hu|(k' & Hk' & H)]; [|exists k'; split; [lia|by left]].
  pose proof (ex_step _ _ _ _ _ He j) as Hs. destruct (heap_stays _ _ _ _ _ Hs Hu) as [Hu'|H]; [|exists (S j); split; [lia|by left]].
  assert (S (done j) <= done (S j))%nat as Hlt.
  { unfold done. pose proof (least_spec (heap (σ j))) as Hl. destruct (lb j); try contradiction. cbn [step] in Hs. unfold sweep_step in Hs. rewrite Ej in Hs. cbn [N.eqb Pos.eqb] in Hs.
    destruct (least_deadline (heap (σ j))) as [d'|]; [|rewrite Hl in Hu; by apply elem_of_nil in Hu]. destruct Hl as [_ Hl]. rewrite Forall_forall in Hl. specialize (Hl _ Hu). fold d in Hl.
    rewrite (proj2 (N.leb_le d' now)) in Hs by lia. destruct (heap (σ j) !! ch) as [v|] eqn:Ev; [|discriminate Hs]. destruct (u_deadline v =? d') eqn:Ed; [|discriminate Hs]. apply N.eqb_eq in Ed.
    injection Hs as <-. fsimpl. change (swept (_ :: _)) with (RUnit (u_deadline v) (u_tid v) (u_rec v) :: swept (log (σ j))). unfold due_by. rewrite filter_cons, decide_True by (cbn; lia). cbn [length]. lia. }
  destruct (Hall n ltac:(lia)) as [Hl1|?]; [|exists n; auto]. destruct (Hall (S j) ltac:(lia)) as [Hl2|?]; [|exists (S j); split; [lia|auto]]. pose proof (Hmono n j ltac:(lia)).
  destruct (IH (left (S j)) ltac:(lia) (S j) ltac:(lia) ltac:(lia) Hu' eq_refl) as (m & ? & ?). exists m. split; [lia|assumption].
Qed.

(* ------------------------------------------------------------------ *)
(** * The instance ends *)

(** From the timeout event to the end. *)
Lemma event_ends pf t0 t1 σ lb tid rec n : exec pf t0 t1 σ lb -> weakly_fair pf by_handler σ lb ->
  ETimeout tid rec ∈ queue (σ n) -> (tid, rec) ∈ trace_recs (trace (σ n)) -> exists m, (n <= m)%nat /\ (OQuit tid rec ∈ log (σ m) \/ hpc (σ m) = HDead).
Proof.
  intros He Hf Hq Ht. destruct (taken _ _ _ _ _ _ _ He Hf Hq) as (m & Hm & [Hd|(El & Hi & q & Eq)]); [exists m; auto|].
  destruct (until (fun k => (tid, rec) ∈ trace_recs (trace (σ k))) (fun k => OQuit tid rec ∈ log (σ k)) n m) as [Hx|(k & Hk & Hx)]; [|done|done| |].
  - intros k _ Hk. apply (trace_step pf (lb k) (σ k)); [eapply hpub_reach, exec_reach, He|apply (ex_step _ _ _ _ _ He)|done].
  - exists (S m). split; [lia|]. left. pose proof (ex_step _ _ _ _ _ He m) as Hs. rewrite El in Hs. cbn [step] in Hs. unfold handler_step in Hs. rewrite Hi, Eq in Hs. cbn [dispatch] in Hs.
    change (Some (cancel_task false tid rec TIMEOUT (popped (ETimeout tid rec) q (σ m))) = Some (σ (S m))) in Hs. injection Hs as <-.
    assert (ended false tid rec TIMEOUT (popped (ETimeout tid rec) q (σ m)) (cancel_task false tid rec TIMEOUT (popped (ETimeout tid rec) q (σ m)))) as Hy by apply cancel_cases.
    apply (ended_effect _ _ _ _ _ _ _ _ (ending_timeout tid rec)) in Hy as (_ & [(Hn & _)|(tr & c & p & Hn & Et & El2 & _)]).
    + exfalso. by eapply quit_none.
    + rewrite El2, !elem_of_app. right; right. left.
  - exists k. split; [lia|]. by left.
Qed.
(** From the registered unit to the end. *)
Lemma unit_ends pf t0 t1 σ lb W u n : exec pf t0 t1 σ lb -> weakly_fair pf by_handler σ lb -> weakly_fair pf by_sweeper σ lb -> receives σ lb ->
  clock_passes lb -> (forall d, no_more_until W σ d) -> u ∈ recq (σ n) \/ u ∈ heap (σ n) -> (u_tid u, u_rec u) ∈ trace_recs (trace (σ n)) ->
  exists m, (n <= m)%nat /\ (OQuit (u_tid u) (u_rec u) ∈ log (σ m) \/ hpc (σ m) = HDead \/ W m).
Proof.
  intros He Hf Hw Hrf Hc Hno Hu Ht.
  assert (exists m, (n <= m)%nat /\ (timeout_of u ∈ queue (σ m) \/ W m)) as (m & Hm & [Hq|Hq]); [| |exists m; auto].
  { destruct Hu as [Hu|Hu]; [|by eapply swept_out]. destruct (received _ _ _ _ _ _ _ He Hrf Hu) as (k & Hk & Hx).
    destruct (swept_out _ _ _ _ _ _ _ _ He Hw Hc (Hno _) Hx) as (m & ? & ?). exists m. split; [lia|done]. }
  destruct (until (fun k => (u_tid u, u_rec u) ∈ trace_recs (trace (σ k))) (fun k => OQuit (u_tid u) (u_rec u) ∈ log (σ k)) n m) as [Hx|(k & Hk & Hx)]; [|done|done| |].
  - intros k _ Hk. apply (trace_step pf (lb k) (σ k)); [eapply hpub_reach, exec_reach, He|apply (ex_step _ _ _ _ _ He)|done].
  - destruct (event_ends _ _ _ _ _ _ _ _ He Hf Hq Hx) as (m' & ? & ?). exists m'. split; [lia|naive_solver].
  - exists k. split; [lia|]. by left.
Qed.
Lemma way_ends pf t0 t1 σ lb W tid rec n : exec pf t0 t1 σ lb -> weakly_fair pf by_handler σ lb -> strongly_fair pf by_scheduler σ lb ->
  weakly_fair pf by_sweeper σ lb -> receives σ lb ->
  clock_passes lb -> (forall d, no_more_until W σ d) -> on_way tid rec (σ n) -> tpc (σ n) <> TDead ->
  exists m, (n <= m)%nat /\ (OQuit tid rec ∈ log (σ m) \/ hpc (σ m) = HDead \/ W m).
Proof.
  intros He Hf Hs Hw Hrf Hc Hno Hx Hd.
  assert (forall n hb d, EAppend tid hb ∈ queue (σ n) -> hb_rec hb = rec -> hb_end hb = Some d -> exists m, (n <= m)%nat /\ (OQuit tid rec ∈ log (σ m) \/ hpc (σ m) = HDead \/ W m)) as Happ.
  { clear n Hx Hd. intros n hb d Hq Hr Hd. pose proof (st_hb _ (stat_reach _ _ _ _ (exec_reach _ _ _ _ _ n He)) _ _ Hq) as Htid.
    destruct (taken _ _ _ _ _ _ _ He Hf Hq) as (m & Hm & [?|(El & Hi & q & Eq)]); [exists m; auto|].
    pose proof (ex_step _ _ _ _ _ He m) as Hst. rewrite El in Hst. cbn [step] in Hst. unfold handler_step in Hst. rewrite Hi, Eq in Hst. cbn [dispatch] in Hst.
    change (Some (maintain_task_status tid hb (popped (EAppend tid hb) q (σ m))) = Some (σ (S m))) in Hst.
    assert (appended tid hb (popped (EAppend tid hb) q (σ m)) (maintain_task_status tid hb (popped (EAppend tid hb) q (σ m)))) as Hy by apply append_cases.
    apply appended_effect in Hy as (_ & Et & Er & _). injection Hst as Hst. rewrite Hst in Et, Er.
    destruct (unit_ends _ _ _ _ _ W (RUnit d (hb_tid hb) (hb_rec hb)) (S m) He Hf Hw Hrf Hc Hno) as (m' & ? & Hy).
    - left. rewrite Er. unfold unit_of. rewrite Hd. apply elem_of_app. right. left.
    - cbn. rewrite Et, trace_insert_recs, Htid. left.
    - exists m'. split; [lia|]. cbn in Hy. by rewrite Htid, Hr in Hy. }
  destruct Hx as [Hx|l ids t d H1 H2|hb d H1 H2 H3|u H1 H2 H3 H4|H1 H2|H1].
  - done.
  - destruct (goes_on _ _ _ _ _ He Hf Hs n) as (m & Hm & Hg).
    destruct (until (fun k => tpc (σ k) = TSend l ids t rec (Some d)) (fun k => exists hb, EAppend (t_id t) hb ∈ queue (σ k) /\ hb_rec hb = rec /\ hb_end hb = Some d) n m) as [Hx|(k & Hk & hb & G1 & G2 & G3)]; [|done|lia| |].
    + intros k _ Hk. destruct (timed_send _ _ _ _ _ _ _ _ _ (ex_step _ _ _ _ _ He k) Hk) as [E|?]; [left; by rewrite E|by right].
    + destruct Hg as [Hg|[Hg|Hg]]; [|congruence..]. pose proof (ex_step _ _ _ _ _ He m) as Hst. destruct (lb m); try done. cbn [step] in Hst. unfold timer_step in Hst. rewrite Hx in Hst. injection Hst as Hst.
      destruct (Happ (S m) (HBox (t_id t) rec (l_ts l) (Some d)) d) as (m' & ? & ?); [rewrite <- Hst, <- H2; fsimpl; apply elem_of_app; right; left|done|done|]. exists m'. split; [lia|done].
    + rewrite H2 in G1. destruct (Happ _ _ _ G1 G2 G3) as (m' & ? & ?). exists m'. split; [lia|done].
  - by eapply Happ.
  - rewrite <- H2, <- H3 in *. by eapply unit_ends.
  - destruct (event_ends _ _ _ _ _ _ _ _ He Hf H1 H2) as (m & ? & ?). exists m. naive_solver.
  - exists n. auto.
Qed.

(* ------------------------------------------------------------------ *)
(** * When the clock passes, early deadlines stop coming *)

(** A deadline has wrapped around, which only happens without overflow checks. *)
Definition wrapped (pf : profile) (s : sys) : Prop :=
  pf = Release /\ exists u tid rec it ts t m, OLaunch u tid rec it ts ∈ log s /\ submitted t (log s) /\ t_uid t = u /\ t_maxrun t = Some m /\ U64 <= ts + m.
(** No deadline wraps around: guaranteed by overflow checks, otherwise by sensible running times. *)
Definition no_wrap (pf : profile) (σ : nat -> sys) : Prop :=
  pf = Debug \/ forall n u tid rec it ts t m, OLaunch u tid rec it ts ∈ log (σ n) -> submitted t (log (σ n)) -> t_uid t = u -> t_maxrun t = Some m -> ts + m < U64.

Lemma send_reach pf t0 t1 s l ids t r d : reachable pf t0 t1 s -> tpc s = TSend l ids t r (Some d) ->
  exists t' m it, OLaunch (t_uid t) (t_id t) r it (l_ts l) ∈ log s /\ submitted t' (log s) /\ t_uid t' = t_uid t /\ t_maxrun t' = Some m /\ add64 pf m (l_ts l) = Ret d.
Proof.
  intros Hr. revert s Hr l ids t r d. apply (reach_ind pf t0 t1 (fun s => forall l ids t r d, tpc s = TSend l ids t r (Some d) ->
    exists t' m it, OLaunch (t_uid t) (t_id t) r it (l_ts l) ∈ log s /\ submitted t' (log s) /\ t_uid t' = t_uid t /\ t_maxrun t' = Some m /\ add64 pf m (l_ts l) = Ret d)).
  { intros l ids t r d H. discriminate H. }
  intros lb s s' Hr IH Hs l ids t r d Ht. destruct (step_log _ _ _ _ Hs) as [lg El].
  assert (tpc s' = tpc s \/ exists m, tpc s = TSpawn l ids t r /\ t_maxrun t = Some m /\ add64 pf m (l_ts l) = Ret d /\ OLaunch (t_uid t) (t_id t) r (iters s) (l_ts l) ∈ log s') as [E|(m & Et & Em & Ea & Hl)].
  { clear -Hs Ht. revert Ht. step_inv Hs; inst_shape; fsimpl; auto; try discriminate. intros E. simplify_eq. right.
    unfold get_maximum_running_time in Heqr0. destruct (t_maxrun t) as [m|]; [|done]. unfold res_bind in Heqr0. destruct (add64 pf m (l_ts l)) eqn:E; simplify_eq.
    eexists. split; [done|]. split; [done|]. split; [done|]. left. }
  - rewrite E in Ht. destruct (IH _ _ _ _ _ Ht) as (t' & m & it & H1 & H2 & H3). exists t', m, it. split; [rewrite El, elem_of_app; auto|]. split; [by eapply submitted_mono|done].
  - destruct (ci_held s (cnt_reach _ _ _ _ Hr) t) as (t' & Ht' & Eu & Hx0).
    { unfold held. rewrite Et. set_solver. }
    destruct Hx0 as (Eid & Emr & _). exists t', m, (iters s). split; [done|]. split; [by eapply submitted_mono|]. split; [done|]. split; [congruence|done].
Qed.

Lemma regs_pops lg : registrations lg = pops lg ≫= fun e => match e with EAppend _ hb => unit_of hb | _ => [] end.
Proof. induction lg as [|o lg IH]; [done|]. destruct o; cbn; try done. rewrite <- IH. by destruct e. Qed.

Definition late (d : N) (p : timer_pc) : Prop := off p \/ exists l, loop_of p = Some l /\ d < l_ts l.
Lemma late_step pf lb s s' d : step pf lb s = Some s' -> match lb with LTimer _ _ now => d < now | _ => True end ->
  late d (tpc s) \/ iters s' <> iters s -> late d (tpc s').
Proof.
  intros Hs Hl. unfold late, off. step_inv Hs; inst_shape; fsimpl; cbn [loop_of]; intros [[[H|H]|(l' & H1 & H2)]|H]; simplify_eq; eauto; try lia.
  all: try (right; eexists; split; [reflexivity|done]).
Qed.
Lemma new_send pf lb s s' : step pf lb s = Some s' -> sends (log s') = sends (log s) \/
  exists e, sends (log s') = e :: sends (log s) /\ forall tid hb, e = EAppend tid hb -> exists l ids t r, tpc s = TSend l ids t r (hb_end hb).
Proof.
  intros Hs. step_inv Hs; inst_shape; fsimpl; rewrite ?sends_app; rewrite ?sends_inst by done; cbn [app sends]; try (by left).
  all: try (left; rewrite ?complete_log; fsimpl; destruct (hpub s); try destruct ok; done).
  all: try (rewrite (sends_inst lg) by done; by left).
  all: right; eexists; (split; [reflexivity|]); intros tid' hb' E; try discriminate E.
  injection E as <- <-. eauto.
Qed.
Lemma due_none d us : (forall u, u ∈ us -> d < u_deadline u) -> due_by d us = [].
Proof.
  intros H. unfold due_by. induction us as [|u us IH]; [done|]. rewrite filter_cons, decide_False; [apply IH; intros v Hv; apply H; by right|].
  pose proof (H u ltac:(left)). lia.
Qed.
Lemma no_wrap_wrapped pf σ n : no_wrap pf σ -> ~ wrapped pf (σ n).
Proof. intros [->|H] [E (u & tid & rec & it & ts & t & m & H1 & H2 & H3 & H4 & H5)]; [done|]. pose proof (H _ _ _ _ _ _ _ _ H1 H2 H3 H4). lia. Qed.
Lemma wrapped_mono pf t0 t1 σ lb n m : exec pf t0 t1 σ lb -> (n <= m)%nat -> wrapped pf (σ n) -> wrapped pf (σ m).
Proof.
  intros He Hm [E (u & tid & rec & it & ts & t & x & H1 & H2 & H3)]. destruct (exec_log _ _ _ _ _ n m He Hm) as [l El].
  split; [done|]. exists u, tid, rec, it, ts, t, x. split; [rewrite El; apply elem_of_app; by right|]. split; [destruct H2 as (e & H2 & H4); exists e; split; [rewrite El; apply elem_of_app; by right|done]|done].
Qed.
Lemma clock_no_more pf t0 t1 σ lb d : exec pf t0 t1 σ lb -> weakly_fair pf by_handler σ lb -> strongly_fair pf by_scheduler σ lb ->
  clock_passes lb -> no_more_until (fun n => wrapped pf (σ n)) σ d.
Proof.
  intros He Hh Hs Hc. destruct (Hc (d + 1)) as [n0 H0].
  assert (exists m1, (n0 <= m1)%nat /\ late d (tpc (σ m1))) as (m1 & Hm1 & L1).
  { destruct (ticks_once _ _ _ _ _ He Hh Hs n0) as (m & Hm & [Hx|Hx]); [|exists m; split; [done|by left]].
    destruct (until (fun k => iters (σ k) = iters (σ n0)) (fun k => late d (tpc (σ k))) n0 m) as [?|(k & Hk & ?)]; [|done|done|lia|exists k; split; [lia|done]].
    intros k Hk E. destruct (decide (iters (σ (S k)) = iters (σ k))) as [E'|E']; [left; congruence|right].
    apply (late_step _ _ _ _ _ (ex_step _ _ _ _ _ He k)); [|by right]. pose proof (H0 k Hk). destruct (lb k); try done; lia. }
  assert (forall k, (m1 <= k)%nat -> late d (tpc (σ k))) as Hlate.
  { intros k Hk. induction Hk as [|k Hk IH]; [done|]. apply (late_step _ _ _ _ _ (ex_step _ _ _ _ _ He k)); [|by left]. pose proof (H0 k ltac:(lia)). destruct (lb k); try done; lia. }
  (* what is sent from now on has a late deadline *)
  assert (forall k, (m1 <= k)%nat -> wrapped pf (σ k) \/ exists l, sends (log (σ k)) = l ++ sends (log (σ m1)) /\ forall tid hb u, EAppend tid hb ∈ l -> u ∈ unit_of hb -> d < u_deadline u) as Hsend.
  { intros k Hk. induction Hk as [|k Hk [IH|(l & E & IH)]]; [right; exists []; split; [done|]; by intros ??? ?%elem_of_nil|left; eapply wrapped_mono; [exact He| |exact IH]; lia|].
    destruct (new_send _ _ _ _ (ex_step _ _ _ _ _ He k)) as [E'|(e & E' & Hx)]; [right; exists l; by rewrite E'|].
    assert (wrapped pf (σ k) \/ forall tid hb u, e = EAppend tid hb -> u ∈ unit_of hb -> d < u_deadline u) as [Hy|Hy].
    { destruct e as [| | | | | | | |tid hb|]; try (right; discriminate). destruct (Hx _ _ eq_refl) as (lp & ids & t & r & Et). destruct (hb_end hb) as [dl|] eqn:Eh.
      2: { right. intros tid' hb' u [= <- <-] Hu. unfold unit_of in Hu. rewrite Eh in Hu. by apply elem_of_nil in Hu. }
      destruct (Hlate k Hk) as [[?|?]|(lp' & E1 & E2)]; [congruence..|]. rewrite Et in E1. injection E1 as <-.
      destruct (send_reach _ _ _ _ _ _ _ _ _ (exec_reach _ _ _ _ _ k He) Et) as (t' & m & it & G1 & G2 & G3 & G4 & G5). unfold add64 in G5. case_match.
      - right. intros tid' hb' u [= <- <-] Hu. unfold unit_of in Hu. rewrite Eh in Hu. apply elem_of_list_singleton in Hu as ->. cbn. simplify_eq. lia.
      - destruct pf; [done|]. left. split; [done|]. do 7 eexists. do 4 (split; [eassumption|]). lia. }
    - left. eapply wrapped_mono; [exact He| |exact Hy]; lia.
    - right. exists (e :: l). split; [by rewrite E', E|]. intros tid hb u [<-|Hin]%elem_of_cons Hu; [by eapply Hy|by eapply IH]. }
  destruct (handled _ _ _ _ _ He Hh _ m1 (queue (σ m1)) [] ltac:(by rewrite app_nil_r) (le_n _)) as (m2 & Hm2 & [Hd|[_ Hp]]).
  - exists m2. intros m Hm. left. assert (hpc (σ m) = HDead /\ pops (log (σ m)) = pops (log (σ m2))) as [_ E]; [|by rewrite !regs_pops, E].
    induction Hm as [|m Hm [IH1 IH2]]; [done|]. pose proof (ex_step _ _ _ _ _ He m) as Hst. destruct (match lb m with LHandler => true | _ => false end) eqn:Eb.
    + destruct (lb m); try done. cbn [step] in Hst. unfold handler_step in Hst. rewrite IH1 in Hst. done.
    + destruct (other_queue _ _ _ _ Hst) as (G1 & G2 & _); [by destruct (lb m)|]. split; congruence.
  - rewrite <- (fifo_reach _ _ _ _ (exec_reach _ _ _ _ _ m1 He)) in Hp.
    exists m2. intros m Hm. destruct (Hsend m ltac:(lia)) as [?|(l & E & Hx)]; [by right|left]. destruct (exec_log _ _ _ _ _ m2 m He Hm) as [l0 El]. rewrite !regs_pops. rewrite El, pops_app, bind_app. unfold due_by. rewrite filter_app.
    assert (due_by d (pops l0 ≫= fun e => match e with EAppend _ hb => unit_of hb | _ => [] end) = []) as E0; [|unfold due_by in E0; by rewrite E0].
    apply due_none. intros u Hu. apply elem_of_list_bind in Hu as (e & Hu & He'). destruct e; try (by apply elem_of_nil in Hu).
    eapply Hx; [|exact Hu].
    pose proof (fifo_reach _ _ _ _ (exec_reach _ _ _ _ _ m He)) as F. rewrite E in F. rewrite El, pops_app, Hp, app_assoc in F. apply app_inv_tail in F. rewrite F. apply elem_of_app. by right.
Qed.
