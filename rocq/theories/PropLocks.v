(** C33: the scheduler and the event handler cannot block each other for ever. *)
From Verif Require Import Base Locks.

Definition blocked (s : state) (w : who) : Prop := exists l m, waits s w l m.
(** Thread [w] makes [n] steps of its operation. *)
Inductive goes (sh : shards) (w : who) : nat -> state -> state -> Prop :=
| goes_0 s : goes sh w 0 s s
| goes_S n s s1 s2 : th_left (s w) <> [] -> lstep sh w s s1 -> goes sh w n s1 s2 -> goes sh w (S n) s s2.

(* ------------------------------------------------------------------ *)
(** The discipline: locks of the flag map come before those of the wheel, and an
    operation that is over holds nothing. *)
Definition rank (l : lock) : nat := match l with Flag _ => 0 | Wheel _ => 1 end.
Fixpoint tidy (held : list (lock * mode)) (left : list act) : Prop :=
  match left with
  | [] => held = []
  | Acq l m :: r => Forall (fun h => rank (fst h) < rank l)%nat held /\ tidy ((l, m) :: held) r
  | Rel l :: r => (exists m h, held = (l, m) :: h) /\ tidy (give_back l held) r
  end.
Lemma give_head l m h : give_back l ((l, m) :: h) = h.
Proof. cbn. by rewrite bool_decide_true. Qed.
Ltac tidy_tac := repeat first [ split | rewrite give_head | rewrite bool_decide_true by done | rewrite bool_decide_false by done
  | match goal with |- Forall _ _ => repeat constructor; cbn; lia | |- exists _, _ => by do 2 eexists end | done | progress cbn ].
Lemma hop_tidy sh o : tidy [] (hop_acts sh o).
Proof. destruct o as [|tid sl|tid [sl|]|tid [[sl [sl'|]]|]|tid [sl|]|tid|tid]; cbn; tidy_tac. Qed.
Lemma top_tidy sh o : tidy [] (top_acts sh o).
Proof. destruct o as [sl|sl|tid|sl tid []|sl]; cbn; tidy_tac. Qed.
Lemma upd_same w t s : upd w t s w = t.
Proof. by destruct w. Qed.
Lemma upd_peer w t s : upd w t s (peer w) = s (peer w).
Proof. by destruct w. Qed.
Lemma upd_peer' w t s : upd (peer w) t s w = s w.
Proof. by destruct w. Qed.
Lemma who_cases (w x : who) : x = w \/ x = peer w.
Proof. destruct w, x; auto. Qed.

Definition tidy_all (s : state) : Prop := forall w, tidy (th_held (s w)) (th_left (s w)).
Lemma tidy_step sh w s s' : lstep sh w s s' -> tidy_all s -> tidy_all s'.
Proof.
  intros H Ht x. destruct (who_cases w x) as [->| ->].
  - destruct H as [w s l m r Hl _|w s l r Hl|s o Hl|s o Hl]; rewrite ?upd_same; cbn [th_held th_left].
    + specialize (Ht w). rewrite Hl in Ht. apply Ht.
    + specialize (Ht w). rewrite Hl in Ht. apply Ht.
    + specialize (Ht Handler). rewrite Hl in Ht. cbn in Ht. cbn. rewrite Ht. apply hop_tidy.
    + specialize (Ht Scheduler). rewrite Hl in Ht. cbn in Ht. cbn. rewrite Ht. apply top_tidy.
  - assert (s' (peer w) = s (peer w)) as -> by (destruct H; rewrite ?upd_peer; done). apply Ht.
Qed.
Lemma tidy_reach sh s : lreach sh s -> tidy_all s.
Proof.
  intros H. assert (tidy_all start) as H0 by done. revert H0. induction H as [|a b c [w Hw] _ IH]; [done|].
  intros Ha. apply IH. by eapply tidy_step.
Qed.

Lemma conflict_in l m (held : list (lock * mode)) : existsb (conflict l m) held = true -> exists m', (l, m') ∈ held.
Proof.
  induction held as [|[l' m'] held IH]; cbn [existsb]; intros H; [discriminate H|]. apply orb_true_iff in H as [H|H].
  - unfold conflict in H. apply andb_true_iff in H as [H _]. apply bool_decide_eq_true in H. cbn in H. subst l'. exists m'. by left.
  - destruct (IH H) as [m1 H1]. exists m1. by right.
Qed.
(** A waiting thread waits for a lock the other one holds. *)
Lemma waits_for s w l m : tidy_all s -> waits s w l m -> exists m', (l, m') ∈ th_held (s (peer w)).
Proof.
  intros Ht [[r Hr] Hg]. specialize (Ht w). rewrite Hr in Ht. destruct Ht as [Hlt _].
  assert (existsb (conflict l m) (th_held (s w)) = true \/ existsb (conflict l m) (th_held (s (peer w))) = true) as [H|H].
  { unfold grantable, free in Hg. apply andb_false_iff in Hg. rewrite !negb_false_iff in Hg. destruct w; tauto. }
  - apply conflict_in in H as [m' H]. rewrite Forall_forall in Hlt. specialize (Hlt _ H). cbn in Hlt. lia.
  - by apply conflict_in in H.
Qed.

(** The threads are never both waiting, and none waits for itself: whatever operations
    they perform, in whatever interleaving, and whatever keys share a shard. *)
Theorem C33_no_deadlock sh s : lreach sh s -> forall w l m, waits s w l m ->
  ~ blocked s (peer w) /\ (exists m', (l, m') ∈ th_held (s (peer w))) /\ (forall m', (l, m') ∉ th_held (s w)).
Proof.
  intros H w l m Hw. assert (tidy_all s) as Ht by by eapply tidy_reach. destruct (waits_for _ _ _ _ Ht Hw) as [m' Hm].
  split; [|split].
  - intros (l2 & m2 & H2). destruct (waits_for _ _ _ _ Ht H2) as [m3 H3]. assert (peer (peer w) = w) as E by by destruct w. rewrite E in H3.
    destruct Hw as [[r Hr] _]. destruct H2 as [[r2 Hr2] _]. pose proof (Ht w) as T1. pose proof (Ht (peer w)) as T2. rewrite Hr in T1. rewrite Hr2 in T2.
    destruct T1 as [T1 _]. destruct T2 as [T2 _]. rewrite Forall_forall in T1, T2. specialize (T1 _ H3). specialize (T2 _ Hm). cbn in T1, T2. lia.
  - by exists m'.
  - intros m2 Hin. destruct Hw as [[r Hr] _]. pose proof (Ht w) as T1. rewrite Hr in T1. destruct T1 as [T1 _]. rewrite Forall_forall in T1. specialize (T1 _ Hin). cbn in T1. lia.
Qed.
Print Assumptions C33_no_deadlock.

(** No operation is longer than eight acts; what is left of one is a tail of it. *)
Lemma hop_length sh o : (length (hop_acts sh o) <= 8)%nat.
Proof. destruct o as [|tid sl|tid [sl|]|tid [[sl [sl'|]]|]|tid [sl|]|tid|tid]; cbn; lia. Qed.
Lemma top_length sh o : (length (top_acts sh o) <= 8)%nat.
Proof. destruct o as [sl|sl|tid|sl tid []|sl]; cbn; lia. Qed.
Lemma left_short sh s : lreach sh s -> forall w, (length (th_left (s w)) <= 8)%nat.
Proof.
  intros H. assert (forall w, length (th_left (start w)) <= 8)%nat as H0 by (intros; cbn; lia). revert H0.
  induction H as [|a b c [w Hw] _ IH]; [done|]. intros Ha. apply IH. intros x. destruct (who_cases w x) as [->| ->].
  - destruct Hw as [w s l m r Hl _|w s l r Hl|s o Hl|s o Hl]; rewrite ?upd_same; cbn [th_left]; [specialize (Ha w); rewrite Hl in Ha; cbn in Ha; lia..| |].
    + cbn. apply hop_length.
    + cbn. apply top_length.
  - assert (b (peer w) = a (peer w)) as -> by (destruct Hw; rewrite ?upd_peer; done). apply Ha.
Qed.

(** Whoever waits is let in by the other one's going on, alone, with the operation it is in: after
    at most eight steps, none of which has to wait. *)
Lemma finish_alone sh w n : forall s, tidy_all s -> (length (th_left (s (peer w))) <= n)%nat ->
  (forall l m, waits s w l m -> ~ blocked s (peer w)) ->
  forall l m, waits s w l m -> exists k s', (k <= n)%nat /\ goes sh (peer w) k s s' /\ th_left (s' w) = th_left (s w) /\ grantable l m s' = true.
Proof.
  induction n as [|n IH]; intros s Ht Hn Hb l m Hw.
  - exfalso. destruct (waits_for _ _ _ _ Ht Hw) as [m' Hm]. specialize (Ht (peer w)). destruct (th_left (s (peer w))); [|cbn in Hn; lia].
    cbn in Ht. rewrite Ht in Hm. by apply elem_of_nil in Hm.
  - destruct (th_left (s (peer w))) as [|a r] eqn:El.
    { exfalso. destruct (waits_for _ _ _ _ Ht Hw) as [m' Hm]. specialize (Ht (peer w)). rewrite El in Ht. cbn in Ht. rewrite Ht in Hm. by apply elem_of_nil in Hm. }
    assert (exists s1, lstep sh (peer w) s s1 /\ th_left (s1 (peer w)) = r /\ s1 w = s w) as (s1 & Hs1 & Hl1 & Hw1).
    { destruct a as [l2 m2|l2].
      - assert (grantable l2 m2 s = true) as Hg.
        { destruct (grantable l2 m2 s) eqn:E; [done|]. exfalso. apply (Hb l m Hw). exists l2, m2. split; [by exists r|done]. }
        eexists. split; [by apply (s_acq sh (peer w) s l2 m2 r)|]. split; [by rewrite upd_same|by rewrite upd_peer'].
      - eexists. split; [by apply (s_rel sh (peer w) s l2 r)|]. split; [by rewrite upd_same|by rewrite upd_peer']. }
    destruct (grantable l m s1) eqn:Eg.
    + exists 1%nat, s1. split; [lia|]. split; [|by rewrite Hw1]. econstructor; [by rewrite El|done|constructor].
    + assert (tidy_all s1) as Ht1 by by eapply tidy_step.
      assert (waits s1 w l m) as Hw2. { destruct Hw as [[r' Hr'] _]. split; [exists r'; by rewrite Hw1|done]. }
      destruct (IH s1 Ht1 ltac:(rewrite Hl1; cbn in Hn; lia)) with (l := l) (m := m) as (k & s2 & Hk & Hg & Hleft & Hgr); [|done|].
      { intros l3 m3 Hw3 (l2 & m2 & H2). destruct (waits_for _ _ _ _ Ht1 Hw3) as [m' Hm]. destruct (waits_for _ _ _ _ Ht1 H2) as [m4 H4].
        assert (peer (peer w) = w) as E by by destruct w. rewrite E in H4. destruct Hw3 as [[r3 Hr3] _]. destruct H2 as [[r2 Hr2] _].
        pose proof (Ht1 w) as T1. pose proof (Ht1 (peer w)) as T2. rewrite Hr3 in T1. rewrite Hr2 in T2. destruct T1 as [T1 _]. destruct T2 as [T2 _].
        rewrite Forall_forall in T1, T2. specialize (T1 _ H4). specialize (T2 _ Hm). cbn in T1, T2. lia. }
      exists (S k), s2. split; [lia|]. split; [|by rewrite Hleft, Hw1]. econstructor; [by rewrite El|done|done].
Qed.
Theorem C33_waiting_ends sh s w l m : lreach sh s -> waits s w l m ->
  exists k s', (k <= 8)%nat /\ goes sh (peer w) k s s' /\ th_left (s' w) = th_left (s w) /\ grantable l m s' = true.
Proof.
  intros H Hw. apply (finish_alone sh w 8 s); [by eapply tidy_reach|by eapply left_short| |done].
  intros l2 m2 H2. apply (C33_no_deadlock sh s H w l2 m2 H2).
Qed.
Print Assumptions C33_waiting_ends.

(** The locks do their work: two threads hold the same one only for reading. *)
Lemma held_free l m (held : list (lock * mode)) : existsb (conflict l m) held = false -> forall m', (l, m') ∈ held -> m = Rd /\ m' = Rd.
Proof.
  intros H m' Hin. induction held as [|h held IH]; [by apply elem_of_nil in Hin|]. cbn [existsb] in H. apply orb_false_iff in H as [H1 H2].
  apply elem_of_cons in Hin as [<-|Hin]; [|by apply IH]. unfold conflict in H1. cbn [fst snd] in H1. rewrite bool_decide_true in H1 by done. by destruct m, m'.
Qed.
Lemma give_sub l h x : x ∈ give_back l h -> x ∈ h.
Proof. induction h as [|y h IH]; cbn; [done|]. destruct (bool_decide _); intros H; [by right|]. apply elem_of_cons in H as [->|H]; [by left|right; auto]. Qed.
Theorem C33_exclusion sh s l m m' : lreach sh s -> (l, m) ∈ th_held (s Scheduler) -> (l, m') ∈ th_held (s Handler) -> m = Rd /\ m' = Rd.
Proof.
  intros H. assert (forall l m m', (l, m) ∈ th_held (start Scheduler) -> (l, m') ∈ th_held (start Handler) -> m = Rd /\ m' = Rd) as H0.
  { cbn. intros l0 m0 m0' H0. by apply elem_of_nil in H0. }
  revert l m m'. revert H0. induction H as [|a b c [w Hw] _ IH]; [done|]. intros Ha. apply IH. clear IH.
  destruct Hw as [w s l m r Hl Hg|w s l r Hl|s o Hl|s o Hl]; [| |exact Ha..].
  - unfold grantable in Hg. apply andb_true_iff in Hg as [G1 G2]. unfold free in G1, G2. rewrite negb_true_iff in G1, G2.
    intros l2 m2 m3. destruct w; cbn [upd th_held]; rewrite elem_of_cons; intros A B.
    + destruct A as [[= -> ->]|A]; [|by eapply Ha]. exact (held_free _ _ _ G2 _ B).
    + destruct B as [[= -> ->]|B]; [|by eapply Ha]. destruct (held_free _ _ _ G1 _ A); auto.
  - intros l2 m2 m3. destruct w; cbn [upd th_held]; intros A B; eapply Ha; eauto using give_sub.
Qed.
Print Assumptions C33_exclusion.

(** Slots 1 and 2, and the tasks 11 and 12, share a shard: the handler advances task 11 and holds
    the mark's shard and the slot's; the scheduler waits. *)
Definition one_shard : shards := Shards (fun _ => 0) (fun _ => 0).
Definition busy : state := fun w => match w with
  | Handler => Thread [(Wheel 0, Wr); (Flag 0, Rd)] [Rel (Wheel 0); Acq (Wheel 0) Wr; Rel (Wheel 0); Rel (Flag 0)]
  | Scheduler => Thread [] [Acq (Wheel 0) Wr; Rel (Wheel 0); Acq (Flag 0) Wr; Rel (Flag 0)] end.
Example C33_sample : exists s, lreach one_shard s /\ (forall w, s w = busy w) /\ waits s Scheduler (Wheel 0) Wr.
Proof.
  eexists. split.
  - eapply rtc_l; [eexists; by apply (s_handler _ start (HAdvance 11 (Some (1, Some 2))))|].
    eapply rtc_l; [eexists; by eapply (s_acq _ Handler)|].
    eapply rtc_l; [eexists; by eapply (s_acq _ Handler)|].
    eapply rtc_l; [eexists; by apply (s_scheduler _ _ (TPark 2 12 true))|]. apply rtc_refl.
  - split; [by intros []|]. split; [by eexists|done].
Qed.
