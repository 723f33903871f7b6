(** C26: the cron expression cache is invisible. *)
From Verif Require Import Base Cron.

(* ------------------------------------------------------------------ *)
(** ** The specification, without a cache *)

(** What an expression means, read at [now]: the expression without the blanks
    around it, parsed; its dates in the time zone, those after [now]. *)
Definition meaning (cr : cron_crate) (z : zone) (e : string) (now : Z) : option owned :=
  match cr_parse cr (trim_spaces e) with
  | None => None
  | Some sc => Some (Owned z {| ci_next := cr_next cr sc z; ci_prev := now; ci_done := false |})
  end.

(** The queries that can be parsed, without repetition, the last one first. *)
Definition parses (cr : cron_crate) (q : query) : bool := match cr_parse cr q.2 with Some _ => true | None => false end.
Definition query_of (r : request) : query := (r.1.1, trim_spaces r.1.2).
Definition recent1 (cr : cron_crate) (l : list query) (q : query) : list query :=
  if parses cr q then q :: filter (fun k => k ≠ q) l else l.
Definition recent (cr : cron_crate) (h : list request) : list query := foldl (recent1 cr) [] (query_of <$> h).

(* ------------------------------------------------------------------ *)
(** ** The cache *)

Definition entry_ok (cr : cron_crate) (kv : query * owned) : Prop :=
  exists sc t, cr_parse cr kv.1.2 = Some sc /\ kv.2 = Owned kv.1.1 (CronIter (cr_next cr sc kv.1.1) t false).

Lemma lru_find_in q c v : lru_find q c = Some v -> (q, v) ∈ c.
Proof. induction c as [|[k w] r IH]; cbn [lru_find]; [done|]. case_decide; set_solver. Qed.
Lemma lru_find_none q c : lru_find q c = None <-> q ∉ c.*1.
Proof.
  induction c as [|[k w] r IH]; cbn [lru_find]; [set_solver|].
  rewrite fmap_cons, not_elem_of_cons. cbn [fst]. case_decide; [naive_solver|]. rewrite IH. naive_solver.
Qed.
Lemma lru_remove_keys q c : NoDup c.*1 -> (lru_remove q c).*1 = filter (fun k => k ≠ q) c.*1.
Proof.
  induction c as [|[k w] r IH]; cbn [lru_remove]; [done|]. rewrite fmap_cons, NoDup_cons. cbn [fst]. intros [Hn Hd].
  rewrite filter_cons. case_decide as E; case_decide as E'; try tauto.
  - symmetry. subst k. clear IH E'. induction (r.*1) as [|x l IHl]; [done|]. rewrite filter_cons.
    apply not_elem_of_cons in Hn as [Hx Hl]. apply NoDup_cons in Hd as [_ Hd]. case_decide; [|congruence]. f_equal. by apply IHl.
  - rewrite fmap_cons. cbn [fst]. f_equal. by apply IH.
Qed.
Lemma lru_remove_in q c x : x ∈ lru_remove q c -> x ∈ c.
Proof. induction c as [|[k w] r IH]; cbn [lru_remove]; [done|]. case_decide; set_solver. Qed.

Lemma filter_out (q : query) (l : list query) : q ∉ l -> filter (fun k => k ≠ q) l = l.
Proof. induction l as [|x l IH]; [done|]. rewrite filter_cons, not_elem_of_cons. intros [H1 H2]. case_decide; [|congruence]. f_equal. by apply IH. Qed.
Lemma take_filter_in (q : query) (l : list query) n :
  NoDup l -> q ∈ take (S n) l -> filter (fun k => k ≠ q) (take (S n) l) = take n (filter (fun k => k ≠ q) l).
Proof.
  revert n. induction l as [|x l IH]; intros n Hd Hq; [by apply elem_of_nil in Hq|]. cbn [take] in *. apply NoDup_cons in Hd as [Hx Hd].
  rewrite !filter_cons. destruct (decide (x ≠ q)) as [E|E].
  - destruct n as [|n]; [set_solver|]. cbn [take]. f_equal. apply IH; [done|]. set_solver.
  - assert (x = q) as -> by (destruct (decide (x = q)); tauto). rewrite !filter_out; [done|done|].
    intros H. apply Hx. rewrite <- (take_drop n l). apply elem_of_app. by left.
Qed.
Lemma take_filter_out (q : query) (l : list query) n : q ∉ take n l -> take n (filter (fun k => k ≠ q) l) = take n l.
Proof.
  revert n. induction l as [|x l IH]; intros n Hq; [done|]. destruct n as [|n]; [done|]. cbn [take] in *.
  apply not_elem_of_cons in Hq as [H1 H2]. rewrite filter_cons. case_decide; [|congruence]. cbn [take]. f_equal. by apply IH.
Qed.

Definition cache_ok (cr : cron_crate) (l : list query) (c : lru) : Prop :=
  Forall (entry_ok cr) c /\ NoDup l /\ Forall (fun q => parses cr q = true) l /\ c.*1 = take CAPACITY l.

Lemma analyze_ok cr z e now l c :
  cache_ok cr l c ->
  let '(r, c', p) := analyze_cron_expression cr z e now c in
  r = meaning cr z e now /\ cache_ok cr (recent1 cr l (z, trim_spaces e)) c' /\
  p = negb (bool_decide ((z, trim_spaces e) ∈ c.*1)).
Proof.
  intros (Hf & Hd & Hp & Hk). set (q := (z, trim_spaces e)). unfold analyze_cron_expression. fold q. unfold lru_get.
  assert (NoDup c.*1) as Hdc by (rewrite Hk; rewrite <- (take_drop CAPACITY l) in Hd; by apply NoDup_app in Hd as [? _]).
  destruct (lru_find q c) as [v|] eqn:E.
  - pose proof (lru_find_in _ _ _ E) as Hin. rewrite Forall_forall in Hf. destruct (Hf _ Hin) as (sc & t & Hsc & Hv). cbn [fst snd] in *.
    assert (q ∈ c.*1) as Hq by (apply elem_of_list_fmap; exists (q, v); done).
    assert (parses cr q = true) as Hpq by (unfold parses; by rewrite Hsc).
    split; [|split].
    + unfold meaning. cbn in Hsc. rewrite Hsc, Hv. unfold refresh_previous_datetime, refreshed. cbn.
      destruct z; reflexivity.
    + unfold recent1. rewrite Hpq. split; [|split; [|split]].
      * apply Forall_cons. split; [by apply Hf|]. apply Forall_forall. intros x Hx. apply Hf. by eapply lru_remove_in.
      * apply NoDup_cons. split; [rewrite elem_of_list_filter; tauto|]. by apply NoDup_filter.
      * apply Forall_cons. split; [done|]. apply Forall_forall. intros x Hx. apply elem_of_list_filter in Hx as [_ Hx]. rewrite Forall_forall in Hp. by apply Hp.
      * rewrite fmap_cons. cbn [fst]. rewrite lru_remove_keys by done. rewrite Hk in *.
        change CAPACITY with (S 255) in *. rewrite (take_filter_in q l 255) by done. reflexivity.
    + rewrite bool_decide_eq_true_2 by done. done.
  - apply lru_find_none in E as Hn. unfold owned_new, meaning. change (q.2) with (trim_spaces e). change (q.1) with z.
    destruct (cr_parse cr (trim_spaces e)) as [sc|] eqn:Esc; cycle 1.
    + split; [done|]. split; [|by rewrite bool_decide_eq_false_2 by done].
      unfold recent1, parses. change (q.2) with (trim_spaces e). by rewrite Esc.
    + split; [done|]. split; [|by rewrite bool_decide_eq_false_2 by done].
      assert (parses cr q = true) as Hpq by (unfold parses; change (q.2) with (trim_spaces e); by rewrite Esc).
      unfold recent1, lru_put. rewrite Hpq, E. split; [|split; [|split]].
      * apply Forall_cons. split; [exists sc, now; done|]. destruct (Nat.eqb _ _); [by apply Forall_take|done].
      * apply NoDup_cons. split; [rewrite elem_of_list_filter; tauto|]. by apply NoDup_filter.
      * apply Forall_cons. split; [done|]. apply Forall_forall. intros x Hx. apply elem_of_list_filter in Hx as [_ Hx]. rewrite Forall_forall in Hp. by apply Hp.
      * rewrite fmap_cons. cbn [fst]. change CAPACITY with (S 255) at 2. cbn [take]. f_equal.
        rewrite take_filter_out.
        2: { intros H. apply Hn. rewrite Hk. change CAPACITY with 256%nat.
             replace (take 256 l) with (take 256 l) by done. rewrite <- (take_drop 255 (take 256 l)), take_take.
             apply elem_of_app. left. exact H. }
        assert (length c = Nat.min 256 (length l)) as Hl by (rewrite <- (fmap_length fst c), Hk; apply take_length).
        destruct (Nat.eqb_spec (length c) CAPACITY) as [Ec|Ec]; change CAPACITY with 256%nat in *.
        -- rewrite Ec, fmap_take, Hk, take_take. done.
        -- rewrite Hk, !take_ge by lia. done.
Qed.

Lemma analyses_ok cr h : forall l c, cache_ok cr l c -> cache_ok cr (foldl (recent1 cr) l (query_of <$> h)) (analyses cr h c).
Proof.
  induction h as [|[[z e] now] h IH]; intros l c H; [done|]. cbn [analyses]. rewrite fmap_cons. cbn [foldl]. apply IH.
  pose proof (analyze_ok cr z e now l c H) as Ha. destruct (analyze_cron_expression cr z e now c) as [[r c'] p]. cbn [fst snd]. apply Ha.
Qed.
Lemma reached_ok cr h : cache_ok cr (recent cr h) (analyses cr h []).
Proof. apply analyses_ok. split; [constructor|]. split; [constructor|]. split; [constructor|]. reflexivity. Qed.

(* ------------------------------------------------------------------ *)
(** ** C26 *)

(** Whatever was analysed before on this thread, an analysis gives the meaning of
    its own expression in its own time zone, read now. *)
Theorem C26_invisible cr h z e now :
  (analyze_cron_expression cr z e now (analyses cr h [])).1.1 = meaning cr z e now.
Proof.
  pose proof (analyze_ok cr z e now _ _ (reached_ok cr h)) as Ha.
  destruct (analyze_cron_expression cr z e now (analyses cr h [])) as [[r c'] p]. cbn [fst snd]. apply Ha.
Qed.
Print Assumptions C26_invisible.

(** The first date of the task: the first one after now. *)
Theorem C26_starts_now cr h z e now sc :
  cr_parse cr (trim_spaces e) = Some sc ->
  exists o, (analyze_cron_expression cr z e now (analyses cr h [])).1.1 = Some o /\ (owned_next o).1 = cr_next cr sc z now.
Proof.
  intros H. rewrite C26_invisible. unfold meaning. rewrite H. eexists. split; [reflexivity|].
  unfold owned_next, cron_step. cbn. by destruct (cr_next cr sc z now).
Qed.
Print Assumptions C26_starts_now.

(** All its dates: each the first one after the one before, until there is none. *)
Fixpoint dates_after (next : Z -> option Z) (now : Z) (n : nat) : list Z :=
  match n with
  | O => []
  | S n => match next now with Some d => d :: dates_after next d n | None => [] end
  end.
Fixpoint taken_dates (n : nat) (o : owned) : list Z :=
  match n with
  | O => []
  | S n => match owned_next o with (Some d, o') => d :: taken_dates n o' | (None, o') => taken_dates n o' end
  end.
Lemma taken_done n v f x : taken_dates n (Owned v (CronIter f x true)) = [].
Proof. induction n as [|n IH]; [done|]. cbn. exact IH. Qed.
Theorem C26_dates cr h z e now sc n :
  cr_parse cr (trim_spaces e) = Some sc ->
  exists o, (analyze_cron_expression cr z e now (analyses cr h [])).1.1 = Some o /\ taken_dates n o = dates_after (cr_next cr sc z) now n.
Proof.
  intros H. rewrite C26_invisible. unfold meaning. rewrite H. eexists. split; [reflexivity|].
  clear H. revert now. induction n as [|n IH]; intros now; [done|]. cbn [taken_dates dates_after]. unfold owned_next, cron_step. cbn.
  destruct (cr_next cr sc z now) as [d|] eqn:E; [|by apply taken_done]. f_equal. apply IH.
Qed.
Print Assumptions C26_dates.

(** The cache holds at most 256 entries: the last 256 distinct queries that could
    be parsed, the last one first. *)
Theorem C26_bounded cr h :
  (length (analyses cr h []) <= 256)%nat /\ (analyses cr h []).*1 = take 256 (recent cr h).
Proof.
  destruct (reached_ok cr h) as (_ & _ & _ & Hk). split; [|exact Hk].
  rewrite <- (fmap_length fst), Hk, take_length. change CAPACITY with 256%nat. lia.
Qed.
Print Assumptions C26_bounded.

(** A wrong expression is rejected every time, and leaves the cache as it is. *)
Theorem C26_rejected cr h z e now :
  cr_parse cr (trim_spaces e) = None ->
  analyze_cron_expression cr z e now (analyses cr h []) = (None, analyses cr h [], true).
Proof.
  intros H. destruct (reached_ok cr h) as (Hf & _). unfold analyze_cron_expression, lru_get.
  destruct (lru_find (z, trim_spaces e) (analyses cr h [])) as [v|] eqn:E.
  - apply lru_find_in in E. rewrite Forall_forall in Hf. destruct (Hf _ E) as (sc & t & Hsc & _). cbn [fst snd] in Hsc. congruence.
  - unfold owned_new. cbn [snd]. by rewrite H.
Qed.
Print Assumptions C26_rejected.

(** What the cache is for: an expression is parsed again only if 256 others that
    can be parsed were used since. *)
Theorem C26_parsed cr h z e now :
  (analyze_cron_expression cr z e now (analyses cr h [])).2 = negb (bool_decide ((z, trim_spaces e) ∈ take 256 (recent cr h))).
Proof.
  pose proof (analyze_ok cr z e now _ _ (reached_ok cr h)) as Ha. destruct (C26_bounded cr h) as [_ Hk]. rewrite <- Hk.
  destruct (analyze_cron_expression cr z e now (analyses cr h [])) as [[r c'] p]. cbn [fst snd]. apply Ha.
Qed.
Print Assumptions C26_parsed.

(** Blanks around an expression do not matter, and nothing else is cut off. *)
Lemma trim_front_blanks n l : trim_front (repeat (Ascii.ascii_of_N 32) n ++ l) = trim_front l.
Proof. induction n as [|n IH]; [done|]. cbn [repeat Datatypes.app trim_front]. by rewrite decide_True. Qed.
Lemma trim_front_id l : head l ≠ Some (Ascii.ascii_of_N 32) -> trim_front l = l.
Proof. destruct l as [|c r]; [done|]. cbn [head trim_front]. intros H. rewrite decide_False; [done|congruence]. Qed.
Lemma reverse_repeat {A} (x : A) n : reverse (repeat x n) = repeat x n.
Proof.
  induction n as [|n IH]; [done|]. cbn [repeat]. rewrite reverse_cons, IH. clear IH.
  induction n as [|n IH]; [done|]. cbn [repeat Datatypes.app]. by f_equal.
Qed.
Theorem C26_trim m n (w : list Ascii.ascii) :
  head w ≠ Some (Ascii.ascii_of_N 32) -> last w ≠ Some (Ascii.ascii_of_N 32) ->
  trim_spaces (string_of_list_ascii (repeat (Ascii.ascii_of_N 32) m ++ w ++ repeat (Ascii.ascii_of_N 32) n)) = string_of_list_ascii w.
Proof.
  intros H1 H2. unfold trim_spaces. rewrite list_ascii_of_string_of_list_ascii. f_equal.
  rewrite trim_front_blanks. destruct w as [|c w].
  - cbn [Datatypes.app]. rewrite <- (app_nil_r (repeat _ n)), trim_front_blanks. done.
  - rewrite (trim_front_id ((c :: w) ++ _)) by done. rewrite reverse_app, reverse_repeat, trim_front_blanks.
    rewrite trim_front_id by (by rewrite head_reverse). apply reverse_involutive.
Qed.
Print Assumptions C26_trim.

(** An example: a schedule is a period; "@hourly" and "@daily" are known.  The
    second analysis of the same expression, a day later and with blanks around it,
    is answered from the cache and starts from the new time. *)
Definition toy_crate : cron_crate :=
  {| cr_sched := Z;
     cr_parse := fun e => if decide (e = "@hourly"%string) then Some 3600%Z else if decide (e = "@daily"%string) then Some 86400%Z else None;
     cr_next := fun p z t => Some ((t / p + 1) * p)%Z |}.
Example C26_example :
  let h := [(Utc, "@hourly"%string, 10%Z); (Local, "@daily"%string, 20%Z); (Utc, "@never"%string, 30%Z)] in
  (analyses toy_crate h []).*1 = [(Local, "@daily"%string); (Utc, "@hourly"%string)] /\
  let '(r, c, p) := analyze_cron_expression toy_crate Utc "  @hourly "%string 86410%Z (analyses toy_crate h []) in
  (fun o => (owned_next o).1) <$> r = Some (Some 90000%Z) /\ p = false /\ c.*1 = [(Utc, "@hourly"%string); (Local, "@daily"%string)] /\
  (analyze_cron_expression toy_crate Utc "@never"%string 5%Z c).1.1 = None.
Proof. vm_compute. repeat split; reflexivity. Qed.
