(** C47: whose status events a StatusReporter shows. *)
From Verif Require Import Tactics Inv Own Life Count Quiet Scen Fleet.

(** What the reporter of timer [j] has returned, oldest first; and what timer [i] has sent. *)
Definition shown (j : N) (f : fleet) : list (N * pubev) := omap (fun x => if fst x =? j then Some (snd x) else None) (f_got f).
Definition sent_by (i : N) (f : fleet) : list pubev := match f_timers f !! i with Some (s, true) => publics (log s) | _ => [] end.
Definition from (i : N) (l : list (N * pubev)) : list pubev := omap (fun x => if fst x =? i then Some (snd x) else None) l.
Definition reports (i : N) (f : fleet) : Prop := exists s, f_timers f !! i = Some (s, true).

(* ------------------------------------------------------------------ *)
Lemma publics_app a b : publics (a ++ b) = publics b ++ publics a.
Proof. unfold publics. rewrite rev_app_distr. apply omap_app. Qed.
Lemma from_app i a b : from i (a ++ b) = from i a ++ from i b.
Proof. apply omap_app. Qed.
Lemma from_same i l : from i (pair i <$> l) = l.
Proof. unfold from. induction l as [|p l IH]; [done|]. cbn. rewrite N.eqb_refl. cbn. by f_equal. Qed.
Lemma from_other i j l : i <> j -> from i (pair j <$> l) = [].
Proof. intros Hn. unfold from. induction l as [|p l IH]; [done|]. cbn. destruct (N.eqb_spec j i); [congruence|]. cbn. done. Qed.

(** Every event sent is, once, with a reporter or in the channel, in the order it was sent. *)
Definition all_there (f : fleet) : Prop := forall i, from i ((snd <$> f_got f) ++ f_queue f) = sent_by i f.
Lemma frun_ind pf (P : fleet -> Prop) : P no_fleet -> (forall l f f', P f -> fstep pf l f = Some f' -> P f') ->
  forall f, fleet_reachable pf f -> P f.
Proof.
  intros H0 Hs f [ls H]. revert H. generalize no_fleet H0. induction ls as [|l r IH]; intros f0 HP H; cbn [frun] in H.
  - injection H as <-. done.
  - destruct (fstep pf l f0) as [f1|] eqn:E; [|discriminate H]. exact (IH f1 (Hs _ _ _ HP E) H).
Qed.
Lemma publics_grow pf lb s s' : step pf lb s = Some s' ->
  publics (log s') = publics (log s) ++ drop (length (publics (log s))) (publics (log s')).
Proof. intros H. destruct (step_log _ _ _ _ H) as [l ->]. rewrite publics_app, drop_app. done. Qed.
Lemma init_publics t0 t1 : publics (log (init t0 t1)) = [].
Proof. reflexivity. Qed.
Lemma fstep_inv pf l f f' : fstep pf l f = Some f' ->
  (exists i report t0 t1, f_timers f !! i = None /\ f' = Fleet (<[i := (init t0 t1, report)]> (f_timers f)) (f_queue f) (f_got f)) \/
  (exists i s s' (report : bool) new, f_timers f !! i = Some (s, report) /\ publics (log s') = publics (log s) ++ new /\ step pf (match l with FStep _ lb => lb | _ => LStop end) s = Some s' /\
     f' = Fleet (<[i := (s', report)]> (f_timers f)) (f_queue f ++ (if report then pair i <$> new else [])) (f_got f)) \/
  (exists j e q, reports j f /\ f_queue f = e :: q /\ f' = Fleet (f_timers f) q (f_got f ++ [(j, e)])).
Proof.
  destruct l as [i report t0 t1|i lb|j]; intros H; cbn [fstep] in H.
  - left. destruct (f_timers f !! i) eqn:E; [discriminate H|]. injection H as <-. eauto 10.
  - right. left. destruct (f_timers f !! i) as [[s report]|] eqn:E; [|discriminate H]. destruct (step pf lb s) as [s'|] eqn:Es; [|discriminate H].
    injection H as <-. exists i, s, s', report, (drop (length (publics (log s))) (publics (log s'))). split; [done|]. split; [by eapply publics_grow|]. done.
  - right. right. destruct (f_timers f !! j) as [[s []]|] eqn:E; [|discriminate H..]. destruct (f_queue f) as [|e q] eqn:Eq; [discriminate H|]. injection H as <-.
    exists j, e, q. split; [by exists s|]. done.
Qed.

Lemma all_there_reach pf f : fleet_reachable pf f -> all_there f.
Proof.
  apply frun_ind; [intros i; unfold sent_by; cbn; by rewrite lookup_empty|].
  clear f. intros l f f' IH H. apply fstep_inv in H as [(i & report & t0 & t1 & Hi & ->)|[(i & s & s' & report & new & Hi & Hn & _ & ->)|(j & e & q & _ & Hq & ->)]]; intros k; cbn [f_got f_queue]; specialize (IH k).
  - rewrite IH. unfold sent_by. cbn [f_timers]. destruct (decide (k = i)) as [->|].
    + rewrite Hi, lookup_insert. destruct report; [|done]. by rewrite init_publics.
    + by rewrite lookup_insert_ne.
  - rewrite app_assoc, from_app, IH. unfold sent_by. cbn [f_timers]. destruct (decide (k = i)) as [->|].
    + rewrite Hi, lookup_insert. destruct report; [|done]. by rewrite from_same, Hn.
    + rewrite lookup_insert_ne by done. destruct report; [rewrite from_other by done|cbn]; by rewrite app_nil_r.
  - rewrite Hq in IH. rewrite fmap_app, <- app_assoc. exact IH.
Qed.

(** For all timers of a process, whatever they do, and all their reporters together: of what
    a reporting timer sends every event is delivered once, in the order it was sent, or
    still waits; a timer without status report sends nothing. *)
Theorem C47_conserved_partial pf f i : fleet_reachable pf f ->
  from i ((snd <$> f_got f) ++ f_queue f) = sent_by i f.
Proof. intros H. exact (all_there_reach pf f H i). Qed.
Print Assumptions C47_conserved_partial.

(** As long as one timer only is built with status report, the property holds: its
    reporter has shown, in order, the events of this timer, and the rest of them waits in the channel. *)
Lemma alone_inv pf f i : fleet_reachable pf f -> (forall j, reports j f -> j = i) ->
  Forall (fun x => fst x = i /\ fst (snd x) = i) (f_got f) /\ Forall (fun x => fst x = i) (f_queue f).
Proof.
  intros Hr. revert f Hr. apply (frun_ind pf (fun f => (forall j, reports j f -> j = i) ->
    Forall (fun x => fst x = i /\ fst (snd x) = i) (f_got f) /\ Forall (fun x => fst x = i) (f_queue f))).
  - intros _. split; constructor.
  - intros l f f' IH H Ha. apply fstep_inv in H as [(k & report & t0 & t1 & Hk & ->)|[(k & s & s' & report & new & Hk & Hn & _ & ->)|(j & e & q & Hj & Hq & ->)]]; cbn [f_got f_queue].
    + apply IH. intros j (s & Hj). apply Ha. exists s. cbn. rewrite lookup_insert_ne; [done|]. congruence.
    + assert (forall j, reports j f -> j = i) as Hold.
      { intros j (s1 & Hj). apply Ha. cbn. destruct (decide (j = k)) as [->|]; [|exists s1; cbn; by rewrite lookup_insert_ne].
        rewrite Hk in Hj. injection Hj as -> ->. exists s'. cbn. by rewrite lookup_insert. }
      destruct (IH Hold) as [A B]. split; [done|]. apply Forall_app. split; [done|]. destruct report; [|done].
      assert (k = i) as -> by (apply Hold; by exists s). apply Forall_fmap, Forall_true. done.
    + destruct (IH Ha) as [A B]. rewrite Hq in B. inversion B as [|? ? He Hr']; subst. split; [|done]. apply Forall_app. split; [done|].
      constructor; [|done]. cbn. split; [by apply Ha|done].
Qed.
Lemma shown_all i f : Forall (fun x : N * (N * pubev) => fst x = i /\ fst (snd x) = i) (f_got f) -> shown i f = snd <$> f_got f.
Proof.
  unfold shown. induction 1 as [|x l [Hx _] _ IH]; [done|]. cbn. rewrite Hx, N.eqb_refl. cbn. by f_equal.
Qed.
Lemma from_all i l : Forall (fun x : N * pubev => fst x = i) l -> from i l = snd <$> l.
Proof. induction 1 as [|x l Hx _ IH]; [done|]. unfold from in *. cbn. rewrite Hx, N.eqb_refl. cbn. by f_equal. Qed.
Theorem C47_alone_partial pf f i : fleet_reachable pf f -> (forall j, reports j f -> j = i) ->
  Forall (fun e => fst e = i) (shown i f) /\ (snd <$> shown i f) ++ (snd <$> f_queue f) = sent_by i f.
Proof.
  intros Hr Ha. destruct (alone_inv pf f i Hr Ha) as [A B]. rewrite (shown_all i f A).
  assert (Forall (fun e => fst e = i) (snd <$> f_got f)) as A' by (apply Forall_fmap; eapply Forall_impl; [exact A|]; cbn; tauto).
  split; [done|]. rewrite <- (C47_conserved_partial pf f i Hr), from_app, !from_all by done. done.
Qed.
Print Assumptions C47_alone_partial.

(* ------------------------------------------------------------------ *)
(** In general it is false.  Two timers with status report; the first removes a task; the
    second one's reporter shows the removal, and the first one's reporter never does. *)
Definition own_events_only (f : fleet) : Prop := forall j e, e ∈ shown j f -> fst e = j.
Definition all_own_events (f : fleet) : Prop := f_queue f = [] -> forall j, snd <$> shown j f = sent_by j f.
Definition removing (i : N) : list flabel :=
  FStep i (LAdd (every 1 11 20 100)) :: replicate 5 (FStep i LHandler) ++ [FStep i (LRemove 11)] ++ replicate 3 (FStep i LHandler).
(** [fstep], with [init] evaluated faster. *)
Definition fstep0 (pf : profile) (l : flabel) (f : fleet) : option fleet :=
  match l with
  | FNew i report t0 t1 =>
      match (f_timers f !! i : option (sys * bool)) with
      | Some _ => None
      | None => Some (Fleet (<[i := (init0 t0 t1, report)]> (f_timers f)) (f_queue f) (f_got f))
      end
  | _ => fstep pf l f
  end.
Lemma fstep0_eq pf l f : fstep0 pf l f = fstep pf l f.
Proof. destruct l; [|reflexivity..]. cbn [fstep0 fstep]. rewrite init0_eq. reflexivity. Qed.
Fixpoint fplay (pf : profile) (ls : list flabel) (f : fleet) : option fleet :=
  match ls with
  | [] => Some f
  | l :: r => fplay pf r (match fstep0 pf l f with Some f' => f' | None => f end)
  end.
Lemma fplay_reach pf ls f f' : fleet_reachable pf f -> fplay pf ls f = Some f' -> fleet_reachable pf f'.
Proof.
  revert f. induction ls as [|l r IH]; intros f Hf H; cbn [fplay] in H; [by injection H as <-|].
  eapply IH; [|exact H]. rewrite fstep0_eq.
  destruct (fstep pf l f) as [f1|] eqn:E; [|done]. destruct Hf as [ls Hls]. exists (ls ++ [l]).
  clear IH H. revert Hls. generalize no_fleet. induction ls as [|x ls IH]; intros g Hg; cbn [frun app] in *.
  - injection Hg as ->. by rewrite E.
  - destruct (fstep pf x g); [auto|discriminate Hg].
Qed.
Definition two_timers : list flabel := [FNew 1 true 100 100; FNew 2 true 100 100] ++ removing 1 ++ [FRead 2].
Lemma two_timers_end : exists f, fleet_reachable Debug f /\ shown 2 f = [(1, PRemove 11)] /\ shown 1 f = [] /\ f_queue f = [] /\ sent_by 1 f = [PRemove 11] /\ sent_by 2 f = [].
Proof.
  assert (match fplay Debug two_timers no_fleet with
          | Some f => match shown 2 f, shown 1 f, f_queue f, sent_by 1 f, sent_by 2 f with [(1, PRemove 11)], [], [], [PRemove 11], [] => true | _, _, _, _, _ => false end
          | None => false end = true) as H by (vm_compute; reflexivity).
  destruct (fplay Debug two_timers no_fleet) as [f|] eqn:E; [|discriminate H]. exists f. split; [refine (fplay_reach _ _ _ _ _ E); exists []; reflexivity|].
  clear E. repeat (case_match; try discriminate H). done.
Qed.
Theorem C47_full_refuted : ~ (forall pf f, fleet_reachable pf f -> own_events_only f) /\ ~ (forall pf f, fleet_reachable pf f -> all_own_events f).
Proof.
  destruct two_timers_end as (f & Hr & H2 & H1 & Hq & Hs & _). split; intros H.
  - specialize (H Debug f Hr 2 (1, PRemove 11)). rewrite H2 in H. specialize (H ltac:(by left)). discriminate H.
  - specialize (H Debug f Hr Hq 1). rewrite H1, Hs in H. discriminate H.
Qed.
Print Assumptions C47_full_refuted.

(** A timer that stays alone, beside one without status report. *)
Example C47_sample : exists f, fleet_reachable Debug f /\ (forall j, reports j f -> j = 1) /\ sent_by 1 f = [PRemove 11] /\ shown 1 f = [(1, PRemove 11)].
Proof.
  assert (match fplay Debug ([FNew 1 true 100 100; FNew 2 false 100 100] ++ removing 2 ++ removing 1 ++ [FRead 2; FRead 1; FRead 1]) no_fleet with
          | Some f => match shown 1 f, sent_by 1 f with [(1, PRemove 11)], [PRemove 11] => true | _, _ => false end &&
                      forallb (fun x => match x with (j, (_, r)) => negb r || (j =? 1) end) (map_to_list (f_timers f))
          | None => false end = true) as H by (vm_compute; reflexivity).
  match type of H with (match ?x with _ => _ end = _) => destruct x as [f|] eqn:E end; [|discriminate H]. exists f. split; [refine (fplay_reach _ _ _ _ _ E); exists []; reflexivity|].
  clear E. apply andb_true_iff in H as [H1 H2]. split.
  - intros j (s & Hj). rewrite forallb_forall in H2. specialize (H2 (j, (s, true))). rewrite <- elem_of_list_In, elem_of_map_to_list in H2.
    specialize (H2 Hj). cbn in H2. by apply N.eqb_eq.
  - repeat (case_match; try discriminate H1). done.
Qed.
