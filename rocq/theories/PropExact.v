(** A task that is left alone is started exactly as often as its schedule and its countdown say (C66). *)
From Verif Require Import Tactics Inv Own Life Count Quiet Timing Cases Frame Fifo Scen Crash Arrival Meanwhile Kept Live LiveEnd PropSched PropCancel PropRemove PropLive PropCalm PropChain PropEnding PropNext Sched Lost Stay PropOrphan PropLife PropAsk Chain.

(** * Specification *)

(** [l] are the dates (newest first) on which the task [t] is to be started: the first dates of its schedule, as many as its countdown says or as the schedule has. *)
Definition demands (pf : profile) (t : task) (l : list N) : Prop :=
  exists i, follows pf (iter_of (t_freq t)) l i /\ (forall n, count (t_freq t) = Some n -> N.of_nat (length l) <= n) /\
    (count (t_freq t) = Some (N.of_nat (length l)) \/ exists i', iter_next pf i = Ret (None, i')).

(** There is only one such list. *)
Lemma follows_chain pf i l1 i1 l2 i2 : follows pf i l1 i1 -> follows pf i l2 i2 -> (length l1 <= length l2)%nat -> exists l, l2 = l ++ l1 /\ follows pf i1 l i2.
Proof.
  intros H1 H2. revert l1 i1 H1. induction H2 as [|l2 j d i2 H2 IH Hn]; intros l1 i1 H1 Hle; cbn [length] in Hle.
  - destruct l1; [|cbn in Hle; lia]. inversion H1; subst. exists []. split; [done|constructor].
  - destruct (decide (length l1 = S (length l2))) as [E|E].
    + inversion H1 as [|l0 j0 d0 i0 H0 Hn0]; subst; [discriminate E|]. cbn [length] in E. destruct (IH _ _ H0 ltac:(lia)) as (l & -> & Hl). rewrite app_length in E. destruct l; [|cbn in E; lia].
      inversion Hl; subst. rewrite Hn in Hn0. injection Hn0 as <- <-. exists []. split; [done|constructor].
    + destruct (IH _ _ H1 ltac:(lia)) as (l & -> & Hl). exists (as_u64 d :: l). split; [done|by econstructor].
Qed.
Lemma follows_last pf i d l i' : follows pf i (l ++ [d]) i' -> exists z j, iter_next pf i = Ret (Some z, j).
Proof.
  remember (l ++ [d]) as x eqn:E. intros H. revert l d E. induction H as [|l0 j z i2 H IH Hn]; intros l d E; [by destruct l|]. destruct l as [|y l]; cbn [app] in E; injection E as _ El; subst l0.
  - inversion H; subst. eauto.
  - by eapply IH.
Qed.
Theorem C66_demands_one_list pf t l1 l2 : demands pf t l1 -> demands pf t l2 -> l1 = l2.
Proof.
  assert (forall a b, demands pf t a -> demands pf t b -> (length a <= length b)%nat -> a = b) as H.
  { intros a b (i & H1 & _ & H2) (j & H3 & H4 & _) Hle. destruct (follows_chain _ _ _ _ _ _ H1 H3 Hle) as (l & -> & Hl). rewrite app_length in H4. destruct H2 as [H2|[i' H2]].
    - specialize (H4 _ H2). destruct l; [done|cbn [length] in H4; lia].
    - destruct l as [|x l _] using rev_ind; [done|]. apply follows_last in Hl as (z & k & Hl). congruence. }
  intros H1 H2. destruct (Nat.le_ge_cases (length l1) (length l2)) as [?|?]; [by apply H|symmetry; by apply H].
Qed.
Print Assumptions C66_demands_one_list.

(** * Each date that was planned is the date of a start, or of a start that is to come *)
Definition np (u : N) (s : sys) : N := N.of_nat (length (planned u (log s))).
Lemma np_step pf lb s s' u : step pf lb s = Some s' -> np u s' = np u s \/ np u s' = np u s + 1 /\
  ((exists t c h k t' sl, hpc s = HAdd1 t c h k /\ t_uid t = u /\ hpc s' = HAdd2 t' c sl) \/ (exists l ids t b, tpc s = TPark l ids t b /\ t_uid t = u /\ tpc_task (tpc s') = [])).
Proof.
  intros Hs. unfold np. destruct (plans_step _ _ _ _ Hs) as [(t & d & t' & _ & Hp & Hx)|[Hp _]]; [|left; by rewrite Hp]. rewrite Hp. destruct (t_uid t =? u) eqn:E; [|by left]. apply N.eqb_eq in E.
  right. split; [cbn [length]; lia|]. destruct Hx as [(c & h & k & sl & cyl & H1 & H2 & _)|(l & ids & b & sl & m & cyl & H1 & _ & _ & H2 & _)]; [left|right]; eauto 10.
Qed.
Lemma tn_step pf lb s s' u : step pf lb s = Some s' -> turns u (log s') = turns u (log s) \/ turns u (log s') = turns u (log s) + 1 /\
  exists l ids t, t_uid t = u /\ ((exists r, tpc s = TSpawn l ids t r) \/ tpc s = TMaint l ids t) /\ (tpc s' = TDead \/ (exists r e, tpc s' = TSend l ids t r e) \/ tpc s' = TPark l ids t false).
Proof.
  intros Hs. assert (forall b : bool, (if b then 1 else 0) + turns u (log s) = turns u (log s) \/ b = true) as Hb by (intros []; [by right|by left]).
  step_inv Hs; inst_shape; fsimpl; try (by left).
  all: try (left; rewrite ?turns_app, ?turns_inst by done; cbn [turns]; repeat case_match; done).
  all: cbn [turns]; match goal with |- context [(if ?c then 1 else 0) + _] => destruct (Hb c) as [?|Hc]; [by left|right]; rewrite Hc; apply N.eqb_eq in Hc; split; [lia|] end; eauto 20.
Qed.
(** A value is in one place. *)
Lemma places pf t0 t1 s x y : reachable pf t0 t1 s -> with_scheduler s x -> y ∈ (queue s ≫= ev_task) \/ y ∈ hpc_task (hpc s) -> t_uid y <> t_uid x.
Proof.
  intros Hr Hx Hy E. destruct (own_reach _ _ _ _ Hr) as [Hn _]. rewrite uids_eq in Hn. rewrite app_assoc in Hn. apply NoDup_app in Hn as (_ & Hn & _). apply (Hn (t_uid y)).
  - rewrite <- fmap_app. apply elem_of_list_fmap. exists y. split; [done|]. by apply elem_of_app.
  - rewrite <- fmap_app. apply elem_of_list_fmap. exists x. split; [done|]. apply elem_of_app. exact Hx.
Qed.
Lemma places2 pf t0 t1 s x y : reachable pf t0 t1 s -> y ∈ (queue s ≫= ev_task) -> x ∈ hpc_task (hpc s) -> t_uid y <> t_uid x.
Proof.
  intros Hr Hy Hx E. destruct (own_reach _ _ _ _ Hr) as [Hn _]. rewrite uids_eq in Hn. apply NoDup_app in Hn as (_ & Hn & _). apply (Hn (t_uid y)).
  - apply elem_of_list_fmap. by exists y.
  - apply elem_of_app. left. rewrite E. apply elem_of_list_fmap. by exists x.
Qed.

(** What was discarded is nowhere. *)
Lemma hands_off s s' t : tpc_task (tpc s) = [t] -> tpc_task (tpc s') = [] -> queue s' = queue s -> hpc s' = hpc s -> wheel s' = wheel s -> uids s ≡ₚ t_uid t :: uids s'.
Proof. intros H1 H2 H3 H4 H5. rewrite !uids_eq, H1, H2, H3, H4, H5. cbn [fmap list_fmap app]. by rewrite !Permutation_middle. Qed.
Lemma handler_off s s' t : hpc_task (hpc s) = [t] -> hpc_task (hpc s') = [] -> queue s' = queue s -> tpc s' = tpc s -> wheel s' = wheel s -> uids s ≡ₚ t_uid t :: uids s'.
Proof. intros H1 H2 H3 H4 H5. rewrite !uids_eq, H1, H2, H3, H4, H5. cbn [fmap list_fmap app]. symmetry. apply Permutation_middle. Qed.
Lemma ended_old pf lb s s' i u : step pf lb s = Some s' -> ended i u s' -> ended i u s \/ exists t, t_uid t = u /\ t ∈ Spec.held s /\ used s' = used s /\ uids s ≡ₚ t_uid t :: uids s'.
Proof.
  intros Hs Hx.
  unfold ended in *. revert Hx. step_inv Hs; inst_shape; fsimpl; intros Hx; auto.
  all: repeat match goal with H : context [match hpub ?x with _ => _ end] |- _ => destruct (hpub x) | H : context [if ?x then _ :: _ else _] |- _ => destruct x end; rewrite ?elem_of_app, ?elem_of_cons in Hx; auto.
  all: try (left; destruct Hx as [Hx|Hx]; repeat (destruct Hx as [Hx|Hx]; [first [discriminate Hx|rewrite Forall_forall in Hlg; by destruct (Hlg _ Hx)]|]); by auto).
  1-2: destruct Hx as [[Hx|Hx]|[Hx|Hx]]; try discriminate Hx; auto; injection Hx as -> ->; right; exists t; (split; [done|]); (split; [unfold Spec.held; rewrite Heqt, !elem_of_app; right; right; left; apply elem_of_list_here|]);
    (split; [done|]); apply hands_off; by rewrite ?Heqt.
  all: destruct Hx as [[Hx|Hx]|[Hx|Hx]]; try discriminate Hx; auto; injection Hx as -> ->; right; exists t; (split; [done|]); (split; [unfold Spec.held; rewrite Heqh, !elem_of_app; right; left; apply elem_of_list_here|]);
    (split; [done|]); apply handler_off; unfold complete; fsimpl; repeat case_match; rewrite ?Heqh; try done.
Qed.
Lemma ended_new pf t0 t1 lb s s' i u : reachable pf t0 t1 s -> step pf lb s = Some s' -> ended i u s' -> ended i u s \/ nowhere u s'.
Proof. intros Hr Hs Hx. destruct (ended_old _ _ _ _ _ _ Hs Hx) as [?|(t & <- & H1 & H2 & H3)]; [by left|right]. eapply uid_dropped; [exact (own_reach _ _ _ _ Hr)|done..]. Qed.
Lemma ended_nowhere pf t0 t1 s i u : reachable pf t0 t1 s -> ended i u s -> nowhere u s.
Proof.
  revert s. apply (reach_ind pf t0 t1 (fun s => ended i u s -> nowhere u s)).
  { unfold ended. change (log (init t0 t1)) with [OTick 0 t1]. intros [H|H]; apply elem_of_list_singleton in H; discriminate H. }
  intros lb s s' Hr IH Hs Hx. destruct (ended_new _ _ _ _ _ _ _ _ Hr Hs Hx) as [Hx0|?]; [|done]. by apply (nowhere_step _ _ _ _ _ (IH Hx0) Hs).
Qed.

(** ** Tasks that are advanced *)
(** Nothing was ever asked of the id of [t] but to add [t] and to advance it. *)
Definition advanced_only (t : task) (lg : list obs) : Prop := forall e, OSend e ∈ lg -> names (t_id t) e -> e = EAdd t \/ e = EInsert t \/ e = EAdvance (t_id t).
Lemma quiet_advanced t lg : quiet t lg -> advanced_only t lg.
Proof. intros Hq e He Hn. destruct (Hq e He Hn); auto. Qed.
Lemma advanced_anti pf lb s s' t : step pf lb s = Some s' -> advanced_only t (log s') -> advanced_only t (log s).
Proof. intros Hs Hq e He. apply Hq. destruct (step_log _ _ _ _ Hs) as [l ->]. apply elem_of_app. by right. Qed.
Lemma advanced_held s t t' : cnt_inv s -> advanced_only t (log s) -> t' ∈ Spec.held s -> t_id t' = t_id t -> t_uid t' = t_uid t.
Proof.
  intros Hc Hq Ht Hi. destruct (ci_held s Hc t' Ht) as (x & (e & He & Hse) & Hu & Hid & _). rewrite <- Hu. f_equal.
  destruct Hse as [->|[->| ->]]; (destruct (Hq _ He) as [E|[E|E]]; [cbn; congruence|..]); congruence.
Qed.
(** The handler works on its waiting value only to advance it. *)
Lemma advanced_by pf t0 t1 s t x : reachable pf t0 t1 s -> advanced_only t (log s) -> with_scheduler s x -> t_uid x = t_uid t -> handler_on (hpc s) = Some (t_id t) -> exists sl, hpc s = HAdv1 (t_id t) sl.
Proof.
  intros Hr Hq Hx Hu Hon. destruct (src_reach _ _ _ _ Hr) as [_ Hsrc].
  assert (forall y, hpc_task (hpc s) = [y] -> t_id y = t_id t -> False) as Hno.
  { intros y Hy Hiy. assert (y ∈ Spec.held s) as Hin by (unfold Spec.held; rewrite !elem_of_app, Hy, elem_of_list_singleton; auto).
    apply (places _ _ _ _ x y Hr Hx); [right; rewrite Hy; apply elem_of_list_here|]. rewrite Hu. by eapply advanced_held; [eapply cnt_reach|..]. }
  destruct (hpc s) eqn:Eh; cbn [handler_on] in Hon; try discriminate Hon; injection Hon as Hon; try (exfalso; by eapply Hno; [reflexivity|]); cbn [hpc_src] in Hsrc.
  - rewrite Hon. eauto.
  - destruct (Hq _ Hsrc Hon) as [E|[E|E]]; discriminate E.
Qed.
(** When it is advanced, it is taken out of its slot or not found. *)
Lemma advanced_due pf t0 t1 s s' i u d sl : reachable pf t0 t1 s -> step pf LHandler s = Some s' -> hpc s = HAdv1 i sl -> due_in i u d s ->
  due_in i u d s' \/ exists x, steady i u x /\ hpc s' = HAdv2 x.
Proof.
  intros Hr Hs Hh Hd. pose proof Hs as Hstep. assert (tpc s' = tpc s /\ iters s' = iters s) as [E1 E2]. { destruct (hands_kept _ _ _ _ Hs I) as [? ?]. done. }
  destruct Hd as [(sl' & t & (m & Hm & Hi) & Ht & Hw)|(l & ids & t & Hp & Ht & Hi)]; [|left; right; exists l, ids, t; rewrite E1, E2; done].
  cbn [step] in Hs. unfold handler_step in Hs. rewrite Hh in Hs. destruct (decide (sl' = sl)) as [->|Hne].
  - right. rewrite Hm in Hs. unfold slot_remove_task in Hs. rewrite Hi in Hs. injection Hs as <-. exists (clear_cylinder_line t). split; [by apply (steady_cyl i u 0)|done].
  - left. left. exists sl', t. split; [|split; [done|]].
    + exists m. split; [|done]. rewrite <- Hm. destruct (wheel s !! sl) as [g|] eqn:Eg; [|injection Hs as <-; unfold complete; fsimpl; by destruct (hpub s)].
      unfold slot_remove_task in Hs. destruct (g !! i); injection Hs as <-; unfold complete; fsimpl; try destruct (hpub s); fsimpl; by rewrite lookup_insert_ne.
    + rewrite <- Hw. assert (hand s' = hand s) as E3 by (rewrite (wf_hand _ (wf_reach _ _ _ _ Hr)), (wf_hand _ (wf_reach _ _ _ _ (reach_step _ _ _ _ _ _ Hr Hstep))); by rewrite E2).
      unfold when_at, next_scan. by rewrite E1, E2, E3.
Qed.

(** [L]: it may have been lost by an advance.  [e]: the number of starts it gets beyond its dates. *)
Inductive bal (L : Prop) (e i u : N) (s : sys) : Prop :=
| bal_queue t : steady i u t -> EAdd t ∈ queue s \/ EInsert t ∈ queue s -> e + np u s = turns u (log s) -> bal L e i u s
| bal_add t c h k : steady i u t -> hpc s = HAdd1 t c h k -> e + np u s = turns u (log s) -> bal L e i u s
| bal_put t c sl : steady i u t -> hpc s = HAdd2 t c sl -> e + np u s = turns u (log s) + 1 -> bal L e i u s
| bal_due d : due_in i u d s -> e + np u s = turns u (log s) + 1 -> bal L e i u s
| bal_started k : started_in i u k s -> e + np u s = turns u (log s) -> bal L e i u s
| bal_adv t : steady i u t -> (hpc s = HAdv2 t \/ exists sl, hpc s = HAdv3 t sl) -> e + np u s = turns u (log s) + 1 -> bal L e i u s
| bal_lost : L -> nowhere u s -> (forall j, ~ ended j u s) -> e + np u s = turns u (log s) + 1 -> bal L e i u s
| bal_over : ended i u s -> nowhere u s -> e + np u s = turns u (log s) -> bal L e i u s
| bal_dead : unmarked i u s \/ tpc s = TDead \/ hpc s = HDead -> bal L e i u s.
Lemma due_with i u d s : due_in i u d s -> exists x, with_scheduler s x /\ steady i u x.
Proof. intros H. apply placed_with. left. by exists d. Qed.
Lemma started_with i u k s : started_in i u k s -> exists x, with_scheduler s x /\ steady i u x.
Proof. intros H. apply placed_with. right. by exists k. Qed.

(** While [u] waits to be added, only the handler does something with it. *)
Lemma coming_kept pf t0 t1 lb s s' u y : reachable pf t0 t1 s -> step pf lb s = Some s' -> (y ∈ (queue s ≫= ev_task) \/ y ∈ hpc_task (hpc s)) -> t_uid y = u -> 
  turns u (log s') = turns u (log s) /\ (np u s' = np u s \/ np u s' = np u s + 1 /\ exists t c h k t' sl, hpc s = HAdd1 t c h k /\ t_uid t = u /\ hpc s' = HAdd2 t' c sl).
Proof.
  intros Hr Hs Hy Hu. split.
  - destruct (tn_step _ _ _ _ u Hs) as [?|(_ & l & ids & t & H2 & H1 & _)]; [done|]. exfalso. eapply (places _ _ _ _ t y Hr); [left; destruct H1 as [[r ->]| ->]; apply elem_of_list_here|done|congruence].
  - destruct (np_step _ _ _ _ u Hs) as [?|(H & [H1|(l & ids & t & b & H1 & H2 & _)])]; [by left|by right|]. exfalso. eapply (places _ _ _ _ t y Hr); [left; rewrite H1; apply elem_of_list_here|done|congruence].
Qed.
(** What the scheduler has is not planned by the handler. *)
Lemma sched_kept pf t0 t1 lb s s' u x : reachable pf t0 t1 s -> step pf lb s = Some s' -> with_scheduler s x -> t_uid x = u ->
  np u s' = np u s \/ np u s' = np u s + 1 /\ exists l ids t b, tpc s = TPark l ids t b /\ t_uid t = u /\ tpc_task (tpc s') = [].
Proof.
  intros Hr Hs Hx Hu. destruct (np_step _ _ _ _ u Hs) as [?|(H & [(t & c & h & k & t' & sl & H1 & H2 & _)|H1])]; [by left| |by right].
  exfalso. eapply (places _ _ _ _ x t Hr Hx); [right; rewrite H1; apply elem_of_list_here|congruence].
Qed.
Lemma bal_step_at pf t0 t1 (L : Prop) e lb s s' i u : reachable pf t0 t1 s -> step pf lb s = Some s' -> alone i u s ->
  (forall x, with_scheduler s x -> t_uid x = u -> handler_on (hpc s) = Some i -> exists sl, hpc s = HAdv1 i sl) -> (forall x sl, lb = LHandler -> hpc s = HAdv3 x sl -> t_id x = i -> SLOTS <= sl -> L) ->
  bal L e i u s -> bal L e i u s'.
Proof.
  intros Hr Hs Hone Hby HL Hb. pose proof (reach_step _ _ _ _ _ _ Hr Hs) as Hr'.
  destruct (dead_dec (hpc s')) as [?|Hhd]; [apply bal_dead; auto|].
  assert (tpc s' = TDead \/ tpc s' <> TDead) as [?|Htd] by (destruct (tpc s'); first [by left|right; discriminate]); [apply bal_dead; auto|].
  destruct Hb as [x Ht Hx Hn|x c h k Ht Hx Hn|x c sl Ht Hx Hn|d Hx Hn|k Hx Hn|x Ht Hx Hn|Hl Hx Hne Hn|Hx Hw Hn|Hx].
  - assert (x ∈ (queue s ≫= ev_task)) as Hin. { apply elem_of_list_bind. destruct Hx as [Hx|Hx]; (eexists; split; [|exact Hx]); apply elem_of_list_here. }
    destruct (coming_kept _ _ _ _ _ _ u x Hr Hs (or_introl Hin) ltac:(apply Ht)) as [E1 [E2|(_ & y & c & h & k & y' & sl & H1 & H2 & _)]].
    2: { exfalso. eapply (places2 _ _ _ _ y x Hr Hin); [rewrite H1; apply elem_of_list_here|]. rewrite H2. apply Ht. }
    rewrite <- E1, <- E2 in Hn. destruct (match lb with LHandler => true | _ => false end) eqn:Hlb.
    2: { eapply bal_queue; [exact Ht| |done]. destruct (other_queue _ _ _ _ Hs) as (_ & _ & q & ->); [by destruct lb|]. rewrite !elem_of_app. tauto. }
    destruct lb; try done. cbn [step] in Hs. destruct Hx as [Hx|Hx].
    all: destruct (handler_queue pf s s' _ Hs Hx) as [Hy|(Hh & q & Hy)]; [eapply bal_queue; [exact Ht| |done]; auto|].
    all: unfold handler_step in Hs; rewrite Hh, Hy in Hs; injection Hs as <-; eapply bal_add; [exact Ht|reflexivity|done].
  - assert (x ∈ hpc_task (hpc s)) as Hin by (rewrite Hx; apply elem_of_list_here).
    destruct (coming_kept _ _ _ _ _ _ u x Hr Hs (or_intror Hin) ltac:(apply Ht)) as [E1 E2].
    destruct (match lb with LHandler => true | _ => false end) eqn:Hlb.
    2: { assert (hpc s' = hpc s) as Eh. { destruct (other_queue _ _ _ _ Hs) as (E & _); [by destruct lb|done]. }
      eapply bal_add; [exact Ht|by rewrite Eh|]. destruct E2 as [E2|(_ & y & c' & h' & k' & y' & sl & _ & _ & H3)]; [congruence|]. rewrite Eh, Hx in H3. discriminate H3. }
    destruct lb; try done. cbn [step] in Hs. unfold handler_step in Hs. rewrite Hx in Hs.
    destruct (get_next_exec_timestamp pf x) as [[o x']|] eqn:E; [|injection Hs as <-; done]. pose proof (steady_next _ _ _ _ _ _ Ht E) as Ht'. destruct o as [z|].
    + destruct (let! a := _ in _) as [seed|]; injection Hs as <-; [|done]. eapply bal_put; [by apply (steady_cyl i u (seed / SLOTS))|reflexivity|]. rewrite E1, <- Hn. unfold np. fsimpl. cbn [planned].
      destruct Ht as (_ & ->). rewrite N.eqb_refl. cbn [length]. lia.
    + apply bal_over.
      * injection Hs as <-. right. destruct Ht as (<- & <-). inst_shape. fsimpl. destruct (hpub s); left.
      * assert (t_uid x = u) as <- by apply Ht. apply (uid_dropped s); [exact (own_reach _ _ _ _ Hr)|unfold Spec.held; rewrite !elem_of_app; auto|injection Hs as <-; inst_shape; fsimpl; by destruct (hpub s)|].
        rewrite !uids_eq, Hx. cbn [hpc_task fmap list_fmap]. injection Hs as <-. rewrite (proj1 (complete_hpc _ _)). cbn [hpc_task fmap list_fmap app].
        destruct (complete_hpc false (abandon_opt c (emit (ODrop (t_uid x) (t_id x) NoDate) s))) as (_ & _ & Eq & Et). rewrite Eq, Et.
        assert (wheel (complete false (abandon_opt c (emit (ODrop (t_uid x) (t_id x) NoDate) s))) = wheel s) as -> by (unfold complete; inst_shape; fsimpl; by destruct (hpub s)).
        assert (queue (abandon_opt c (emit (ODrop (t_uid x) (t_id x) NoDate) s)) = queue s /\ tpc (abandon_opt c (emit (ODrop (t_uid x) (t_id x) NoDate) s)) = tpc s) as [-> ->] by (inst_shape; done).
        symmetry. apply Permutation_middle.
      * destruct E2 as [E2|(_ & y & c' & h' & k' & y' & sl & _ & _ & H3)]; [congruence|]. exfalso. injection Hs as <-. rewrite (proj1 (complete_hpc _ _)) in H3. discriminate H3.
  - assert (x ∈ hpc_task (hpc s)) as Hin by (rewrite Hx; apply elem_of_list_here).
    destruct (coming_kept _ _ _ _ _ _ u x Hr Hs (or_intror Hin) ltac:(apply Ht)) as [E1 [E2|(_ & y & c' & h' & k' & y' & sl' & H3 & _)]]; [|rewrite Hx in H3; discriminate H3].
    rewrite <- E1, <- E2 in Hn. destruct (match lb with LHandler => true | _ => false end) eqn:Hlb.
    2: { assert (hpc s' = hpc s) as Eh. { destruct (other_queue _ _ _ _ Hs) as (E & _); [by destruct lb|done]. } eapply bal_put; [exact Ht|by rewrite Eh|done]. }
    destruct lb; try done. cbn [step] in Hs. unfold handler_step in Hs. rewrite Hx in Hs. destruct (wheel s !! sl) as [m|] eqn:Em.
    + refine (bal_due _ _ _ _ _ _ _ Hn). injection Hs as <-. left. exists sl, x. split; [|split; [done|reflexivity]]. eexists. fsimpl. rewrite lookup_insert. split; [reflexivity|].
      unfold slot_add_task. destruct Ht as (<- & _). apply lookup_insert.
    + exfalso. pose proof (wf_hpc s (wf_reach _ _ _ _ Hr)) as Hw. rewrite Hx in Hw. destruct (wf_wheel s (wf_reach _ _ _ _ Hr) sl) as [_ Hy]. rewrite Em in Hy. by destruct (Hy Hw).
  - destruct (due_with _ _ _ _ Hx) as (x & Hwx & Htx). assert (t_uid x = u) as Hux by apply Htx.
    assert (np u s' = np u s) as E2.
    { destruct (sched_kept _ _ _ _ _ _ u x Hr Hs Hwx Hux) as [?|(_ & l & ids & y & b & H1 & H2 & _)]; [done|exfalso].
      destruct Hx as [(sl & z & Hon & Hz & _)|(l' & ids' & z & Hp & _)]; [|rewrite H1 in Hp; destruct Hp as [Hp|[r Hp]]; discriminate Hp].
      refine (sits_once _ _ _ _ _ _ _ y Hr Hon _ _); [rewrite H1; apply elem_of_list_here|]. destruct Hz as (_ & ->). done. }
    assert (lb = LHandler /\ handler_on (hpc s) = Some i \/ (lb = LHandler -> handler_on (hpc s) <> Some i)) as [[-> Hon]|Hnon].
    { destruct (decide (handler_on (hpc s) = Some i)) as [?|?]; [|by right]. destruct (match lb with LHandler => true | _ => false end) eqn:El; [left; by destruct lb|right; by intros ->]. }
    { destruct (Hby _ Hwx Hux Hon) as [sl Eh]. assert (turns u (log s') = turns u (log s)) as E1.
      { destruct (tn_step _ _ _ _ u Hs) as [?|(_ & l & ids & y & _ & H1 & H2)]; [done|exfalso]. destruct (hands_kept _ _ _ _ Hs I) as [E _]. rewrite E in H2. destruct H1 as [[r H1]|H1]; rewrite H1 in H2; destruct H2 as [H2|[(r' & ev & H2)|H2]]; discriminate H2. }
      destruct (advanced_due _ _ _ _ _ i u d sl Hr Hs Eh Hx) as [?|(y & Hy & Hh)]; [apply (bal_due _ _ _ _ _ d); [done|congruence]|]. apply (bal_adv _ _ _ _ _ y); [done|by left|congruence]. }
    destruct (due_step _ _ _ _ _ _ i u d Hr Hs Htd Hnon) as [Hd|[[E1 Hd]|Hd]]; [exact Hone|done| | |apply bal_dead; auto].
    + apply (bal_due _ _ _ _ _ d); [done|]. destruct (tn_step _ _ _ _ u Hs) as [?|(_ & l & ids & y & H2 & _ & [?|H3])]; [congruence|done|exfalso].
      destruct Hd as [(sl & z & Hon & Hz & _)|(l' & ids' & z & Hp & _)]; [|destruct H3 as [(r & ev & H3)|H3]; rewrite H3 in Hp; destruct Hp as [Hp|[r' Hp]]; discriminate Hp].
      refine (sits_once _ _ _ _ _ _ _ y Hr' Hon _ _); [destruct H3 as [(r & ev & H3)|H3]; rewrite H3; apply elem_of_list_here|]. destruct Hz as (_ & ->). done.
    + apply (bal_started _ _ _ _ _ d); [done|lia].
  - destruct (started_with _ _ _ _ Hx) as (x & Hwx & Htx). assert (t_uid x = u) as Hux by apply Htx.
    assert (turns u (log s') = turns u (log s)) as E1.
    { destruct (tn_step _ _ _ _ u Hs) as [?|(_ & l & ids & y & H2 & H1 & _)]; [done|exfalso]. destruct Hx as (l' & ids' & z & Hp & _). destruct H1 as [[r H1]|H1]; rewrite H1 in Hp; destruct Hp as [(r' & ev & Hp)|[[r' Hp]|[upd Hp]]]; discriminate Hp. }
    pose proof (sched_kept _ _ _ _ _ _ u x Hr Hs Hwx Hux) as E2.
    destruct (no_handler lb) as [(ch & rec & now & ->)|Hlb].
    + cbn [step] in Hs. unfold timer_step in Hs. destruct Hx as (l & ids & y & Hp & Ht & Hi). destruct Hp as [(r & ev & Hp)|[[r Hp]|[upd Hp]]]; rewrite Hp in Hs, E2.
      * destruct E2 as [E2|(_ & ? & ? & ? & ? & H1 & _)]; [|discriminate H1]. apply (bal_started _ _ _ _ _ k); [|congruence]. injection Hs as <-. exists l, ids, y. split; [right; left; by exists r|done].
      * destruct E2 as [E2|(_ & ? & ? & ? & ? & H1 & _)]; [|discriminate H1].
        destruct (down_count_and_set_valid pf y) as [t'|] eqn:E; [|injection Hs as <-; done]. pose proof (steady_down _ _ _ _ _ Ht E) as Ht'. destruct (t_valid t').
        -- apply (bal_started _ _ _ _ _ k); [|congruence]. injection Hs as <-. exists l, ids, t'. split; [right; right; by exists true|done].
        -- apply bal_over; [..|congruence].
           ++ injection Hs as <-. left. destruct Ht as (<- & <-). left.
           ++ assert (t_uid y = u) as <- by apply Ht. injection Hs as <-. apply (uid_dropped s); [exact (own_reach _ _ _ _ Hr)|unfold Spec.held; rewrite !elem_of_app, Hp; right; right; left; apply elem_of_list_here|done|].
              rewrite !uids_eq, Hp. fsimpl. cbn [tpc_task fmap list_fmap app]. by rewrite !Permutation_middle.
      * destruct (get_next_exec_timestamp pf y) as [[o t']|] eqn:E; [|injection Hs as <-; done]. pose proof (steady_next _ _ _ _ _ _ Ht E) as Ht'. destruct o as [z|].
        -- destruct (add64 _ _ _) as [sum|]; [|injection Hs as <-; done]. destruct (wheel s !! (sum mod SLOTS)) as [m|] eqn:Em.
           ++ injection Hs as <-. eapply bal_due.
              ** left. exists (sum mod SLOTS), (set_cylinder_line (park_distance z (l_ts l) / SLOTS) t'). split; [|split; [by apply steady_cyl|reflexivity]].
                 eexists. fsimpl. rewrite lookup_insert. split; [reflexivity|]. unfold slot_add_task. destruct Ht' as (<- & _). apply lookup_insert.
              ** rewrite E1, <- Hn. unfold np. fsimpl. cbn [planned]. destruct Ht as (_ & ->). rewrite N.eqb_refl. cbn [length]. lia.
           ++ exfalso. destruct (wf_wheel s (wf_reach _ _ _ _ Hr) (sum mod SLOTS)) as [_ Hy]. rewrite Em in Hy. destruct Hy as [? Hy]; [|done]. apply N.mod_lt. discriminate.
        -- apply bal_over.
           ++ injection Hs as <-. right. destruct Ht as (<- & <-). left.
           ++ assert (t_uid y = u) as <- by apply Ht. injection Hs as <-. apply (uid_dropped s); [exact (own_reach _ _ _ _ Hr)|unfold Spec.held; rewrite !elem_of_app, Hp; right; right; left; apply elem_of_list_here|done|].
              rewrite !uids_eq, Hp. fsimpl. cbn [tpc_task fmap list_fmap app]. by rewrite !Permutation_middle.
           ++ injection Hs as <-. exact Hn.
    + assert (lb <> LRoutinePanic) as Hnp. { intros ->. cbn [step] in Hs. unfold routine_panic in Hs. destruct Hx as (l & ids & y & Hp & _). destruct Hp as [(r & ev & Hp)|[[r Hp]|[upd Hp]]]; rewrite Hp in Hs; discriminate Hs. }
      destruct (hands_kept _ _ _ _ Hs) as [E3 E4]. { destruct Hlb as [->|[->|Hlb]]; [done|done|]. by destruct lb. }
      apply (bal_started _ _ _ _ _ k). { destruct Hx as (l & ids & y & Hp). exists l, ids, y. by rewrite E3, E4. }
      rewrite E1. destruct E2 as [E2|(_ & l & ids & y & b & H1 & _ & H2)]; [congruence|]. rewrite E3, H1 in H2. discriminate H2.
  - assert (x ∈ hpc_task (hpc s)) as Hin by (destruct Hx as [->|[sl ->]]; apply elem_of_list_here).
    destruct (coming_kept _ _ _ _ _ _ u x Hr Hs (or_intror Hin) ltac:(apply Ht)) as [E1 [E2|(_ & y & c & h & k & y' & sl' & H1 & _)]]; [|destruct Hx as [Hx|[sl Hx]]; rewrite Hx in H1; discriminate H1].
    rewrite <- E1, <- E2 in Hn. destruct (match lb with LHandler => true | _ => false end) eqn:Hlb.
    2: { assert (hpc s' = hpc s) as Eh. { destruct (other_queue _ _ _ _ Hs) as (E & _); [by destruct lb|done]. } eapply bal_adv; [exact Ht|by rewrite Eh|done]. }
    destruct lb; try done. pose proof Hs as Hstep. cbn [step] in Hs. unfold handler_step in Hs. destruct Hx as [Hx|[sl Hx]]; rewrite Hx in Hs.
    + eapply bal_adv; [exact Ht| |done]. right. injection Hs as <-. by eexists.
    + destruct (wheel s !! sl) as [m|] eqn:Em.
      * refine (bal_due _ _ _ _ _ _ _ Hn). injection Hs as <-. left. exists sl, x. split; [|split; [done|reflexivity]]. exists (slot_add_task m x). unfold complete. fsimpl. split; [by destruct (hpub s); fsimpl; rewrite lookup_insert|].
        unfold slot_add_task. destruct Ht as (<- & _). apply lookup_insert.
      * assert (t_uid x = u) as <- by apply Ht. apply bal_lost; [| | |done].
        -- apply (HL x sl); [done|done|apply Ht|]. destruct (N.lt_ge_cases sl SLOTS) as [Hlt|?]; [|done]. exfalso. destruct (wf_wheel s (wf_reach _ _ _ _ Hr) sl) as [_ Hz]. rewrite Em in Hz. by destruct (Hz Hlt).
        -- apply (uid_dropped s); [exact (own_reach _ _ _ _ Hr)|unfold Spec.held; rewrite !elem_of_app; auto|injection Hs as <-; unfold complete; fsimpl; by destruct (hpub s)|].
           injection Hs as <-. apply handler_off; unfold complete; fsimpl; by (rewrite ?Hx; destruct (hpub s)).
        -- intros j He. assert (ended j (t_uid x) s) as He0.
           { injection Hs as <-. unfold ended, complete in *. fsimpl_in He. by destruct (hpub s). }
           destruct (ended_nowhere _ _ _ _ _ _ Hr He0) as [_ Hno]. apply Hno. rewrite uids_eq, !elem_of_app. right. left. by apply elem_of_list_fmap_1.
  - destruct (nowhere_step _ _ _ _ _ Hx Hs) as [Hw' _]. destruct Hx as [_ Hw]. assert (turns u (log s') = turns u (log s)) as E1.
    { destruct (tn_step _ _ _ _ u Hs) as [?|(_ & l & ids & y & H2 & H1 & _)]; [done|exfalso]. apply Hw. rewrite uids_eq, !elem_of_app, <- H2. right. right. left. destruct H1 as [[r ->]| ->]; left. }
    apply bal_lost; [done|done| |].
    + intros j He. destruct (ended_old _ _ _ _ _ _ Hs He) as [He0|(y & <- & H1 & _)]; [by destruct (Hne j)|]. apply Hw. by apply elem_of_list_fmap_1.
    + rewrite E1, <- Hn. destruct (np_step _ _ _ _ u Hs) as [?|(_ & [(y & c & h & k & y' & sl & H1 & H2 & _)|(l & ids & y & b & H1 & H2 & _)])]; [congruence|exfalso..]; apply Hw; rewrite uids_eq, H1, !elem_of_app, <- H2.
      * right. left. left.
      * right. right. left. left.
  - destruct (nowhere_step _ _ _ _ _ Hw Hs) as [Hw' _]. assert (turns u (log s') = turns u (log s)) as E1.
    { destruct (tn_step _ _ _ _ u Hs) as [?|(_ & l & ids & y & H2 & H1 & _)]; [done|exfalso]. apply (proj2 Hw). rewrite uids_eq, !elem_of_app, <- H2. right. right. left. destruct H1 as [[r ->]| ->]; left. }
    apply bal_over; [by eapply ended_step|done|]. rewrite E1, <- Hn. destruct Hw as [_ Hw].
    destruct (np_step _ _ _ _ u Hs) as [?|(_ & [(y & c & h & k & y' & sl & H1 & H2 & _)|(l & ids & y & b & H1 & H2 & _)])]; [congruence|exfalso..]; apply Hw; rewrite uids_eq, H1, !elem_of_app, <- H2.
    + right. left. left.
    + right. right. left. left.
  - apply bal_dead. destruct Hx as [Hx|[Hx|Hx]]; [left; unfold unmarked; destruct (step_log _ _ _ _ Hs) as [l ->]; apply elem_of_app; by right|by destruct (dead_stays _ _ _ _ Hs Hx); right; left|]. right. right. by destruct (Crash.dead_step _ _ _ _ Hs Hx).
Qed.
Lemma bal_step pf t0 t1 (L : Prop) e lb s s' t : reachable pf t0 t1 s -> step pf lb s = Some s' -> advanced_only t (log s) -> (forall x sl, lb = LHandler -> hpc s = HAdv3 x sl -> t_id x = t_id t -> SLOTS <= sl -> L) ->
  bal L e (t_id t) (t_uid t) s -> bal L e (t_id t) (t_uid t) s'.
Proof.
  intros Hr Hs Hq HL. eapply bal_step_at; [exact Hr|exact Hs| |intros; by eapply advanced_by|exact HL].
  intros y Hy Hi. refine (advanced_held _ _ _ (cnt_reach _ _ _ _ Hr) Hq _ Hi). unfold Spec.held. rewrite !elem_of_app. tauto.
Qed.
Lemma no_turns pf t0 t1 s u : reachable pf t0 t1 s -> u ∉ used s -> turns u (log s) = 0.
Proof.
  revert s. apply (reach_ind pf t0 t1 (fun s => u ∉ used s -> turns u (log s) = 0)). { change (log (init t0 t1)) with [OTick 0 t1]. done. }
  intros lb s s' Hr IH Hs Hn. assert (u ∉ used s) as Hn0 by (intros Hx; apply Hn; by apply (used_step _ _ _ _ Hs)). specialize (IH Hn0).
  destruct (tn_step _ _ _ _ u Hs) as [?|(_ & l & ids & t & <- & H1 & _)]; [congruence|]. destruct Hn0.
  assert (t ∈ Spec.held s) as Hin by (unfold Spec.held; rewrite !elem_of_app; right; right; left; destruct H1 as [[r ->]| ->]; apply elem_of_list_here).
  destruct (ci_held s (cnt_reach _ _ _ _ Hr) t Hin) as (x & H2 & <- & _). exact (ci_used _ (cnt_reach _ _ _ _ Hr) _ H2).
Qed.
Lemma bal_new pf t0 t1 (L : Prop) lb s s' t : reachable pf t0 t1 s -> step pf lb s = Some s' -> submitted t (log s') -> advanced_only t (log s') -> submitted t (log s) \/ bal L 0 (t_id t) (t_uid t) s'.
Proof.
  intros Hr Hs Hsub Hq. destruct (submitted_step _ _ _ _ _ Hs Hsub) as [Hsub0|[(Hlb & _ & Hnew) _]]; [by left|right].
  assert (np (t_uid t) s' = 0 /\ turns (t_uid t) (log s') = 0) as [E1 E2].
  { pose proof (f_new _ _ (finv_reach _ _ _ _ Hr) _ Hnew) as H1. pose proof (no_turns _ _ _ _ _ Hr Hnew) as H2. unfold np.
    assert (log s' = OSend (match lb with LAdd _ => EAdd t | LInsert _ => EInsert t | _ => EUpdate t end) :: log s) as ->; [|cbn [planned turns]; by rewrite H1, H2].
    destruct Hlb as [->|[->| ->]]; cbn [step] in Hs; unfold submit_insert, submit in Hs; (destruct (fresh_task t && _); [|discriminate Hs]); injection Hs as <-; done. }
  destruct Hsub as (e & He & Hsub). destruct (sent_step _ _ _ _ _ Hs He) as [Hold|Hin].
  - destruct Hnew. apply (ci_used _ (cnt_reach _ _ _ _ Hr)). by exists e.
  - apply (bal_queue _ _ _ _ _ t); [by split_and!| |by rewrite E1, E2]. destruct Hsub as [->|[->| ->]]; auto. destruct (Hq _ He eq_refl) as [E|[E|E]]; discriminate E.
Qed.
Lemma bal_reach pf t0 t1 s t : reachable pf t0 t1 s -> submitted t (log s) -> advanced_only t (log s) -> bal True 0 (t_id t) (t_uid t) s.
Proof.
  revert s. apply (reach_ind pf t0 t1 (fun s => submitted t (log s) -> advanced_only t (log s) -> bal True 0 (t_id t) (t_uid t) s)).
  { change (log (init t0 t1)) with [OTick 0 t1]. intros (e & He & _) _. apply elem_of_list_singleton in He. discriminate He. }
  intros lb s s' Hr IH Hs Hsub Hq. pose proof (advanced_anti _ _ _ _ _ Hs Hq) as Hq0.
  destruct (bal_new _ _ _ True _ _ _ _ Hr Hs Hsub Hq) as [Hsub0|?]; [|done]. eapply bal_step; eauto.
Qed.

(** A task that was discarded has been started as often as it was to be. *)
Lemma held_uid s x : x ∈ Spec.held s -> ~ nowhere (t_uid x) s.
Proof. intros H [_ Hn]. apply Hn. apply elem_of_list_fmap. by exists x. Qed.
Lemma bal_ended L e i j u s : bal L e i u s -> ended j u s -> nowhere u s -> tpc s <> TDead -> hpc s <> HDead -> (forall k, ODrop u k NoMark ∉ log s) -> e + np u s = turns u (log s).
Proof.
  intros Hb Hx Hno Ht Hh Hum. assert (forall x, x ∈ Spec.held s -> t_uid x = u -> False) as Hf. { intros x Hin E. apply (held_uid s x Hin). by rewrite E. }
  destruct Hb as [x [_ E] Hy ?|x c h k [_ E] Hy ?|x c sl [_ E] Hy ?|d Hy ?|k Hy ?|x [_ E] Hy ?|? Hy Hne ?|? ? ?|[Hy|[?|?]]]; try done.
  - destruct (Hf x); [|done]. unfold Spec.held. rewrite !elem_of_app. right. left. rewrite Hy. left.
  - destruct (due_with _ _ _ _ Hy) as (x & Hw & [_ E]). destruct (Hf x); [|done]. unfold Spec.held. rewrite !elem_of_app. right. right. exact Hw.
  - destruct (Hf x); [|done]. unfold Spec.held. rewrite !elem_of_app. right. left. destruct Hy as [->|[sl ->]]; left.
  - by destruct (Hne j).
  - by destruct (Hum i).
Qed.
(** It is over because its countdown is used up or because its schedule has no further date. *)
Lemma ended_dates pf t0 t1 s t i : reachable pf t0 t1 s -> submitted t (log s) -> count (t_freq t) <> Some 0 -> ended i (t_uid t) s ->
  exists j, follows pf (iter_of (t_freq t)) (planned (t_uid t) (log s)) j /\ (count (t_freq t) = Some (starts (t_uid t) (log s)) \/ exists j', iter_next pf j = Ret (None, j')).
Proof.
  intros Hr Hsub H0 Hx. destruct (f_sub _ _ (finv_reach _ _ _ _ Hr) t Hsub) as (j & Hfo & _). exists j. split; [done|].
  pose proof (gone_at_reach _ _ _ _ _ Hr Hsub) as Hg. destruct Hx as [Hx|Hx].
  - left. apply elem_of_list_split in Hx as (l1 & l2 & E). rewrite E in Hg. apply (each_split _ l1) in Hg. destruct (Hg eq_refl) as (n & Hn1 & Hn2). rewrite Hn1. f_equal.
    assert (1 <= n) as H1 by (destruct (decide (n = 0)) as [->|?]; [done|lia]). pose proof (C04_at_most_n_starts _ _ _ _ _ _ Hr Hsub Hn1 H1) as Hle. rewrite E, starts_app in *. cbn [starts] in *. rewrite (Hn2 H1) in *. lia.
  - right. apply elem_of_list_split in Hx as (l1 & l2 & E). pose proof Hg as Hg'. rewrite E in Hg'. apply (each_split _ l1) in Hg'. destruct (Hg' eq_refl) as (i1 & i2 & Hf & Hn).
    assert (exists l, planned (t_uid t) (log s) = l ++ planned (t_uid t) l2) as [l El].
    { rewrite E. clear. induction l1 as [|o l1 [l IH]]; [exists []; done|]. destruct o; cbn [app planned]; try (by exists l). all: rewrite IH; destruct (_ =? _); [|by exists l]; eexists (_ :: l); reflexivity. }
    destruct (follows_chain _ _ _ _ _ _ Hf Hfo) as (l' & El' & Hl'). { rewrite El, app_length. lia. }
    destruct l' as [|x l' _] using rev_ind; [inversion Hl'; subst; eauto|]. apply follows_last in Hl' as (z & k & Hz). congruence.
Qed.
Lemma every_date pf t0 t1 s t i : reachable pf t0 t1 s -> submitted t (log s) -> advanced_only t (log s) -> count (t_freq t) <> Some 0 -> tpc s <> TDead -> hpc s <> HDead ->
  ended i (t_uid t) s -> (forall j, ODrop (t_uid t) j NoMark ∉ log s) ->
  exists l j, follows pf (iter_of (t_freq t)) l j /\ turns (t_uid t) (log s) = N.of_nat (length l) /\ (count (t_freq t) = Some (starts (t_uid t) (log s)) \/ exists j', iter_next pf j = Ret (None, j')).
Proof.
  intros Hr Hsub Hq H0 Ht Hh Hx Hum. destruct (ended_dates _ _ _ _ _ _ Hr Hsub H0 Hx) as (j & Hf & Hc). exists (planned (t_uid t) (log s)), j. split; [done|]. split; [|done].
  rewrite <- (bal_ended _ _ _ _ _ _ (bal_reach _ _ _ _ _ Hr Hsub Hq) Hx (ended_nowhere _ _ _ _ _ _ Hr Hx) Ht Hh Hum). done.
Qed.
(** With or without parallel limit: on every date there was a start, or a start left out; and either the countdown is used up or there is no further date. *)
Theorem C66_every_date pf t0 t1 s t i : reachable pf t0 t1 s -> submitted t (log s) -> quiet t (log s) -> count (t_freq t) <> Some 0 -> tpc s <> TDead -> hpc s <> HDead ->
  ended i (t_uid t) s -> (forall j, ODrop (t_uid t) j NoMark ∉ log s) ->
  exists l j, follows pf (iter_of (t_freq t)) l j /\ turns (t_uid t) (log s) = N.of_nat (length l) /\ (count (t_freq t) = Some (starts (t_uid t) (log s)) \/ exists j', iter_next pf j = Ret (None, j')).
Proof. intros Hr Hsub Hq. apply (every_date pf t0 t1); [done|done|by apply quiet_advanced]. Qed.
Print Assumptions C66_every_date.
Theorem C66_over_exactly pf t0 t1 s t i : reachable pf t0 t1 s -> t_maxpar t = None -> submitted t (log s) -> quiet t (log s) -> count (t_freq t) <> Some 0 -> tpc s <> TDead -> hpc s <> HDead ->
  ended i (t_uid t) s -> exists l, demands pf t l /\ starts (t_uid t) (log s) = N.of_nat (length l).
Proof.
  intros Hr Hmp Hsub Hq H0 Ht Hh Hx. destruct (unlimited _ _ _ _ _ Hr Hsub Hmp) as [E Hum]. destruct (C66_every_date _ _ _ _ _ _ Hr Hsub Hq H0 Ht Hh Hx Hum) as (l & j & Hf & Hl & Hc).
  rewrite E in Hl. exists l. split; [|done]. exists j. split; [done|]. rewrite <- Hl. split; [|done].
  intros n Hn. eapply C04_at_most_n_starts; [done..|]. destruct (decide (n = 0)) as [->|?]; [done|lia].
Qed.
Print Assumptions C66_over_exactly.

(* ------------------------------------------------------------------ *)
(** ** C66 A task is started as often as its schedule and its countdown say *)
Lemma nowhere_later pf t0 t1 σ lb u n m : exec pf t0 t1 σ lb -> nowhere u (σ n) -> (n <= m)%nat -> nowhere u (σ m) /\ starts u (log (σ m)) = starts u (log (σ n)).
Proof.
  intros He Hn Hm. induction Hm as [|m Hm [IH1 IH2]]; [done|]. destruct (nowhere_step _ _ _ _ _ IH1 (ex_step _ _ _ _ _ He m)) as [? ?]. split; [done|congruence].
Qed.
(** A task without parallel limit that is left alone is started any number of times; or it is started exactly as often as its schedule and countdown say, and is then gone; unless the timer
    is stopped or one of its threads dies. *)
Theorem C66_exactly pf t0 t1 σ lb t n : exec pf t0 t1 σ lb -> weakly_fair pf by_handler σ lb -> strongly_fair pf by_scheduler σ lb ->
  t_maxpar t = None -> count (t_freq t) <> Some 0 -> (forall k, quiet t (log (σ k))) -> submitted t (log (σ n)) ->
  forall a, exists m, (n <= m)%nat /\ (a <= starts (t_uid t) (log (σ m)) \/
    (exists l, demands pf t l /\ forall k, (m <= k)%nat -> starts (t_uid t) (log (σ k)) = N.of_nat (length l) /\ forall x, x ∈ Spec.held (σ k) -> t_uid x <> t_uid t) \/
    tpc (σ m) = TStopped \/ tpc (σ m) = TDead \/ hpc (σ m) = HDead).
Proof.
  intros He Hh Hs Hmp H0 Hq Hsub a.
  assert (forall m, (n <= m)%nat -> ended (t_id t) (t_uid t) (σ m) -> (exists l, demands pf t l /\ forall k, (m <= k)%nat -> starts (t_uid t) (log (σ k)) = N.of_nat (length l) /\ forall x, x ∈ Spec.held (σ k) -> t_uid x <> t_uid t) \/
    tpc (σ m) = TDead \/ hpc (σ m) = HDead) as Hover.
  { intros m Hm Hx. pose proof (exec_reach _ _ _ _ _ m He) as Hr. destruct (dead_dec (hpc (σ m))) as [?|Hhd]; [auto|].
    assert (tpc (σ m) = TDead \/ tpc (σ m) <> TDead) as [?|Htd] by (destruct (tpc (σ m)); first [by left|right; discriminate]); [auto|]. left.
    destruct (C66_over_exactly _ _ _ _ _ _ Hr Hmp (submitted_later _ _ _ _ _ _ _ _ He Hm Hsub) (Hq m) H0 Htd Hhd Hx) as (l & Hl & El). exists l. split; [done|]. intros k Hk.
    destruct (nowhere_later _ _ _ _ _ _ _ _ He (ended_nowhere _ _ _ _ _ _ Hr Hx) Hk) as [Hno E]. split; [congruence|]. intros x Hin Eu. apply (held_uid _ x Hin). by rewrite Eu. }
  destruct (left_alone _ _ _ _ _ t n He Hh Hs Hq Hsub a) as (m & Hm & Hx). exists m. split; [done|].
  destruct (unlimited _ _ _ _ _ (exec_reach _ _ _ _ _ m He) (submitted_later _ _ _ _ _ _ _ _ He Hm Hsub) Hmp) as [E Hu]. rewrite E in Hx.
  destruct Hx as [?|[Hx|[Hx|?]]]; [auto|destruct (Hover m Hm Hx) as [?|[?|?]]; auto|by destruct (Hu _ Hx)|auto].
Qed.
Print Assumptions C66_exactly.
(** With a countdown, and without stop and dying threads: exactly so often. *)
Theorem C66_calm_countdown t0 t1 σ lb t c n : calm_exec t0 t1 σ lb -> weakly_fair Release by_handler σ lb -> strongly_fair Release by_scheduler σ lb ->
  t_maxpar t = None -> count (t_freq t) = Some c -> 1 <= c -> (forall k, quiet t (log (σ k))) -> submitted t (log (σ n)) ->
  exists m l, (n <= m)%nat /\ demands Release t l /\ forall k, (m <= k)%nat -> starts (t_uid t) (log (σ k)) = N.of_nat (length l) /\ forall x, x ∈ Spec.held (σ k) -> t_uid x <> t_uid t.
Proof.
  intros Hc Hh Hs Hmp Hn H1 Hq Hsub. pose proof (calm_is_exec _ _ _ _ Hc) as He.
  destruct (C66_exactly _ _ _ _ _ t n He Hh Hs Hmp) with (a := c + 1) as (m & Hm & Hx); [rewrite Hn; intros E; injection E as ->; lia|done..|].
  destruct (calm_going _ _ _ (calm_reach _ _ _ _ m Hc)) as (? & ? & ?). destruct Hx as [Hx|[(l & Hx)|[?|[?|?]]]]; try done.
  - pose proof (C04_at_most_n_starts _ _ _ _ _ c (exec_reach _ _ _ _ _ m He) (submitted_later _ _ _ _ _ _ _ _ He Hm Hsub) Hn H1). lia.
  - by exists m, l.
Qed.
Print Assumptions C66_calm_countdown.
(** In particular an interval task with a countdown of [c] is started exactly [c] times. *)
Lemma interval_demands pf t c st l : t_freq t = SecondsCountDown c st -> demands pf t l -> N.of_nat (length l) = c.
Proof.
  intros Hf (i & H1 & _ & [H2|[i' H2]]); rewrite Hf in *; [by injection H2|]. exfalso. apply next_none_cron in H2 as [x ->]. apply follows_kind in H1 as [_ H1]. by destruct H1 as [? ?]; [eauto|].
Qed.
Theorem C66_calm_interval t0 t1 σ lb t c st n : calm_exec t0 t1 σ lb -> weakly_fair Release by_handler σ lb -> strongly_fair Release by_scheduler σ lb ->
  t_maxpar t = None -> t_freq t = SecondsCountDown c st -> 1 <= c -> (forall k, quiet t (log (σ k))) -> submitted t (log (σ n)) ->
  exists m, (n <= m)%nat /\ forall k, (m <= k)%nat -> starts (t_uid t) (log (σ k)) = c /\ forall x, x ∈ Spec.held (σ k) -> t_uid x <> t_uid t.
Proof.
  intros Hc Hh Hs Hmp Hf H1 Hq Hsub. destruct (C66_calm_countdown _ _ _ _ t c n Hc Hh Hs Hmp ltac:(by rewrite Hf) H1 Hq Hsub) as (m & l & Hm & Hl & Hx).
  exists m. split; [done|]. by rewrite <- (interval_demands _ _ _ _ _ Hf Hl).
Qed.
Print Assumptions C66_calm_interval.
Lemma delivered_ext c l lg : exists x, delivered c (l ++ lg) = delivered c lg ++ x.
Proof. induction l as [|o l [x IH]]; [exists []; by rewrite app_nil_r|]. destruct o; cbn [app delivered]; eauto. case_match; eauto. rewrite IH, <- app_assoc. eauto. Qed.
(** And a user who keeps asking is handed exactly [c] instances. *)
Theorem C66_calm_gets_them t0 t1 σ lb t c st n : calm_exec t0 t1 σ lb -> weakly_fair Release by_handler σ lb -> strongly_fair Release by_scheduler σ lb -> weakly_fair Release (fun l => l = LNextRecv (t_uid t)) σ lb ->
  t_maxpar t = None -> t_freq t = SecondsCountDown c st -> 1 <= c -> OSend (EInsert t) ∈ log (σ n) -> (forall k, quiet t (log (σ k))) -> infinitely_often (fun k => waiting (t_uid t) (σ k)) ->
  exists m, (n <= m)%nat /\ forall k, (m <= k)%nat -> delivered (t_uid t) (log (σ k)) = started (t_id t) (log (σ m)) /\ N.of_nat (length (delivered (t_uid t) (log (σ k)))) = c.
Proof.
  intros Hc Hh Hs Hw Hmp Hf H1 Hi Hq Hask. pose proof (calm_is_exec _ _ _ _ Hc) as He.
  assert (submitted t (log (σ n))) as Hsub. { exists (EInsert t). split; [exact Hi|unfold submits; auto]. }
  destruct (C66_calm_interval _ _ _ _ _ _ _ n Hc Hh Hs Hmp Hf H1 Hq Hsub) as (m & Hm & Hx).
  assert (forall k, (n <= k)%nat -> OSend (EInsert t) ∈ log (σ k)) as Hik. { intros k Hk. destruct (exec_log _ _ _ _ _ n k He Hk) as [l ->]. apply elem_of_app. by right. }
  destruct (C64_calm_gets_every_instance _ _ _ _ m t Hc Hh Hs Hw (Hik m Hm) (fun k => quiet_kept _ _ (Hq k)) Hask) as (m' & Hm' & Hpre).
  assert (forall k, (m <= k)%nat -> N.of_nat (length (started (t_id t) (log (σ k)))) = c) as Hlen.
  { intros k Hk. pose proof (exec_reach _ _ _ _ _ k He) as Hr. destruct (Hx k Hk) as [E _]. apply N.le_antisymm.
    - rewrite <- E. apply started_starts. exact (quiet_launches _ _ _ _ _ Hr (Hq k)).
    - rewrite <- E. apply starts_started. intros j r it ts Hl. destruct (launch_sub _ _ _ _ _ _ _ _ _ Hr Hl) as (t' & Ht' & Eu & <-). f_equal.
      eapply (ci_uniq _ (cnt_reach _ _ _ _ Hr)); [exact Ht'| |exact Eu]. eapply submitted_later; [exact He| |exact Hsub]. lia. }
  exists m'. split; [lia|]. intros k Hk. pose proof (exec_reach _ _ _ _ _ k He) as Hr.
  assert (started (t_id t) (log (σ m')) = started (t_id t) (log (σ m)) /\ started (t_id t) (log (σ k)) = started (t_id t) (log (σ m))) as [E1 E2].
  { assert (forall j, (m <= j)%nat -> started (t_id t) (log (σ j)) = started (t_id t) (log (σ m))) as Hj; [|split; apply Hj; lia]. intros j Hj. destruct (exec_log _ _ _ _ _ m j He Hj) as [l El].
    destruct (started_grows (t_id t) l (log (σ m))) as [x Ex]. rewrite <- El in Ex. pose proof (Hlen j Hj) as H2. rewrite Ex, app_length in H2. pose proof (Hlen m ltac:(lia)) as H3. destruct x; [by rewrite Ex, app_nil_r|cbn [length] in H2; lia]. }
  assert (delivered (t_uid t) (log (σ k)) = started (t_id t) (log (σ m))) as Ed.
  { destruct Hpre as [x Ex]. destruct (exec_log _ _ _ _ _ m' k He Hk) as [l El]. pose proof (C31_in_order _ _ _ _ _ Hr (Hik k ltac:(lia))) as Hsl. rewrite E2 in Hsl.
    destruct (delivered_ext (t_uid t) l (log (σ m'))) as [y Ey]. rewrite <- El in Ey. rewrite Ex, <- app_assoc in Ey. apply sublist_length in Hsl. rewrite Ey, app_length in Hsl.
    destruct (x ++ y); [by rewrite Ey, app_nil_r|cbn [length] in Hsl; lia]. }
  rewrite E1. split; [done|]. rewrite Ed. apply Hlen. lia.
Qed.
Print Assumptions C66_calm_gets_them.

(** ** Examples *)
(** A task to be started three times, every five seconds, seen after its first start; its owner keeps asking. *)
Definition thrice_acts : list act := [Do (LInsert (ntimes 1 11 3 5 100)); Handle; Ticks 8; Do (LNextCheck 1)].
Example C66_example : exists σ lb, calm_exec 100 100 σ lb /\ weakly_fair Release by_handler σ lb /\ strongly_fair Release by_scheduler σ lb /\ weakly_fair Release (fun l => l = LNextRecv 1) σ lb /\
  OSend (EInsert (ntimes 1 11 3 5 100)) ∈ log (σ 0%nat) /\ (forall k, quiet (ntimes 1 11 3 5 100) (log (σ k))) /\ infinitely_often (fun k => waiting 1 (σ k)) /\
  starts 1 (log (σ 0%nat)) = 1 /\ delivered 1 (log (σ 0%nat)) = [].
Proof.
  set (t := ntimes 1 11 3 5 100).
  destruct (calm_scen 100 100 thrice_acts (fun s => quietb t (log s) && insb 1 (log s) && waitb 1 s && inb (OLaunch 1 11 0 6 106) (log s) && (starts 1 (log s) =? 1) && bool_decide (delivered 1 (log s) = [])))
    as (s & Hcr & Hr & HP & Hs); [calm_acts thrice_acts|vm_compute; reflexivity|]. specialize (Hs t ltac:(left)).
  apply andb_true_iff in HP as [HP H6]. apply andb_true_iff in HP as [HP H5]. apply andb_true_iff in HP as [HP H4]. apply andb_true_iff in HP as [HP H3]. apply andb_true_iff in HP as [H1 H2].
  apply (quietb_ok _ _ _ _ _ Hr Hs) in H1. apply (insb_ok _ _ _ _ _ Hr Hs) in H2. apply waitb_ok in H3 as [_ H3]. apply inb_ok in H4. apply N.eqb_eq in H5. apply bool_decide_eq_true in H6.
  destruct (C64_asking_users_exist 100 100 (fun n => 113 + N.of_nat n) s t 1 0 6 106 Hcr Hr H2 H1 H3 H4) as (σ & lb & E & G1 & G2 & G3 & G4 & G5 & G6 & _).
  exists σ, lb. rewrite E. split_and!; done.
Qed.
(** Its dates; and those of a cron schedule that yields two dates and then none. *)
Ltac dates_tac := first [apply follows_nil|eapply follows_next; [dates_tac|vm_compute; reflexivity]].
Example C66_demands_example : demands Release (ntimes 1 11 3 5 100) [115; 110; 105].
Proof.
  change [115; 110; 105] with [as_u64 115; as_u64 110; as_u64 105]. eexists. split; [dates_tac|]. split; [|by left]. intros n E. injection E as <-. by cbn.
Qed.
Definition two_dates : cron_iter := CronIter (fun z => if (z <? 150)%Z then Some 150%Z else if (z <? 180)%Z then Some 180%Z else None) 100 false.
Example C66_demands_cron t : t_freq t = CronExpressionRepeated two_dates -> demands Release t [180; 150].
Proof.
  intros E. unfold demands. rewrite E. change [180; 150] with [as_u64 180; as_u64 150]. eexists. split; [dates_tac|]. split; [discriminate|]. right. eexists. vm_compute. reflexivity.
Qed.
(** The state after the last of the three starts. *)
Definition thrice_over : list act := [Do (LInsert (ntimes 1 11 3 5 100)); Handle; Ticks 18].
Example C66_over_example : exists s, reachable Release 100 100 s /\ submitted (ntimes 1 11 3 5 100) (log s) /\ quiet (ntimes 1 11 3 5 100) (log s) /\ tpc s <> TDead /\ hpc s <> HDead /\
  ended 11 1 s /\ starts 1 (log s) = 3.
Proof.
  set (t := ntimes 1 11 3 5 100).
  destruct (calm_scen 100 100 thrice_over (fun s => quietb t (log s) && insb 1 (log s) && inb (OEnd 1 11) (log s) && (starts 1 (log s) =? 3))) as (s & Hcr & Hr & HP & Hs); [calm_acts thrice_over|vm_compute; reflexivity|].
  specialize (Hs t ltac:(left)). apply andb_true_iff in HP as [HP H4]. apply andb_true_iff in HP as [HP H3]. apply andb_true_iff in HP as [H1 H2].
  apply (quietb_ok _ _ _ _ _ Hr Hs) in H1. apply inb_ok in H3. apply N.eqb_eq in H4. destruct (calm_going _ _ _ Hcr) as (? & ? & ?). exists s. split_and!; try done. by left.
Qed.
(** A task with limit 1 and three starts: its second date is left out because the first instance still runs, it is over after four dates. *)
Definition thrice_limited : list act := [Do (LInsert (limited 1 (ntimes 1 11 3 5 100))); Handle; Ticks 13; Do (LFinish 0 112 None); Handle; Ticks 5; Do (LFinish 1 117 None); Handle; Ticks 6].
Example C66_limited_example : exists s, reachable Release 100 100 s /\ submitted (limited 1 (ntimes 1 11 3 5 100)) (log s) /\ quiet (limited 1 (ntimes 1 11 3 5 100)) (log s) /\ tpc s <> TDead /\ hpc s <> HDead /\
  ended 11 1 s /\ (forall j, ODrop 1 j NoMark ∉ log s) /\ starts 1 (log s) = 3 /\ turns 1 (log s) = 4.
Proof.
  set (t := limited 1 (ntimes 1 11 3 5 100)).
  destruct (calm_scen 100 100 thrice_limited (fun s => quietb t (log s) && forallb (fun o => match o with ODrop _ _ NoMark => false | _ => true end) (log s) && inb (OEnd 1 11) (log s) && (starts 1 (log s) =? 3) && (turns 1 (log s) =? 4)))
    as (s & Hcr & Hr & HP & Hs); [calm_acts thrice_limited|vm_compute; reflexivity|].
  specialize (Hs t ltac:(left)). apply andb_true_iff in HP as [HP H5]. apply andb_true_iff in HP as [HP H4]. apply andb_true_iff in HP as [HP H3]. apply andb_true_iff in HP as [H1 H2].
  apply (quietb_ok _ _ _ _ _ Hr Hs) in H1. apply inb_ok in H3. apply N.eqb_eq in H4. apply N.eqb_eq in H5. destruct (calm_going _ _ _ Hcr) as (? & ? & ?). exists s. split_and!; try done; [by left|].
  intros j Hj. rewrite forallb_forall in H2. apply elem_of_list_In in Hj. by specialize (H2 _ Hj).
Qed.
