(** The chain of instances: C31. *)
From Verif Require Import Tactics Inv Own Life Count Quiet Scen Cases Inst Ended Fifo Chain Kept PropLife.

(* ------------------------------------------------------------------ *)
(** ** C31 The instance chain delivers every instance once, in start order *)

(** Whatever happens, the calls of next* on a chain return instances of the id of the task, in the order they were started ... *)
Theorem C31_in_order pf t0 t1 s t : reachable pf t0 t1 s -> OSend (EInsert t) ∈ log s -> sublist (delivered (t_uid t) (log s)) (started (t_id t) (log s)).
Proof.
  intros Hr Hin. pose proof (chain_reach _ _ _ _ Hr) as Hc. destruct (flow_reach _ _ _ _ (t_id t) Hr) as (l0 & -> & _).
  destruct (chains s !! t_uid t) as [ch|] eqn:E; [|rewrite (ch_none s Hc _ E); apply sublist_nil_l].
  rewrite <- (ch_got s Hc _ _ E). apply sublist_inserts_r. transitivity (c_got ch ++ c_buf ch); [by apply sublist_inserts_r|].
  apply (ch_sub s Hc _ _ _ E). by exists t.
Qed.
Print Assumptions C31_in_order.
(** ... each at most once. *)
Lemma started_launches i lg : started i lg `sublist_of` reverse ((fun '(_, _, r, _, _) => r) <$> launches lg).
Proof.
  induction lg as [|o lg IH]; [apply sublist_nil_l|]. destruct o; cbn [started launches]; try done. rewrite fmap_cons, reverse_cons.
  apply sublist_app; [done|]. case_match; [done|apply sublist_nil_l].
Qed.
Lemma sublist_NoDup {A} (l k : list A) : sublist l k -> NoDup k -> NoDup l.
Proof.
  induction 1 as [|x l k Hs IH|x l k Hs IH]; [done| |]; intros [Hn Hd]%NoDup_cons; [|auto]. apply NoDup_cons. split; [|auto].
  intros Hx. apply Hn. exact (elem_of_submseteq _ _ _ Hx (sublist_submseteq _ _ Hs)).
Qed.
Theorem C31_at_most_once pf t0 t1 s t : reachable pf t0 t1 s -> OSend (EInsert t) ∈ log s -> NoDup (delivered (t_uid t) (log s)).
Proof.
  intros Hr Hin. eapply sublist_NoDup; [exact (C31_in_order _ _ _ _ _ Hr Hin)|]. eapply sublist_NoDup; [apply started_launches|].
  rewrite reverse_Permutation. exact (ri_uniq s (rec_reach _ _ _ _ Hr)).
Qed.
Print Assumptions C31_at_most_once.

(** When the id is added by this one insertion and not removed, none is left out, also if the task is updated or advanced: what was delivered is an initial segment of what was started ... *)
Theorem C31_none_missed pf t0 t1 s t ch : reachable pf t0 t1 s -> OSend (EInsert t) ∈ log s -> kept t (log s) -> chains s !! t_uid t = Some ch -> c_state ch = LIVING ->
  delivered (t_uid t) (log s) `prefix_of` started (t_id t) (log s).
Proof.
  intros Hr Hin Hq Hc Hl. destruct (flow_reach _ _ _ _ (t_id t) Hr) as (l0 & -> & _). rewrite <- (chain_exact _ _ _ _ _ _ Hr Hin Hq Hc Hl), (ch_got s (chain_reach _ _ _ _ Hr) _ _ Hc).
  rewrite <- app_assoc. by apply prefix_app_r.
Qed.
Print Assumptions C31_none_missed.
(** ... and once the event handler has taken over the start of an instance, a call of next returns the first one not yet delivered. *)
Theorem C31_next pf t0 t1 s t ch r rest lb : reachable pf t0 t1 s -> OSend (EInsert t) ∈ log s -> kept t (log s) -> chains s !! t_uid t = Some ch -> c_state ch = LIVING -> c_pend ch <> O ->
  started (t_id t) (log s) = delivered (t_uid t) (log s) ++ r :: rest -> (forall hb, EAppend (t_id t) hb ∉ queue s) -> tpc s <> TDead -> (forall l ids x r e, tpc s <> TSend l ids x r e) ->
  lb = LNextTry (t_uid t) \/ lb = LNextRecv (t_uid t) ->
  exists s', step pf lb s = Some s' /\ log s' = ONext (t_uid t) (NGot r) :: log s.
Proof.
  intros Hr Hin Hq Hc Hl Hp E Hnq Hd Hns Hlb. destruct (flow_reach _ _ _ _ (t_id t) Hr) as (l0 & Ef & Hl0). rewrite (Hl0 Hd), app_nil_r in Ef.
  assert (queue s ≫= app_of (t_id t) = []) as Eq.
  { destruct (queue s ≫= app_of (t_id t)) as [|x l] eqn:El; [done|]. assert (x ∈ queue s ≫= app_of (t_id t)) as Hx by (rewrite El; left).
    apply elem_of_list_bind in Hx as (e & Hx & He). destruct e; try by apply elem_of_nil in Hx. cbn [app_of] in Hx. destruct (_ =? _) eqn:Ei; [|by apply elem_of_nil in Hx]. apply N.eqb_eq in Ei. subst tid. by destruct (Hnq hb). }
  assert (sending (t_id t) (tpc s) = []) as Es by (destruct (tpc s); try done; by destruct (Hns l ids t2 rec e)).
  rewrite Eq, Es, !app_nil_r in Ef. rewrite <- (chain_exact _ _ _ _ _ _ Hr Hin Hq Hc Hl), E, (ch_got s (chain_reach _ _ _ _ Hr) _ _ Hc) in Ef. apply app_inv_head in Ef.
  destruct (c_pend ch) as [|p] eqn:Ep; [done|].
  destruct Hlb as [-> | ->]; cbn [step]; unfold next_take; rewrite Hc, Ep, <- Ef; eexists; split; reflexivity.
Qed.
Print Assumptions C31_next.

(** After the task was removed, next* answers Expired. *)
Definition removed (t : task) (lg : list obs) : Prop := exists l1 l2, lg = l1 ++ OPop (ERemove (t_id t)) :: l2 /\ OPop (EInsert t) ∈ l2.
Fixpoint rem_after (t : task) (lg : list obs) : Prop :=
  match lg with
  | [] => False
  | OPop (ERemove i) :: l => (i = t_id t /\ OPop (EInsert t) ∈ l) \/ rem_after t l
  | _ :: l => rem_after t l
  end.
Lemma rem_cons t o l : rem_after t l -> rem_after t (o :: l).
Proof. intros H. destruct o; try exact H. destruct e; try exact H. by right. Qed.
Lemma rem_iff t lg : removed t lg -> rem_after t lg.
Proof. intros (l1 & l2 & -> & H). induction l1 as [|o l1 IH]; [by left|]. by apply rem_cons. Qed.
Lemma rem_inst t lg l : Forall inst_obs lg -> rem_after t (lg ++ l) -> rem_after t l.
Proof. induction 1 as [|o lg Ho _ IH]; [done|]. by destruct o. Qed.
Definition removing (i : N) (p : handler_pc) : Prop := (exists sl, p = HRem1 i sl) \/ exists ok, p = HRem2 i ok.
Lemma rem_step pf lb s s' t : step pf lb s = Some s' -> rem_after t (log s') -> rem_after t (log s) \/ (removing (t_id t) (hpc s') /\ OPop (EInsert t) ∈ log s').
Proof.
  unfold removing. intros Hs. step_inv Hs; inst_shape; fsimpl; cbn [rem_after]; try (by left).
  all: try (intros HR; left; apply rem_inst in HR; [exact HR|done]).
  all: try (rewrite ?complete_log; fsimpl; destruct (hpub s); try destruct ok; by left).
  all: try (intros [[-> H0]|H0]; [right; split; [eauto|by right]|by left]).
Qed.
Lemma gone_step pf t0 t1 lb s s' c i : reachable pf t0 t1 s -> ins c i (log s) -> step pf lb s = Some s' -> gone c s -> gone c s'.
Proof.
  intros Hr (t & Ht & Hu & _) Hs. unfold gone, chain_state. 
  destruct (chain_kinds _ _ _ _ c Hs) as [K1 K2 _|x y K1 K2 _ _ K3 _ _|x y j hb q m l K1 K2 _ _ _ _ _ _ K3 _ _ _|x y r K1 K2 _ K3 _ _ _|t' -> K1 K2 K3 _]; rewrite ?K1, ?K2; cbn; try congruence.
  - destruct K3 as [->|[->| ->]]; first [done|discriminate].
  - destruct K2. rewrite <- Hu. apply (ci_used s (cnt_reach _ _ _ _ Hr)). eexists. split; [exact Ht|right; by left].
Qed.
Lemma sends_uniq pf t0 t1 s t : reachable pf t0 t1 s -> exists l, sends (log s) = l /\ forall l1 l2, l = l1 ++ EInsert t :: l2 -> EInsert t ∉ l2.
Proof.
  intros Hr. exists (sends (log s)). split; [done|]. revert s Hr. apply (reach_ind pf t0 t1 (fun s => forall l1 l2, sends (log s) = l1 ++ EInsert t :: l2 -> EInsert t ∉ l2)).
  - change (log (init t0 t1)) with [OTick 0 t1]. intros l1 l2 H. by destruct l1.
  - intros lb s s' Hr IH Hs l1 l2 E. assert (sends (log s') = sends (log s) \/ exists e, sends (log s') = e :: sends (log s) /\ forall x, e = EInsert x -> t_uid x ∉ used s) as [H|(e & H & Hf)].
    { clear E IH. step_inv Hs; inst_shape; fsimpl; rewrite ?sends_app; rewrite ?sends_inst by done; cbn [app sends]; try (by left).
      all: try (left; rewrite ?complete_log; fsimpl; destruct (hpub s); try destruct ok; done).
      all: try (right; eexists; split; [reflexivity|]; intros x Ex; try discriminate Ex; injection Ex as <-).
      all: try (rewrite (sends_inst lg) by done; by left). 
      match goal with H : _ && negb (bool_decide _) = true |- _ => apply andb_true_iff in H as [_ Hu] end. by destruct (bool_decide_reflect (t_uid t2 ∈ used s)). }
    + rewrite H in E. by eapply IH.
    + rewrite H in E. destruct l1 as [|x l1]; [|injection E as -> E; by eapply IH]. injection E as -> <-. intros Hin. apply elem_sends in Hin.
      destruct (Hf t eq_refl). apply (ci_used s (cnt_reach _ _ _ _ Hr)). eexists. split; [exact Hin|right; by left].
Qed.
Lemma popped_once pf t0 t1 s t : reachable pf t0 t1 s -> OPop (EInsert t) ∈ log s -> EInsert t ∉ queue s.
Proof.
  intros Hr Hp Hq. destruct (sends_uniq _ _ _ _ t Hr) as (l & El & Hl). rewrite (fifo_reach _ _ _ _ Hr) in El. subst l.
  apply elem_of_reverse, elem_of_list_split in Hq as (l1 & l2 & E). apply (Hl l1 (l2 ++ pops (log s))); [rewrite E; by rewrite <- app_assoc|]. apply elem_of_app. right. by apply elem_pops.
Qed.
Lemma pop_mono pf lb s s' e : step pf lb s = Some s' -> OPop e ∈ log s -> OPop e ∈ log s'.
Proof. intros Hs H. destruct (step_log _ _ _ _ Hs) as [l ->]. apply elem_of_app. by right. Qed.
Lemma popped_ins pf t0 t1 s t : reachable pf t0 t1 s -> OPop (EInsert t) ∈ log s -> ins (t_uid t) (t_id t) (log s).
Proof. intros Hr Hp. exists t. split; [|done]. apply elem_sends. rewrite (fifo_reach _ _ _ _ Hr). apply elem_of_app. right. by apply elem_pops. Qed.
Lemma removing_step pf t0 t1 lb s s' t : reachable pf t0 t1 s -> step pf lb s = Some s' -> OPop (EInsert t) ∈ log s -> removing (t_id t) (hpc s) -> removing (t_id t) (hpc s') \/ gone (t_uid t) s'.
Proof.
  intros Hr Hs Hp Hm. pose proof (reach_step _ _ _ _ _ _ Hr Hs) as Hr'.
  assert (removing (t_id t) (hpc s') \/ (hpc s' = HIdle /\ flags s' !! t_id t = None)) as [H|[H1 H2]]; [|by left|right].
  { clear Hr Hr' Hp. revert Hm. unfold removing. step_inv Hs; inst_shape; fsimpl; intros [[slz Hm]|[okz Hm]]; try discriminate Hm; eauto.
    1, 2: injection Hm as -> ->; left; right; eauto.
    injection Hm as -> ->. right. split; [done|]. apply lookup_delete. }
  unfold gone, chain_state. destruct (chains s' !! t_uid t) as [ch|] eqn:E; [|done]. cbn. intros Hl. injection Hl as Hl.
  destruct (ch_live s' (chain_reach _ _ _ _ Hr') _ _ (t_id t) E Hl) as [(t' & L1 & L2)|[L|[L|L]]].
  - exact (popped_ins _ _ _ _ _ Hr' (pop_mono _ _ _ _ _ Hs Hp)).
  - assert (t' = t) as ->. { apply (ci_uniq s' (cnt_reach _ _ _ _ Hr')); [| |done].
      - eexists. split; [exact (proj1 (src_reach _ _ _ _ Hr') _ L1)|right; by left].
      - destruct (popped_ins _ _ _ _ _ Hr Hp) as (t2 & G1 & G2 & G3). eexists. split; [|right; left; reflexivity]. apply elem_sends. rewrite (fifo_reach _ _ _ _ Hr'). apply elem_of_app. right. apply elem_pops. exact (pop_mono _ _ _ _ _ Hs Hp). }
    by apply (popped_once _ _ _ _ _ Hr' (pop_mono _ _ _ _ _ Hs Hp)).
  - rewrite H1 in L. discriminate L.
  - destruct L as (m & l & L & _). congruence.
  - congruence.
Qed.
Lemma removed_gone pf t0 t1 s t : reachable pf t0 t1 s -> rem_after t (log s) -> OPop (EInsert t) ∈ log s /\ (removing (t_id t) (hpc s) \/ gone (t_uid t) s).
Proof.
  revert s. apply (reach_ind pf t0 t1 (fun s => rem_after t (log s) -> OPop (EInsert t) ∈ log s /\ (removing (t_id t) (hpc s) \/ gone (t_uid t) s))).
  - change (log (init t0 t1)) with [OTick 0 t1]. done.
  - intros lb s s' Hr IH Hs H. destruct (rem_step _ _ _ _ _ Hs H) as [H0|[H1 H2]]; [|by split; [|left]].
    destruct (IH H0) as [Hp H1]. split; [by eapply pop_mono|]. destruct H1 as [H1|H1]; [by eapply removing_step|right]. eapply gone_step; [exact Hr| |exact Hs|done]. exact (popped_ins _ _ _ _ _ Hr Hp).
Qed.
Lemma chain_states pf t0 t1 s c ch : reachable pf t0 t1 s -> chains s !! c = Some ch -> c_state ch = LIVING \/ c_state ch = DROPPED \/ c_state ch = ABANDONED.
Proof.
  intros Hr. revert s Hr ch. apply (reach_ind pf t0 t1 (fun s => forall ch, chains s !! c = Some ch -> c_state ch = LIVING \/ c_state ch = DROPPED \/ c_state ch = ABANDONED)).
  - intros ch H. change (chains (init t0 t1)) with (∅ : gmap N chain) in H. rewrite lookup_empty in H. discriminate H.
  - intros lb s s' Hr IH Hs ch H.
    destruct (chain_kinds _ _ _ _ c Hs) as [K1 K2 _|x y K1 K2 _ _ K3 _ _|x y j hb q m l K1 K2 _ _ _ _ _ _ K3 _ _ _|x y r K1 K2 _ K3 _ _ _|t' -> K1 K2 K3 _]; try congruence.
    all: try (assert (ch = y) as -> by congruence; specialize (IH _ K1)). 
    + destruct K3 as [->|[->| ->]]; auto.
    + by rewrite K3.
    + by rewrite K3.
    + assert (ch = Chain LIVING [] [] 0) as -> by congruence. by left.
Qed.
Theorem C31_expired pf t0 t1 s t ch : reachable pf t0 t1 s -> removed t (log s) -> (forall sl, hpc s <> HRem1 (t_id t) sl) -> (forall ok, hpc s <> HRem2 (t_id t) ok) ->
  chains s !! t_uid t = Some ch -> c_state ch <> DROPPED -> step pf (LNextCheck (t_uid t)) s = Some (emit (ONext (t_uid t) NExpired) s).
Proof.
  intros Hr Hm H1 H2 Hc Hd. destruct (removed_gone _ _ _ _ _ Hr (rem_iff _ _ Hm)) as [_ [[[sl H]|[ok H]]|H]]; [by destruct (H1 sl)|by destruct (H2 ok)|].
  unfold gone, chain_state in H. rewrite Hc in H. cbn in H. cbn [step]. unfold next_check. rewrite Hc.
  destruct (chain_states _ _ _ _ _ _ Hr Hc) as [E|[E|E]]; rewrite E in *; [done|done|reflexivity].
Qed.
Print Assumptions C31_expired.

Definition insb (u : N) (lg : list obs) : bool := existsb (fun o => match o with OSend (EInsert t) => t_uid t =? u | _ => false end) lg.
Lemma insb_ok pf t0 t1 s t : reachable pf t0 t1 s -> submitted t (log s) -> insb (t_uid t) (log s) = true -> OSend (EInsert t) ∈ log s.
Proof.
  unfold insb. intros Hr Hs H. apply existsb_exists in H as (o & Ho & E). apply elem_of_list_In in Ho. destruct o; try discriminate E. destruct e; try discriminate E. apply N.eqb_eq in E.
  assert (t2 = t) as ->; [|done]. apply (ci_uniq s (cnt_reach _ _ _ _ Hr)); [|done|done]. eexists. split; [exact Ho|right; by left].
Qed.
Definition popb (u : N) (lg : list obs) : bool := existsb (fun o => match o with OPop (EInsert t) => t_uid t =? u | _ => false end) lg.
Lemma popb_ok pf t0 t1 s t l1 l2 : reachable pf t0 t1 s -> submitted t (log s) -> log s = l1 ++ l2 -> popb (t_uid t) l2 = true -> OPop (EInsert t) ∈ l2.
Proof.
  unfold popb. intros Hr Hs El H. apply existsb_exists in H as (o & Ho & E). apply elem_of_list_In in Ho. destruct o; try discriminate E. destruct e; try discriminate E. apply N.eqb_eq in E.
  assert (t2 = t) as ->; [|done]. destruct (popped_ins _ _ _ _ t2 Hr) as (t3 & G1 & G2 & G3); [rewrite El; apply elem_of_app; by right|].
  apply (ci_uniq s (cnt_reach _ _ _ _ Hr)); [|done|done]. eexists. split; [|right; left; reflexivity]. apply elem_sends. rewrite (fifo_reach _ _ _ _ Hr). apply elem_of_app. right. apply elem_pops. rewrite El. apply elem_of_app. by right.
Qed.

(** Two starts, the first taken by the user, the second after an update and an advance; it can be taken now. *)
Definition near_next (s : sys) : bool := bool_decide (started 11 (log s) = [0%Z; 1%Z]) && bool_decide (delivered 1 (log s) = [0%Z]) && match queue s with [] => true | _ => false end && match tpc s with TCheck _ => true | _ => false end &&
  match chains s !! 1 with Some ch => (c_state ch =? LIVING) && Nat.eqb (c_pend ch) 1 | None => false end.
Lemma near_next_ok s : near_next s = true -> started 11 (log s) = [0%Z; 1%Z] /\ delivered 1 (log s) = [0%Z] /\ queue s = [] /\ (exists l, tpc s = TCheck l) /\ exists ch, chains s !! 1 = Some ch /\ c_state ch = LIVING /\ c_pend ch = 1%nat.
Proof.
  unfold near_next. intros H. apply andb_true_iff in H as [H H5]. apply andb_true_iff in H as [H H4]. apply andb_true_iff in H as [H H3]. apply andb_true_iff in H as [H1 H2].
  apply bool_decide_eq_true in H1, H2. destruct (queue s); [|discriminate H3]. destruct (tpc s); try discriminate H4. destruct (chains s !! 1) as [ch|]; [|discriminate H5].
  apply andb_true_iff in H5 as [E1 E2]. apply N.eqb_eq in E1. apply Nat.eqb_eq in E2. eauto 10.
Qed.
Example C31_next_example : exists s ch, reachable Debug 100 100 s /\ OSend (EInsert (every 1 11 5 100)) ∈ log s /\ kept (every 1 11 5 100) (log s) /\ chains s !! 1 = Some ch /\ c_state ch = LIVING /\ c_pend ch <> O /\
  started 11 (log s) = delivered 1 (log s) ++ 1%Z :: [] /\ (forall hb, EAppend 11 hb ∉ queue s) /\ tpc s <> TDead /\ (forall l ids x r e, tpc s <> TSend l ids x r e).
Proof.
  destruct (scen_kept Debug 100 100 [Do (LInsert (every 1 11 5 100)); Handle; Ticks 7; Handle; Do (LNextCheck 1); Do (LNextTry 1); Do (LFinish 0 106 None); Do (LUpdate (every 2 11 5 107)); Do (LAdvance 11); Handle; Ticks 3; Handle; Do (LNextCheck 1)] (every 1 11 5 100)
    (fun s => near_next s && insb 1 (log s)))
    as (s & Hr & Hs & Hq & HP); [right; left|vm_compute; reflexivity|].
  apply andb_true_iff in HP as [HP Hi]. apply near_next_ok in HP as (H1 & H2 & H3 & (l & H4) & ch & H5 & H6 & H7). apply (insb_ok _ _ _ _ _ Hr Hs) in Hi.
  exists s, ch. split; [exact Hr|]. split; [exact Hi|]. split; [exact Hq|]. split; [exact H5|]. split; [exact H6|]. split; [by rewrite H7|]. split; [by rewrite H1, H2|].
  split; [intros hb; rewrite H3; apply not_elem_of_nil|]. rewrite H4. done.
Qed.

(** The task is removed; the user still has the chain. *)
Example C31_expired_example : exists s ch, reachable Debug 100 100 s /\ removed (every 1 11 5 100) (log s) /\ hpc s = HIdle /\ chains s !! 1 = Some ch /\ c_state ch <> DROPPED /\ delivered 1 (log s) = [0%Z].
Proof.
  destruct (scen_sub Debug 100 100 [Do (LInsert (every 1 11 5 100)); Handle; Ticks 7; Handle; Do (LNextCheck 1); Do (LNextTry 1); Do (LRemove 11); Handle] 0 (LInsert (every 1 11 5 100)) (every 1 11 5 100)
    (fun s => sees (OPop (ERemove 11)) (log s) (fun _ l2 => popb 1 l2) && match hpc s with HIdle => true | _ => false end && bool_decide (delivered 1 (log s) = [0%Z]) &&
      match chains s !! 1 with Some ch => negb (c_state ch =? DROPPED) | None => false end)) as (s & Hr & Hs & HP); [done|by right; left|vm_compute; reflexivity|].
  apply andb_true_iff in HP as [HP H4]. apply andb_true_iff in HP as [HP H3]. apply andb_true_iff in HP as [H1 H2]. apply sees_ok in H1 as (l1 & l2 & E & H1). apply (popb_ok _ _ _ _ (every 1 11 5 100) (l1 ++ [OPop (ERemove 11)]) _ Hr Hs) in H1; [|by rewrite <- app_assoc].
  apply bool_decide_eq_true in H3. destruct (hpc s) eqn:Eh; try discriminate H2. destruct (chains s !! 1) as [ch|] eqn:Ec; [|discriminate H4]. apply negb_true_iff, N.eqb_neq in H4.
  exists s, ch. split; [exact Hr|]. split; [by exists l1, l2|]. done.
Qed.

(** When the id is used by this one insertion, the instances delivered are those of this very task ... *)
Theorem C31_own_alone pf t0 t1 s t r : reachable pf t0 t1 s -> OSend (EInsert t) ∈ log s -> quiet t (log s) -> r ∈ delivered (t_uid t) (log s) -> exists it ts, OLaunch (t_uid t) (t_id t) r it ts ∈ log s.
Proof.
  intros Hr Hin Hq Hd. assert (r ∈ started (t_id t) (log s)) as Hs by exact (elem_of_submseteq _ _ _ Hd (sublist_submseteq _ _ (C31_in_order _ _ _ _ _ Hr Hin))).
  apply elem_started in Hs as (u & it & ts & Hs). exists it, ts. destruct (launch_sub _ _ _ _ _ _ _ _ _ Hr Hs) as (t' & (e & He & Hsb) & H2 & H3).
  assert (names (t_id t) e) as Hn by (destruct Hsb as [->|[->| ->]]; done).
  assert (t' = t) as -> by (destruct (Hq e He Hn) as [->| ->]; destruct Hsb as [?|[?|?]]; congruence). by rewrite H2.
Qed.
Print Assumptions C31_own_alone.
(** ... but an instance started for an earlier task of the id can show up in the chain of the task inserted after its removal. *)
Definition C31_own : Prop := forall pf t0 t1 s t r, reachable pf t0 t1 s -> OSend (EInsert t) ∈ log s -> r ∈ delivered (t_uid t) (log s) -> exists it ts, OLaunch (t_uid t) (t_id t) r it ts ∈ log s.
Theorem C31_own_refuted : ~ C31_own.
Proof.
  intros H. destruct (scen_sub Debug 100 100 [Do (LInsert (every 1 11 5 100)); Handle; Ticks 6; Do (LRemove 11); Do (LInsert (every 2 11 50 106)); Tick 107; Handle; Do (LNextCheck 2); Do (LNextTry 2)] 4 (LInsert (every 2 11 50 106)) (every 2 11 50 106)
    (fun s => insb 2 (log s) && bool_decide (delivered 2 (log s) = [0%Z]) && forallb (fun o => match o with OLaunch u _ _ _ _ => u =? 1 | _ => true end) (log s))) as (s & Hr & Hs & HP); [done|by right; left|vm_compute; reflexivity|].
  apply andb_true_iff in HP as [HP H3]. apply andb_true_iff in HP as [H1 H2]. apply (insb_ok _ _ _ _ (every 2 11 50 106) Hr Hs) in H1. apply bool_decide_eq_true in H2.
  destruct (H _ _ _ _ _ 0%Z Hr H1) as (it & ts & Hl); [cbn; rewrite H2; left|]. rewrite forallb_forall in H3. apply elem_of_list_In in Hl. specialize (H3 _ Hl). discriminate H3.
Qed.
Print Assumptions C31_own_refuted.
