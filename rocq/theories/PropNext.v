(** What the calls for the next instance tell, and when a waiting one returns: C63. *)
From Verif Require Import Tactics Inv Own Life Count Quiet Panics Scen Cases Inst Ended Origin Fifo Account Chain Kept Way PropLife PropInst PropChain PropEnd PropWait PropWatch PropCancel Live LiveEnd PropLive PropCalm PropEnding.

(** ** An abandoned chain is held by nobody *)
(** The maintainer of the chain [c] is in an event, with the event handler, or in a mark. *)
Definition held (c : N) (s : sys) : Prop := (exists t, EInsert t ∈ queue s /\ t_uid t = c) \/ (exists i, hchain (hpc s) = Some (i, c)) \/ exists i, mchain i c s.
Definition was_popped (c : N) (s : sys) : Prop := exists t, OPop (EInsert t) ∈ log s /\ t_uid t = c.
Record once_inv (s : sys) : Prop := {
  on_hand : forall i c, hchain (hpc s) = Some (i, c) -> was_popped c s /\ forall j, ~ mchain j c s;
  on_mark : forall i c, mchain i c s -> was_popped c s
}.
Lemma insert_new pf lb s s' t : step pf lb s = Some s' -> EInsert t ∈ queue s' -> EInsert t ∈ queue s \/ (lb = LInsert t /\ t_uid t ∉ used s).
Proof.
  intros Hs. step_inv Hs; inst_shape; fsimpl; rewrite ?elem_of_cons, ?elem_of_app, ?elem_of_cons, ?elem_of_nil; try tauto.
  all: intros [?|[E|[]]]; [by left|]; try discriminate E. injection E as ->. right. split; [done|].
  match goal with H : _ && negb (bool_decide _) = true |- _ => apply andb_true_iff in H as [_ Hu] end. by destruct (bool_decide_reflect (t_uid t0 ∈ used s)).
Qed.
Lemma mchain_from pf lb s s' i c : step pf lb s = Some s' -> mchain i c s' -> mchain i c s \/ (exists sl, hpc s = HAdd3 i (Some c) sl /\ hchain (hpc s') = None).
Proof.
  intros Hs. unfold mchain. step_inv Hs; inst_cases; isimpl; try (by left).
  all: at_key i; [|by left].
  all: intros (mz & lz & E1 & E2); try discriminate E1; injection E1 as <-; try discriminate E2.
  all: try (left; eexists _, _; split; [eassumption|exact E2]).
  all: try (left; eexists _, _; split; [eassumption|]; cbn [m_chain set_m_chain] in E2; injection E2 as <- <-; eassumption).
  destruct c0 as [c0|]; [|discriminate E2]. cbn in E2. injection E2 as <- <-. right. eauto.
Qed.
Lemma hchain_from pf lb s s' i c : step pf lb s = Some s' -> hchain (hpc s') = Some (i, c) ->
  hchain (hpc s) = Some (i, c) \/ exists t q, queue s = EInsert t :: q /\ t_uid t = c /\ OPop (EInsert t) ∈ log s' /\ flags s' = flags s.
Proof.
  intros Hs. step_inv Hs; inst_shape; fsimpl; cbn [hchain]; intros E; try discriminate E; try (by left).
  - right. injection E as <- <-. eexists _, _. do 2 (split; [done|]). split; [left|done].
  - left. destruct c0; [|discriminate E]. cbn [t_id set_cylinder_line] in E. by rewrite (proj1 (next_exec_id _ _ _ _ Heqr)) in E.
Qed.
Lemma popped_mono pf lb s s' c : step pf lb s = Some s' -> was_popped c s -> was_popped c s'.
Proof. intros Hs (t & H1 & H2). exists t. split; [by eapply pop_mono|done]. Qed.
Lemma popped_queue pf t0 t1 s t : reachable pf t0 t1 s -> was_popped (t_uid t) s -> EInsert t ∉ queue s.
Proof.
  intros Hr (t' & Hp & Hu) Hq. assert (t' = t) as ->; [|by eapply popped_once]. apply (ci_uniq s (cnt_reach _ _ _ _ Hr)); [| |done].
  - destruct (popped_ins _ _ _ _ _ Hr Hp) as (x & G1 & G2 & G3). eexists. split; [|right; left; reflexivity]. apply elem_sends. rewrite (fifo_reach _ _ _ _ Hr). apply elem_of_app. right. by apply elem_pops.
  - eexists. split; [exact (proj1 (src_reach _ _ _ _ Hr) _ Hq)|right; by left].
Qed.
Lemma once_reach pf t0 t1 s : reachable pf t0 t1 s -> once_inv s.
Proof.
  revert s. apply (reach_ind pf t0 t1 once_inv).
  - split; [intros i c H; discriminate H|]. intros i c (m & l & H & _). change (flags (init t0 t1)) with (∅ : gmap N mark) in H. rewrite lookup_empty in H. discriminate H.
  - intros lb s s' Hr [H1 H2] Hs. split.
    + intros i c E. destruct (hchain_from _ _ _ _ _ _ Hs E) as [E0|(t & q & Hq & <- & Hp & Ef)].
      * destruct (H1 _ _ E0) as [Hp Hm]. split; [by eapply popped_mono|]. intros j Hx. destruct (mchain_from _ _ _ _ _ _ Hs Hx) as [Hy|(sl & _ & Hy)]; [by destruct (Hm j)|congruence].
      * split; [by exists t|]. intros j (m & l & Hx & Hy). rewrite Ef in Hx. assert (was_popped (t_uid t) s) as Hw by (apply (H2 j); by exists m, l).
        eapply popped_queue; [exact Hr|exact Hw|]. rewrite Hq. left.
    + intros i c Hx. eapply popped_mono; [exact Hs|]. destruct (mchain_from _ _ _ _ _ _ Hs Hx) as [Hy|(sl & Hy & _)]; [by eapply H2|]. apply (H1 i c). by rewrite Hy.
Qed.
(** How a chain comes to be abandoned. *)
Lemma abandon_step pf lb s s' c : step pf lb s = Some s' -> chain_state s' c = Some ABANDONED -> chain_state s c = Some ABANDONED \/
  hchain (hpc s') = None /\ ((exists i, mchain i c s /\ (mchain i c s' -> hchain (hpc s) = Some (i, c))) \/ (exists i, hchain (hpc s) = Some (i, c) /\ flags s' = flags s)).
Proof.
  intros Hs. unfold chain_state. step_inv Hs; inst_cases; isimpl; intros Hd; try (by left).
  all: try (match type of Hd with context [<[?k := _]> (chains _)] => destruct (decide (k = c)) as [Hk|]; [try subst c; rewrite lookup_insert in Hd|rewrite lookup_insert_ne in Hd by done; by left] end; cbn in Hd; first [discriminate Hd|left; match goal with H : chains _ !! _ = Some _ |- _ => rewrite H; exact Hd end]).
  all: try (match type of Hd with context [alter _ ?k (chains _)] => destruct (decide (k = c)) as [->|]; [|rewrite lookup_alter_ne in Hd by done; by left] end;
    left; rewrite lookup_alter in Hd; destruct (chains s !! c); [exact Hd|discriminate Hd]).
  all: try (match type of Hd with context [alter _ ?k (chains _)] => destruct (decide (k = c)) as [->|]; [|rewrite lookup_alter_ne in Hd by done; by left] end;
    right; split; [reflexivity|]; left; eexists; split; [by eexists _, _|]; intros (mz & lz & E1 & E2); revert E1; isimpl; rewrite lookup_insert; intros E1; injection E1 as <-; discriminate E2).
  - destruct c0 as [cid|]; [|by left]. destruct (decide (cid = c)) as [->|]; [|rewrite lookup_alter_ne in Hd by done; by left]. right. split; [done|]. right. by exists (t_id t).
  - destruct (flags s !! tid) as [m|] eqn:Ef; [|by left]. destruct (m_chain m) as [[cid l]|] eqn:Em; [|by left]. cbn [fmap option_fmap option_map fst] in Hd.
    destruct (decide (cid = c)) as [->|]; [|rewrite lookup_alter_ne in Hd by done; by left]. right. split; [done|]. left. exists tid. split; [by exists m, l|].
    intros (mz & lz & E1 & E2). revert E1. isimpl. rewrite lookup_insert. intros E1. injection E1 as <-. cbn [m_chain] in E2. destruct c0; [|discriminate E2]. by injection E2 as -> _.
  - destruct (flags s !! tid) as [m|] eqn:Ef; [|by left]. destruct (m_chain m) as [[cid l]|] eqn:Em; [|by left]. cbn [fmap option_fmap option_map fst] in Hd.
    destruct (decide (cid = c)) as [->|]; [|rewrite lookup_alter_ne in Hd by done; by left]. right. split; [done|]. left. exists tid. split; [by exists m, l|].
    intros (mz & lz & E1 & E2). revert E1. isimpl. rewrite lookup_delete. discriminate.
Qed.
Lemma used_ins pf t0 t1 s c ch : reachable pf t0 t1 s -> chains s !! c = Some ch -> c ∈ used s.
Proof. intros Hr E. destruct (ch_used s (chain_reach _ _ _ _ Hr) _ _ E) as (i & t & H1 & <- & _). apply (ci_used s (cnt_reach _ _ _ _ Hr)). eexists. split; [exact H1|right; by left]. Qed.
Lemma held_step pf lb s s' c : step pf lb s = Some s' -> held c s' -> held c s \/ c ∉ used s.
Proof.
  intros Hs [(t & Hq & Hu)|[(i & Hh)|(i & Hm)]].
  - destruct (insert_new _ _ _ _ _ Hs Hq) as [?|[_ ?]]; [left; left; eauto|right; congruence].
  - left. destruct (hchain_from _ _ _ _ _ _ Hs Hh) as [?|(t & q & Hq & Hu & _)]; [right; left; eauto|]. left. exists t. rewrite Hq. split; [left|done].
  - left. right. destruct (mchain_from _ _ _ _ _ _ Hs Hm) as [?|(sl & E & _)]; [right; eauto|left]. exists i. by rewrite E.
Qed.
Lemma abandoned_free pf t0 t1 s c : reachable pf t0 t1 s -> chain_state s c = Some ABANDONED -> ~ held c s.
Proof.
  revert s. apply (reach_ind pf t0 t1 (fun s => chain_state s c = Some ABANDONED -> ~ held c s)).
  - unfold chain_state. change (chains (init t0 t1)) with (∅ : gmap N chain). rewrite lookup_empty. discriminate.
  - intros lb s s' Hr IH Hs Hc Hh. pose proof (reach_step _ _ _ _ _ _ Hr Hs) as Hr'. destruct (abandon_step _ _ _ _ _ Hs Hc) as [H0|[Hn Hx]].
    + destruct (held_step _ _ _ _ _ Hs Hh) as [?|Hu]; [by apply IH|]. apply Hu. unfold chain_state in H0. destruct (chains s !! c) as [ch|] eqn:E; [|discriminate H0]. by eapply used_ins.
    + destruct (once_reach _ _ _ _ Hr) as [O1 O2]. assert (was_popped c s /\ forall j, ~ mchain j c s') as [Hp Hm].
      { destruct Hx as [(i & Hi & Hj)|(i & Hi & Hf)].
        - assert (forall j, hchain (hpc s) <> Some (j, c)) as Hno. { intros j E. by apply (proj2 (O1 _ _ E) i). }
          split; [by eapply O2|]. intros j Hy. destruct (mchain_from _ _ _ _ _ _ Hs Hy) as [Hz|(sl & E & _)]; [|apply (Hno j); by rewrite E].
          assert (j = i) as -> by exact (ins_uniq _ _ _ _ (cnt_reach _ _ _ _ Hr) (ch_mark s (chain_reach _ _ _ _ Hr) _ _ Hz) (ch_mark s (chain_reach _ _ _ _ Hr) _ _ Hi)). by apply (Hno i), Hj.
        - split; [by apply (O1 i)|]. intros j (m & l & Hy). rewrite Hf in Hy. apply (proj2 (O1 _ _ Hi) j). by exists m, l. }
      destruct Hh as [(t & Hq & <-)|[(i & Hh)|(i & Hi)]]; [|congruence|by apply (Hm i)]. eapply popped_queue; [exact Hr'|by eapply popped_mono|done].
Qed.

(** Only while a chain is alive do further calls begin to wait. *)
Lemma pend_step pf lb s s' c ch ch' : step pf lb s = Some s' -> chains s !! c = Some ch -> chains s' !! c = Some ch' -> c_state ch = ABANDONED \/ c_state ch = DROPPED ->
  (c_pend ch' <= c_pend ch)%nat /\ (lb = LNextTry c \/ lb = LNextRecv c -> c_pend ch = S (c_pend ch')).
Proof.
  intros Hs. step_inv Hs; inst_cases; isimpl; intros E1 E2 Hd.
  all: try (assert (ch' = ch) as -> by congruence; split; [done|intros [E|E]; discriminate E]).
  all: try (match type of E2 with context [<[?k := _]> (chains _)] => destruct (decide (k = c)) as [Hk|Hk]; [try subst c; rewrite lookup_insert in E2; injection E2 as <-|rewrite lookup_insert_ne in E2 by done; assert (ch' = ch) as -> by congruence; split; [done|intros [E|E]; try discriminate E; injection E as ->; done]] end).
  all: simplify_eq; cbn [c_pend c_state set_c_state] in *.
  all: try (match goal with H : (_ =? DROPPED) = false, H' : (_ =? ABANDONED) = false |- _ => apply N.eqb_neq in H, H'; by destruct Hd end).
  all: try (split; [lia|]; first [by intros _|intros [E|E]; discriminate E]).
  all: assert (c_pend ch' = c_pend ch) as ->; [|split; [done|intros [E|E]; discriminate E]].
  all: unfold drop_mark, abandon_opt in *; isimpl; revert E2; repeat case_match; intros E2.
  all: repeat match type of E2 with context [alter _ ?k (chains _)] => destruct (decide (k = c)) as [->|]; [rewrite lookup_alter, E1 in E2; by injection E2 as <-|rewrite lookup_alter_ne in E2 by done] end.
  all: congruence.
Qed.
(** ** C63 The answers Expired and Closed are final

    Nothing is added to an abandoned chain any more: later calls tell that it has expired, and the calls waiting at that time get what was still in it. *)
Definition shut (c : N) (ch : chain) (s : sys) : Prop := chains s !! c = Some ch /\ (c_state ch = ABANDONED \/ c_state ch = DROPPED) /\ ~ held c s.
Lemma shut_step pf t0 t1 lb s s' c ch : reachable pf t0 t1 s -> step pf lb s = Some s' -> shut c ch s ->
  exists ch' l, shut c ch' s' /\ delivered c (log s') = delivered c (log s) ++ l /\ c_buf ch = l ++ c_buf ch' /\ (length l + c_pend ch' <= c_pend ch)%nat.
Proof.
  intros Hr Hs (Hc & Hd & Hh). assert (~ held c s') as Hh'. { intros H. destruct (held_step _ _ _ _ _ Hs H) as [?|Hu]; [done|]. apply Hu. by eapply used_ins. }
  destruct (chain_kinds _ _ _ _ c Hs) as [K1 K2 _|x y K1 K2 K3 K4 K5 _ K6|x y i hb q m l K1 K2 _ _ _ Kf Km _ _ _ _ _|x y r K1 K2 Kl K5 K3 K4 K6|t _ <- K2 _ _]; try congruence.
  - assert (x = ch) as -> by congruence. destruct (pend_step _ _ _ _ _ _ _ Hs K1 K2 Hd) as [Hp _]. exists y, []. rewrite app_nil_r. split; [|by rewrite K4].
    split; [done|]. split; [|done]. destruct K5 as [->|[->| ->]]; auto.
  - destruct Hh. right. right. exists i. by exists m, l.
  - assert (x = ch) as -> by congruence. destruct (pend_step _ _ _ _ _ _ _ Hs K1 K2 Hd) as [_ Hp]. specialize (Hp Kl). exists y, [r]. split; [split; [done|by rewrite K5]|]. cbn [length app]. split; [done|]. split; [done|lia].
  - destruct K2. by eapply used_ins.
Qed.
Lemma shut_run pf t0 t1 ls s s' c ch : reachable pf t0 t1 s -> run pf ls s = Some s' -> shut c ch s ->
  exists ch' l, shut c ch' s' /\ delivered c (log s') = delivered c (log s) ++ l /\ c_buf ch = l ++ c_buf ch' /\ (length l + c_pend ch' <= c_pend ch)%nat.
Proof.
  revert s ch. induction ls as [|lb ls IH]; intros s ch Hr Hrun Hc; cbn [run] in Hrun.
  - injection Hrun as <-. exists ch, []. rewrite app_nil_r. done.
  - destruct (step pf lb s) as [s1|] eqn:Es; [|discriminate Hrun]. destruct (shut_step _ _ _ _ _ _ _ _ Hr Es Hc) as (ch1 & l1 & H1 & E1 & B1 & P1).
    destruct (IH _ _ (reach_step _ _ _ _ _ _ Hr Es) Hrun H1) as (ch' & l & H2 & E2 & B2 & P2). exists ch', (l1 ++ l). split; [done|]. rewrite E2, E1, B1, B2, <- !app_assoc, app_length. split; [done|]. split; [done|lia].
Qed.
Theorem C63_abandoned_is_final pf t0 t1 s ls s' c ch : reachable pf t0 t1 s -> chains s !! c = Some ch -> c_state ch = ABANDONED -> run pf ls s = Some s' ->
  exists l, delivered c (log s') = delivered c (log s) ++ l /\ l `prefix_of` c_buf ch /\ (length l <= c_pend ch)%nat.
Proof.
  intros Hr Hc Ha Hrun. assert (shut c ch s) as Hx. { split; [done|]. split; [by left|]. apply (abandoned_free _ _ _ _ _ Hr). unfold chain_state. rewrite Hc. cbn. by rewrite Ha. }
  destruct (shut_run _ _ _ _ _ _ _ _ Hr Hrun Hx) as (ch' & l & _ & E & B & P). exists l. split; [done|]. split; [by exists (c_buf ch')|lia].
Qed.
Print Assumptions C63_abandoned_is_final.
Lemma answer_step pf lb s s' c a : step pf lb s = Some s' -> ONext c a ∈ log s' -> ONext c a ∈ log s \/
  exists ch ch', chains s !! c = Some ch /\ chains s' !! c = Some ch' /\ c_state ch' = c_state ch /\ (a <> NExpired -> c_pend ch = S (c_pend ch')) /\
    match a with NExpired => c_state ch = ABANDONED /\ ch' = ch | NClosed => c_state ch = ABANDONED /\ c_buf ch' = [] | NEmpty => c_state ch <> ABANDONED /\ c_buf ch' = [] | NGot r => c_buf ch = r :: c_buf ch' end.
Proof.
  intros Hs Hx. revert Hx. step_inv Hs; inst_shape; intros Hin; fsimpl_in Hin; try (by left).
  all: repeat match goal with H : _ ∈ _ :: _ |- _ => apply elem_of_cons in H as [H|H]; [try discriminate H|] end; try (by left).
  all: try (apply elem_of_app in Hin as [Hin|Hin]; [rewrite Forall_forall in Hlg; by destruct (Hlg _ Hin)|]; repeat match goal with H : _ ∈ _ :: _ |- _ => apply elem_of_cons in H as [H|H]; [try discriminate H|] end; by left).
  all: try (repeat case_match; repeat match goal with H : _ ∈ _ :: _ |- _ => apply elem_of_cons in H as [H|H]; [try discriminate H|] end; auto; fail).
  all: injection Hin as -> ->; right; eexists _, _; (split; [eassumption|]); fsimpl; (split; [first [eassumption|apply lookup_insert]|]).
  all: cbn [c_state c_pend c_buf]; (split; [done|]); (split; [done|]).
  all: repeat match goal with H : (_ =? _) = true |- _ => apply N.eqb_eq in H | H : (_ =? _) = false |- _ => apply N.eqb_neq in H end.
  all: done.
Qed.
Lemma answered_shut pf t0 t1 s c a : reachable pf t0 t1 s -> ONext c a ∈ log s -> a = NExpired \/ a = NClosed -> exists ch, shut c ch s /\ (a = NClosed -> c_buf ch = []).
Proof.
  intros Hr. revert s Hr. apply (reach_ind pf t0 t1 (fun s => ONext c a ∈ log s -> a = NExpired \/ a = NClosed -> exists ch, shut c ch s /\ (a = NClosed -> c_buf ch = []))).
  - change (log (init t0 t1)) with [OTick 0 t1]. intros [E|E%elem_of_nil]%elem_of_cons; [discriminate E|done].
  - intros lb s s' Hr IH Hs Hx Ha. destruct (answer_step _ _ _ _ _ _ Hs Hx) as [H|(ch & ch' & Hc & Hc' & E & _ & Hm)].
    + destruct (IH H Ha) as (ch & Hsh & Hb). destruct (shut_step _ _ _ _ _ _ _ _ Hr Hs Hsh) as (ch' & l & Hsh' & _ & B & _). exists ch'. split; [done|]. intros Hcl. rewrite (Hb Hcl) in B. destruct l; [by rewrite B|discriminate B].
    + assert (c_state ch' = ABANDONED) as Es by (rewrite E; destruct Ha as [-> | ->]; by destruct Hm). exists ch'. split.
      * split; [done|]. split; [by left|]. apply (abandoned_free _ _ _ _ _ (reach_step _ _ _ _ _ _ Hr Hs)). unfold chain_state. rewrite Hc'. cbn. by rewrite Es.
      * intros ->. by destruct Hm.
Qed.
(** After a call told that the chain expired, with no other call waiting, and after a call told that it is closed, nothing is delivered. *)
Theorem C63_expired_is_final pf t0 t1 s ls s' c ch : reachable pf t0 t1 s -> ONext c NExpired ∈ log s -> chains s !! c = Some ch -> c_pend ch = O -> run pf ls s = Some s' ->
  delivered c (log s') = delivered c (log s).
Proof.
  intros Hr Hx Hc Hp Hrun. destruct (answered_shut _ _ _ _ _ _ Hr Hx (or_introl eq_refl)) as (ch0 & Hsh & _). assert (ch0 = ch) as -> by (destruct Hsh; congruence).
  destruct (shut_run _ _ _ _ _ _ _ _ Hr Hrun Hsh) as (ch' & l & _ & -> & _ & P). destruct l; [by rewrite app_nil_r|cbn [length] in P; lia].
Qed.
Print Assumptions C63_expired_is_final.
Theorem C63_closed_is_final pf t0 t1 s ls s' c : reachable pf t0 t1 s -> ONext c NClosed ∈ log s -> run pf ls s = Some s' -> delivered c (log s') = delivered c (log s).
Proof.
  intros Hr Hx Hrun. destruct (answered_shut _ _ _ _ _ _ Hr Hx (or_intror eq_refl)) as (ch & Hsh & Hb).
  destruct (shut_run _ _ _ _ _ _ _ _ Hr Hrun Hsh) as (ch' & l & _ & -> & B & _). rewrite (Hb eq_refl) in B. destruct l; [by rewrite app_nil_r|discriminate B].
Qed.
Print Assumptions C63_closed_is_final.

(** ** C63 No data means that there is none

    When a call tells that there is no data, everything the event handler took over had been delivered, if the id is added once and not removed; and everything that was started,
    except what is still on its way to the event handler. *)
Lemma pend_held pf t0 t1 s c ch : reachable pf t0 t1 s -> chains s !! c = Some ch -> c_pend ch <> O -> c_state ch <> DROPPED.
Proof.
  intros Hr. revert s Hr ch. apply (reach_ind pf t0 t1 (fun s => forall ch, chains s !! c = Some ch -> c_pend ch <> O -> c_state ch <> DROPPED)).
  - intros ch H. change (chains (init t0 t1)) with (∅ : gmap N chain) in H. rewrite lookup_empty in H. discriminate H.
  - intros lb s s' _ IH Hs ch. step_inv Hs; inst_cases; isimpl; intros E2; try (by apply IH).
    all: unfold drop_mark, abandon_opt in *; isimpl; revert E2; repeat case_match; intros E2; try (by apply IH).
    all: try match type of E2 with context [<[?k := _]> (chains _)] => destruct (decide (k = c)) as [Hk|Hk]; [try subst c; rewrite lookup_insert in E2; injection E2 as <-|rewrite lookup_insert_ne in E2 by done; by apply IH] end.
    all: try match type of E2 with context [alter _ ?k (chains _)] => destruct (decide (k = c)) as [->|]; [rewrite lookup_alter in E2; destruct (chains s !! c) as [cz|] eqn:Ez; [|discriminate E2]; injection E2 as <-|rewrite lookup_alter_ne in E2 by done; by apply IH] end.
    all: cbn [c_pend c_state set_c_state]; try done; try discriminate.
    all: try (intros _; by apply N.eqb_neq).
    all: try (intros _; match goal with H : chains _ !! _ = Some ?x |- _ => apply (IH x H) end; congruence).
    all: by apply IH.
Qed.
Lemma on_way i s r : r ∈ queue s ≫= app_of i -> exists hb, EAppend i hb ∈ queue s /\ hb_rec hb = r.
Proof.
  intros (e & Hx & He)%elem_of_list_bind. destruct e; try by apply elem_of_nil in Hx. cbn [app_of] in Hx. destruct (_ =? _) eqn:Ei; [|by apply elem_of_nil in Hx].
  apply N.eqb_eq in Ei. subst tid. apply elem_of_list_singleton in Hx. eauto.
Qed.
Theorem C63_no_data pf t0 t1 s s' t : reachable pf t0 t1 s -> OSend (EInsert t) ∈ log s -> kept t (log s) -> step pf (LNextTry (t_uid t)) s = Some s' -> log s' = ONext (t_uid t) NEmpty :: log s ->
  delivered (t_uid t) (log s') `prefix_of` started (t_id t) (log s') /\
  forall r, r ∈ started (t_id t) (log s') -> r ∈ delivered (t_uid t) (log s') \/ (exists hb, EAppend (t_id t) hb ∈ queue s' /\ hb_rec hb = r) \/ (exists l ids x e, tpc s' = TSend l ids x r e) \/ tpc s' = TDead.
Proof.
  intros Hr Hi Hk Hs El. cbn [step] in Hs. unfold next_take in Hs. destruct (chains s !! t_uid t) as [ch|] eqn:Ec; [|discriminate Hs]. destruct (c_pend ch) as [|p] eqn:Ep; [discriminate Hs|].
  destruct (c_buf ch) as [|x b] eqn:Eb; [|injection Hs as <-; fsimpl_in El; discriminate El]. destruct (c_state ch =? ABANDONED) eqn:Ea; [injection Hs as <-; fsimpl_in El; discriminate El|]. injection Hs as <-. clear El. fsimpl.
  assert (c_state ch = LIVING) as Hl. { apply N.eqb_neq in Ea. pose proof (pend_held _ _ _ _ _ _ Hr Ec ltac:(by rewrite Ep)). by destruct (chain_states _ _ _ _ _ _ Hr Ec) as [?|[?|?]]. }
  cbn [delivered started]. destruct (flow_reach _ _ _ _ (t_id t) Hr) as (l0 & Ef & Hl0). pose proof (chain_exact _ _ _ _ _ _ Hr Hi Hk Ec Hl) as Ex. rewrite Eb, app_nil_r, (ch_got s (chain_reach _ _ _ _ Hr) _ _ Ec) in Ex.
  rewrite Ef, <- Ex. split; [by apply prefix_app_r|]. intros r. rewrite !elem_of_app. intros [?|[Hq|[Hq|Hq]]]; [by left|right; left; by apply on_way| |].
  - right; right; left. destruct (tpc s); try by apply elem_of_nil in Hq. cbn [sending] in Hq. match type of Hq with context [if ?b then _ else _] => destruct b end; [|by apply elem_of_nil in Hq]. apply elem_of_list_singleton in Hq as ->. eauto.
  - right; right; right. destruct (decide (l0 = [])) as [->|Hn]; [by apply elem_of_nil in Hq|]. destruct (tpc s) eqn:Et; try done; by destruct Hn; apply Hl0.
Qed.
Print Assumptions C63_no_data.

(** ** C63 Waiting calls return

    The answers the calls on a chain got, newest first. *)
Fixpoint answers (c : N) (lg : list obs) : list next_res :=
  match lg with
  | [] => []
  | ONext c' a :: l => if c' =? c then a :: answers c l else answers c l
  | _ :: l => answers c l
  end.
Lemma answers_inst c lg l : Forall inst_obs lg -> answers c (lg ++ l) = answers c l.
Proof. induction 1 as [|o lg Ho _ IH]; [done|]. by destruct o. Qed.
Lemma answers_app c l1 l2 : answers c (l1 ++ l2) = answers c l1 ++ answers c l2.
Proof. induction l1 as [|o l1 IH]; [done|]. destruct o; cbn [app answers]; try done. by destruct (_ =? _); rewrite IH. Qed.
Lemma answers_delivered c lg : delivered c lg = reverse (answers c lg) ≫= (fun a => match a with NGot r => [r] | _ => [] end).
Proof.
  induction lg as [|o lg IH]; [done|]. destruct o; cbn [answers delivered]; try done. destruct (c0 =? c); destruct r; rewrite ?app_nil_r; try done.
  all: rewrite reverse_cons, bind_app, <- IH; cbn; by rewrite ?app_nil_r.
Qed.
(** A waiting call goes on waiting until a call gets an answer. *)
Lemma waits_step pf lb s s' c ch : step pf lb s = Some s' -> chains s !! c = Some ch -> c_pend ch <> O -> c ∈ used s ->
  (exists ch', chains s' !! c = Some ch' /\ (c_pend ch <= c_pend ch')%nat /\ lb <> LNextTry c /\ lb <> LNextRecv c) \/ ((lb = LNextTry c \/ lb = LNextRecv c) /\ exists a, answers c (log s') = a :: answers c (log s)).
Proof.
  intros Hs Hc Hp Hu. revert Hc Hp. step_inv Hs; inst_cases; isimpl; intros E1 Hp; try (left; eexists; split; [eassumption|done]).
  all: try (match goal with |- context [LNextTry ?x = LNextTry ?y] => destruct (decide (x = y)) as [->|Hne]; [right; split; [by left|]; eexists; cbn [answers]; by rewrite N.eqb_refl|left; exists ch; split; [by rewrite lookup_insert_ne|]; split; [done|split; congruence]] end).
  all: try (match goal with |- context [LNextRecv ?x = LNextRecv ?y] => destruct (decide (x = y)) as [->|Hne]; [right; split; [by right|]; eexists; cbn [answers]; by rewrite N.eqb_refl|left; exists ch; split; [by rewrite lookup_insert_ne|]; split; [done|split; congruence]] end).
  all: left; unfold drop_mark, abandon_opt; isimpl; repeat case_match; try (exists ch; done).
  all: try match goal with |- context [alter _ ?k (chains _) !! ?c] => destruct (decide (k = c)) as [->|]; [rewrite lookup_alter, E1; eexists; done|rewrite lookup_alter_ne by done; eexists; done] end.
  all: match goal with |- context [<[?k := _]> (chains _) !! ?c] => destruct (decide (k = c)) as [Hk|]; [subst c; rewrite lookup_insert; eexists; (split; [reflexivity|])|rewrite lookup_insert_ne by done; eexists; done] end.
  all: cbn [c_pend set_c_state].
  - exfalso. match goal with H : _ && negb (bool_decide _) = true |- _ => apply andb_true_iff in H as [_ H]; by rewrite bool_decide_eq_true_2 in H end.
  - split; [simplify_eq; lia|done].
  - simplify_eq.
Qed.
Lemma recv_enabled pf s c ch : chains s !! c = Some ch -> c_pend ch <> O -> (c_state ch = ABANDONED \/ c_buf ch <> []) <-> enabled pf (fun l => l = LNextRecv c) s.
Proof.
  intros Hc Hp. unfold enabled. split.
  - intros Hx. eexists. split; [done|]. cbn [step]. unfold next_take. rewrite Hc. destruct (c_pend ch); [done|]. destruct (c_buf ch); [|eauto]. destruct Hx as [-> |?]; [|done]. rewrite N.eqb_refl. eauto.
  - intros (l & -> & [s' Hs]). cbn [step] in Hs. unfold next_take in Hs. rewrite Hc in Hs. destruct (c_pend ch); [done|]. destruct (c_buf ch); [|by right]. left. destruct (_ =? _) eqn:E; [by apply N.eqb_eq|discriminate Hs].
Qed.
Definition waiting (c : N) (s : sys) : Prop := exists ch, chains s !! c = Some ch /\ c_pend ch <> O.
(** A call has got an answer since. *)
Definition answered (c : N) (s s' : sys) : Prop := exists a l, answers c (log s') = a :: l ++ answers c (log s).
Lemma wait_next pf t0 t1 σ lb c n k : exec pf t0 t1 σ lb -> (n <= k)%nat -> waiting c (σ k) -> waiting c (σ (S k)) /\ lb k <> LNextRecv c \/ answered c (σ n) (σ (S k)).
Proof.
  intros He Hk (ch & Hc & Hp). pose proof (exec_reach _ _ _ _ _ k He) as Hr.
  destruct (waits_step _ _ _ _ _ _ (ex_step _ _ _ _ _ He k) Hc Hp (used_ins _ _ _ _ _ _ Hr Hc)) as [(ch' & H1 & H2 & _ & H3)|[_ [a Ha]]].
  - left. split; [|done]. exists ch'. split; [done|lia].
  - right. destruct (exec_log _ _ _ _ _ n k He Hk) as [l El]. exists a, (answers c l). by rewrite Ha, El, answers_app.
Qed.
Lemma waits_on pf t0 t1 σ lb c n k : exec pf t0 t1 σ lb -> (n <= k)%nat -> waiting c (σ n) -> (exists m, (n <= m <= k)%nat /\ answered c (σ n) (σ m)) \/ waiting c (σ k).
Proof.
  intros He Hk Hw. induction Hk as [|k Hk IH]; [by right|]. destruct IH as [(m & Hm & ?)|IH]; [left; exists m; split; [lia|done]|].
  destruct (wait_next _ _ _ _ _ c n k He Hk IH) as [[? _]|?]; [by right|]. left. exists (S k). split; [lia|done].
Qed.
(** If it can go on whenever it waits, it returns. *)
Lemma wait_fair pf t0 t1 σ lb c n m : exec pf t0 t1 σ lb -> weakly_fair pf (fun l => l = LNextRecv c) σ lb -> waiting c (σ n) -> (n <= m)%nat ->
  (forall k ch, (m <= k)%nat -> chains (σ k) !! c = Some ch -> c_pend ch <> O -> answered c (σ n) (σ k) \/ c_state ch = ABANDONED \/ c_buf ch <> []) -> exists k, (n <= k)%nat /\ answered c (σ n) (σ k).
Proof.
  intros He Hf Hw Hm Hall. destruct (Hf m) as (k & Hk & Hx). destruct (waits_on _ _ _ _ _ c n k He ltac:(lia) Hw) as [(j & Hj & ?)|Hwk]; [exists j; split; [lia|done]|].
  destruct (wait_next _ _ _ _ _ c n k He ltac:(lia) Hwk) as [[_ Hl]|?]; [|exists (S k); split; [lia|done]]. destruct Hx as [Hx|Hx]; [done|].
  destruct Hwk as (ch & Hc & Hp). destruct (Hall k ch Hk Hc Hp) as [?|Hy]; [exists k; split; [lia|done]|]. destruct Hx. by eapply recv_enabled.
Qed.
(** A call that waits returns when there is an instance it can get ... *)
Lemma unanswered c s s' l : log s' = l ++ log s -> answered c s s' \/ delivered c (log s') = delivered c (log s).
Proof.
  intros El. destruct (answers c l) as [|a x] eqn:E.
  - right. by rewrite !answers_delivered, El, answers_app, E.
  - left. exists a, x. by rewrite El, answers_app, E.
Qed.
Lemma taken_pop i hb lg : OPop (EAppend i hb) ∈ lg -> hb_rec hb ∈ Chain.taken i lg.
Proof.
  induction lg as [|o lg IH]; [by intros ?%elem_of_nil|]. intros [<-|H]%elem_of_cons.
  - cbn [Chain.taken app_of]. rewrite N.eqb_refl. apply elem_of_app. right. left.
  - specialize (IH H). destruct o; cbn [Chain.taken]; try done. apply elem_of_app. by left.
Qed.
Theorem C63_gets_the_instance pf t0 t1 σ lb n t hb : exec pf t0 t1 σ lb -> weakly_fair pf by_handler σ lb -> weakly_fair pf (fun l => l = LNextRecv (t_uid t)) σ lb ->
  waiting (t_uid t) (σ n) -> OSend (EInsert t) ∈ log (σ n) -> (forall k, kept t (log (σ k))) -> OSend (EAppend (t_id t) hb) ∈ log (σ n) -> hb_rec hb ∉ delivered (t_uid t) (log (σ n)) ->
  exists m, (n <= m)%nat /\ (answered (t_uid t) (σ n) (σ m) \/ hpc (σ m) = HDead).
Proof.
  intros He Hf Hw Hwt Hi Hk Ha Hn. destruct (C54_every_event_is_handled _ _ _ _ _ n He Hf) as (m & Hm & [Hd|[_ Hpop]]); [exists m; auto|].
  destruct (wait_fair _ _ _ _ _ (t_uid t) n m He Hw Hwt Hm) as (k & Hnk & ?); [|exists k; auto].
  intros k ch Hmk Hc Hp. pose proof (exec_reach _ _ _ _ _ k He) as Hr. destruct (exec_log _ _ _ _ _ n k He ltac:(lia)) as [l El]. destruct (exec_log _ _ _ _ _ m k He Hmk) as [l' El'].
  destruct (unanswered (t_uid t) _ _ _ El) as [?|Ed]; [by left|]. right. destruct (chain_states _ _ _ _ _ _ Hr Hc) as [Hl|[Hl|Hl]]; [|by destruct (pend_held _ _ _ _ _ _ Hr Hc Hp)|by left].
  right. intros Eb. assert (OSend (EInsert t) ∈ log (σ k)) as Hi' by (rewrite El; apply elem_of_app; by right).
  pose proof (chain_exact _ _ _ _ _ _ Hr Hi' (Hk k) Hc Hl) as Ex. rewrite Eb, app_nil_r, (ch_got _ (chain_reach _ _ _ _ Hr) _ _ Hc), Ed in Ex. apply Hn. rewrite Ex. apply taken_pop. rewrite El'. apply elem_of_app. right.
  apply elem_pops. rewrite Hpop. by apply elem_sends.
Qed.
Print Assumptions C63_gets_the_instance.
(** ... and when the task was removed: then every waiting call returns and no call waits any more. *)
Lemma removal_popped t lg l1 l2 : pops lg = l1 ++ ERemove (t_id t) :: l2 -> EInsert t ∈ l2 -> rem_after t lg.
Proof.
  revert l1. induction lg as [|o lg IH]; intros l1 E Hi; [by destruct l1|]. destruct o; cbn [pops] in E; try (apply rem_cons; by eapply IH).
  destruct l1 as [|x l1]; injection E as -> E; [|apply rem_cons; by eapply IH]. left. split; [done|]. apply elem_pops. by rewrite E.
Qed.
Lemma shut_later pf t0 t1 σ lb n k c ch : exec pf t0 t1 σ lb -> shut c ch (σ n) -> (n <= k)%nat -> exists ch', shut c ch' (σ k) /\ (c_pend ch' <= c_pend ch)%nat.
Proof.
  intros He Hs Hk. induction Hk as [|k Hk (ch1 & H1 & P1)]; [eauto|]. destruct (shut_step _ _ _ _ _ _ _ _ (exec_reach _ _ _ _ _ k He) (ex_step _ _ _ _ _ He k) H1) as (ch2 & l & H2 & _ & _ & P2).
  exists ch2. split; [done|lia].
Qed.
Lemma all_return pf t0 t1 σ lb n c ch : exec pf t0 t1 σ lb -> weakly_fair pf (fun l => l = LNextRecv c) σ lb -> shut c ch (σ n) -> exists m, (n <= m)%nat /\ forall k ch', (m <= k)%nat -> chains (σ k) !! c = Some ch' -> c_pend ch' = O.
Proof.
  intros He Hf. remember (c_pend ch) as p eqn:Ep. revert n ch Ep. induction (lt_wf p) as [p _ IH]. intros n ch Ep Hs. destruct (decide (p = O)) as [E0|Hp].
  - exists n. split; [done|]. intros k ch' Hk Hc. destruct (shut_later _ _ _ _ _ _ _ _ _ He Hs Hk) as (ch1 & (H1 & _) & P1). assert (ch1 = ch') as -> by congruence. lia.
  - destruct (Hf n) as (k & Hk & Hx). destruct (shut_later _ _ _ _ _ _ _ _ _ He Hs Hk) as (ch1 & H1 & P1). destruct (decide (c_pend ch1 = p)) as [Eq|Hlt].
    + destruct (shut_step _ _ _ _ _ _ _ _ (exec_reach _ _ _ _ _ k He) (ex_step _ _ _ _ _ He k) H1) as (ch2 & l & H2 & _). destruct H1 as (Hc1 & Hd1 & Hh1). destruct Hx as [Hx|Hx].
      * pose proof (proj2 (pend_step _ _ _ _ _ _ _ (ex_step _ _ _ _ _ He k) Hc1 (proj1 H2) Hd1) (or_intror Hx)) as Hq. destruct (IH (c_pend ch2) ltac:(lia) (S k) ch2 eq_refl H2) as (m & Hm & Hy). exists m. split; [lia|done].
      * destruct Hx. eapply recv_enabled; [exact Hc1|lia|]. left. destruct Hd1 as [?|Hd1]; [done|]. exfalso. eapply pend_held; [exact (exec_reach _ _ _ _ _ k He)|exact Hc1|lia|done].
    + destruct (IH (c_pend ch1) ltac:(lia) k ch1 eq_refl H1) as (m & Hm & Hy). exists m. split; [lia|done].
Qed.
Lemma gone_later pf t0 t1 σ lb n k t : exec pf t0 t1 σ lb -> OPop (EInsert t) ∈ log (σ n) -> gone (t_uid t) (σ n) -> (n <= k)%nat -> gone (t_uid t) (σ k).
Proof.
  intros He Hp Hg Hk. induction Hk as [|k Hk IH]; [done|]. destruct (exec_log _ _ _ _ _ n k He Hk) as [l El]. pose proof (exec_reach _ _ _ _ _ k He) as Hr.
  eapply gone_step; [exact Hr| |exact (ex_step _ _ _ _ _ He k)|done]. apply (popped_ins _ _ _ _ _ Hr). rewrite El. apply elem_of_app. by right.
Qed.
Lemma gone_states pf t0 t1 s c ch : reachable pf t0 t1 s -> gone c s -> chains s !! c = Some ch -> c_state ch = ABANDONED \/ c_state ch = DROPPED.
Proof. intros Hr Hg Hc. unfold gone, chain_state in Hg. rewrite Hc in Hg. destruct (chain_states _ _ _ _ _ _ Hr Hc) as [E|[?|?]]; auto. cbn in Hg. by rewrite E in Hg. Qed.
Lemma chain_there pf t0 t1 s t : reachable pf t0 t1 s -> OSend (EInsert t) ∈ log s -> exists ch, chains s !! t_uid t = Some ch.
Proof.
  revert s. apply (reach_ind pf t0 t1 (fun s => OSend (EInsert t) ∈ log s -> exists ch, chains s !! t_uid t = Some ch)).
  - change (log (init t0 t1)) with [OTick 0 t1]. intros [E|E%elem_of_nil]%elem_of_cons; [discriminate E|done].
  - intros lb s s' Hr IH Hs Hi. destruct (chain_kinds _ _ _ _ (t_uid t) Hs) as [K1 K2 _|x y K1 K2 _ _ _ _ _|x y i hb q mk l K1 K2 _ _ _ _ _ _ _ _ _ _|x y r K1 K2 _ _ _ _ _|t' El K1 K2 K3 _]; [|eauto..].
    exfalso. destruct (sent_step _ _ _ _ _ Hs Hi) as [H|H]; [destruct (IH H); congruence|]. destruct (insert_new _ _ _ _ _ Hs H) as [H1|[-> Hu]].
    + destruct (IH (proj1 (src_reach _ _ _ _ Hr) _ H1)). congruence.
    + cbn [step] in Hs. unfold submit_insert, submit, option_map in Hs. destruct (_ && _); [|discriminate Hs]. injection Hs as <-. fsimpl_in K2. by rewrite lookup_insert in K2.
Qed.
Theorem C63_told_of_the_removal pf t0 t1 σ lb n t l1 l2 : exec pf t0 t1 σ lb -> weakly_fair pf by_handler σ lb -> weakly_fair pf (fun l => l = LNextRecv (t_uid t)) σ lb ->
  sends (log (σ n)) = l1 ++ ERemove (t_id t) :: l2 -> EInsert t ∈ l2 ->
  exists m, (n <= m)%nat /\ (hpc (σ m) = HDead \/ forall k, (m <= k)%nat -> exists ch, chains (σ k) !! t_uid t = Some ch /\ c_state ch <> LIVING /\ c_pend ch = O).
Proof.
  intros He Hf Hw Hsd Hi. destruct (C54_every_event_is_handled _ _ _ _ _ n He Hf) as (m & Hm & [Hd|[Hidle Hpop]]); [exists m; auto|]. pose proof (exec_reach _ _ _ _ _ m He) as Hr.
  rewrite Hsd in Hpop. destruct (removed_gone _ _ _ _ t Hr (removal_popped _ _ _ _ Hpop Hi)) as [Hp [[[sl H]|[ok H]]|Hg]]; [congruence|congruence|].
  assert (forall k, (n <= k)%nat -> exists ch, chains (σ k) !! t_uid t = Some ch) as Hth.
  { intros k Hk. apply (chain_there _ _ _ _ _ (exec_reach _ _ _ _ _ k He)). destruct (exec_log _ _ _ _ _ n k He Hk) as [l ->]. apply elem_of_app. right. apply elem_sends. rewrite Hsd. apply elem_of_app. right. by right. }
  assert (exists m', (m <= m')%nat /\ forall k ch, (m' <= k)%nat -> chains (σ k) !! t_uid t = Some ch -> c_pend ch = O) as (m' & Hm' & Hz).
  { destruct (Hth m Hm) as [ch Ec]. destruct (gone_states _ _ _ _ _ _ Hr Hg Ec) as [Ea|Ea].
    - apply (all_return _ _ _ _ _ m _ ch He Hw). split; [done|]. split; [by left|]. apply (abandoned_free _ _ _ _ _ Hr). unfold chain_state. rewrite Ec. cbn. by rewrite Ea.
    - exists m. split; [done|]. intros k ch' Hk. revert ch'. induction Hk as [|k Hk IH]; intros ch' Hc'.
      + assert (ch' = ch) as -> by congruence. destruct (decide (c_pend ch = O)); [done|]. by destruct (pend_held _ _ _ _ _ _ Hr Ec n0).
      + pose proof (exec_reach _ _ _ _ _ k He) as Hrk. destruct (Hth k ltac:(lia)) as [x Ex].
        pose proof (gone_states _ _ _ _ _ _ Hrk (gone_later _ _ _ _ _ _ _ _ He Hp Hg Hk) Ex) as Hst. destruct (pend_step _ _ _ _ _ _ _ (ex_step _ _ _ _ _ He k) Ex Hc' Hst) as [Hle _]. specialize (IH _ Ex). lia. }
  exists m'. split; [lia|]. right. intros k Hk. destruct (Hth k ltac:(lia)) as [ch Hc]. exists ch. split; [done|]. split; [|by eapply Hz].
  pose proof (gone_states _ _ _ _ _ _ (exec_reach _ _ _ _ _ k He) (gone_later _ _ _ _ _ _ k _ He Hp Hg ltac:(lia)) Hc) as [-> | ->]; discriminate.
Qed.
Print Assumptions C63_told_of_the_removal.

(** ** C63 ... but a call that waits for an instance of a task that is started no more waits for ever

    The mark of a task that has used up its countdown stays (C45), and with it the chain: as long as the id is neither removed nor added again
    the call cannot return. *)
Lemma delivered_grows c l lg : (length (delivered c lg) <= length (delivered c (l ++ lg)))%nat.
Proof. induction l as [|o l IH]; [done|]. destruct o; cbn [app delivered]; try done. destruct r; try done. rewrite app_length. lia. Qed.
Theorem C63_waits_for_ever pf t0 t1 σ lb n t u r it ts : exec pf t0 t1 σ lb -> OSend (EInsert t) ∈ log (σ n) -> OLaunch u (t_id t) r it ts ∈ log (σ n) -> (forall k, kept t (log (σ k))) ->
  waiting (t_uid t) (σ n) -> chain_state (σ n) (t_uid t) = Some LIVING -> (forall k, (n <= k)%nat -> lb k <> LNextTry (t_uid t)) ->
  (forall k, (n <= k)%nat -> started (t_id t) (log (σ k)) = delivered (t_uid t) (log (σ n))) ->
  forall k, (n <= k)%nat -> waiting (t_uid t) (σ k) /\ chain_state (σ k) (t_uid t) = Some LIVING /\ ~ enabled pf (fun l => l = LNextRecv (t_uid t)) (σ k).
Proof.
  intros He Hi Hl Hk Hw Hc Ht Hst k Hnk.
  assert (forall k, (n <= k)%nat -> waiting (t_uid t) (σ k) -> chain_state (σ k) (t_uid t) = Some LIVING -> ~ enabled pf (fun l => l = LNextRecv (t_uid t)) (σ k)) as Hblock.
  { clear Hw Hc k Hnk. intros k Hnk (ch & Ec & Hp) Hc Hen. unfold chain_state in Hc. rewrite Ec in Hc. injection Hc as Hc. pose proof (exec_reach _ _ _ _ _ k He) as Hr. destruct (exec_log _ _ _ _ _ n k He Hnk) as [l El].
    assert (OSend (EInsert t) ∈ log (σ k)) as Hi' by (rewrite El; apply elem_of_app; by right).
    pose proof (chain_exact _ _ _ _ _ _ Hr Hi' (Hk k) Ec Hc) as Ex. destruct (flow_reach _ _ _ _ (t_id t) Hr) as (l0 & Ef & _). rewrite (Hst k Hnk), <- Ex, (ch_got _ (chain_reach _ _ _ _ Hr) _ _ Ec) in Ef.
    apply (f_equal length) in Ef. rewrite !app_length in Ef. pose proof (delivered_grows (t_uid t) l (log (σ n))) as Hg. rewrite <- El in Hg.
    apply (recv_enabled pf _ _ _ Ec Hp) in Hen as [Hen|Hen]; [rewrite Hc in Hen; discriminate Hen|]. apply Hen. destruct (c_buf ch); [done|]. cbn [length] in Ef. lia. }
  assert (waiting (t_uid t) (σ k) /\ chain_state (σ k) (t_uid t) = Some LIVING) as [? ?]; [|by auto].
  induction Hnk as [|k Hnk [Hwk Hck]]; [done|]. pose proof (exec_reach _ _ _ _ _ k He) as Hr. pose proof (ex_step _ _ _ _ _ He k) as Hs. destruct (exec_log _ _ _ _ _ n k He Hnk) as [l El].
  assert (lb k <> LNextRecv (t_uid t)) as Hnr. { intros E. apply (Hblock k Hnk Hwk Hck). exists (lb k). split; [done|]. by rewrite Hs. }
  destruct Hwk as (ch & Ec & Hp). split.
  - destruct (waits_step _ _ _ _ _ _ Hs Ec Hp (used_ins _ _ _ _ _ _ Hr Ec)) as [(ch' & H1 & H2 & _)|[[E|E] _]]; [exists ch'; split; [done|lia]|by destruct (Ht k Hnk)|done].
  - refine (kept_living _ _ _ _ _ _ _ u r it ts Hr Hs _ (Hk k) _ _ Hck); [rewrite El; apply elem_of_app; by right..|]. intros E. rewrite E in Hs. cbn [step] in Hs. unfold chain_drop in Hs. rewrite Ec in Hs. by destruct (c_pend ch).
Qed.
Print Assumptions C63_waits_for_ever.
Lemma quiet_launches pf t0 t1 s t : reachable pf t0 t1 s -> quiet t (log s) -> forall u r it ts, OLaunch u (t_id t) r it ts ∈ log s -> u = t_uid t.
Proof.
  intros Hr Hq u r it ts Hl. destruct (launch_sub _ _ _ _ _ _ _ _ _ Hr Hl) as (t' & (e & He & Hs) & <- & Ei). destruct (Hq e He) as [->| ->].
  - by destruct Hs as [->|[->| ->]].
  - by destruct Hs as [E|[E|E]]; try discriminate E; injection E as ->.
  - by destruct Hs as [E|[E|E]]; try discriminate E; injection E as ->.
Qed.
Lemma started_starts i u lg : (forall v r it ts, OLaunch v i r it ts ∈ lg -> v = u) -> N.of_nat (length (started i lg)) <= starts u lg.
Proof.
  induction lg as [|o lg IH]; intros H; [done|]. assert (N.of_nat (length (started i lg)) <= starts u lg) as Hx. { apply IH. intros v r it ts Hin. eapply H. right. exact Hin. }
  destruct o; cbn [started starts]; try done. rewrite app_length. destruct (tid =? i) eqn:E; cbn [length]; [|destruct (uid =? u); lia].
  apply N.eqb_eq in E. subst tid. rewrite (H uid rec it ts) by left. rewrite N.eqb_refl. lia.
Qed.
Lemma started_grows i l lg : exists x, started i (l ++ lg) = started i lg ++ x.
Proof. induction l as [|o l [x IH]]; [exists []; by rewrite app_nil_r|]. destruct o; cbn [app started]; eauto. rewrite IH, <- app_assoc. eauto. Qed.
(** In particular if the task has used up its countdown. *)
Theorem C63_used_up_waits_for_ever pf t0 t1 σ lb n t c : exec pf t0 t1 σ lb -> OSend (EInsert t) ∈ log (σ n) -> (forall k, quiet t (log (σ k))) -> count (t_freq t) = Some c -> 1 <= c ->
  N.of_nat (length (delivered (t_uid t) (log (σ n)))) = c -> waiting (t_uid t) (σ n) -> chain_state (σ n) (t_uid t) = Some LIVING -> (forall k, (n <= k)%nat -> lb k <> LNextTry (t_uid t)) ->
  forall k, (n <= k)%nat -> waiting (t_uid t) (σ k) /\ chain_state (σ k) (t_uid t) = Some LIVING /\ ~ enabled pf (fun l => l = LNextRecv (t_uid t)) (σ k).
Proof.
  intros He Hi Hq Hc H1 Hd Hw Hl Ht. assert (forall k, (n <= k)%nat -> started (t_id t) (log (σ k)) = delivered (t_uid t) (log (σ n))) as Hst.
  { intros k Hk. pose proof (exec_reach _ _ _ _ _ k He) as Hr. pose proof (exec_reach _ _ _ _ _ n He) as Hrn. destruct Hw as (ch & Ec & _). unfold chain_state in Hl. rewrite Ec in Hl. injection Hl as Hl.
    destruct (C31_none_missed _ _ _ _ _ _ Hrn Hi (quiet_kept _ _ (Hq n)) Ec Hl) as [x Ex]. destruct (exec_log _ _ _ _ _ n k He Hk) as [l El]. destruct (started_grows (t_id t) l (log (σ n))) as [y Ey].
    rewrite <- El in Ey. rewrite Ex, <- app_assoc in Ey. rewrite Ey.
    pose proof (started_starts _ _ _ (quiet_launches _ _ _ _ _ Hr (Hq k))) as Hb. assert (submitted t (log (σ k))) as Hsub. { exists (EInsert t). split; [rewrite El; apply elem_of_app; by right|right; by left]. }
    pose proof (C04_at_most_n_starts _ _ _ _ _ c Hr Hsub Hc H1) as Hle.
    rewrite Ey, app_length in Hb. destruct (x ++ y); [by rewrite app_nil_r|cbn [length] in Hb; lia]. }
  assert (exists u r it ts, OLaunch u (t_id t) r it ts ∈ log (σ n)) as (u & r & it & ts & Hx).
  { clear -H1 Hd Hst. specialize (Hst n (le_n _)). rewrite <- Hst in Hd. clear Hst. induction (log (σ n)) as [|o lg IH]; [cbn in Hd; lia|].
    destruct o; cbn [started] in Hd; try (destruct (IH Hd) as (uz & rz & iz & tz & H); exists uz, rz, iz, tz; by right).
    destruct (tid =? t_id t) eqn:E; [apply N.eqb_eq in E; subst tid; eexists _, _, _, _; left|]. rewrite app_nil_r in Hd. destruct (IH Hd) as (uz & rz & iz & tz & H); exists uz, rz, iz, tz; by right. }
  exact (C63_waits_for_ever _ _ _ _ _ n t u r it ts He Hi Hx (fun k => quiet_kept _ _ (Hq k)) Hw Hl Ht Hst).
Qed.
Print Assumptions C63_used_up_waits_for_ever.

(** So this is false: a call that waits returns once the task has been started as often as it ever will and all its instances have ended. *)
Definition C63_waiting_returns : Prop := forall t0 t1 σ lb n t c, calm_exec t0 t1 σ lb -> weakly_fair Release by_handler σ lb -> strongly_fair Release by_scheduler σ lb -> weakly_fair Release (fun l => l = LNextRecv (t_uid t)) σ lb ->
  OSend (EInsert t) ∈ log (σ n) -> (forall k, quiet t (log (σ k))) -> waiting (t_uid t) (σ n) -> count (t_freq t) = Some c -> starts (t_uid t) (log (σ n)) = c -> running (t_id t) (log (σ n)) = [] -> queue (σ n) = [] ->
  exists m, (n <= m)%nat /\ answered (t_uid t) (σ n) (σ m).
Lemma inner_answers pf lb s s' c : step pf lb s = Some s' -> inner lb -> answers c (log s') = answers c (log s).
Proof.
  intros Hs Hl. step_inv Hs; try (by destruct Hl); inst_shape; fsimpl; rewrite ?answers_inst by done; try done.
  all: destruct (hpub s); try destruct ok; done.
Qed.
Definition used_up_acts : list act := [Do (LInsert (ntimes 1 11 1 5 100)); Handle; Ticks 7; Handle; Do (LNextCheck 1); Do (LNextTry 1); Do (LFinish 0 106 None); Handle; Do (LNextCheck 1)].
Definition waitb (c : N) (s : sys) : bool := match chains s !! c with Some ch => negb (Nat.eqb (c_pend ch) 0) && (c_state ch =? LIVING) | None => false end.
Lemma waitb_ok c s : waitb c s = true -> waiting c s /\ chain_state s c = Some LIVING.
Proof.
  unfold waitb, waiting, chain_state. intros H. destruct (chains s !! c) as [ch|]; [|discriminate H]. apply andb_true_iff in H as [H1 H2]. apply N.eqb_eq in H2. cbn. rewrite H2. split; [|done].
  exists ch. split; [done|]. intros E. by rewrite E in H1.
Qed.
(** A scenario without a stop of the timer and without a dying thread. *)
Lemma calm_scen t0 t1 acts (P : sys -> bool) : (forall lb, Do lb ∈ acts -> calm lb) -> after Release t0 t1 acts P = true ->
  exists s, reachable_with calm Release t0 t1 s /\ reachable Release t0 t1 s /\ P s = true /\ forall t, Do (LInsert t) ∈ acts -> submitted t (log s).
Proof.
  intros Hc H. unfold after in H. rewrite init0_eq in H. destruct (play Release acts (init t0 t1)) as [s|] eqn:E; [|discriminate H]. exists s. split_and!; [|exact (play_reach _ _ _ _ _ E)|exact H|].
  - refine (play_reaches _ Release acts _ s _ Hc E). split; [intros ch r n|]; split; discriminate.
  - intros t Ht. exact (play_submitted Release acts _ s _ t E Ht (or_intror (or_introl eq_refl))).
Qed.
Ltac calm_acts acts := let lb := fresh in let Hlb := fresh in intros lb Hlb; unfold acts in Hlb; rewrite !elem_of_cons, elem_of_nil in Hlb; repeat destruct Hlb as [Hlb|Hlb]; try discriminate Hlb; try (injection Hlb as ->; split; discriminate); destruct Hlb.
Lemma inner_calm lb : inner lb -> calm lb.
Proof. intros H. split; intros ->; exact H. Qed.
Theorem C63_waiting_returns_refuted : ~ C63_waiting_returns.
Proof.
  intros H. set (t := ntimes 1 11 1 5 100).
  destruct (calm_scen 100 100 used_up_acts (fun s => quietb t (log s) && insb 1 (log s) && waitb 1 s && (starts 1 (log s) =? 1) && bool_decide (running 11 (log s) = []) && bool_decide (delivered 1 (log s) = [0%Z]) && match queue s with [] => true | _ => false end))
    as (s & Hcr & Hr & HP & Hs); [calm_acts used_up_acts|vm_compute; reflexivity|]. specialize (Hs t ltac:(left)).
  apply andb_true_iff in HP as [HP H6]. apply andb_true_iff in HP as [HP H5]. apply andb_true_iff in HP as [HP H4]. apply andb_true_iff in HP as [HP H3]. apply andb_true_iff in HP as [HP H2]. apply andb_true_iff in HP as [Hq H1].
  apply (quietb_ok _ _ _ _ _ Hr Hs) in Hq.
  apply (insb_ok _ _ _ _ _ Hr Hs) in H1. apply waitb_ok in H2 as [H2 H2']. apply N.eqb_eq in H3. apply bool_decide_eq_true in H4, H5. assert (queue s = []) as H6' by (by destruct (queue s)). clear H6.
  destruct (C56_fair_executions_exist Release 100 100 (fun n => 101 + N.of_nat n) s t Hr Hq) as (σ & lb & E & He & F1 & F2 & _ & _ & Hin & Hqs).
  rewrite <- E in *.
  assert (forall k, inner (lb k)) as Hinn. { intros k. specialize (Hin k). by destruct (lb k). }
  assert (forall k, waiting 1 (σ k) /\ chain_state (σ k) 1 = Some LIVING /\ ~ enabled Release (fun l => l = LNextRecv 1) (σ k)) as Hst.
  { intros k. refine (C63_used_up_waits_for_ever _ _ _ _ _ 0 t 1 He H1 Hqs eq_refl ltac:(lia) _ H2 H2' _ k ltac:(lia)); [change (t_uid t) with 1; by rewrite H5|]. intros j _ Ej. specialize (Hinn j). by rewrite Ej in Hinn. }
  assert (forall k, answers 1 (log (σ k)) = answers 1 (log (σ 0%nat))) as Ha.
  { induction k as [|k IH]; [done|]. rewrite <- IH. eapply inner_answers; [apply (ex_step _ _ _ _ _ He)|apply Hinn]. }
  assert (calm_exec 100 100 σ lb) as Hce. { split; [exact Hcr|apply He|intros k; apply inner_calm, Hinn]. }
  destruct (H 100 100 σ lb 0%nat t 1 Hce F1 F2 ltac:(intros j; exists j; split; [done|right; apply Hst]) H1 Hqs H2 eq_refl H3 H4 H6') as (m & _ & (a & l & Hx)).
  change (t_uid t) with 1 in Hx. rewrite Ha in Hx. apply (f_equal length) in Hx. cbn [length] in Hx. rewrite app_length in Hx. lia.
Qed.
Print Assumptions C63_waiting_returns_refuted.

(** ** C63 Without exceptions in calm executions *)
Theorem C63_calm_gets_the_instance t0 t1 σ lb n t hb : calm_exec t0 t1 σ lb -> weakly_fair Release by_handler σ lb -> weakly_fair Release (fun l => l = LNextRecv (t_uid t)) σ lb ->
  waiting (t_uid t) (σ n) -> OSend (EInsert t) ∈ log (σ n) -> (forall k, kept t (log (σ k))) -> OSend (EAppend (t_id t) hb) ∈ log (σ n) -> hb_rec hb ∉ delivered (t_uid t) (log (σ n)) ->
  exists m, (n <= m)%nat /\ answered (t_uid t) (σ n) (σ m).
Proof.
  intros Hc Hf Hw H1 H2 H3 H4 H5. destruct (C63_gets_the_instance _ _ _ _ _ n t hb (calm_is_exec _ _ _ _ Hc) Hf Hw H1 H2 H3 H4 H5) as (m & Hm & Hx). exists m. split; [done|].
  destruct (calm_going _ _ _ (calm_reach _ _ _ _ m Hc)) as (_ & _ & ?). naive_solver.
Qed.
Print Assumptions C63_calm_gets_the_instance.
Theorem C63_calm_told_of_the_removal t0 t1 σ lb n t l1 l2 : calm_exec t0 t1 σ lb -> weakly_fair Release by_handler σ lb -> weakly_fair Release (fun l => l = LNextRecv (t_uid t)) σ lb ->
  sends (log (σ n)) = l1 ++ ERemove (t_id t) :: l2 -> EInsert t ∈ l2 ->
  exists m, (n <= m)%nat /\ forall k, (m <= k)%nat -> exists ch, chains (σ k) !! t_uid t = Some ch /\ c_state ch <> LIVING /\ c_pend ch = O.
Proof.
  intros Hc Hf Hw H1 H2. destruct (C63_told_of_the_removal _ _ _ _ _ n t l1 l2 (calm_is_exec _ _ _ _ Hc) Hf Hw H1 H2) as (m & Hm & Hx). exists m. split; [done|].
  destruct (calm_going _ _ _ (calm_reach _ _ _ _ m Hc)) as (_ & _ & ?). naive_solver.
Qed.
Print Assumptions C63_calm_told_of_the_removal.

(** ** C63 Expired does not mean that everything was delivered: the state is looked at before the instances, so those not yet taken when the task is removed cannot be got any more. *)
Definition C63_expired_has_delivered_all : Prop := forall pf t0 t1 s t, reachable pf t0 t1 s -> OSend (EInsert t) ∈ log s -> ONext (t_uid t) NExpired ∈ log s -> delivered (t_uid t) (log s) = Chain.taken (t_id t) (log s).
Definition expired_acts : list act := [Do (LInsert (every 1 11 5 100)); Handle; Ticks 7; Handle; Do (LRemove 11); Handle; Do (LNextCheck 1)].
Theorem C63_expired_has_delivered_all_refuted : ~ C63_expired_has_delivered_all.
Proof.
  intros H. set (t := every 1 11 5 100).
  destruct (calm_scen 100 100 expired_acts (fun s => insb 1 (log s) && inb (ONext 1 NExpired) (log s) && bool_decide (delivered 1 (log s) = []) && bool_decide (Chain.taken 11 (log s) = [0%Z])))
    as (s & _ & Hr & HP & Hs); [calm_acts expired_acts|vm_compute; reflexivity|]. specialize (Hs t ltac:(left)).
  apply andb_true_iff in HP as [HP H4]. apply andb_true_iff in HP as [HP H3]. apply andb_true_iff in HP as [H1 H2]. apply (insb_ok _ _ _ _ _ Hr Hs) in H1. apply inb_ok in H2. apply bool_decide_eq_true in H3, H4.
  pose proof (H _ _ _ _ t Hr H1 H2) as E. change (t_uid t) with 1 in E. change (t_id t) with 11 in E. rewrite H3, H4 in E. discriminate E.
Qed.
Print Assumptions C63_expired_has_delivered_all_refuted.

(** ** The hypotheses *)
(** Two calls were waiting and two instances on their way when the task was removed: one call got an instance, the next instance is for the other, and a third call is told that the chain has expired. *)
Definition final_acts : list act := [Do (LInsert (every 1 11 5 100)); Handle; Ticks 13; Do (LNextCheck 1); Do (LNextCheck 1); Do (LNextCheck 1); Handle; Do (LRemove 11); Handle; Do (LNextRecv 1); Do (LNextCheck 1)].
Example C63_final_example : exists s ch, reachable Release 100 100 s /\ ONext 1 NExpired ∈ log s /\ chains s !! 1 = Some ch /\ c_state ch = ABANDONED /\ c_buf ch = [1%Z] /\ c_pend ch = 2%nat /\
  exists s', run Release [LNextRecv 1; LNextRecv 1] s = Some s' /\ ONext 1 NClosed ∈ log s' /\ delivered 1 (log s') = [0%Z; 1%Z] /\ exists ch', chains s' !! 1 = Some ch' /\ c_pend ch' = O.
Proof.
  destruct (after_reach Release 100 100 final_acts (fun s => inb (ONext 1 NExpired) (log s) && match chains s !! 1 with Some ch => (c_state ch =? ABANDONED) && bool_decide (c_buf ch = [1%Z]) && Nat.eqb (c_pend ch) 2 | None => false end &&
    match run Release [LNextRecv 1; LNextRecv 1] s with Some s' => inb (ONext 1 NClosed) (log s') && bool_decide (delivered 1 (log s') = [0%Z; 1%Z]) && match chains s' !! 1 with Some ch => Nat.eqb (c_pend ch) 0 | None => false end | None => false end))
    as (s & Hr & HP); [vm_compute; reflexivity|].
  apply andb_true_iff in HP as [HP H3]. apply andb_true_iff in HP as [H1 H2]. destruct (chains s !! 1) as [ch|] eqn:Ec; [|discriminate H2]. exists s, ch. apply andb_true_iff in H2 as [H2 H5]. apply andb_true_iff in H2 as [H2 H4].
  split; [done|]. split; [by apply inb_ok|]. split; [done|]. split; [by apply N.eqb_eq|]. split; [by apply bool_decide_eq_true in H4|]. split; [by apply Nat.eqb_eq|].
  destruct (run Release [LNextRecv 1; LNextRecv 1] s) as [s'|]; [|discriminate H3]. exists s'. split; [done|]. apply andb_true_iff in H3 as [H3 H7]. apply andb_true_iff in H3 as [H3 H6].
  split; [by apply inb_ok|]. split; [by apply bool_decide_eq_true in H6|]. destruct (chains s' !! 1) as [ch'|]; [|discriminate H7]. exists ch'. split; [done|]. by apply Nat.eqb_eq.
Qed.
(** A call finds nothing while the second instance is on its way. *)
Definition empty_acts : list act := [Do (LInsert (every 1 11 5 100)); Handle; Ticks 7; Handle; Do (LNextCheck 1); Do (LNextTry 1); Ticks 6; Do (LNextCheck 1)].
Example C63_no_data_example : exists s s', reachable Release 100 100 s /\ OSend (EInsert (every 1 11 5 100)) ∈ log s /\ kept (every 1 11 5 100) (log s) /\ step Release (LNextTry 1) s = Some s' /\ log s' = ONext 1 NEmpty :: log s /\
  started 11 (log s') = [0%Z; 1%Z] /\ delivered 1 (log s') = [0%Z].
Proof.
  destruct (scen_kept Release 100 100 empty_acts (every 1 11 5 100) (fun s => insb 1 (log s) && match step Release (LNextTry 1) s with Some s' => match log s' with ONext 1 NEmpty :: l => Nat.eqb (length l) (length (log s)) | _ => false end && bool_decide (started 11 (log s') = [0%Z; 1%Z]) && bool_decide (delivered 1 (log s') = [0%Z]) | None => false end))
    as (s & Hr & Hs & Hk & HP); [right; left|vm_compute; reflexivity|]. apply andb_true_iff in HP as [H1 H2]. exists s. apply (insb_ok _ _ _ _ _ Hr Hs) in H1.
  destruct (step Release (LNextTry 1) s) as [s'|] eqn:Es; [|discriminate H2]. exists s'. apply andb_true_iff in H2 as [H2 H4]. apply andb_true_iff in H2 as [H2 H3]. apply bool_decide_eq_true in H3, H4. split_and!; try done.
  destruct (step_log _ _ _ _ Es) as [l El]. rewrite El in H2 |- *. destruct l as [|o l].
  - exfalso. cbn [app] in H2. destruct (log s) as [|[]]; try discriminate H2. destruct c; try discriminate H2. destruct p; try discriminate H2. destruct r; try discriminate H2. apply Nat.eqb_eq in H2. cbn [length] in H2. lia.
  - cbn [app] in H2 |- *. destruct o; try discriminate H2. destruct c; try discriminate H2. destruct p; try discriminate H2. destruct r; try discriminate H2. apply Nat.eqb_eq in H2. rewrite app_length in H2. destruct l; [done|cbn [length] in H2; lia].
Qed.
Lemma inner_idle pf lb s s' c : step pf lb s = Some s' -> inner lb -> ~ waiting c s -> ~ waiting c s'.
Proof.
  intros Hs Hl Hw (ch & Hc & Hp). apply Hw. unfold waiting. revert Hc. step_inv Hs; try (by destruct Hl); inst_cases; isimpl; intros Hc; try (by exists ch).
  all: unfold drop_mark, abandon_opt in *; isimpl; revert Hc; repeat case_match; intros Hc; try (by exists ch).
  all: match type of Hc with context [alter _ ?k (chains _) !! ?c] => destruct (decide (k = c)) as [->|]; [rewrite lookup_alter in Hc; destruct (chains s !! c) as [x|] eqn:Ex; [|discriminate Hc]; injection Hc as <-; by exists x|rewrite lookup_alter_ne in Hc by done; by exists ch] end.
Qed.
Lemma idle_fair pf t0 t1 σ lb n c : exec pf t0 t1 σ lb -> (forall k, (n <= k)%nat -> inner (lb k)) -> ~ waiting c (σ n) -> weakly_fair pf (fun l => l = LNextRecv c) σ lb.
Proof.
  intros He Hin Hw k. exists (n + k)%nat. split; [lia|]. right. intros (l & -> & [x Hx]). assert (~ waiting c (σ (n + k)%nat)) as Hn.
  { clear Hx x. induction k as [|k IH]; [by rewrite Nat.add_0_r|]. rewrite Nat.add_succ_r. eapply inner_idle; [apply (ex_step _ _ _ _ _ He)|apply Hin; lia|done]. }
  apply Hn. cbn [step] in Hx. unfold next_take in Hx. destruct (chains (σ (n + k)%nat) !! c) as [ch|] eqn:Ec; [|discriminate Hx]. exists ch. split; [done|]. intros E. rewrite E in Hx. discriminate Hx.
Qed.
Lemma waitb_no c s : match chains s !! c with Some ch => Nat.eqb (c_pend ch) 0 | None => true end = true -> ~ waiting c s.
Proof. intros H (ch & Hc & Hp). rewrite Hc in H. by apply Nat.eqb_eq in H. Qed.
Lemma calm_from t0 t1 ls s s' : reachable_with calm Release t0 t1 s -> reachable Release t0 t1 s -> (forall lb, lb ∈ ls -> calm lb) -> run Release ls s = Some s' ->
  exists σ lb, σ 0%nat = s /\ σ (length ls) = s' /\ calm_exec t0 t1 σ lb /\ weakly_fair Release by_handler σ lb /\ forall n, (length ls <= n)%nat -> inner (lb n).
Proof.
  intros Hc Hr Hls Hrun. destruct (fair_from Release t0 t1 ls s s' Hr Hrun) as (σ & lb & E0 & E1 & He & Hf & H1 & H2). exists σ, lb. split_and!; try done. split; [by rewrite E0|apply He|].
  intros n. destruct (le_lt_dec (length ls) n) as [Hn|Hn]; [by apply inner_calm, H2|by apply Hls, H1].
Qed.
Definition gets_acts : list act := [Do (LInsert (every 1 11 5 100)); Handle; Ticks 7; Do (LNextCheck 1)].
Definition sentb (i : N) (r : Z) (lg : list obs) : bool := existsb (fun o => match o with OSend (EAppend j hb) => (j =? i) && (hb_rec hb =? r)%Z | _ => false end) lg.
Lemma sentb_ok i r lg : sentb i r lg = true -> exists hb, OSend (EAppend i hb) ∈ lg /\ hb_rec hb = r.
Proof.
  intros H. apply existsb_exists in H as (o & Ho & E). apply elem_of_list_In in Ho. destruct o; try discriminate E. destruct e; try discriminate E. apply andb_true_iff in E as [E1 E2]. apply N.eqb_eq in E1. apply Z.eqb_eq in E2. subst. eauto.
Qed.
Example C63_gets_example : exists σ lb hb, calm_exec 100 100 σ lb /\ weakly_fair Release by_handler σ lb /\ weakly_fair Release (fun l => l = LNextRecv 1) σ lb /\ waiting 1 (σ 0%nat) /\
  OSend (EInsert (every 1 11 5 100)) ∈ log (σ 0%nat) /\ (forall k, kept (every 1 11 5 100) (log (σ k))) /\ OSend (EAppend 11 hb) ∈ log (σ 0%nat) /\ hb_rec hb ∉ delivered 1 (log (σ 0%nat)).
Proof.
  set (t := every 1 11 5 100).
  destruct (calm_scen 100 100 gets_acts (fun s => insb 1 (log s) && waitb 1 s && sentb 11 0 (log s) && bool_decide (delivered 1 (log s) = []) &&
    match run Release [LHandler; LNextRecv 1] s with Some s' => keptb t (log s') && match chains s' !! 1 with Some ch => Nat.eqb (c_pend ch) 0 | None => true end | None => false end))
    as (s & Hcr & Hr & HP & Hs); [calm_acts gets_acts|vm_compute; reflexivity|]. specialize (Hs t ltac:(left)).
  apply andb_true_iff in HP as [HP H5]. apply andb_true_iff in HP as [HP H4]. apply andb_true_iff in HP as [HP H3]. apply andb_true_iff in HP as [H1 H2].
  apply (insb_ok _ _ _ _ _ Hr Hs) in H1. apply waitb_ok in H2 as [H2 _]. apply sentb_ok in H3 as (hb & H3 & Eh). apply bool_decide_eq_true in H4. destruct (run Release [LHandler; LNextRecv 1] s) as [s'|] eqn:Er; [|discriminate H5]. apply andb_true_iff in H5 as [H5 H6].
  destruct (calm_from 100 100 [LHandler; LNextRecv 1] s s' Hcr Hr ltac:(intros lb Hlb; rewrite !elem_of_cons, elem_of_nil in Hlb; destruct Hlb as [Hlb|[Hlb|[]]]; rewrite Hlb; split; discriminate) Er) as (σ & lb & E0 & E1 & Hc & Hf & Hin).
  change (length [LHandler; LNextRecv 1]) with 2%nat in *. pose proof (calm_is_exec _ _ _ _ Hc) as He. exists σ, lb, hb. rewrite E0. split_and!; try done.
  - eapply (idle_fair _ _ _ _ _ 2); [exact He|exact Hin|]. rewrite E1. by apply waitb_no.
  - assert (kept t (log (σ 2%nat))) as Hk2. { rewrite E1. refine (keptb_ok _ _ _ _ _ (reach_run _ _ _ _ _ _ Hr Er) _ H5). destruct (run_log _ _ _ _ Er) as [l El]. destruct Hs as (e & He1 & Hsb). exists e. split; [rewrite El; apply elem_of_app; by right|done]. }
    intros k. destruct (le_lt_dec 2 k) as [Hk|Hk].
    + clear E1. induction Hk as [|k Hk IH]; [done|]. eapply inner_kept; [exact (exec_reach _ _ _ _ _ k He)|apply (ex_step _ _ _ _ _ He)|by apply Hin|done].
    + destruct (exec_log _ _ _ _ _ k 2%nat He ltac:(lia)) as [l El]. rewrite El in Hk2. intros e Hx Hm. apply Hk2; [|done]. apply elem_of_app. by right.
  - rewrite H4. apply not_elem_of_nil.
Qed.
(** Two calls wait when the task is removed; one of them gets the instance. *)
Definition told_acts : list act := [Do (LInsert (every 1 11 5 100)); Handle; Ticks 7; Do (LNextCheck 1); Do (LNextCheck 1); Do (LRemove 11)].
Definition told_ls : list label := [LHandler; LHandler; LHandler; LHandler; LNextRecv 1; LNextRecv 1].
Example C63_told_example : exists σ lb l1 l2, calm_exec 100 100 σ lb /\ weakly_fair Release by_handler σ lb /\ weakly_fair Release (fun l => l = LNextRecv 1) σ lb /\ waiting 1 (σ 0%nat) /\
  sends (log (σ 0%nat)) = l1 ++ ERemove 11 :: l2 /\ EInsert (every 1 11 5 100) ∈ l2.
Proof.
  set (t := every 1 11 5 100).
  destruct (calm_scen 100 100 told_acts (fun s => waitb 1 s && insb 1 (log s) && match sends (log s) with ERemove 11 :: _ => true | _ => false end &&
    match run Release told_ls s with Some s' => match chains s' !! 1 with Some ch => Nat.eqb (c_pend ch) 0 | None => true end | None => false end))
    as (s & Hcr & Hr & HP & Hs); [calm_acts told_acts|vm_compute; reflexivity|]. specialize (Hs t ltac:(left)).
  apply andb_true_iff in HP as [HP H5]. apply andb_true_iff in HP as [HP H3]. apply andb_true_iff in HP as [H1 H2].
  apply waitb_ok in H1 as [H1 _]. destruct (run Release told_ls s) as [s'|] eqn:Er; [|discriminate H5].
  destruct (calm_from 100 100 told_ls s s' Hcr Hr ltac:(intros lb Hlb; unfold told_ls in Hlb; rewrite !elem_of_cons, elem_of_nil in Hlb; repeat destruct Hlb as [Hlb|Hlb]; first [rewrite Hlb; split; discriminate|destruct Hlb]) Er) as (σ & lb & E0 & E1 & Hc & Hf & Hin).
  change (length told_ls) with 6%nat in *. pose proof (calm_is_exec _ _ _ _ Hc) as He.
  assert (exists l2, sends (log s) = ERemove 11 :: l2 /\ EInsert t ∈ l2) as (l2 & El & Hi).
  { assert (OSend (EInsert t) ∈ log s) as Hx. { by apply (insb_ok _ _ _ _ _ Hr Hs). }
    apply elem_sends in Hx. destruct (sends (log s)) as [|e l2]; [discriminate H3|]. destruct e; try discriminate H3. repeat (match goal with x : N |- _ => destruct x; try discriminate H3 | x : positive |- _ => destruct x; try discriminate H3 end).
    exists l2. split; [done|]. apply elem_of_cons in Hx as [Hx|Hx]; [discriminate Hx|done]. }
  exists σ, lb, [], l2. rewrite E0. split_and!; try done. eapply (idle_fair _ _ _ _ _ 6); [exact He|exact Hin|]. rewrite E1. by apply waitb_no.
Qed.
