(** The chain of instances of an inserted task. *)
From Verif Require Import Tactics Inv Own Life Count Quiet Cases Inst Ended.

(** ** Specification *)
(** The instances of the id [i], in the order they were started. *)
Fixpoint started (i : N) (lg : list obs) : list Z :=
  match lg with
  | [] => []
  | OLaunch _ j r _ _ :: l => started i l ++ (if j =? i then [r] else [])
  | _ :: l => started i l
  end.
(** What the calls of next* on the chain [c] returned, in order. *)
Fixpoint delivered (c : N) (lg : list obs) : list Z :=
  match lg with
  | [] => []
  | ONext c' (NGot r) :: l => delivered c l ++ (if c' =? c then [r] else [])
  | _ :: l => delivered c l
  end.

(** ** From the start to the event handler *)
Definition app_of (i : N) (e : event) : list Z := match e with EAppend j hb => if j =? i then [hb_rec hb] else [] | _ => [] end.
Fixpoint taken (i : N) (lg : list obs) : list Z :=
  match lg with
  | [] => []
  | OPop e :: l => taken i l ++ app_of i e
  | _ :: l => taken i l
  end.
Definition sending (i : N) (p : timer_pc) : list Z := match p with TSend _ _ t r _ => if t_id t =? i then [r] else [] | _ => [] end.

Lemma started_inst i lg l : Forall inst_obs lg -> started i (lg ++ l) = started i l.
Proof. induction 1 as [|o lg Ho _ IH]; [done|]. by destruct o. Qed.
Lemma taken_inst i lg l : Forall inst_obs lg -> taken i (lg ++ l) = taken i l.
Proof. induction 1 as [|o lg Ho _ IH]; [done|]. by destruct o. Qed.
Lemma delivered_inst c lg l : Forall inst_obs lg -> delivered c (lg ++ l) = delivered c l.
Proof. induction 1 as [|o lg Ho _ IH]; [done|]. by destruct o. Qed.

Definition flow (i : N) (s : sys) : Prop := exists l0, started i (log s) = taken i (log s) ++ (queue s ≫= app_of i) ++ sending i (tpc s) ++ l0 /\ (tpc s <> TDead -> l0 = []).
Lemma flow_step pf lb s s' i : flow i s -> step pf lb s = Some s' -> flow i s'.
Proof.
  unfold flow. intros (l0 & El & Hl0) Hs. revert El Hl0.
  step_inv Hs; inst_shape; fsimpl; cbn [started taken sending app_of]; rewrite ?started_inst, ?taken_inst by done; cbn [started taken app_of]; intros El Hl0.
  all: rewrite ?bind_app; cbn [mbind list_bind app_of app]; rewrite ?app_nil_r, ?app_nil_l; try rewrite <- ?app_assoc; cbn [app].
  all: try (exists l0; split; [exact El|done]).
  all: try (rewrite (Hl0 ltac:(discriminate)) in El; cbn [app] in El; rewrite ?app_nil_r in El; exists []; rewrite ?app_nil_r; split; [|done]; rewrite El; cbn [hb_rec]; by rewrite <- ?app_assoc).
  all: try (destruct (hpub s); try destruct ok; exists l0; (split; [exact El|done])).
  - rewrite (Hl0 ltac:(discriminate)) in El. cbn [app] in El. rewrite app_nil_r in El. exists (if t_id t =? i then [rec0] else []). split; [rewrite El; by rewrite <- app_assoc|done].
  - exists l0. split; [|done]. rewrite <- app_assoc. rewrite El. cbn [mbind list_bind app_of]. by rewrite <- app_assoc.
Qed.
Lemma flow_reach pf t0 t1 s i : reachable pf t0 t1 s -> flow i s.
Proof. revert s. apply reach_ind; [exists []; split; [reflexivity|done]|]. intros. by eapply flow_step. Qed.

(** ** From the event handler to the user *)
(** The task inserted with the chain [c] has the id [i]. *)
Definition ins (c i : N) (lg : list obs) : Prop := exists t, OSend (EInsert t) ∈ lg /\ t_uid t = c /\ t_id t = i.
(** The chain the event handler holds while it adds a task. *)
Definition hchain (p : handler_pc) : option (N * N) :=
  match p with
  | HAdd1 t (Some c) _ _ | HAdd2 t (Some c) _ => Some (t_id t, c)
  | HAdd3 tid (Some c) _ => Some (tid, c)
  | _ => None
  end.
Definition mchain (i c : N) (s : sys) : Prop := exists m l, flags s !! i = Some m /\ m_chain m = Some (c, l).

Lemma hchain_step pf lb s s' i c : step pf lb s = Some s' -> hchain (hpc s') = Some (i, c) -> hchain (hpc s) = Some (i, c) \/ exists t q, queue s = EInsert t :: q /\ t_id t = i /\ t_uid t = c.
Proof.
  intros Hs. step_inv Hs; inst_shape; fsimpl; cbn [hchain]; intros E; try discriminate E; try (by left).
  all: try (right; injection E as <- <-; eauto).
  - left. destruct c0; [|discriminate E]. cbn [t_id set_cylinder_line] in E. by rewrite (proj1 (next_exec_id _ _ _ _ Heqr)) in E.
Qed.
Ltac at_key i := match goal with
  | |- context [<[?k := _]> (flags _) !! _] => destruct (decide (k = i)) as [<-|]; [rewrite lookup_insert|rewrite lookup_insert_ne by done]
  | |- context [delete ?k (flags _) !! _] => destruct (decide (k = i)) as [<-|]; [rewrite lookup_delete|rewrite lookup_delete_ne by done]
  end.
Lemma mchain_step pf lb s s' i c : step pf lb s = Some s' -> mchain i c s' -> mchain i c s \/ exists sl, hpc s = HAdd3 i (Some c) sl.
Proof.
  intros Hs. unfold mchain. step_inv Hs; inst_cases; isimpl; try (by left).
  all: at_key i; [|by left].
  all: intros (mz & lz & E1 & E2); try discriminate E1; injection E1 as <-; try discriminate E2.
  all: try (left; eexists _, _; split; [eassumption|exact E2]).
  all: try (left; eexists _, _; split; [eassumption|]; cbn [m_chain set_m_chain] in E2; injection E2 as <- <-; eassumption).
  destruct c0 as [c0|]; [|discriminate E2]. cbn in E2. injection E2 as <- <-. right. eauto.
Qed.
Definition gone (c : N) (s : sys) : Prop := chain_state s c <> Some LIVING.
Lemma alter_gone cid (M : gmap N chain) : c_state <$> alter (set_c_state ABANDONED) cid M !! cid <> Some LIVING.
Proof. rewrite lookup_alter. destruct (M !! cid); cbn; [|done]. intros E. injection E as E. discriminate E. Qed.
Lemma mchain_keep pf lb s s' i c : step pf lb s = Some s' -> mchain i c s -> mchain i c s' \/ gone c s'.
Proof.
  intros Hs. unfold mchain. step_inv Hs; inst_cases; isimpl; try (by left).
  all: at_key i; [|by left].
  all: intros (mz & lz & E1 & E2); rewrite ?E1 in *; simplify_eq.
  all: try (left; eexists _, _; split; [reflexivity|]; first [exact E2|reflexivity|eassumption]).
  all: right; unfold gone, chain_state, drop_mark; rewrite ?E2; fsimpl; apply alter_gone.
Qed.

(** What a step does to a chain. *)
Inductive chain_kind (pf : profile) (c : N) (lb : label) (s s' : sys) : Prop :=
| ck_none : chains s !! c = None -> chains s' !! c = None -> delivered c (log s') = delivered c (log s) -> chain_kind pf c lb s s'
| ck_same ch ch' : chains s !! c = Some ch -> chains s' !! c = Some ch' -> c_got ch' = c_got ch -> c_buf ch' = c_buf ch ->
    (c_state ch' = c_state ch \/ c_state ch' = DROPPED \/ c_state ch' = ABANDONED) -> (c_state ch = ABANDONED -> c_state ch' <> LIVING) ->
    delivered c (log s') = delivered c (log s) -> chain_kind pf c lb s s'
| ck_push ch ch' i hb q m l : chains s !! c = Some ch -> chains s' !! c = Some ch' -> lb = LHandler -> hpc s = HIdle -> queue s = EAppend i hb :: q ->
    flags s !! i = Some m -> m_chain m = Some (c, l) -> c_state ch <> DROPPED -> c_state ch' = c_state ch -> c_got ch' = c_got ch -> c_buf ch' = c_buf ch ++ [hb_rec hb] ->
    delivered c (log s') = delivered c (log s) -> chain_kind pf c lb s s'
| ck_take ch ch' r : chains s !! c = Some ch -> chains s' !! c = Some ch' -> (lb = LNextTry c \/ lb = LNextRecv c) -> c_state ch' = c_state ch ->
    c_got ch' = c_got ch ++ [r] -> c_buf ch = r :: c_buf ch' -> delivered c (log s') = delivered c (log s) ++ [r] -> chain_kind pf c lb s s'
| ck_new t : lb = LInsert t -> t_uid t = c -> c ∉ used s -> chains s' !! c = Some (Chain LIVING [] [] 0) -> delivered c (log s') = delivered c (log s) -> chain_kind pf c lb s s'.
Lemma ck_idle pf c lb s s' : chains s' !! c = chains s !! c -> delivered c (log s') = delivered c (log s) -> chain_kind pf c lb s s'.
Proof.
  intros E1 E2. destruct (chains s !! c) as [ch|] eqn:E; [|by apply ck_none].
  eapply ck_same; [exact E|exact E1|reflexivity|reflexivity|by left| |exact E2]. intros H. rewrite H. discriminate.
Qed.
Lemma ck_abandon pf c lb s s' co : chains s' = match co with Some cid => alter (set_c_state ABANDONED) cid (chains s) | None => chains s end ->
  delivered c (log s') = delivered c (log s) -> chain_kind pf c lb s s'.
Proof.
  intros E1 E2. destruct co as [cid|]; [|apply ck_idle; [by rewrite E1|done]]. destruct (decide (cid = c)) as [->|Hne]; [|apply ck_idle; [by rewrite E1, lookup_alter_ne|done]].
  destruct (chains s !! c) as [ch|] eqn:E; [|apply ck_none; [done|rewrite E1, lookup_alter, E; done|done]].
  eapply ck_same; [exact E|rewrite E1, lookup_alter, E; reflexivity|reflexivity|reflexivity|by right; right| |exact E2]. discriminate.
Qed.
Lemma chain_kinds pf lb s s' c : step pf lb s = Some s' -> chain_kind pf c lb s s'.
Proof.
  intros Hs. step_inv Hs; inst_cases.
  all: try (apply ck_idle; isimpl; [reflexivity|cbn [delivered]; repeat case_match; reflexivity]).
  all: try (apply ck_idle; isimpl; [reflexivity|rewrite ?complete_log; cbn [delivered]; repeat case_match; reflexivity]).
  all: try (eapply (ck_abandon _ _ _ _ _ (Some _)); isimpl; [reflexivity|cbn [delivered]; repeat case_match; reflexivity]).
  all: try (eapply (ck_abandon _ _ _ _ _ _); unfold drop_mark; isimpl; [reflexivity|destruct (hpub s); try destruct ok; reflexivity]).
  all: try (match goal with |- context [<[?k := _]> (chains _)] => destruct (decide (k = c)) as [Hk|Hne] end;
    [subst c|apply ck_idle; fsimpl; [by rewrite lookup_insert_ne|cbn [delivered]; try done; by rewrite (proj2 (N.eqb_neq _ _) Hne), app_nil_r]]).
  all: try (eapply ck_take; [eassumption|fsimpl; apply lookup_insert|by eauto|done|reflexivity|eassumption|fsimpl; cbn [delivered]; by rewrite N.eqb_refl]).
  all: try (eapply ck_same; [eassumption|fsimpl; apply lookup_insert|done|by rewrite ?Heql|cbn; auto|intros E; cbn; rewrite ?E; discriminate|reflexivity]).
  - apply andb_true_iff in Heqb as [_ Hu]. eapply ck_new; [reflexivity|reflexivity| |fsimpl; apply lookup_insert|reflexivity].
    destruct (bool_decide_reflect (t_uid t ∈ used s)); [discriminate Hu|done].
  - isimpl. destruct (decide (cid = c)) as [->|Hne]; [|apply ck_idle; isimpl; [by rewrite lookup_alter_ne|cbn [delivered]; repeat case_match; reflexivity]].
    destruct (chains s !! c) as [ch|] eqn:Ec; [|apply ck_none; [done|isimpl; by rewrite lookup_alter, Ec|isimpl; repeat case_match; reflexivity]].
    eapply ck_push; [exact Ec|isimpl; rewrite lookup_alter, Ec; reflexivity|reflexivity|eassumption|eassumption|eassumption|eassumption| |reflexivity|reflexivity|reflexivity|isimpl; reflexivity].
    intros E. match goal with H : _ <$> Some ch <> _ |- _ => apply H end. cbn. by rewrite E.
Qed.

Lemma taken_step pf lb s s' i : step pf lb s = Some s' ->
  taken i (log s') = taken i (log s) \/ exists hb q, lb = LHandler /\ hpc s = HIdle /\ queue s = EAppend i hb :: q /\ taken i (log s') = taken i (log s) ++ [hb_rec hb].
Proof.
  intros Hs. step_inv Hs; inst_shape; fsimpl; rewrite ?taken_inst by done; cbn [taken app_of]; rewrite ?app_nil_r.
  all: try (by left).
  all: try (by left; destruct (hpub s); try destruct ok).
  destruct (tid =? i) eqn:E; [|left; by rewrite app_nil_r]. apply N.eqb_eq in E. subst tid. right. eauto 10.
Qed.
Lemma taken_app pf s s' i hb q : step pf LHandler s = Some s' -> hpc s = HIdle -> queue s = EAppend i hb :: q -> taken i (log s') = taken i (log s) ++ [hb_rec hb].
Proof.
  intros Hs Hh Hq. cbn [step] in Hs. unfold handler_step in Hs. rewrite Hh, Hq in Hs. cbn [dispatch] in Hs. injection Hs as <-. inst_shape. fsimpl.
  rewrite taken_inst by done. cbn [taken app_of]. by rewrite N.eqb_refl.
Qed.
Lemma ins_mono pf lb s s' c i : step pf lb s = Some s' -> ins c i (log s) -> ins c i (log s').
Proof. intros Hs (t & H1 & H2). destruct (step_log _ _ _ _ Hs) as [l ->]. exists t. split; [apply elem_of_app; by right|done]. Qed.
Lemma ins_uniq s c i j : cnt_inv s -> ins c i (log s) -> ins c j (log s) -> i = j.
Proof.
  intros Hc (t & H1 & H2 & H3) (t' & H4 & H5 & H6). assert (t = t') as ->; [|congruence].
  apply (ci_uniq s Hc); [eexists; split; [exact H1|right; by left]|eexists; split; [exact H4|right; by left]|congruence].
Qed.

Lemma insert_keep pf lb s s' t : step pf lb s = Some s' -> EInsert t ∈ queue s -> EInsert t ∈ queue s' \/ hchain (hpc s') = Some (t_id t, t_uid t).
Proof.
  intros Hs. step_inv Hs; inst_shape; fsimpl; try (by left).
  all: try (intros Hin; left; apply elem_of_app; by left).
  all: intros [E|Hin]%elem_of_cons; [try discriminate E; injection E as ->; by right|by left].
Qed.
Lemma hchain_keep pf lb s s' i c : step pf lb s = Some s' -> hchain (hpc s) = Some (i, c) -> hchain (hpc s') = Some (i, c) \/ mchain i c s' \/ hpc s' = HDead \/ gone c s'.
Proof.
  intros Hs. step_inv Hs; inst_shape; fsimpl; cbn [hchain]; intros E; try discriminate E; try (by left); try (by right; right; left).
  - destruct c0 as [c0|]; [|discriminate E]. injection E as <- <-. left. cbn [t_id set_cylinder_line]. by rewrite (proj1 (next_exec_id _ _ _ _ Heqr)).
  - destruct c0 as [c0|]; [|discriminate E]. injection E as <- <-. right; right; right. unfold gone, chain_state, abandon_opt. fsimpl. apply alter_gone.
  - destruct c0 as [c0|]; [|discriminate E]. injection E as <- <-. right; left. unfold mchain. fsimpl. rewrite lookup_insert. cbn. eauto.
Qed.
Lemma hdead_keep pf lb s s' : step pf lb s = Some s' -> hpc s = HDead -> hpc s' = HDead.
Proof. intros Hs. step_inv Hs; inst_shape; fsimpl; congruence. Qed.
Record chain_inv (s : sys) : Prop := {
  ch_used : forall c ch, chains s !! c = Some ch -> exists i, ins c i (log s);
  ch_mark : forall i c, mchain i c s -> ins c i (log s);
  ch_hand : forall i c, hchain (hpc s) = Some (i, c) -> ins c i (log s);
  ch_none : forall c, chains s !! c = None -> delivered c (log s) = [];
  ch_got : forall c ch, chains s !! c = Some ch -> c_got ch = delivered c (log s);
  ch_sub : forall c ch i, chains s !! c = Some ch -> ins c i (log s) -> sublist (c_got ch ++ c_buf ch) (taken i (log s));
  ch_live : forall c ch i, chains s !! c = Some ch -> c_state ch = LIVING -> ins c i (log s) ->
    (exists t, EInsert t ∈ queue s /\ t_uid t = c) \/ hchain (hpc s) = Some (i, c) \/ mchain i c s \/ hpc s = HDead
}.
Lemma chain_step pf lb s s' : cnt_inv s -> cnt_inv s' -> src_inv s -> chain_inv s -> step pf lb s = Some s' -> chain_inv s'.
Proof.
  intros Hc Hc' Hsrc [Hu Hm Hh Hn Hg Hsub Hlive] Hs. pose proof (fun c => chain_kinds _ _ _ _ c Hs) as Hk. split.
  - intros c ch E. destruct (Hk c) as [K1 K2 _|x y K1 K2 _ _ _ _ _|x y i hb q m l K1 K2 _ _ _ _ _ _ _ _ _ _|x y r K1 K2 _ _ _ _ _|t -> K1 K2 K3 _]; try congruence.
    1-3: destruct (Hu _ _ K1) as [i0 Hi]; exists i0; by eapply ins_mono.
    exists (t_id t), t. split; [|done]. cbn [step] in Hs. unfold submit_insert, submit, option_map in Hs. destruct (_ && _); [|discriminate Hs]. injection Hs as <-. fsimpl. left.
  - intros i c Hx. destruct (mchain_step _ _ _ _ _ _ Hs Hx) as [H|[sl H]]; (eapply ins_mono; [exact Hs|]); [by apply Hm|]. apply Hh. by rewrite H.
  - intros i c Hx. destruct (hchain_step _ _ _ _ _ _ Hs Hx) as [H|(t & q & Hq & H1 & H2)]; (eapply ins_mono; [exact Hs|]); [by apply Hh|].
    exists t. split; [|done]. apply (proj1 Hsrc). rewrite Hq. left.
  - intros c E. destruct (Hk c) as [K1 K2 K3|x y K1 K2 _ _ _ _ _|x y i hb q m l K1 K2 _ _ _ _ _ _ _ _ _ _|x y r K1 K2 _ _ _ _ _|t _ K1 K2 K3 _]; try congruence. rewrite K3. by apply Hn.
  - intros c ch E. destruct (Hk c) as [K1 K2 _|x y K1 K2 K3 _ _ _ K4|x y i hb q m l K1 K2 _ _ _ _ _ _ _ K3 _ K4|x y r K1 K2 _ _ K3 _ K4|t _ K1 K2 K3 K4]; try congruence.
    + assert (ch = y) as -> by congruence. rewrite K3, K4. by apply Hg.
    + assert (ch = y) as -> by congruence. rewrite K3, K4. by apply Hg.
    + assert (ch = y) as -> by congruence. rewrite K3, K4. f_equal. by apply Hg.
    + assert (ch = Chain LIVING [] [] 0) as -> by congruence. rewrite K4. cbn [c_got]. destruct (chains s !! c) as [x|] eqn:Ex; [|symmetry; by apply Hn].
      destruct (Hu _ _ Ex) as (i & t' & H1 & H2 & _). destruct K2. rewrite <- H2. apply (ci_used s Hc). eexists. split; [exact H1|right; by left].
  - intros c ch i E Hi. destruct (Hk c) as [K1 K2 _|x y K1 K2 K3 K4 _ _ _|x y j hb q m l K1 K2 -> K5 K6 K7 K8 _ _ K3 K4 _|x y r K1 K2 _ _ K3 K4 _|t -> K1 K2 K3 K4]; try congruence.
    4: { assert (ch = Chain LIVING [] [] 0) as -> by congruence. apply sublist_nil_l. }
    all: assert (ch = y) as -> by congruence.
    all: assert (ins c i (log s)) as Hi0 by (destruct (Hu _ _ K1) as [i0 Hi0]; by rewrite (ins_uniq s' c i i0 Hc' Hi (ins_mono _ _ _ _ _ _ Hs Hi0))).
    all: pose proof (Hsub _ _ _ K1 Hi0) as H.
    + rewrite K3, K4. destruct (taken_step _ _ _ _ i Hs) as [->|(hb & q & _ & _ & _ & ->)]; [done|by apply sublist_inserts_r].
    + assert (i = j) as ->. { apply (ins_uniq s c i j Hc Hi0). apply Hm. by exists m, l. }
      rewrite (taken_app _ _ _ _ _ _ Hs K5 K6), K3, K4, app_assoc. by apply sublist_app.
    + rewrite K4 in H. rewrite K3, <- app_assoc. cbn [app]. destruct (taken_step _ _ _ _ i Hs) as [->|(hb & q & _ & _ & _ & ->)]; [done|by apply sublist_inserts_r].
  - intros c ch i E Hl Hi. 
    destruct (Hk c) as [K1 K2 _|x y K1 K2 K3 K4 K5 K6 _|x y j hb q m l K1 K2 K0 K5 K6 K7 K8 _ K9 K3 K4 _|x y r K1 K2 _ K9 K3 K4 _|t K0 K1 K2 K3 K4]; try congruence.
    4: { left. exists t. split; [|done]. subst lb. cbn [step] in Hs. unfold submit_insert, submit, option_map in Hs. destruct (_ && _); [|discriminate Hs]. injection Hs as <-. fsimpl. apply elem_of_app. right. left. }
    all: assert (ch = y) as -> by congruence.
    all: assert (ins c i (log s)) as Hi0 by (destruct (Hu _ _ K1) as [i0 Hi0]; by rewrite (ins_uniq s' c i i0 Hc' Hi (ins_mono _ _ _ _ _ _ Hs Hi0))).
    all: assert (c_state x = LIVING) as Hx by (first [congruence|destruct K5 as [K5|[K5|K5]]; [congruence|rewrite K5 in Hl; discriminate Hl|rewrite K5 in Hl; discriminate Hl]]).
    all: assert (~ gone c s') as Hng by (unfold gone, chain_state; rewrite E; cbn; rewrite Hl; intros Hz; by apply Hz).
    all: destruct (Hlive _ _ _ K1 Hx Hi0) as [(t & L1 & L2)|[L|[L|L]]].
    all: try (destruct (insert_keep _ _ _ _ _ Hs L1) as [L3|L3]; [left; eauto|right; left; rewrite L3, L2; f_equal; f_equal; apply (ins_uniq s c _ _ Hc); [|exact Hi0]; exists t; split; [|done]; by apply (proj1 Hsrc)]).
    all: try (destruct (hchain_keep _ _ _ _ _ _ Hs L) as [L1|[L1|[L1|L1]]]; [by right; left|by right; right; left|by right; right; right|done]).
    all: try (destruct (mchain_keep _ _ _ _ _ _ Hs L) as [L1|L1]; [by right; right; left|done]).
    all: right; right; right; by eapply hdead_keep.
Qed.


Lemma chain_init t0 t1 : chain_inv (init t0 t1).
Proof.
  assert (forall c (ch : chain), chains (init t0 t1) !! c = Some ch -> False) as Hno.
  { intros c ch H. change (chains (init t0 t1)) with (∅ : gmap N chain) in H. rewrite lookup_empty in H. discriminate H. }
  split.
  - intros c ch H. destruct (Hno _ _ H).
  - intros i c (m & l & H & _). change (flags (init t0 t1)) with (∅ : gmap N mark) in H. rewrite lookup_empty in H. discriminate H.
  - intros i c H. change (hpc (init t0 t1)) with HIdle in H. discriminate H.
  - intros c _. change (log (init t0 t1)) with [OTick 0 t1]. reflexivity.
  - intros c ch H. destruct (Hno _ _ H).
  - intros c ch i H. destruct (Hno _ _ H).
  - intros c ch i H. destruct (Hno _ _ H).
Qed.
Lemma chain_reach pf t0 t1 s : reachable pf t0 t1 s -> chain_inv s.
Proof.
  apply reach_ind; [exact (chain_init t0 t1)|]. intros lb s1 s2 Hr IH Hs.
  exact (chain_step _ _ _ _ (cnt_reach _ _ _ _ Hr) (cnt_reach _ _ _ _ (reach_step _ _ _ _ _ _ Hr Hs)) (src_reach _ _ _ _ Hr) IH Hs).
Qed.

(** ** Nothing is left out *)
Lemma launch_sub pf t0 t1 s u i r it ts : reachable pf t0 t1 s -> OLaunch u i r it ts ∈ log s -> exists t, submitted t (log s) /\ t_uid t = u /\ t_id t = i.
Proof.
  revert s. apply (reach_ind pf t0 t1 (fun s => OLaunch u i r it ts ∈ log s -> exists t, submitted t (log s) /\ t_uid t = u /\ t_id t = i)).
  - change (log (init t0 t1)) with [OTick 0 t1]. intros H. apply elem_of_list_singleton in H. discriminate H.
  - intros lb s s' Hr IH Hs Hin. assert (OLaunch u i r it ts ∈ log s \/ exists x, x ∈ held s /\ t_uid x = u /\ t_id x = i) as [H|(x & Hx & H1 & H2)].
    { destruct (insts_step _ _ _ _ Hs) as [(l & ids & t & r1 & g & E1 & _ & E2 & _)|[E _]].
      - rewrite E2, elem_of_cons in Hin. destruct Hin as [[= -> -> -> -> ->]|Hin]; [|by left]. right. exists t. split; [|done]. apply elem_held. left. rewrite E1. left.
      - left. apply elem_launches. rewrite <- E. by apply elem_launches. }
    + destruct (IH H) as (t & ? & ?). exists t. split; [by eapply submitted_mono|done].
    + destruct (ci_held s (cnt_reach _ _ _ _ Hr) x Hx) as (t & Ht & E1 & E2 & _). exists t. split; [by eapply submitted_mono|]. split; congruence.
Qed.
Lemma elem_started i r lg : r ∈ started i lg -> exists u it ts, OLaunch u i r it ts ∈ lg.
Proof.
  induction lg as [|o lg IH]; [by intros ?%elem_of_nil|]. intros H.
  assert (r ∈ started i lg -> exists u it ts, OLaunch u i r it ts ∈ o :: lg) as Hr.
  { intros H1. destruct (IH H1) as (u & it & ts & ?). exists u, it, ts. by right. }
  destruct o; cbn [started] in H; auto. apply elem_of_app in H as [H|H]; [auto|].
  destruct (tid =? i) eqn:E; [|by apply elem_of_nil in H]. apply N.eqb_eq in E. subst tid. apply elem_of_list_singleton in H as ->. eexists _, _, _. left.
Qed.
Lemma starts_in u tid rec it ts lg : OLaunch u tid rec it ts ∈ lg -> 1 <= starts u lg.
Proof.
  induction lg as [|o lg IH]; [by intros ?%elem_of_nil|]. intros [<-|H]%elem_of_cons.
  - cbn [starts]. rewrite N.eqb_refl. lia.
  - specialize (IH H). destruct o; cbn [starts]; lia.
Qed.
Lemma queued_zero pf t0 t1 s t : reachable pf t0 t1 s -> t ∈ (queue s ≫= ev_task) -> starts (t_uid t) (log s) = 0.
Proof.
  revert s. apply (reach_ind pf t0 t1 (fun s => t ∈ (queue s ≫= ev_task) -> starts (t_uid t) (log s) = 0)).
  - intros H. by apply elem_of_nil in H.
  - intros lb s s' Hr IH Hs H. pose proof (starts_step _ _ _ _ Hs) as Hst.
    destruct (queue_step _ _ _ _ _ Hs H) as [Hq|Hq].
    + destruct Hst as [(l & ids & x & r & E1 & _ & _ & E2 & _)|[E _]]; [|rewrite E; by apply IH].
      rewrite E2. cbn [starts]. rewrite (IH Hq). destruct (t_uid x =? t_uid t) eqn:Eu; [|done]. apply N.eqb_eq in Eu. exfalso.
      apply (rest_uid s t x (own_reach _ _ _ _ Hr)); [by apply elem_rest_queue|rewrite E1; left|done].
    + destruct Hq as (_ & _ & Hn). pose proof (ci_start s (cnt_reach _ _ _ _ Hr) _ Hn) as H0.
      destruct Hst as [(l & ids & x & r & E1 & _ & _ & E2 & _)|[E _]]; [|by rewrite E]. rewrite E2. cbn [starts]. rewrite H0.
      destruct (t_uid x =? t_uid t) eqn:Eu; [|done]. apply N.eqb_eq in Eu. exfalso. apply Hn. rewrite <- Eu. apply (proj2 (own_reach _ _ _ _ Hr)).
      unfold uids. apply elem_of_list_fmap_1, elem_held. left. rewrite E1. left.
Qed.
Lemma push_exact pf s s' i hb q c ch : step pf LHandler s = Some s' -> hpc s = HIdle -> queue s = EAppend i hb :: q -> mchain i c s -> chains s !! c = Some ch -> c_state ch <> DROPPED ->
  exists ch', chains s' !! c = Some ch' /\ c_got ch' = c_got ch /\ c_buf ch' = c_buf ch ++ [hb_rec hb].
Proof.
  intros Hs Hh Hq (m & l & Hm & Hl) Hc Hd. cbn [step] in Hs. unfold handler_step in Hs. rewrite Hh, Hq in Hs. cbn [dispatch] in Hs. injection Hs as <-. inst_cases; isimpl; try congruence.
  - exfalso. apply Hd. match goal with H : chain_state _ _ = _ |- _ => rename H into Hz | H : _ <$> _ = Some DROPPED |- _ => rename H into Hz end. simplify_eq. unfold chain_state in Hz. cbn in Hz. rewrite Hc in Hz. by injection Hz.
  - simplify_eq. rewrite lookup_alter, Hc. cbn. eauto.
Qed.
