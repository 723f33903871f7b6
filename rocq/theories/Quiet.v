(** Where events in the handler's hands come from; tasks left alone. *)
From Verif Require Import Tactics Inv Own Life Count.

Definition sent (e : event) (lg : list obs) : Prop := OSend e ∈ lg.

(** What the handler's program counter owes to the event it works on. *)
Definition hpc_src (p : handler_pc) (lg : list obs) : Prop :=
  match p with
  | HAdd1 t None _ _ => sent (EAdd t) lg
  | HAdd1 t (Some c) _ _ => sent (EInsert t) lg /\ c = t_uid t
  | HAdd2 t None _ => exists t0, sent (EAdd t0) lg /\ t_uid t0 = t_uid t /\ t_id t0 = t_id t
  | HAdd2 t (Some c) _ => exists t0, sent (EInsert t0) lg /\ t_uid t0 = t_uid t /\ t_id t0 = t_id t /\ c = t_uid t
  | HAdd3 tid None _ => exists t0, sent (EAdd t0) lg /\ t_id t0 = tid
  | HAdd3 tid (Some c) _ => exists t0, sent (EInsert t0) lg /\ t_id t0 = tid /\ c = t_uid t0
  | HUpd t _ => sent (EUpdate t) lg
  | HAdv1 tid _ => sent (EAdvance tid) lg
  | HAdv2 t | HAdv3 t _ => sent (EAdvance (t_id t)) lg
  | HRem1 tid _ | HRem2 tid _ => sent (ERemove tid) lg
  | HIdle | HDead => True
  end.

Definition src_inv (s : sys) : Prop :=
  (forall e, e ∈ queue s -> sent e (log s)) /\ hpc_src (hpc s) (log s).

Lemma hpc_src_mono p lg lg' : (forall e, sent e lg -> sent e lg') -> hpc_src p lg -> hpc_src p lg'.
Proof. intros Hm. destruct p; cbn; try case_match; naive_solver. Qed.

Lemma src_step pf lb s s' : wf s -> src_inv s -> step pf lb s = Some s' -> src_inv s'.
Proof.
  intros Hwf [Hq Hh] Hs. destruct (step_log _ _ _ _ Hs) as [lg Hlg].
  assert (forall e, sent e (log s) -> sent e (log s')) as Hmono.
  { intros e He. unfold sent. rewrite Hlg, elem_of_app. auto. }
  assert (hpc_src (hpc s) (log s')) as Hh'.
  { by eapply hpc_src_mono. }
  clear Hlg lg.
  split.
  - intros e He. revert He Hmono. clear Hh Hh'. step_inv Hs; inst_shape; fsimpl; intros He Hmono; auto.
    all: try (apply elem_of_app in He as [He|He]; [auto|apply elem_of_list_singleton in He; subst; unfold sent; rewrite ?elem_of_cons; auto]; fail).
    all: apply Hmono, Hq; by right.
  - revert Hh' Hmono. step_inv Hs; inst_shape; try (intros; assumption); fsimpl; intros Hh' Hmono; cbn [hpc_src] in *; try exact I.
    all: try (apply Hmono, Hq; constructor).
    + split; [|done]. apply Hmono, Hq; constructor.
    + apply core_next in Heqr as (C1 & C2 & _). cbn [t_uid t_id set_cylinder_line]. rewrite C1, C2.
      destruct c; naive_solver.
    + destruct c; naive_solver.
    + destruct c; naive_solver.
    + destruct (wf_wheel s Hwf sl) as [_ Hw]. cbn [t_id clear_cylinder_line set_cylinder_line].
      by rewrite (wf_key s Hwf _ _ _ _ Heqo Heqo0).
Qed.

Lemma src_reach pf t0 t1 s : reachable pf t0 t1 s -> src_inv s.
Proof.
  apply reach_ind.
  - split; [|exact I]. intros e He. by apply elem_of_nil in He.
  - intros lb s1 s2 Hr Hi Hs. eapply src_step; eauto using wf_reach.
Qed.

(** ** Tasks left alone *)



Lemma quiet_anti pf lb s s' t : step pf lb s = Some s' -> quiet t (log s') -> quiet t (log s).
Proof.
  intros Hs Hq e He. apply Hq. destruct (step_log _ _ _ _ Hs) as [l ->]. apply elem_of_app; auto.
Qed.

Lemma quiet_held s t t' : cnt_inv s -> quiet t (log s) -> t' ∈ held s -> t_id t' = t_id t -> t_uid t' = t_uid t.
Proof.
  intros Hc Hq Ht Hi. destruct (ci_held s Hc t' Ht) as (t0 & (e & He & Hse) & Hu & Hid & _).
  destruct (Hq e He) as [->| ->]; destruct Hse as [?|[?|?]]; simplify_eq; try done.
  all: cbn; congruence.
Qed.
Lemma quiet_held_id s t t' : cnt_inv s -> submitted t (log s) -> t' ∈ held s -> t_uid t' = t_uid t -> t_id t' = t_id t.
Proof.
  intros Hc Hs Ht Hu. destruct (ci_held s Hc t' Ht) as (t0 & Ht0 & Hu0 & Hid & _).
  assert (t0 = t) as -> by (eapply (ci_uniq s Hc); eauto; congruence). done.
Qed.
