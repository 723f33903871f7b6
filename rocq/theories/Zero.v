(** Tasks built with a countdown of 0. *)
From Verif Require Import Tactics Inv Own Life Count.

(** A step that does not count down changes starts and pending starts alike. *)
Lemma flow pf lb s s' t t' : own_inv s -> step pf lb s = Some s' -> t' ∈ held s' -> t_uid t' = t_uid t ->
  (t ∈ rest s) \/ (tpc_task (tpc s) = [t] /\ forall l ids r, tpc s = TGate l ids t r -> tpc s' = tpc s) ->
  starts (t_uid t) (log s') + pend (t_uid t) (tpc s) = starts (t_uid t) (log s) + pend (t_uid t) (tpc s').
Proof.
  intros Hown Hs Ht' C1 [Ht|[Ht Hg]].
  - assert (forall t2, t2 ∈ tpc_task (tpc s) -> t_uid t <> t_uid t2) as Hne by eauto using rest_uid.
    assert (pend (t_uid t) (tpc s) = 0) as Hps.
    { eapply pend_other; [done|]. intros t2 Ht2 E. by eapply Hne. }
    destruct (starts_step _ _ _ _ Hs) as [(l & ids & t2 & r & Ht2 & _ & _ & -> & Hpc)|[Hss Hsend]].
    + assert (t_uid t2 =? t_uid t = false) as E.
      { apply N.eqb_neq. intros E. eapply Hne; [rewrite Ht2; cbn; constructor|done]. }
      cbn [starts]. rewrite E, Hps. destruct Hpc as [->|[e ->]]; cbn [pend]; rewrite ?E; lia.
    + rewrite Hss. destruct (pend_step _ _ _ _ Hs) as [(l & ids & t2 & r & Ht2)|[(l & ids & t2 & r & Ht2 & Hz)|Hz]].
      * assert (pend (t_uid t) (tpc s') = 0) as ->; [|lia].
        clear -Hs Ht2 Hsend. step_inv Hs; inst_shape; fsimpl; fsimpl_in Hsend; try (by rewrite Ht2); try done; try congruence.
        simplify_eq. by specialize (Hsend _ _ _ _ _ eq_refl).
      * rewrite Hz. lia.
      * rewrite Hz. lia.
  - destruct (starts_step _ _ _ _ Hs) as [(l & ids & t2 & r & Ht2 & Hr & _ & Hlg & Hpc)|[Hss Hsend]].
    + rewrite Ht2 in Ht. cbn in Ht. simplify_eq. rewrite Hlg. cbn [starts]. rewrite Ht2. cbn [pend]. rewrite N.eqb_refl.
      destruct Hpc as [Hpc|[e ->]]; [|cbn [pend]; rewrite N.eqb_refl; lia].
      exfalso. apply elem_held in Ht' as [Ht'|Ht']; [rewrite Hpc in Ht'; by apply elem_of_nil in Ht'|].
      rewrite Hr in Ht'. eapply (rest_uid s t' t); eauto. rewrite Ht2. constructor.
    + rewrite Hss. destruct (pend_step _ _ _ _ Hs) as [(l & ids & t2 & r & Ht2)|[(l & ids & t2 & r & Ht2 & Hz)|Hz]].
      * assert (pend (t_uid t) (tpc s') = 0) as ->; [|rewrite Ht2; cbn; lia].
        clear -Hs Ht2 Hsend. step_inv Hs; inst_shape; fsimpl; fsimpl_in Hsend; try (by rewrite Ht2); try done; try congruence.
        simplify_eq. by specialize (Hsend _ _ _ _ _ eq_refl).
      * rewrite Ht2 in Ht. cbn in Ht. simplify_eq. rewrite (Hg _ _ _ Ht2). lia.
      * rewrite Hz. lia.
Qed.

Lemma down_zero_debug t t' : down_count_and_set_valid Debug t = Ret t' -> count (t_freq t) <> Some 0.
Proof.
  unfold down_count_and_set_valid, res_bind, down_count, sub64. intros H Hc.
  destruct (t_freq t); cbn in Hc; simplify_eq; cbn in H; simplify_eq; done.
Qed.
Lemma down_zero_release t t' : down_count_and_set_valid Release t = Ret t' -> count (t_freq t) = Some 0 -> count (t_freq t') = Some (U64 - 1).
Proof.
  unfold down_count_and_set_valid, res_bind, down_count, sub64. intros H Hc.
  destruct (t_freq t); cbn in Hc; simplify_eq; cbn in H; simplify_eq; done.
Qed.

(** [u] was built with countdown 0: remaining count [c], [st] starts of which [pd] is not yet counted. *)
Definition zero_ok (pf : profile) (c st pd : N) : Prop :=
  (c = 0 /\ st = pd) \/ (pf = Release /\ 1 <= c /\ st + c = U64 + pd).
Definition zero_max (pf : profile) : N := match pf with Debug => 1 | Release => U64 end.

Record zinv (pf : profile) (t0 : task) (s : sys) : Prop := {
  z_held : forall t, t ∈ held s -> t_uid t = t_uid t0 -> exists c, count (t_freq t) = Some c /\ zero_ok pf c (starts (t_uid t) (log s)) (pend (t_uid t) (tpc s));
  z_max : starts (t_uid t0) (log s) <= zero_max pf
}.

Lemma zinv_step pf lb s s' t0 : own_inv s -> cnt_inv s -> (forall t, submitted t (log s') -> t_uid t = t_uid t0 -> t = t0) ->
  count (t_freq t0) = Some 0 -> zinv pf t0 s -> step pf lb s = Some s' -> zinv pf t0 s'.
Proof.
  intros Ho Hc Hu H0 [Hh Hm] Hs. split.
  - intros t' Ht' E.
    destruct (held_step _ _ _ _ _ Hs Ht') as [(t & Ht & C)|[(t & Ht & C & Hg)|[Hg|Hsb]]].
    + assert (t ∈ held s) as Hin by (apply elem_held; by right). pose proof C as (C1 & _ & _ & _ & _ & C6).
      destruct (Hh t Hin ltac:(congruence)) as (c & E1 & E2). exists c. rewrite C6. split; [done|]. rewrite C1.
      pose proof (flow _ _ _ _ t t' Ho Hs Ht' C1 (or_introl Ht)) as Hf. destruct E2 as [[? ?]|(? & ? & ?)]; [left|right]; repeat (split; [done|]); lia.
    + assert (t ∈ held s) as Hin by (apply elem_held; left; by apply cons_elem). pose proof C as (C1 & _ & _ & _ & _ & C6).
      destruct (Hh t Hin ltac:(congruence)) as (c & E1 & E2). exists c. rewrite C6. split; [done|]. rewrite C1.
      pose proof (flow _ _ _ _ t t' Ho Hs Ht' C1 (or_intror (conj Ht Hg))) as Hf. destruct E2 as [[? ?]|(? & ? & ?)]; [left|right]; repeat (split; [done|]); lia.
    + destruct Hg as (l & ids & t & r & Hpc & Hpc' & Hdc & Hv).
      destruct (down_count_same _ _ _ Hdc) as (C1 & _).
      destruct (Hh t) as (c & E1 & E2); [apply elem_held; left; rewrite Hpc; constructor|congruence|].
      destruct (starts_step _ _ _ _ Hs) as [(? & ? & t2 & ? & Ht2 & _)|[Hss Hsend]]; [congruence|].
      rewrite Hpc in E2. cbn [pend] in E2. rewrite N.eqb_refl in E2.
      rewrite C1, Hss, Hpc'. cbn [pend].
      destruct E2 as [[-> E2]|(-> & E3 & E2)].
      * destruct pf; [by apply down_zero_debug in Hdc|]. exists (U64 - 1). split; [by eapply down_zero_release|].
        right. split; [done|]. unfold U64. lia.
      * destruct (down_count_count _ _ _ _ Hdc Hv E1 E3) as [D1 D2]. exists (c - 1). split; [done|]. right. split; [done|]. lia.
    + assert (submitted t' (log s')) as Hsl by eauto using submit_log. pose proof (Hu t' Hsl E) as ->.
      destruct Hsb as (Hlb & Hf & Hnu). exists 0. split; [done|]. left. split; [done|].
      destruct (starts_step _ _ _ _ Hs) as [(? & ? & t2 & ? & Ht2 & _ & _ & Hlg & _)|[-> _]].
      { exfalso. destruct Hlb as [->|[->| ->]]; cbn [step] in Hs; unfold submit_insert, submit, option_map in Hs;
          repeat case_match; simplify_eq; fsimpl_in Hlg; simplify_eq. }
      rewrite (ci_start _ Hc _ Hnu).
      assert (tpc s' = tpc s) as ->.
      { destruct Hlb as [->|[->| ->]]; cbn [step] in Hs; unfold submit_insert, submit, option_map in Hs;
            repeat case_match; simplify_eq; done. }
      symmetry. eapply pend_other; [done|]. intros t Ht E2. apply Hnu. rewrite <- E2. apply Ho. apply elem_of_list_fmap_1, elem_held. auto.
  - destruct (starts_step _ _ _ _ Hs) as [(l & ids & t & r & Hpc & _ & _ & Hlg & _)|[-> _]]; [|done].
    rewrite Hlg. cbn [starts]. destruct (t_uid t =? t_uid t0) eqn:E; [|lia]. apply N.eqb_eq in E.
    destruct (Hh t) as (c & E1 & E2); [apply elem_held; left; rewrite Hpc; constructor|done|].
    rewrite Hpc, E in E2. cbn [pend] in E2. unfold zero_ok, zero_max, U64 in *. destruct pf; [|lia].
    destruct E2 as [?|[? _]]; [lia|done].
Qed.

Lemma zero_reach pf t0 t1 s t : reachable pf t0 t1 s -> submitted t (log s) -> count (t_freq t) = Some 0 ->
  starts (t_uid t) (log s) <= zero_max pf.
Proof.
  intros Hr Hs H0.
  assert (forall t', submitted t' (log s) -> t_uid t' = t_uid t -> t' = t) as Hu.
  { intros t' Ht' E. by eapply (ci_uniq s (cnt_reach _ _ _ _ Hr)). }
  clear Hs. enough (zinv pf t s) as [] by done. revert s Hr Hu.
  apply (reach_ind pf t0 t1 (fun s => (forall t', submitted t' (log s) -> t_uid t' = t_uid t -> t' = t) -> zinv pf t s)).
  - intros _. split.
    + intros t' Ht'. exfalso. pose proof (init_uids (N.to_nat SLOTS) t0 t1) as E. unfold uids in E.
      apply (elem_of_nil (t_uid t')). rewrite <- E. by apply elem_of_list_fmap_1.
    + destruct pf; unfold zero_max, U64; cbn; lia.
  - intros lb s s' Hr IH Hs Hu. apply (zinv_step pf lb s s' t); [by eapply own_reach|by eapply cnt_reach|done|done| |done].
    apply IH. intros t' Ht'. apply Hu. by eapply submitted_mono.
Qed.
