(** Starts and countdowns. *)
From Verif Require Import Tactics Inv Own Life.


Lemma starts_app u l1 l2 : starts u (l1 ++ l2) = starts u l1 + starts u l2.
Proof. induction l1 as [|[] l1 IH]; cbn [app starts]; lia. Qed.
Lemma starts_inst u lg : Forall inst_obs lg -> starts u lg = 0.
Proof. induction 1 as [|[] lg Hx H IH]; try done. Qed.

(** Steps other than a start do not change the number of starts. *)
Lemma starts_step pf lb s s' : step pf lb s = Some s' ->
  (exists l ids t r, tpc s = TSpawn l ids t r /\ rest s' = rest s /\ used s' = used s /\
     log s' = OLaunch (t_uid t) (t_id t) r (iters s) (l_ts l) :: log s /\
     (tpc s' = TDead \/ exists e, tpc s' = TSend l ids t r e)) \/
  (forall u, starts u (log s') = starts u (log s)) /\
  ((forall l ids t r e, tpc s' = TSend l ids t r e -> tpc s = tpc s')).
Proof.
  intros H. step_inv H; inst_shape; fsimpl.
  all: try (right; split; [reflexivity|intros; simplify_eq; done]; fail).
  all: try (right; split; [intros u; rewrite ?starts_app, ?starts_inst by done; cbn [starts]; repeat case_match; reflexivity|done]; fail).
  - left. exists l, ids, t, rec0. eauto 10.
  - left. exists l, ids, t, rec0. eauto 10.
Qed.

Lemma used_step pf lb s s' : step pf lb s = Some s' -> used s ⊆ used s'.
Proof. intros H. step_inv H; inst_shape; fsimpl; set_solver. Qed.

(** Submissions *)
Lemma submitted_step pf lb s s' t : step pf lb s = Some s' -> submitted t (log s') ->
  submitted t (log s) \/ is_submit lb s t /\ t_uid t ∈ used s'.
Proof.
  unfold submitted, submits.
  intros H. step_inv H; inst_shape; fsimpl.
  all: intros (e' & Hin & Ht).
  1-3: apply elem_of_cons in Hin as [Hin|Hin]; [|left; eauto]; right; simplify_eq;
     destruct Ht as [?|[?|?]]; simplify_eq;
     apply andb_prop in Heqb as [Hf Hb]; apply negb_true_iff, bool_decide_eq_false in Hb; split; [split; auto|set_solver].
  all: left.
  all: rewrite ?elem_of_app in Hin; rewrite ?elem_of_cons in Hin.
  all: try (exists e'; naive_solver).
  all: repeat case_match; rewrite ?elem_of_cons in Hin; try (exists e'; naive_solver).
  all: destruct Hin as [Hin|Hin]; [rewrite Forall_forall in Hlg; by apply Hlg in Hin|].
  all: exists e'; naive_solver.
Qed.

Definition pend (u : N) (p : timer_pc) : N :=
  match p with TSend _ _ t _ _ | TGate _ _ t _ => if t_uid t =? u then 1 else 0 | _ => 0 end.

Record cnt_inv (s : sys) : Prop := {
  ci_used : forall t, submitted t (log s) -> t_uid t ∈ used s;
  ci_uniq : forall t t', submitted t (log s) -> submitted t' (log s) -> t_uid t = t_uid t' -> t = t';
  ci_start : forall u, u ∉ used s -> starts u (log s) = 0;
  ci_held : forall t, t ∈ held s -> exists t0, submitted t0 (log s) /\ t_uid t0 = t_uid t /\
     t_id t0 = t_id t /\ t_maxrun t0 = t_maxrun t /\ t_maxpar t0 = t_maxpar t /\ t_valid t = true /\
     (count (t_freq t0) = None -> count (t_freq t) = None) /\
     (forall n, count (t_freq t0) = Some n -> 1 <= n -> n < U64 /\
        exists c, count (t_freq t) = Some c /\ 1 <= c /\ starts (t_uid t) (log s) + c = n + pend (t_uid t) (tpc s));
  ci_le : forall t0 n, submitted t0 (log s) -> count (t_freq t0) = Some n -> 1 <= n -> starts (t_uid t0) (log s) <= n
}.

Lemma pend_step pf lb s s' : step pf lb s = Some s' ->
  (exists l ids t r, tpc s = TSpawn l ids t r) \/
  (exists l ids t r, tpc s = TGate l ids t r /\ forall u, pend u (tpc s') = 0) \/
  (forall u, pend u (tpc s') = pend u (tpc s)).
Proof.
  intros H. step_inv H; inst_shape; fsimpl.
  all: try (right; right; reflexivity).
  all: try (left; eauto; fail).
  all: try (right; left; eauto 10; fail).
Qed.

Lemma down_count_count pf t t' n : down_count_and_set_valid pf t = Ret t' -> t_valid t' = true ->
  count (t_freq t) = Some n -> 1 <= n -> count (t_freq t') = Some (n - 1) /\ 1 <= n - 1.
Proof.
  unfold down_count_and_set_valid, res_bind, down_count, sub64. intros H Hv Hc Hn.
  destruct (t_freq t); cbn in Hc; simplify_eq.
  all: replace (1 <=? n) with true in H by lia; cbn in H; simplify_eq; cbn in *; split; [done|].
  all: destruct (n - 1); [done|lia].
Qed.
Lemma down_count_none pf t t' : down_count_and_set_valid pf t = Ret t' ->
  count (t_freq t) = None -> count (t_freq t') = None.
Proof.
  unfold down_count_and_set_valid, res_bind, down_count. intros H Hc.
  destruct (t_freq t) eqn:E; cbn in Hc; simplify_eq; cbn in *; done.
Qed.
Lemma down_count_same pf t t' : down_count_and_set_valid pf t = Ret t' ->
  t_uid t' = t_uid t /\ t_id t' = t_id t /\ t_maxrun t' = t_maxrun t /\ t_maxpar t' = t_maxpar t /\ t_cyl t' = t_cyl t.
Proof. unfold down_count_and_set_valid, res_bind. case_match; [|done]. intros; simplify_eq; done. Qed.

Lemma fresh_count t n : fresh_task t = true -> count (t_freq t) = Some n -> n < U64.
Proof.
  unfold fresh_task, freq_in_range. rewrite !andb_true_iff. intros (((((_ & H) & _) & _) & _) & _) Hc.
  destruct (t_freq t); cbn in *; simplify_eq; lia.
Qed.
Lemma fresh_valid t : fresh_task t = true -> t_valid t = true.
Proof. unfold fresh_task. rewrite !andb_true_iff. tauto. Qed.

Lemma cons_elem {A} (l : list A) x : l = [x] -> x ∈ l.
Proof. intros ->. constructor. Qed.

Lemma submitted_mono pf lb s s' t : step pf lb s = Some s' -> submitted t (log s) -> submitted t (log s').
Proof.
  intros Hs (e & He & Hsub). destruct (step_log _ _ _ _ Hs) as [l ->]. exists e. split; [|done].
  apply elem_of_app; auto.
Qed.

Lemma submit_log pf lb s s' t : step pf lb s = Some s' -> is_submit lb s t -> submitted t (log s').
Proof.
  intros Hs ([->|[->| ->]] & Hf & Hu); cbn [step] in Hs; unfold submit_insert, submit, option_map in Hs;
    repeat case_match; simplify_eq; fsimpl;
    eexists; (split; [apply elem_of_list_here|unfold submits; auto]).
Qed.

Lemma pend_other u p q : p = q -> (forall t, t ∈ tpc_task p -> t_uid t <> u) -> pend u q = 0.
Proof.
  intros <- H. destruct p; try done; cbn [pend tpc_task] in *; destruct (t_uid t =? u) eqn:E; try done;
    exfalso; apply (H t); [constructor|lia|constructor|lia].
Qed.

Lemma cnt_step pf lb s s' : own_inv s -> cnt_inv s -> step pf lb s = Some s' -> cnt_inv s'.
Proof.
  intros Hown [Hused Huniq Hst Hheld Hle] Hs.
  pose proof (used_step _ _ _ _ Hs) as Hsub.
  assert (forall t u, t ∈ tpc_task (tpc s) -> u ∉ used s -> t_uid t <> u) as Htu.
  { intros t u Ht Hu <-. apply Hu, Hown. apply elem_of_list_fmap_1, elem_held. auto. }
  assert (forall u, u ∉ used s -> pend u (tpc s) = 0) as Hp0.
  { intros u Hu. eapply pend_other; [done|]. eauto. }
  split.
  - intros t Ht. destruct (submitted_step _ _ _ _ _ Hs Ht) as [?|[_ ?]]; auto.
  - intros t t' Ht Ht' He.
    destruct (submitted_step _ _ _ _ _ Hs Ht) as [H1|[H1 ?]];
    destruct (submitted_step _ _ _ _ _ Hs Ht') as [H2|[H2 ?]]; auto.
    + destruct H2 as (_ & _ & Hn). destruct Hn. rewrite <- He. auto.
    + destruct H1 as (_ & _ & Hn). destruct Hn. rewrite He. auto.
    + destruct H1 as (H1 & _), H2 as (H2 & _). destruct H1 as [->|[->| ->]], H2 as [?|[?|?]]; by simplify_eq.
  - intros u Hu. destruct (starts_step _ _ _ _ Hs) as [(l & ids & t & r & Ht & _ & _ & -> & _)|[-> _]]; [|auto].
    cbn [starts]. rewrite Hst by auto. case_match; [|done].
    exfalso. eapply (Htu t u); [rewrite Ht; cbn; constructor|auto|lia].
  - intros t' Ht'. destruct (held_step _ _ _ _ _ Hs Ht') as [(t & Ht & Hc)|[(t & Ht & Hc & Hg)|[Hg|Hsb]]].
    + (* from elsewhere *)
      destruct (Hheld t) as (t0 & H1 & H2 & H3 & H4 & H5 & H6 & H7 & H8); [apply elem_held; auto|].
      destruct Hc as (C1 & C2 & C3 & C4 & C5 & C6).
      exists t0. split; [eauto using submitted_mono|]. do 5 (split; [congruence|]). split; [intros; rewrite C6; auto|].
      intros n Hn0 Hn1. destruct (H8 n) as (? & _); [auto..|]. split; [done|].
      { destruct (H8 n) as (_ & c & Hcc & Hc1 & Hsum); [auto..|]. exists c. split; [congruence|split; [done|]].
        rewrite C1. rewrite <- C1 in Hsum.
        assert (forall t2, t2 ∈ tpc_task (tpc s) -> t_uid t <> t_uid t2) as Hne by eauto using rest_uid.
        assert (pend (t_uid t') (tpc s) = 0) as Hps.
        { rewrite C1. eapply pend_other; [done|]. intros t2 Ht2 E. by eapply Hne. }
        destruct (starts_step _ _ _ _ Hs) as [(l & ids & t2 & r & Ht2 & _ & _ & -> & Hpc)|[Hss _]].
        -- assert (t_uid t2 =? t_uid t = false) as E.
           { apply N.eqb_neq. intros E. eapply Hne; [rewrite Ht2; cbn; constructor|done]. }
           cbn [starts]. rewrite E. rewrite C1, Hps in *.
           destruct Hpc as [->|[e ->]]; cbn [pend]; rewrite ?E; lia.
        -- rewrite Hss. rewrite C1 in Hsum, Hps.
           destruct (pend_step _ _ _ _ Hs) as [(l & ids & t2 & r & Ht2)|[(l & ids & t2 & r & Ht2 & Hz)|Hz]].
           ++ destruct (starts_step _ _ _ _ Hs) as [(? & ? & t3 & ? & Ht3 & _ & _ & Hl & Hpc)|[_ Hsend]].
              ** assert (t_uid t3 =? t_uid t = false) as E.
                 { apply N.eqb_neq. intros E. eapply Hne; [rewrite Ht3; cbn; constructor|done]. }
                 destruct Hpc as [->|[e ->]]; cbn [pend]; rewrite ?E; lia.
              ** assert (pend (t_uid t) (tpc s') = 0) as ->; [|lia].
                 clear -Hs Ht2 Hsend. step_inv Hs; inst_shape; fsimpl; fsimpl_in Hsend; try (by rewrite Ht2); try done; try congruence.
                 simplify_eq. by specialize (Hsend _ _ _ _ _ eq_refl).
           ++ rewrite Hz. lia.
           ++ rewrite Hz. lia. }
    + (* in the scheduler's hands *)
      destruct (Hheld t) as (t0 & H1 & H2 & H3 & H4 & H5 & H6 & H7 & H8); [apply elem_held; left; by apply cons_elem|].
      destruct Hc as (C1 & C2 & C3 & C4 & C5 & C6).
      exists t0. split; [eauto using submitted_mono|]. do 5 (split; [congruence|]). split; [intros; rewrite C6; auto|].
      intros n Hn0 Hn1. destruct (H8 n) as (? & _); [auto..|]. split; [done|].
      { destruct (H8 n) as (_ & c & Hcc & Hc1 & Hsum); [auto..|]. exists c. split; [congruence|split; [done|]].
        rewrite C1.
        destruct (starts_step _ _ _ _ Hs) as [(l & ids & t2 & r & Ht2 & Hr & _ & Hlg & Hpc)|[Hss Hsend]].
        -- rewrite Ht2 in Ht. cbn in Ht. simplify_eq. rewrite Hlg. cbn [starts].
           rewrite Ht2 in Hsum. cbn [pend] in Hsum. rewrite N.eqb_refl.
           destruct Hpc as [Hpc|[e ->]]; [|cbn [pend]; rewrite N.eqb_refl; lia].
           exfalso. apply elem_held in Ht' as [Ht'|Ht']; [rewrite Hpc in Ht'; by apply elem_of_nil in Ht'|].
           rewrite Hr in Ht'. eapply (rest_uid s t' t); eauto. rewrite Ht2. constructor.
        -- rewrite Hss.
           destruct (pend_step _ _ _ _ Hs) as [(l & ids & t2 & r & Ht2)|[(l & ids & t2 & r & Ht2 & Hz)|Hz]].
           ++ assert (pend (t_uid t) (tpc s') = 0) as ->; [|rewrite Ht2 in Hsum; cbn in Hsum; lia].
              clear -Hs Ht2 Hsend. step_inv Hs; inst_shape; fsimpl; fsimpl_in Hsend; try (by rewrite Ht2); try done; try congruence.
              simplify_eq. by specialize (Hsend _ _ _ _ _ eq_refl).
           ++ rewrite Ht2 in Ht. cbn in Ht. simplify_eq. rewrite (Hg _ _ _ Ht2). lia.
           ++ rewrite Hz. lia. }
    + (* count down *)
      destruct Hg as (l & ids & t & r & Hpc & Hpc' & Hdc & Hv).
      destruct (Hheld t) as (t0 & H1 & H2 & H3 & H4 & H5 & H6 & H7 & H8); [apply elem_held; left; rewrite Hpc; constructor|].
      destruct (down_count_same _ _ _ Hdc) as (C1 & C2 & C3 & C4 & C5).
      exists t0. split; [eauto using submitted_mono|]. do 5 (split; [congruence|]). split; [eauto using down_count_none|].
      intros n Hn0 Hn1. destruct (H8 n) as (? & _); [auto..|]. split; [done|].
      { destruct (H8 n) as (_ & c & Hcc & Hc1 & Hsum); [auto..|].
        destruct (down_count_count _ _ _ _ Hdc Hv Hcc Hc1) as [D1 D2].
        exists (c - 1). split; [done|split; [done|]]. rewrite C1.
        destruct (starts_step _ _ _ _ Hs) as [(? & ? & t2 & ? & Ht2 & _)|[Hss Hsend]]; [congruence|].
        rewrite Hss, Hpc'. rewrite Hpc in Hsum. cbn [pend] in *. rewrite N.eqb_refl in Hsum. lia. }
    + (* new *)
      assert (submitted t' (log s')) as Hsl by eauto using submit_log.
      exists t'. destruct Hsb as (Hlb & Hf & Hu). split; [done|]. do 4 (split; [done|]). split; [auto using fresh_valid|]. split; [done|].
      intros n Hn0 Hn1. split; [eauto using fresh_count|].
      { exists n. split; [done|split; [done|]].
        destruct (starts_step _ _ _ _ Hs) as [(? & ? & t2 & ? & Ht2 & _ & _ & Hlg & _)|[-> _]].
        { exfalso. destruct Hlb as [->|[->| ->]]; cbn [step] in Hs; unfold submit_insert, submit, option_map in Hs;
            repeat case_match; simplify_eq; fsimpl_in Hlg; simplify_eq. }
        rewrite (Hst _ Hu).
        assert (tpc s' = tpc s) as ->; [|rewrite (Hp0 _ Hu); lia].
        destruct Hlb as [->|[->| ->]]; cbn [step] in Hs; unfold submit_insert, submit, option_map in Hs;
            repeat case_match; simplify_eq; done. }
  - intros t0 n Ht0 Hc Hn.
    destruct (starts_step _ _ _ _ Hs) as [(l & ids & t & r & Hpc & _ & _ & Hlg & _)|[-> _]].
    + destruct (submitted_step _ _ _ _ _ Hs Ht0) as [H1|[H1 _]].
      2: { exfalso. destruct H1 as (Hlb & _). destruct Hlb as [->|[->| ->]]; cbn [step] in Hs;
             unfold submit_insert, submit, option_map in Hs; repeat case_match; simplify_eq; fsimpl_in Hlg; simplify_eq. }
      rewrite Hlg. cbn [starts]. destruct (t_uid t =? t_uid t0) eqn:E; [|specialize (Hle _ _ H1 Hc Hn); lia].
      apply N.eqb_eq in E.
      destruct (Hheld t) as (t1 & I1 & I2 & I3 & I4 & I5 & I6 & I7 & I8); [apply elem_held; left; rewrite Hpc; constructor|].
      assert (t1 = t0) as -> by (apply Huniq; congruence).
      destruct (I8 _ Hc Hn) as (_ & c & _ & Hc1 & Hsum). rewrite Hpc in Hsum. cbn [pend] in Hsum. rewrite <- E. lia.
    + destruct (submitted_step _ _ _ _ _ Hs Ht0) as [H1|[(_ & _ & H1) _]]; [eauto|].
      rewrite Hst by done. lia.
Qed.

Lemma cnt_init n t0 t1 : cnt_inv (init_n n t0 t1).
Proof.
  assert (forall t, submitted t (log (init_n n t0 t1)) -> False) as Hno.
  { intros t (e & He & _). cbn in He. by apply elem_of_list_singleton in He. }
  split.
  - intros t Ht. by apply Hno in Ht.
  - intros t t' Ht. by apply Hno in Ht.
  - done.
  - intros t Ht. exfalso. pose proof (init_uids n t0 t1) as E. unfold uids in E.
    apply (elem_of_nil (t_uid t)). rewrite <- E. by apply elem_of_list_fmap_1.
  - intros t k Ht. by apply Hno in Ht.
Qed.

Lemma cnt_reach pf t0 t1 s : reachable pf t0 t1 s -> cnt_inv s.
Proof.
  apply reach_ind; [apply cnt_init|]. intros lb s1 s2 Hr Hc Hs.
  eapply cnt_step; eauto using own_reach.
Qed.
