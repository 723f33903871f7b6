(** C46: the sweeper works off every due unit. *)
From Coq Require Import Sorting.Sorted.
From Verif Require Import Tactics Inv Cases Scen.

(** ** What is registered and what is swept *)

(** The units for which the sweeper has sent a timeout, newest first. *)
Definition swept (lg : list obs) : list runit :=
  omap (fun o => match o with OSweep tid rec d _ => Some (RUnit d tid rec) | _ => None end) lg.
(** The units of the started instances the event handler was told of, newest first. *)
Definition registrations (lg : list obs) : list runit :=
  lg ≫= fun o => match o with OPop (EAppend _ hb) => unit_of hb | _ => [] end.
(** The events waiting for the event handler that are about a unit. *)
Definition timeout_of (u : runit) : event := ETimeout (u_tid u) (u_rec u).

Lemma swept_app l1 l2 : swept (l1 ++ l2) = swept l1 ++ swept l2.
Proof. apply omap_app. Qed.
Lemma swept_inst lg : Forall inst_obs lg -> swept lg = [].
Proof. induction 1 as [|o lg Ho _ IH]; [done|]. by destruct o. Qed.
Lemma regs_app l1 l2 : registrations (l1 ++ l2) = registrations l1 ++ registrations l2.
Proof. apply bind_app. Qed.
Lemma regs_inst lg : Forall inst_obs lg -> registrations lg = [].
Proof. induction 1 as [|o lg Ho _ IH]; [done|]. by destruct o. Qed.

Lemma least_spec h : match least_deadline h with
  | None => h = []
  | Some d => (exists u, u ∈ h /\ u_deadline u = d) /\ Forall (fun u => d <= u_deadline u) h
  end.
Proof.
  induction h as [|u h IH]; [done|]. cbn [least_deadline]. destruct (least_deadline h) as [d|].
  - destruct IH as [(v & Hv & Hd) Hf]. split.
    + destruct (N.min_spec (u_deadline u) d) as [[_ ->]|[_ ->]]; [exists u|exists v]; set_solver.
    + constructor; [lia|]. eapply Forall_impl; [exact Hf|]. cbn. lia.
  - subst h. split; [exists u; set_solver|]. repeat constructor. lia.
Qed.

(** The steps, as far as the sweeper is concerned. *)
Inductive sweeps (s s' : sys) : Prop :=
| sw_other us : heap s' = heap s -> spc s' = spc s -> swept (log s') = swept (log s) -> recq s' = recq s ++ us ->
    registrations (log s') = us ++ registrations (log s) -> (length us <= 1)%nat -> sweeps s s'
| sw_recv u : spc s = SSleep -> s' = set_heap (u :: heap s) (set_recq (recq s') s) -> recq s = u :: recq s' -> sweeps s s'
| sw_start now : spc s = SSleep -> s' = set_spc (SRound now 200) s -> sweeps s s'
| sw_pop now k ch u : spc s = SRound now k -> k <> 0 -> heap s !! ch = Some u -> least_deadline (heap s) = Some (u_deadline u) ->
    u_deadline u <= now -> heap s' = delete ch (heap s) -> spc s' = SRound now (k - 1) ->
    queue s' = queue s ++ [timeout_of u] -> recq s' = recq s -> swept (log s') = u :: swept (log s) ->
    registrations (log s') = registrations (log s) -> sweeps s s'
| sw_end now k : spc s = SRound now k -> k = 0 \/ Forall (fun u => now < u_deadline u) (heap s) -> s' = set_spc SSleep s -> sweeps s s'.

Lemma regs_append tid hb p ok l : registrations (pub_entries ok p ++ OPop (EAppend tid hb) :: l) = unit_of hb ++ registrations l.
Proof. destruct p; [destruct ok|]; done. Qed.

Lemma step_sweeps pf lb s s' : step pf lb s = Some s' -> sweeps s s'.
Proof.
  intros Hs.
  assert (forall lg, Forall inst_obs lg -> forall l, swept (lg ++ l) = swept l /\ registrations (lg ++ l) = registrations l) as Hi.
  { intros lg Hlg l. by rewrite swept_app, regs_app, (swept_inst lg Hlg), (regs_inst lg Hlg). }
  step_inv Hs.
  all: try (apply (sw_other _ _ []); [reflexivity|reflexivity|repeat case_match; reflexivity|symmetry; apply app_nil_r|repeat case_match; reflexivity|cbn; lia]).
  1-3: inst_cases; isimpl; apply (sw_other _ _ []); fsimpl; repeat case_match; try reflexivity; try (symmetry; apply app_nil_r); cbn; lia.
  1: inst_cases; isimpl; apply (sw_other _ _ (unit_of hb)); fsimpl; repeat case_match; try reflexivity; unfold unit_of; case_match; cbn; lia.
  1-9: apply (sw_other _ _ []); fsimpl; unfold drop_mark, abandon_opt, abandon_chain; repeat case_match; try reflexivity; try (symmetry; apply app_nil_r); cbn; lia.
  - by apply (sw_recv _ _ r).
  - by apply (sw_start _ _ now).
  - apply (sw_end _ _ now0 k); [done| |done]. left. lia.
  - match goal with H : least_deadline _ = Some _ |- _ => rename H into El end.
    assert (u_deadline r = n) as E by lia. apply (sw_pop _ _ now0 k ch r); try done; try lia; [by rewrite E|]. by destruct r.
  - apply (sw_end _ _ now0 k); [done| |done]. right. pose proof (least_spec (heap s)) as Hl.
    match goal with H : least_deadline _ = Some _ |- _ => rewrite H in Hl end. destruct Hl as [_ Hl].
    eapply Forall_impl; [exact Hl|]. cbn. lia.
  - apply (sw_end _ _ now0 k); [done| |done]. right. pose proof (least_spec (heap s)) as Hl.
    match goal with H : least_deadline _ = None |- _ => rewrite H in Hl end. rewrite Hl. done.
Qed.

(** C46, over the whole execution: each registered unit is in exactly one place:
    on its way to the heap, in the heap, or worked off. *)
Theorem C46_none_lost_or_doubled pf t0 t1 s :
  reachable pf t0 t1 s -> registrations (log s) ≡ₚ recq s ++ heap s ++ swept (log s).
Proof.
  apply (reach_ind pf t0 t1 (fun s => registrations (log s) ≡ₚ recq s ++ heap s ++ swept (log s))); [exact (Permutation_refl [])|].
  intros lb s1 s2 _ IH Hs. destruct (step_sweeps _ _ _ _ Hs) as [us E1 E2 E3 E4 E5 _|u E1 E2 E3|now E1 E2|now k ch u E1 E2 E3 E4 E5 E6 E7 E8 E9 E10 E11|now k E1 E2 E3].
  - rewrite E1, E3, E4, E5, IH. rewrite <- !(assoc_L (++)). rewrite !(assoc (++)). rewrite (comm (++) us). done.
  - rewrite E2 in *. fsimpl. fsimpl_in E3. rewrite IH, E3. cbn [app]. apply Permutation_middle.
  - rewrite E2 in *. exact IH.
  - rewrite E6, E9, E10, E11, IH. rewrite (delete_Permutation (heap s1) ch u E3) at 1.
    apply Permutation_app_head. cbn [app]. apply Permutation_middle.
  - rewrite E3. exact IH.
Qed.
Print Assumptions C46_none_lost_or_doubled.

(** ** One round *)

(** A run of the system during which the sweeper is in one round: it reads the
    clock ([now]), other threads do what they want, and the round ends. *)
Inductive in_round (pf : profile) (now : N) (s0 : sys) : sys -> Prop :=
| ir_start : spc s0 = SRound now 200 -> in_round pf now s0 s0
| ir_step lb s s' : in_round pf now s0 s -> spc s <> SSleep -> step pf lb s = Some s' -> in_round pf now s0 s'.

(** What the sweeper sent in this round, in order. *)
Definition sent_since (s0 s : sys) : list runit := reverse (take (length (swept (log s)) - length (swept (log s0))) (swept (log s))).

Record round_inv (now : N) (s0 s : sys) (us : list runit) : Prop := {
  ro_swept : swept (log s) = us ++ swept (log s0);
  ro_heap : heap s0 ≡ₚ us ++ heap s;
  ro_due : Forall (fun u => u_deadline u <= now) us;
  ro_sorted : StronglySorted (fun u v => u_deadline v <= u_deadline u) us;
  ro_least : Forall (fun u => Forall (fun v => u_deadline u <= u_deadline v) (heap s)) us;
  ro_count : (length us <= 200)%nat;
  ro_pc : (exists k, spc s = SRound now k /\ k = 200 - N.of_nat (length us)) \/
          (spc s = SSleep /\ (length us = 200%nat \/ Forall (fun u => now < u_deadline u) (heap s)))
}.

Lemma round_step pf lb now s0 s s' us : round_inv now s0 s us -> spc s <> SSleep -> step pf lb s = Some s' ->
  exists us', round_inv now s0 s' us'.
Proof.
  intros [H1 H2 H3 H4 H5 H6 H7] Hn Hs. destruct H7 as [(k & Hp & Hk)|[? _]]; [|done].
  destruct (step_sweeps _ _ _ _ Hs) as [rs E1 E2 E3 E4 E5 _|u E1 E2 E3|nw E1 E2|nw kk ch u E1 E2 E3 E4 E5 E6 E7 E8 E9 E10 E11|nw kk E1 E2 E3].
  - exists us. split; rewrite ?E1, ?E3; try done. left. exists k. by rewrite E2.
  - congruence.
  - congruence.
  - rewrite Hp in E1. injection E1 as <- <-. exists (u :: us). pose proof (delete_Permutation (heap s) ch u E3) as Hd.
    pose proof (least_spec (heap s)) as Hl. rewrite E4 in Hl. destruct Hl as [_ Hl]. split.
    + by rewrite E10, H1.
    + rewrite H2, E6, Hd at 1. symmetry. apply (Permutation_middle us (delete ch (heap s)) u).
    + by constructor.
    + constructor; [done|]. eapply Forall_impl; [exact H5|]. intros v Hv. rewrite Forall_forall in Hv. apply Hv. by eapply elem_of_list_lookup_2.
    + rewrite E6. assert (forall P : runit -> Prop, Forall P (heap s) -> Forall P (delete ch (heap s))) as Hdel.
      { intros P HP. rewrite Hd in HP. by apply Forall_cons in HP as [_ ?]. }
      constructor; [by apply Hdel|]. eapply Forall_impl; [exact H5|]. intros v. apply Hdel.
    + cbn [length]. lia.
    + left. exists (k - 1). split; [done|]. cbn [length]. lia.
  - rewrite Hp in E1. injection E1 as <- <-. exists us. rewrite E3. split; try done. right. split; [done|].
    destruct E2 as [->|E2]; [left; lia|by right].
Qed.

Lemma round_reach pf now s0 s : in_round pf now s0 s -> exists us, round_inv now s0 s us.
Proof.
  induction 1 as [Hs|lb s s' Hi (us & IH) Hn Hs].
  - exists []. split; try done; try (by constructor). cbn. lia. left. exists 200. done.
  - by eapply round_step.
Qed.

(** C46: a round sends exactly the due units, the earliest deadline first, at
    most 200 of them, and keeps all others; whatever the other threads do. *)
Theorem C46_round pf now s0 s :
  in_round pf now s0 s -> spc s = SSleep ->
  let us := sent_since s0 s in
  swept (log s) = reverse us ++ swept (log s0) /\
  heap s0 ≡ₚ us ++ heap s /\
  Forall (fun u => u_deadline u <= now) us /\
  StronglySorted (fun u v => u_deadline u <= u_deadline v) us /\
  Forall (fun u => Forall (fun v => u_deadline u <= u_deadline v) (heap s)) us /\
  (length us <= 200)%nat /\
  (length us = 200%nat \/ Forall (fun u => now < u_deadline u) (heap s)).
Proof.
  intros Hi Hp. destruct (round_reach _ _ _ _ Hi) as [us [H1 H2 H3 H4 H5 H6 H7]]. cbn zeta.
  assert (sent_since s0 s = reverse us) as ->.
  { unfold sent_since. rewrite H1, app_length. f_equal. rewrite take_app_alt; [done|lia]. }
  rewrite reverse_involutive, reverse_length. split; [done|]. split; [by rewrite reverse_Permutation|].
  split; [by apply Forall_reverse|]. split.
  { clear -H4. induction H4 as [|u us Hus IH Hu]; [constructor|]. rewrite reverse_cons.
    assert (Forall (fun v => u_deadline v <= u_deadline u) (reverse us)) as Hr by (by apply Forall_reverse).
    clear Hu Hus. induction IH as [|v vs Hvs IHv Hv]; [repeat constructor|]. cbn [app]. apply Forall_cons in Hr as [? Hr].
    constructor; [by apply IHv|]. apply Forall_app. split; [done|]. by repeat constructor. }
  split; [by apply Forall_reverse|]. split; [done|]. destruct H7 as [(k & Hx & _)|[_ Hx]]; [congruence|done].
Qed.
Print Assumptions C46_round.

(** Each unit that is sent becomes one event of the event handler. *)
Theorem C46_one_event pf lb s s' :
  step pf lb s = Some s' ->
  (swept (log s') = swept (log s)) \/
  (exists u, swept (log s') = u :: swept (log s) /\ queue s' = queue s ++ [timeout_of u]).
Proof.
  intros Hs. destruct (step_sweeps _ _ _ _ Hs) as [rs E1 E2 E3 E4 E5 _|u E1 E2 E3|nw E1 E2|nw kk ch u E1 E2 E3 E4 E5 E6 E7 E8 E9 E10 E11|nw kk E1 E2 E3];
    [by left|left; rewrite E2; reflexivity|left; rewrite E2; reflexivity|right; eauto|left; rewrite E3; reflexivity].
Qed.
Print Assumptions C46_one_event.

(** Three units, two of them due: a round of the whole system, in which the event
    handler and a user work too. *)
Fixpoint round_run (pf : profile) (ls : list label) (s : sys) : option sys :=
  match ls with
  | [] => Some s
  | lb :: r => match spc s with SSleep => None | _ => match step pf lb s with Some s' => round_run pf r s' | None => None end end
  end.
Lemma round_run_ok pf now s0 ls s s' : in_round pf now s0 s -> round_run pf ls s = Some s' -> in_round pf now s0 s'.
Proof.
  revert s. induction ls as [|lb ls IH]; intros s Hi H; cbn in H; [by simplify_eq|].
  destruct (spc s) eqn:E; [done|]. destruct (step pf lb s) as [s1|] eqn:Es; [|done]. eapply IH; [|done].
  eapply ir_step; [exact Hi|congruence|done].
Qed.
Definition round_acts : list act :=
  [Do (LTimer 0 0 0); Do (LTimer 0 0 0); Do (LInsert (timed 5 (every 1 11 3 100))); Handle; Ticks 12; Handle;
   Do LSweepRecv; Do LSweepRecv; Do LSweepRecv; Do (LSweep 0 112)].
Definition round_labels : list label := [LSweep 2 0; LCancel 11 1; LHandler; LSweep 1 0; LHandler; LSweep 0 0].
Example C46_example : exists s0 s, reachable Debug 100 100 s0 /\ in_round Debug 112 s0 s /\ spc s = SSleep /\
  sent_since s0 s = [RUnit 109 11 0; RUnit 112 11 1] /\ heap s = [RUnit 115 11 2] /\
  registrations (log s) = [RUnit 115 11 2; RUnit 112 11 1; RUnit 109 11 0].
Proof.
  destruct (after_reach Debug 100 100 round_acts (fun s0 =>
    match spc s0 with SRound n k => (n =? 112) && (k =? 200) | SSleep => false end &&
    match round_run Debug round_labels s0 with
    | Some s => match spc s with SSleep => true | _ => false end &&
        match sent_since s0 s with [u; v] => (u_deadline u =? 109) && (u_tid u =? 11) && (u_rec u =? 0)%Z && (u_deadline v =? 112) && (u_tid v =? 11) && (u_rec v =? 1)%Z | _ => false end &&
        match heap s with [u] => (u_deadline u =? 115) && (u_tid u =? 11) && (u_rec u =? 2)%Z | _ => false end &&
        match registrations (log s) with
        | [u; v; w] => (u_deadline u =? 115) && (u_tid u =? 11) && (u_rec u =? 2)%Z && (u_deadline v =? 112) && (u_tid v =? 11) && (u_rec v =? 1)%Z &&
            (u_deadline w =? 109) && (u_tid w =? 11) && (u_rec w =? 0)%Z
        | _ => false end
    | None => false end)) as (s0 & Hr & H); [vm_compute; reflexivity|].
  rewrite andb_true_iff in H. destruct H as [H1 H].
  destruct (round_run Debug round_labels s0) as [s|] eqn:E; [|done]. rewrite !andb_true_iff in H. destruct H as [[[H2 H3] H4] H5].
  exists s0, s. split; [done|]. split.
  { eapply round_run_ok; [|exact E]. apply ir_start. destruct (spc s0); [done|]. rewrite andb_true_iff in H1. f_equal; lia. }
  split; [by destruct (spc s)|]. split; [|split].
  - destruct (sent_since s0 s) as [|u [|v [|]]]; try done. rewrite !andb_true_iff in H3. destruct u, v. cbn in H3.
    repeat f_equal; lia.
  - destruct (heap s) as [|u [|]]; try done. rewrite !andb_true_iff in H4. destruct u. cbn in H4. repeat f_equal; lia.
  - destruct (registrations (log s)) as [|u [|v [|w [|]]]]; try done. rewrite !andb_true_iff in H5. destruct u, v, w. cbn in H5.
    repeat f_equal; lia.
Qed.
