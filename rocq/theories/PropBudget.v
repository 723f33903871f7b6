(** C77: the proviso about the sweeper is needed. *)
From Verif Require Import Tactics Inv Own Life Count Quiet Cases Inst Ended Chain Scen Apart ApartRun PropApart.

(** The units handed to the sweeper, oldest first. *)
Fixpoint given (lg : list obs) : list runit :=
  match lg with
  | [] => []
  | OPop (EAppend _ hb) :: r => given r ++ unit_of hb
  | _ :: r => given r
  end.
(** Its timeouts with the times of the rounds, newest first. *)
Fixpoint taken_out (lg : list obs) : list (N * runit) :=
  match lg with
  | [] => []
  | OSweep i r d nw :: l => (nw, RUnit d i r) :: taken_out l
  | _ :: l => taken_out l
  end.
Lemma taken_len nw lg : swept_at nw lg <= N.of_nat (length (taken_out lg)).
Proof.
  unfold swept_at. induction lg as [|o lg IH]; [done|]. destruct o; cbn [List.filter taken_out length]; try exact IH. destruct (_ =? nw); cbn [length]; lia.
Qed.
(** The steps, as far as the sweeper and its log are concerned. *)
Inductive takes (s s' : sys) : Prop :=
| tk_other us : heap s' = heap s -> spc s' = spc s -> taken_out (log s') = taken_out (log s) -> recq s' = recq s ++ us ->
    given (log s') = given (log s) ++ us -> (length us <= 1)%nat -> takes s s'
| tk_recv u : spc s = SSleep -> heap s' = u :: heap s -> recq s = u :: recq s' -> spc s' = SSleep -> log s' = log s -> takes s s'
| tk_start now : spc s = SSleep -> s' = set_spc (SRound now 200) s -> takes s s'
| tk_pop now k ch u : spc s = SRound now k -> k <> 0 -> heap s !! ch = Some u -> heap s' = delete ch (heap s) -> spc s' = SRound now (k - 1) ->
    recq s' = recq s -> taken_out (log s') = (now, u) :: taken_out (log s) -> given (log s') = given (log s) -> takes s s'
| tk_end now k : spc s = SRound now k -> k = 0 \/ (forall u, u ∈ heap s -> now < u_deadline u) -> s' = set_spc SSleep s -> takes s s'.
Lemma step_takes pf lb s s' : step pf lb s = Some s' -> takes s s'.
Proof.
  intros Hs. step_inv Hs.
  all: try (apply (tk_other _ _ []); [reflexivity|reflexivity|repeat case_match; reflexivity|symmetry; apply app_nil_r|repeat case_match; cbn [given]; symmetry; apply app_nil_r|cbn; lia]).
  1-3: inst_cases; isimpl; apply (tk_other _ _ []); fsimpl; repeat case_match; cbn [given taken_out]; try reflexivity; try (symmetry; apply app_nil_r); cbn; lia.
  1: inst_cases; isimpl; apply (tk_other _ _ (unit_of hb)); fsimpl; repeat case_match; try reflexivity; unfold unit_of; case_match; cbn; lia.
  1-9: apply (tk_other _ _ []); fsimpl; unfold drop_mark, abandon_opt, abandon_chain; repeat case_match; cbn [given taken_out]; try reflexivity; try (symmetry; apply app_nil_r); cbn; lia.
  - by apply (tk_recv _ _ r).
  - by apply (tk_start _ _ now).
  - apply (tk_end _ _ now0 k); [done| |done]. left. lia.
  - apply (tk_pop _ _ now0 k ch r); try done; try lia. by destruct r.
  - apply (tk_end _ _ now0 k); [done| |done]. right. pose proof (least_spec (heap s)) as Hl.
    match goal with H : least_deadline _ = Some _ |- _ => rewrite H in Hl end. destruct Hl as [_ Hl]. intros u Hu. specialize (Hl u Hu). lia.
  - apply (tk_end _ _ now0 k); [done| |done]. right. pose proof (least_spec (heap s)) as Hl.
    match goal with H : least_deadline _ = None |- _ => rewrite H in Hl end. rewrite Hl. intros u Hu. by apply elem_of_nil in Hu.
Qed.

(** What the sweeper was given is on its way, in the heap or taken out. *)
Definition given_inv (s : sys) : Prop := exists rcv, given (log s) = rcv ++ recq s /\ rcv ≡ₚ heap s ++ (taken_out (log s)).*2.
Lemma given_reach pf t0 t1 s : reachable pf t0 t1 s -> given_inv s.
Proof.
  revert s. apply (reach_ind pf t0 t1 given_inv).
  - exists []. split; [exact eq_refl|]. change (heap (init t0 t1)) with (@nil runit). change (log (init t0 t1)) with [OTick 0 t1]. constructor.
  - intros lb s s' _ (rcv & E1 & E2) Hs. apply step_takes in Hs. destruct Hs as [us H1 H2 H3 H4 H5 _|u H1 H2 H3 H4 H5|now H1 ->|now k ch u H1 H2 H3 H4 H5 H6 H7 H8|now k H1 H2 ->].
    + exists rcv. by rewrite H5, E1, H4, app_assoc, H1, H3.
    + exists (rcv ++ [u]). rewrite H5, E1, H3, H2, <- app_assoc. split; [done|]. rewrite <- Permutation_cons_append. cbn [app]. by apply Permutation_cons.
    + by exists rcv.
    + exists rcv. rewrite H8, H6, H4, H7. split; [done|]. rewrite E2. cbn [fmap list_fmap snd]. pose proof (delete_Permutation _ _ _ H3) as Hp. revert Hp. generalize (delete ch (heap s)). intros h ->. cbn [app]. apply Permutation_middle.
    + by exists rcv.
Qed.

(** [u] was given before [v]. *)
Definition ahead (u v : runit) (l : list runit) : Prop := exists l1 l2, l = l1 ++ u :: l2 /\ v ∉ l1 /\ v <> u.
Lemma ahead_grow u v l us : v ∈ l -> ahead u v (l ++ us) -> ahead u v l.
Proof.
  intros Hv (l1 & l2 & E & H1 & H2). revert l1 E H1. induction l as [|x l IH]; intros l1 E H1; [by apply elem_of_nil in Hv|].
  destruct l1 as [|y l1]; cbn [app] in E; injection E as <- E.
  - exists [], l. split; [done|]. split; [apply not_elem_of_nil|done].
  - apply not_elem_of_cons in H1 as [H0 H1]. destruct (IH ltac:(by apply elem_of_cons in Hv as [?|?]) l1 E H1) as (m1 & m2 & -> & G1 & G2).
    exists (x :: m1), m2. split; [done|]. split; [by apply not_elem_of_cons|done].
Qed.
Lemma ahead_in u v l : ahead u v l -> u ∈ l.
Proof. intros (l1 & l2 & -> & _). apply elem_of_app. right. left. Qed.

(** A round goes on while there is something due, if the budget lasts. *)
Definition round_inv (s : sys) : Prop :=
  forall a nw v b u, taken_out (log s) = a ++ (nw, v) :: b -> ahead u v (given (log s)) -> u_deadline u <= nw -> (length (taken_out (log s)) < 200)%nat ->
    (exists n, (n, u) ∈ b) \/ (nw, u) ∈ a \/ (u ∈ heap s /\ exists k, spc s = SRound nw k /\ k <> 0).
Lemma round_reach pf t0 t1 s : reachable pf t0 t1 s -> round_inv s.
Proof.
  revert s. apply (reach_ind pf t0 t1 round_inv).
  - intros a nw v b u E. change (log (init t0 t1)) with [OTick 0 t1] in E. cbn [taken_out] in E. by destruct a.
  - intros lb s s' Hr IH Hs. pose proof (given_reach _ _ _ _ Hr) as (rcv & G1 & G2).
    assert (forall k nw, spc s' = SRound nw k -> (length (taken_out (log s')) < 200)%nat -> k <> 0) as Hk.
    { intros k nw E Hl. destruct (round_budget pf t0 t1 s') with (nw := nw) (k := k) as [_ H]; [by eapply reach_step|done|]. pose proof (taken_len nw (log s')). lia. }
    clear Hr. apply step_takes in Hs. intros a nw v b u E Ha Hd Hl.
    assert (forall a, taken_out (log s) = a ++ (nw, v) :: b -> v ∈ rcv) as Hv.
    { intros a0 E0. rewrite G2. apply elem_of_app. right. rewrite E0, fmap_app. cbn. set_solver. }
    destruct Hs as [us H1 H2 H3 H4 H5 _|x H1 H2 H3 H4 H5|now H1 ->|now k ch x H1 H2 H3 H4 H5 H6 H7 H8|now k H1 H2 ->].
    + rewrite H3 in E, Hl. rewrite H5 in Ha. rewrite H1, H2. apply (IH _ _ _ _ _ E); try done. eapply ahead_grow; [|exact Ha]. rewrite G1. apply elem_of_app. left. by eapply Hv.
    + rewrite H5 in E, Ha, Hl. destruct (IH _ _ _ _ _ E Ha Hd Hl) as [H|[H|[_ (k & H & _)]]]; auto. congruence.
    + destruct (IH _ _ _ _ _ E Ha Hd Hl) as [H|[H|[_ (k & H & _)]]]; auto. congruence.
    + rewrite H7 in E, Hl. rewrite H8 in Ha. destruct a as [|y a]; cbn [app] in E.
      * injection E as <- <- <-. assert (x ∈ rcv) as Hin by (rewrite G2; apply elem_of_app; left; by eapply elem_of_list_lookup_2).
        assert (ahead u x rcv) as Hu by (eapply ahead_grow; [exact Hin|by rewrite <- G1]). pose proof (ahead_in _ _ _ Hu) as Hu2. rewrite G2 in Hu2. apply elem_of_app in Hu2 as [Hu2|Hu2].
        -- right; right. split; [|exists (k - 1); split; [done|eapply Hk; [exact H5|by rewrite H7]]]. rewrite H4. pose proof (delete_Permutation _ _ _ H3) as Hp. rewrite Hp in Hu2.
           apply elem_of_cons in Hu2 as [->|Hu2]; [|done]. destruct Hu as (? & ? & _ & _ & Hne). done.
        -- left. apply elem_of_list_fmap in Hu2 as ([n y] & -> & Hy). by exists n.
      * injection E as <- E. destruct (IH _ _ _ _ _ E Ha Hd) as [H|[H|[Hu (k1 & H & _)]]]; [cbn [length] in Hl; lia|by left|right; left; by right|].
        rewrite H1 in H. injection H as -> ->. pose proof (delete_Permutation _ _ _ H3) as Hp. rewrite Hp in Hu. apply elem_of_cons in Hu as [->|Hu]; [right; left; left|]. right; right. rewrite H4. split; [done|]. exists (k1 - 1). split; [done|eapply Hk; [exact H5|by rewrite H7]].
    + destruct (IH _ _ _ _ _ E Ha Hd Hl) as [H|[H|[Hu (k1 & H & Hk1)]]]; auto. rewrite H1 in H. injection H as -> ->. exfalso. destruct H2 as [H2|H2]; [done|]. specialize (H2 _ Hu). lia.
Qed.

(** Two ids of ours: an instance of 11 with a long maximum running time, then one
    of 12 with a short one; and 199 instances of 22 that time out before both. *)
Definition both (i : N) : bool := (i =? 11) || (i =? 12).
Definition C77_crowd : list act :=
  [Do (LAdd (timed 1000 (ntimes 1 11 1 5 100))); Do (LAdd (timed 3 (ntimes 2 12 1 300 100))); Do (LAdd (timed 3 (ntimes 3 22 199 1 100)));
   Handle; Ticks 100; Handle; Ticks 100; Handle; Ticks 110; Handle] ++
  repeat (Do LSweepRecv) 201 ++ Do (LSweep 0 2000) :: map (fun c => Do (LSweep c 2000)) (rev (seq 197 4) ++ rev (seq 0 196)) ++
  [Do (LSweep 0 2000); Do (LSweep 0 3000); Do (LSweep 0 3000)].
Local Instance runit_dec : EqDecision runit.
Proof. solve_decision. Defined.
Definition late (lg : list obs) : bool :=
  match taken_out lg, given lg with
  | [(n2, u2); (n1, u1)], [v2; v1] =>
      bool_decide (u2 = v2 /\ u1 = v1 /\ u1 <> u2) && (u_deadline u2 <=? n1) && negb (n2 =? n1)
  | _, _ => false
  end.
Lemma late_impossible pf t0 t1 s : reachable pf t0 t1 s -> late (log s) = true -> False.
Proof.
  intros Hr Hl. pose proof (round_reach _ _ _ _ Hr) as Hi. destruct (given_reach _ _ _ _ Hr) as (rcv & G1 & G2). clear Hr. unfold late in Hl. unfold round_inv in Hi.
  destruct (taken_out (log s)) as [|[n2 u2] [|[n1 u1] [|? ?]]]; try discriminate Hl. destruct (given (log s)) as [|v2 [|v1 [|? ?]]]; try discriminate Hl.
  apply andb_prop in Hl as [[H1 H2]%andb_prop H3]. apply bool_decide_eq_true in H1 as (<- & <- & Hne). apply N.leb_le in H2. apply negb_true_iff, N.eqb_neq in H3.
  destruct (Hi [(n2, u2)] n1 u1 [] u2) as [[n H]|[H|[H _]]]; try done.
  - exists [], [u1]. split; [done|]. split; [apply not_elem_of_nil|done].
  - cbn [length]. lia.
  - by apply elem_of_nil in H.
  - apply elem_of_list_singleton in H. congruence.
  - apply (f_equal length) in G1. apply Permutation_length in G2. rewrite !app_length in *. cbn in G1, G2. destruct (heap s); [by apply elem_of_nil in H|cbn in G2; lia].
Qed.
(** The timeouts of a crowd come between two of ours which else would have been
    handed out in one round: no timer alone does that, whatever its users call. *)
Theorem C77_proviso_needed : exists pf t0 t1 P s, reachable pf t0 t1 s /\ forall s', reachable pf t0 t1 s' -> log s' <> our_log P (log s).
Proof.
  assert (after Debug 100 100 C77_crowd (fun s => late (our_log both (log s))) = true) as H by (vm_compute; reflexivity).
  apply after_reach in H as (s & Hs & H). exists Debug, 100, 100, both, s. split; [exact Hs|]. intros s' Hs' E. clear Hs. rewrite <- E in H. exact (late_impossible _ _ _ _ Hs' H).
Qed.
Print Assumptions C77_proviso_needed.
