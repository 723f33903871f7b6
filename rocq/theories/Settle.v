(** The event handler and the sweeper can always work off what is waiting. *)
From Verif Require Import Tactics Inv Own Life Count Arrival Cases Inst Ended Origin Account Way.

(** Labels that neither the user nor the scheduler nor an instance causes. *)
Definition service (lb : label) : Prop := match lb with LHandler | LSweepRecv | LSweep _ _ => True | _ => False end.

Definition eweight (e : event) : nat := match e with EAppend _ _ => 10 | _ => 6 end.
Fixpoint qweight (q : list event) : nat := match q with [] => 0%nat | e :: r => (eweight e + qweight r)%nat end.
Definition hweight (p : handler_pc) : nat :=
  match p with HIdle | HDead => 0 | HAdd1 _ _ _ _ | HAdv1 _ _ => 3 | HAdd2 _ _ _ | HAdv2 _ | HRem1 _ _ => 2 | _ => 1 end.
Definition sweight (s : sys) : nat := match spc s with SSleep => 0 | SRound _ _ => 1 end.
Definition weight (s : sys) : nat := (qweight (queue s) + hweight (hpc s) + 8 * length (heap s) + 9 * length (recq s) + sweight s)%nat.
Lemma qweight_app q r : qweight (q ++ r) = (qweight q + qweight r)%nat.
Proof. induction q as [|e q IH]; [done|]. cbn [qweight app]. rewrite IH. lia. Qed.

Lemma handler_weight pf lb s s' : lb = LHandler -> step pf lb s = Some s' -> hpc s <> HDead -> tpc s' = tpc s /\ (hpc s' = HDead \/ (weight s' < weight s)%nat).
Proof.
  intros El Hs H1. revert El H1. unfold weight, sweight. step_inv Hs; intros El; try discriminate El; clear El; inst_cases; isimpl; intros; (split; [reflexivity|]); auto; right.
  all: cbn [qweight hweight eweight]; unfold unit_of; repeat case_match; rewrite ?app_length; cbn [length]; try lia; done.
Qed.
Lemma handler_moves pf s : hpc s <> HDead -> (hpc s <> HIdle \/ queue s <> []) -> exists s', step pf LHandler s = Some s'.
Proof.
  intros H1 H2. cbn [step]. unfold handler_step, slot_remove_task. repeat case_match; eauto; naive_solver.
Qed.

Lemma least_in h d : least_deadline h = Some d -> exists ch u, h !! ch = Some u /\ u_deadline u = d.
Proof.
  revert d. induction h as [|u h IH]; [done|]. cbn [least_deadline]. intros d. destruct (least_deadline h) as [d'|]; intros [= <-].
  - destruct (N.min_spec (u_deadline u) d') as [[_ ->]|[_ ->]]; [exists 0%nat, u; done|]. destruct (IH d' eq_refl) as (ch & v & ? & ?). by exists (S ch), v.
  - by exists 0%nat, u.
Qed.
Lemma least_none h : least_deadline h = None -> h = [].
Proof. destruct h; [done|]. cbn [least_deadline]. destruct (least_deadline h); discriminate. Qed.
Lemma sweep_moves pf s now k : spc s = SRound now k -> exists ch s', step pf (LSweep ch now) s = Some s' /\ tpc s' = tpc s /\ hpc s' = hpc s /\ (weight s' < weight s)%nat /\
  (k <> 0 -> forall d, least_deadline (heap s) = Some d -> d <= now -> (weight s' + 2 <= weight s)%nat).
Proof.
  intros E. cbn [step]. unfold sweep_step, weight, sweight. rewrite E. destruct (k =? 0) eqn:Ek.
  { exists 0%nat. eexists. split; [reflexivity|]. fsimpl. rewrite N.eqb_eq in Ek. do 2 (split; [done|]). split; [lia|done]. }
  destruct (least_deadline (heap s)) as [d|] eqn:El.
  2: { exists 0%nat. eexists. split; [reflexivity|]. fsimpl. do 2 (split; [done|]). split; [lia|done]. }
  destruct (d <=? now) eqn:Ed.
  2: { exists 0%nat. eexists. split; [reflexivity|]. fsimpl. do 2 (split; [done|]). split; [lia|]. intros _ d' [= <-] ?. lia. }
  destruct (least_in _ _ El) as (ch & u & Hu & <-). exists ch. rewrite Hu, N.eqb_refl. eexists. split; [reflexivity|]. fsimpl.
  do 2 (split; [done|]). rewrite qweight_app. cbn [qweight eweight].
  assert (length (delete ch (heap s)) = (length (heap s) - 1)%nat) as Hl by (apply length_delete; by rewrite Hu). pose proof (lookup_lt_Some _ _ _ Hu). split; [lia|]. intros. lia.
Qed.

(** From every state, the event handler and the sweeper can work until nothing waits for them, unless the event handler panics. *)
Lemma settle pf s : exists ls s', Forall service ls /\ run pf ls s = Some s' /\ tpc s' = tpc s /\
  (hpc s' = HDead \/ queue s' = [] /\ recq s' = [] /\ heap s' = [] /\ hpc s' = HIdle).
Proof.
  remember (weight s) as w eqn:Ew. revert s Ew. induction w as [w IH] using lt_wf_ind. intros s ->.
  assert (forall l s1, Forall service l -> run pf l s = Some s1 -> tpc s1 = tpc s -> (hpc s1 = HDead \/ (weight s1 < weight s)%nat) ->
    exists ls s', Forall service ls /\ run pf ls s = Some s' /\ tpc s' = tpc s /\ (hpc s' = HDead \/ queue s' = [] /\ recq s' = [] /\ heap s' = [] /\ hpc s' = HIdle)) as Hgo.
  { intros l s1 Hl Hrun Ht [Hd|Hw]; [exists l, s1; auto|]. destruct (IH _ Hw s1 eq_refl) as (l2 & s2 & H1 & H2 & H3 & H4).
    exists (l ++ l2), s2. split; [by apply Forall_app|]. split; [by rewrite run_app, Hrun|]. split; [congruence|done]. }
  assert (hpc s = HDead \/ hpc s <> HDead) as [Hd|Hd] by (destruct (hpc s); auto); [exists [], s; auto|].
  assert ((hpc s <> HIdle \/ queue s <> []) \/ (hpc s = HIdle /\ queue s = [])) as [Hh|[Hh Hq]] by (destruct (hpc s), (queue s); auto; left; left; done).
  { destruct (handler_moves pf s Hd Hh) as [s1 Hs]. destruct (handler_weight _ _ _ _ eq_refl Hs Hd) as [H1 H2].
    apply (Hgo [LHandler] s1); [by repeat constructor|cbn [run]; by rewrite Hs|done|done]. }
  destruct (spc s) as [|now k] eqn:Es.
  2: { destruct (sweep_moves pf s now k Es) as (ch & s1 & Hs & H1 & H2 & H3 & _).
    apply (Hgo [LSweep ch now] s1); [by repeat constructor|cbn [run]; by rewrite Hs|done|by right]. }
  destruct (least_deadline (heap s)) as [d|] eqn:El.
  { assert (exists s1, step pf (LSweep 0 d) s = Some s1 /\ s1 = set_spc (SRound d 200) s) as (s1 & Hs1 & E1) by (cbn [step]; unfold sweep_step; rewrite Es; eauto).
    destruct (sweep_moves pf s1 d 200) as (ch & s2 & Hs2 & H1 & H2 & _ & H3); [by rewrite E1|].
    apply (Hgo [LSweep 0 d; LSweep ch d] s2); [by repeat constructor|cbn [run]; by rewrite Hs1, Hs2|by rewrite H1, E1|right].
    specialize (H3 ltac:(discriminate) d). rewrite E1 in H3 at 1. specialize (H3 El (N.le_refl d)).
    assert (weight s1 <= weight s + 1)%nat; [|lia]. rewrite E1. unfold weight, sweight. rewrite Es. fsimpl. lia. }
  apply least_none in El. destruct (recq s) as [|u q] eqn:Er.
  - exists [], s. split; [done|]. split; [done|]. split; [done|]. right. done.
  - apply (Hgo [LSweepRecv] (set_heap (u :: heap s) (set_recq q s))); [by repeat constructor|cbn [run step]; unfold sweep_recv; by rewrite Es, Er|done|right].
    unfold weight, sweight. fsimpl. rewrite Er, Es. cbn [length]. lia.
Qed.
