(** Instances: each started instance is in one place (scheduler, event queue, task trace, or told to quit). *)
From Verif Require Import Tactics Inv Own Cases.

Lemma elem_quits tid rec lg : (tid, rec) ∈ quits lg <-> OQuit tid rec ∈ lg.
Proof.
  induction lg as [|o lg IH]; [split; by intros ?%elem_of_nil|]. rewrite elem_of_cons.
  destruct o; cbn [quits]; rewrite ?elem_of_cons, IH; naive_solver.
Qed.
Lemma quits_app l1 l2 : quits (l1 ++ l2) = quits l1 ++ quits l2.
Proof. induction l1 as [|[] l1 IH]; cbn; congruence. Qed.

Definition ev_rec (e : event) : list (N * Z) := match e with EAppend tid hb => [(tid, hb_rec hb)] | _ => [] end.
Definition tpc_rec (p : timer_pc) : list (N * Z) := match p with TSend _ _ t r _ => [(t_id t, r)] | _ => [] end.
Definition list_recs (p : N * list hbox) : list (N * Z) := (fun hb => (fst p, hb_rec hb)) <$> snd p.
Definition trace_recs (tr : gmap N (list hbox)) : list (N * Z) := map_to_list tr ≫= list_recs.

(** Where the instances are. *)
Definition places (s : sys) : list (N * Z) :=
  tpc_rec (tpc s) ++ (queue s ≫= ev_rec) ++ trace_recs (trace s) ++ quits (log s).

Lemma trace_recs_insert tr k l : trace_recs (<[k := l]> tr) ≡ₚ list_recs (k, l) ++ trace_recs (delete k tr).
Proof. unfold trace_recs. rewrite <- insert_delete_insert. rewrite map_to_list_insert by apply lookup_delete. done. Qed.
Lemma trace_recs_lookup tr k l : tr !! k = Some l -> trace_recs tr ≡ₚ list_recs (k, l) ++ trace_recs (delete k tr).
Proof. intros H. unfold trace_recs. rewrite <- (map_to_list_delete tr k l H). done. Qed.
Lemma trace_insert_recs tid hb tr : trace_recs (trace_insert tid hb tr) ≡ₚ (tid, hb_rec hb) :: trace_recs tr.
Proof.
  unfold trace_insert. rewrite trace_recs_insert. unfold list_recs at 1. cbn [fst snd]. rewrite fmap_app. cbn [fmap list_fmap].
  destruct (tr !! tid) as [l|] eqn:E; cbn [default from_option].
  - rewrite (trace_recs_lookup tr tid l E). change (list_recs (tid, l)) with ((fun hb => (tid, hb_rec hb)) <$> l). unfold id. cbn [app]. by rewrite <- Permutation_cons_append.
  - by rewrite delete_notin.
Qed.
Lemma take_rec_perm {A} (key : A -> Z) rec l x l' : take_rec key rec l = Some (x, l') -> l ≡ₚ x :: l' /\ key x = rec.
Proof.
  revert l'. induction l as [|y l IH]; intros l' H; [done|]. cbn in H. case_decide; simplify_eq; [done|].
  destruct (take_rec key rec l) as [[z r]|]; [|done]. simplify_eq. destruct (IH _ eq_refl) as [-> ?]. split; [|done]. constructor.
Qed.
Lemma take_rec_none {A} (key : A -> Z) rec l : take_rec key rec l = None <-> rec ∉ key <$> l.
Proof.
  induction l as [|y l IH]; cbn; [split; [intros _; apply not_elem_of_nil|done]|].
  rewrite not_elem_of_cons. case_decide; [naive_solver|]. destruct (take_rec key rec l) as [[z r]|]; naive_solver.
Qed.
Lemma quit_recs tid rec tr tr' : quit_one_task_handler tid rec tr = Some tr' -> trace_recs tr ≡ₚ (tid, rec) :: trace_recs tr'.
Proof.
  unfold quit_one_task_handler. destruct (tr !! tid) as [l|] eqn:E; [|done].
  destruct (take_rec hb_rec rec l) as [[x l']|] eqn:Et; [|done]. intros; simplify_eq.
  apply take_rec_perm in Et as [Hp <-]. rewrite (trace_recs_lookup tr tid l E), trace_recs_insert. unfold list_recs. cbn [fst snd]. by rewrite Hp.
Qed.
Lemma elem_trace_recs tid rec tr : (tid, rec) ∈ trace_recs tr <-> exists l, tr !! tid = Some l /\ rec ∈ hb_rec <$> l.
Proof.
  unfold trace_recs. rewrite elem_of_list_bind. split.
  - intros ([k l] & H & Hk). apply elem_of_map_to_list in Hk. apply elem_of_list_fmap in H as (hb & E & H). cbn in *. simplify_eq.
    exists l. split; [done|]. by apply elem_of_list_fmap_1.
  - intros (l & Hl & H). apply elem_of_list_fmap in H as (hb & -> & H). exists (tid, l). split; [|by apply elem_of_map_to_list].
    apply elem_of_list_fmap. eauto.
Qed.
Lemma quit_none tid rec tr : quit_one_task_handler tid rec tr = None <-> (tid, rec) ∉ trace_recs tr.
Proof.
  rewrite elem_trace_recs. unfold quit_one_task_handler. destruct (tr !! tid) as [l|].
  - pose proof (take_rec_none hb_rec rec l). destruct (take_rec hb_rec rec l) as [[x l']|]; naive_solver.
  - naive_solver.
Qed.

Lemma places_step pf lb s s' : step pf lb s = Some s' ->
  (exists l ids t r, tpc s = TSpawn l ids t r /\ places s' ≡ₚ (t_id t, r) :: places s /\
     exists g, insts s' = <[r := Inst (t_id t) (t_uid t) g IRunning]> (insts s)) \/
  (places s' ⊆+ places s).
Proof.
  intros H. unfold places. step_inv H; inst_cases; isimpl.
  all: repeat match goal with E : tpc ?s = _ |- context [tpc ?s] => rewrite E end.
  all: repeat match goal with E : queue ?s = _ |- context [queue ?s] => rewrite E end.
  all: rewrite ?bind_app; cbn [mbind list_bind ev_rec tpc_rec public_of app quits]; rewrite ?app_nil_r.
  all: try (right; reflexivity).
  all: try match goal with Hq : quit_one_task_handler _ _ _ = Some _ |- _ => rewrite (quit_recs _ _ _ _ Hq) end.
  all: try rewrite trace_insert_recs.
  all: try (right; solve_submseteq).
  all: try (right; repeat case_match; cbn [quits tpc_rec app]; solve_submseteq).
  left. eexists _, _, _, _. split; [reflexivity|]. split; [done|]. eauto.
Qed.

Lemma elem_launches u tid rec it ts lg : (u, tid, rec, it, ts) ∈ launches lg <-> OLaunch u tid rec it ts ∈ lg.
Proof.
  induction lg as [|o lg IH]; [split; by intros ?%elem_of_nil|]. rewrite elem_of_cons.
  destruct o; cbn [launches]; rewrite ?elem_of_cons, IH; naive_solver.
Qed.
Lemma launches_app l1 l2 : launches (l1 ++ l2) = launches l1 ++ launches l2.
Proof. induction l1 as [|[] l1 IH]; cbn; congruence. Qed.
Lemma launches_inst lg : Forall inst_obs lg -> launches lg = [].
Proof. induction 1 as [|o lg Ho _ IH]; [done|]. by destruct o. Qed.

Definition who (i : inst) : N * N := (i_tid i, i_uid i).

Lemma who_alter f (m : gmap Z inst) k r : (forall i, who (f i) = who i) -> who <$> alter f k m !! r = who <$> m !! r.
Proof.
  intros Hf. destruct (decide (r = k)) as [->|]; [rewrite lookup_alter|by rewrite lookup_alter_ne].
  destruct (m !! k); cbn; [by rewrite Hf|done].
Qed.
Lemma who_insert (m : gmap Z inst) k i i' r : m !! k = Some i -> who i' = who i -> who <$> <[k := i']> m !! r = who <$> m !! r.
Proof.
  intros Hm Hi. destruct (decide (r = k)) as [->|]; [rewrite lookup_insert, Hm; cbn; by rewrite Hi|by rewrite lookup_insert_ne].
Qed.

Lemma insts_step pf lb s s' : step pf lb s = Some s' ->
  (exists l ids t r g, tpc s = TSpawn l ids t r /\ insts s' = <[r := Inst (t_id t) (t_uid t) g IRunning]> (insts s) /\
     log s' = OLaunch (t_uid t) (t_id t) r (iters s) (l_ts l) :: log s /\ forall l ids t r, tpc s' <> TSpawn l ids t r) \/
  (launches (log s') = launches (log s) /\ (forall r, who <$> insts s' !! r = who <$> insts s !! r) /\
    forall l ids t r, tpc s' = TSpawn l ids t r -> tpc s = tpc s' \/ insts s !! r = None).
Proof.
  intros H. step_inv H; inst_shape; fsimpl.
  all: try (left; eexists _, _, _, _, _; split; [reflexivity|]; split; [reflexivity|]; split; [reflexivity|]; done).
  all: right; cbn [launches]; rewrite ?launches_app, ?launches_inst by done; cbn [app launches].
  all: split; [repeat case_match; reflexivity|].
  all: split; [try reflexivity|by intros; simplify_eq; auto].
  all: intros r; try (apply who_alter; intros i; reflexivity).
  all: eapply who_insert; [eassumption|done].
Qed.

Record rec_inv (s : sys) : Prop := {
  ri_nodup : NoDup (places s).*2;
  ri_at : forall tid rec, (tid, rec) ∈ places s -> exists i, insts s !! rec = Some i /\ i_tid i = tid;
  ri_spawn : forall l ids t r, tpc s = TSpawn l ids t r -> insts s !! r = None;
  ri_launch : forall u tid r it ts, OLaunch u tid r it ts ∈ log s -> who <$> insts s !! r = Some (tid, u);
  ri_inst : forall r tid u, who <$> insts s !! r = Some (tid, u) -> exists it ts, OLaunch u tid r it ts ∈ log s;
  ri_uniq : NoDup (l_rec <$> launches (log s))
}.

Lemma rec_step pf lb s s' : rec_inv s -> step pf lb s = Some s' -> rec_inv s'.
Proof.
  intros [Hnd Hat Hsp Hl Hi Hu] H. pose proof (places_step _ _ _ _ H) as Hp. pose proof (insts_step _ _ _ _ H) as Hq.
  assert (forall r, insts s !! r = None -> r ∉ (places s).*2) as Hfresh.
  { intros r Hr. rewrite elem_of_list_fmap. intros ([tid r'] & -> & Hin). apply Hat in Hin as (i & Hin & _). cbn in Hr. congruence. }
  assert (forall r, insts s !! r = None -> r ∉ l_rec <$> launches (log s)) as Hfresh2.
  { intros r Hr. rewrite elem_of_list_fmap. intros ([[[[u tid] r'] it] ts] & -> & Hin). apply elem_launches, Hl in Hin. cbn in Hr. by rewrite Hr in Hin. }
  destruct Hq as [(l & ids & t & r & g & Et & Ei & El & Hnt)|(El & Ew & Hs)].
  - pose proof (Hsp _ _ _ _ Et) as Hr. split.
    + destruct Hp as [(l1 & ids1 & t1 & r1 & Et1 & Hp & _)|Hp].
      * rewrite Et in Et1. simplify_eq. rewrite Hp. cbn. constructor; auto.
      * apply (fmap_submseteq snd) in Hp. apply submseteq_Permutation in Hp as [k Hp]. rewrite Hp in Hnd. by apply NoDup_app in Hnd as [? _].
    + intros tid rec Hin. assert ((tid, rec) = (t_id t, r) \/ (tid, rec) ∈ places s) as [E|Hin'].
      { destruct Hp as [(l1 & ids1 & t1 & r1 & Et1 & Hp & _)|Hp].
        - rewrite Et in Et1. simplify_eq. rewrite Hp in Hin. by apply elem_of_cons in Hin.
        - right. by eapply elem_of_submseteq. }
      * simplify_eq. rewrite Ei, lookup_insert. eauto.
      * destruct (Hat _ _ Hin') as (i & Hi' & ?). rewrite Ei. rewrite lookup_insert_ne by congruence. eauto.
    + intros l1 ids1 t1 r1 E1. by destruct (Hnt l1 ids1 t1 r1).
    + intros u tid r1 it ts. rewrite El, Ei, elem_of_cons. intros [E|Hin].
      * simplify_eq. by rewrite lookup_insert.
      * specialize (Hl _ _ _ _ _ Hin). rewrite lookup_insert_ne; [done|]. intros ->. by rewrite Hr in Hl.
    + intros r1 tid u. rewrite El, Ei. destruct (decide (r1 = r)) as [->|].
      * rewrite lookup_insert. cbn. unfold who. cbn. intros; simplify_eq. eexists _, _. by left.
      * rewrite lookup_insert_ne by done. intros Hx. destruct (Hi _ _ _ Hx) as (it & ts & ?). exists it, ts. by right.
    + rewrite El. cbn. constructor; auto.
  - assert (places s' ⊆+ places s) as Hp'.
    { destruct Hp as [(l1 & ids1 & t1 & r1 & Et1 & Hp & g & Ei)|Hp]; [|done]. exfalso. specialize (Ew r1).
      rewrite Ei, lookup_insert, (Hsp _ _ _ _ Et1) in Ew. done. }
    assert (forall r, insts s !! r = None -> insts s' !! r = None) as Hnone.
    { intros r Hr. specialize (Ew r). rewrite Hr in Ew. destruct (insts s' !! r); [done|done]. }
    split.
    + apply (fmap_submseteq snd) in Hp'. apply submseteq_Permutation in Hp' as [k Hp']. rewrite Hp' in Hnd. by apply NoDup_app in Hnd as [? _].
    + intros tid rec Hin. destruct (Hat tid rec) as (i & Hr & <-); [by eapply elem_of_submseteq|]. specialize (Ew rec). rewrite Hr in Ew.
      destruct (insts s' !! rec) as [i'|]; [|done]. cbn in Ew. unfold who in Ew. simplify_eq. exists i'. split; [done|congruence].
    + intros l ids t r Et. apply Hnone. destruct (Hs _ _ _ _ Et) as [E|E]; [|done]. rewrite Et in E. eauto.
    + intros u tid r it ts Hin. rewrite Ew. apply (Hl _ _ _ it ts). apply elem_launches. rewrite <- El. by apply elem_launches.
    + intros r tid u. rewrite Ew. intros Hx. destruct (Hi _ _ _ Hx) as (it & ts & ?). exists it, ts.
      apply elem_launches. rewrite El. by apply elem_launches.
    + by rewrite El.
Qed.

Lemma rec_init n t0 t1 : rec_inv (init_n n t0 t1).
Proof.
  split.
  - change (NoDup (@nil Z)). constructor.
  - change (places (init_n n t0 t1)) with (@nil (N * Z)). intros ? ? Hx%elem_of_nil. destruct Hx.
  - intros ? ? ? ? Hx. discriminate Hx.
  - change (log (init_n n t0 t1)) with [OTick 0 t1]. intros ? ? ? ? ? Hx%elem_of_list_singleton. discriminate Hx.
  - change (insts (init_n n t0 t1)) with (∅ : gmap Z inst). intros r tid u. rewrite lookup_empty. intros Hx; discriminate Hx.
  - change (NoDup (@nil Z)). constructor.
Qed.
Lemma rec_reach pf t0 t1 s : reachable pf t0 t1 s -> rec_inv s.
Proof. apply reach_ind; [exact (rec_init _ t0 t1)|]. eauto using rec_step. Qed.

(** ** C15 *)
Lemma quits_places s : quits (log s) ⊆+ places s.
Proof. unfold places. solve_submseteq. Qed.
Lemma quits_nodup s : rec_inv s -> NoDup (quits (log s)).*2.
Proof.
  intros [Hnd _ _ _ _ _]. pose proof (fmap_submseteq snd _ _ (quits_places s)) as Hp. apply submseteq_Permutation in Hp as [k Hp].
  rewrite Hp in Hnd. by apply NoDup_app in Hnd as [? _].
Qed.
