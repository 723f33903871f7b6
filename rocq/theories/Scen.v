(** Playing out concrete executions, for examples and counterexamples. *)
From stdpp Require Import pmap gmap.
From Verif Require Import Tactics Inv Own Life Count Quiet.

(** One act of a scenario is a number of steps:
    [Do lb], one step; [Tick now], the scheduler runs to the end of its iteration and reads [now];
    [Ticks n], [n] iterations with a steady clock; [Handle], the event handler runs until
    its queue is empty. *)
Inductive act := Do (lb : label) | Tick (now : N) | Ticks (n : N) | Handle.

Definition FUEL : nat := 200.
Definition fresh_rec (s : sys) : Z := match tpc s with TMaint _ _ _ => Z.of_nat (size (insts s)) | _ => 0%Z end.

Fixpoint tick (pf : profile) (fuel : nat) (now : N) (s : sys) : option sys :=
  match fuel with
  | O => None
  | S f => match step pf (LTimer 0 (fresh_rec s) now) s with
           | Some s' => if iters s <? iters s' then Some s' else tick pf f now s'
           | None => None
           end
  end.
Definition clock (s : sys) : N := match loop_of (tpc s) with Some l => l_ts l | None => gtime s end.
Definition ticks (pf : profile) (n : N) (s : sys) : option sys :=
  N.iter n (fun o => match o with Some s => tick pf FUEL (clock s + 1) s | None => None end) (Some s).
Fixpoint handle (pf : profile) (fuel : nat) (s : sys) : option sys :=
  match fuel with
  | O => None
  | S f => match hpc s, queue s with
           | HIdle, [] => Some s
           | _, _ => match step pf LHandler s with Some s' => handle pf f s' | None => None end
           end
  end.
Definition play1 (pf : profile) (a : act) (s : sys) : option sys :=
  match a with
  | Do lb => step pf lb s
  | Tick now => tick pf FUEL now s
  | Ticks n => ticks pf n s
  | Handle => handle pf FUEL s
  end.
Fixpoint play (pf : profile) (l : list act) (s : sys) : option sys :=
  match l with
  | [] => Some s
  | a :: r => match play1 pf a s with Some s' => play pf r s' | None => None end
  end.

(** Executions whose steps all satisfy [P]. *)
Definition reaches (P : label -> Prop) (pf : profile) (s s' : sys) : Prop := exists ls, Forall P ls /\ run pf ls s = Some s'.
Lemma reaches_trans P pf s1 s2 s3 : reaches P pf s1 s2 -> reaches P pf s2 s3 -> reaches P pf s1 s3.
Proof.
  intros (l1 & F1 & H1) (l2 & F2 & H2). exists (l1 ++ l2). split; [by apply Forall_app|]. clear F1. revert s1 H1. induction l1 as [|lb l1 IH]; intros s1 H1; cbn in *.
  - by simplify_eq.
  - destruct (step pf lb s1); [auto|done].
Qed.
Lemma reaches_step (P : label -> Prop) pf lb s s' : P lb -> step pf lb s = Some s' -> reaches P pf s s'.
Proof. intros HP H. exists [lb]. split; [auto|]. cbn. by rewrite H. Qed.
(** The steps of the acts other than [Do]. *)
Definition free (P : label -> Prop) : Prop := (forall ch rec now, P (LTimer ch rec now)) /\ P LHandler.
Lemma tick_reaches (P : label -> Prop) pf fuel now s s' : free P -> tick pf fuel now s = Some s' -> reaches P pf s s'.
Proof.
  intros [Ptimer Phandler]. revert s. induction fuel as [|f IH]; intros s H; [done|]. cbn [tick] in H.
  destruct (step pf _ s) as [s1|] eqn:E; [|done].
  destruct (iters s <? iters s1); [simplify_eq; exact (reaches_step P pf _ s s' (Ptimer _ _ _) E)|].
  eapply reaches_trans; [exact (reaches_step P pf _ s s1 (Ptimer _ _ _) E)|auto].
Qed.
Lemma ticks_reaches (P : label -> Prop) pf n s s' : free P -> ticks pf n s = Some s' -> reaches P pf s s'.
Proof.
  intros HF. unfold ticks. revert s'. induction n as [|n IH] using N.peano_ind; intros s' H.
  - cbn in H. simplify_eq. by exists [].
  - rewrite N.iter_succ in H. destruct (N.iter n _ (Some s)) as [s1|] eqn:E; [|done].
    eapply reaches_trans; [by apply IH|by eapply tick_reaches].
Qed.
Lemma handle_reaches (P : label -> Prop) pf fuel s s' : free P -> handle pf fuel s = Some s' -> reaches P pf s s'.
Proof.
  intros [Ptimer Phandler]. revert s. induction fuel as [|f IH]; intros s H; [done|]. cbn [handle] in H.
  assert (match step pf LHandler s with Some s' => handle pf f s' | None => None end = Some s' -> reaches P pf s s') as Hx.
  { destruct (step pf LHandler s) as [s1|] eqn:E; [|done]. intros H1. eapply reaches_trans; [exact (reaches_step P pf _ s s1 Phandler E)|auto]. }
  destruct (hpc s); try (by apply Hx). destruct (queue s); [|by apply Hx]. simplify_eq. by exists [].
Qed.
Lemma play1_reaches (P : label -> Prop) pf a s s' : free P -> (forall lb, a = Do lb -> P lb) -> play1 pf a s = Some s' -> reaches P pf s s'.
Proof.
  intros HF HP. destruct a; [exact (reaches_step _ _ _ _ _ (HP _ eq_refl))|exact (tick_reaches P pf FUEL now s s' HF)|exact (ticks_reaches P pf n s s' HF)|exact (handle_reaches P pf FUEL s s' HF)].
Qed.
Lemma play_reaches (P : label -> Prop) pf l s s' : free P -> (forall lb, Do lb ∈ l -> P lb) -> play pf l s = Some s' -> reaches P pf s s'.
Proof.
  intros HF HP. revert s. induction l as [|a l IH]; intros s H; [cbn in H; simplify_eq; by exists []|]. cbn [play] in H.
  destruct (play1 pf a s) as [s1|] eqn:E; [|done]. apply (reaches_trans P pf s s1); [|refine (IH _ _ H); intros lb Hlb; apply HP; by right].
  refine (play1_reaches P pf _ _ _ HF _ E). intros lb ->. apply HP. left.
Qed.
Lemma play_run pf l s s' : play pf l s = Some s' -> exists ls, run pf ls s = Some s'.
Proof. intros H. destruct (play_reaches (fun _ => True) pf l s s' (conj (fun _ _ _ => I) I) (fun _ _ => I) H) as (ls & _ & Hls). exists ls. exact Hls. Qed.
Lemma play_reach pf l t0 t1 s : play pf l (init t0 t1) = Some s -> reachable pf t0 t1 s.
Proof. exact (play_run pf l (init t0 t1) s). Qed.

(** The wheel of a new timer again, as a tree: [init_task_wheel] inserts the slots one
    by one, which takes long to evaluate.  A node with the low bits [v] and the weight [w]
    of the next bit holds the key [v + w]. *)
Fixpoint slots_tree (fuel : nat) (v w : N) : Pmap_raw slot :=
  match fuel with
  | O => PLeaf
  | S f => if v + w <=? SLOTS then PNode (Some ∅) (slots_tree f v (2 * w)) (slots_tree f (v + w) (2 * w)) else PLeaf
  end.
Lemma slots_tree_wf f v w : Pmap_wf (slots_tree f v w).
Proof.
  revert v w. induction f as [|f IH]; intros v w; cbn [slots_tree]; [done|]. destruct (_ <=? _); [|done].
  cbn [Pmap_wf]. specialize (IH v (2 * w)) as H1. specialize (IH (v + w) (2 * w)) as H2.
  destruct (slots_tree f v (2 * w)), (slots_tree f (v + w) (2 * w)); cbn [Pmap_wf] in *; try done; by apply andb_True.
Qed.
Lemma slots_tree_lookup f v w (j : positive) : 0 < w -> SLOTS < w * 2 ^ N.of_nat f ->
  slots_tree f v w !! j = if v + w * Npos j <=? SLOTS then Some ∅ else None.
Proof.
  revert v w j. induction f as [|f IH]; intros v w j Hw Hf.
  - cbn in *. replace (w * 1) with w in Hf by lia. rewrite (proj2 (N.leb_gt _ _)); [done|]. nia.
  - assert (SLOTS < 2 * w * 2 ^ N.of_nat f) as Hf'.
    { rewrite Nat2N.inj_succ, N.pow_succ_r' in Hf. lia. }
    cbn [slots_tree]. destruct (v + w <=? SLOTS) eqn:E.
    + apply N.leb_le in E. destruct j as [j|j|]; cbn [lookup Plookup_raw].
      * change (slots_tree f (v + w) (2 * w) !! j = if v + w * N.pos j~1 <=? SLOTS then Some ∅ else None).
        rewrite IH by lia. f_equal. by replace (v + w * N.pos j~1) with (v + w + 2 * w * N.pos j) by lia.
      * change (slots_tree f v (2 * w) !! j = if v + w * N.pos j~0 <=? SLOTS then Some ∅ else None).
        rewrite IH by lia. f_equal. by replace (v + w * N.pos j~0) with (v + 2 * w * N.pos j) by lia.
      * replace (v + w * 1) with (v + w) by lia. by rewrite (proj2 (N.leb_le _ _) E).
    + apply N.leb_gt in E. rewrite (proj2 (N.leb_gt _ _)); [done|]. nia.
Qed.
Definition slots_pmap : Pmap slot := PMap (slots_tree 13 0 1) (slots_tree_wf 13 0 1).
Lemma slots_pmap_wf : gmap_wf N slots_pmap.
Proof.
  unfold gmap_wf. rewrite bool_decide_spec. intros p x _. unfold decode, encode, N_countable.
  destruct (decide (p = 1%positive)) as [->|Hp]; [done|]. cbn. f_equal. by apply Pos.succ_pred.
Qed.
Definition wheel0 : wheel_t := GMap slots_pmap slots_pmap_wf.
Lemma wheel0_eq : wheel0 = init_task_wheel (N.to_nat SLOTS).
Proof.
  apply map_eq. intros i. rewrite init_wheel_lookup, N2Nat.id.
  change (wheel0 !! i) with (slots_tree 13 0 1 !! (encode i : positive)).
  rewrite slots_tree_lookup by (unfold SLOTS; cbn; lia).
  assert (0 + 1 * N.pos (encode i) = i + 1) as ->.
  { destruct i as [|p]; [reflexivity|]. change (encode (N.pos p)) with (Pos.succ p). lia. }
  case_bool_decide as E2; [rewrite (proj2 (N.leb_le _ _)) by lia|rewrite (proj2 (N.leb_gt _ _)) by lia]; reflexivity.
Qed.
(** [init], evaluated faster. *)
Definition init0 (t0 t1 : N) : sys := {|
  wheel := wheel0; flags := ∅; hand := 0; gtime := t0; motiv := true;
  tpc := TCheck {| l_ts := t1; l_hand := 0; l_next := 1 |};
  hpc := HIdle; hpub := None; queue := []; trace := ∅; recq := []; heap := [];
  spc := SSleep; insts := ∅; hdrs := ∅; chains := ∅; waiters := ∅; used := ∅;
  iters := 0; log := [OTick 0 t1] |}.
Lemma init0_eq t0 t1 : init0 t0 t1 = init t0 t1.
Proof. unfold init0, init, init_n. rewrite wheel0_eq. reflexivity. Qed.
Global Opaque init0.

(** Properties of the state at the end of a scenario, by evaluation. *)
Definition after (pf : profile) (t0 t1 : N) (l : list act) (P : sys -> bool) : bool :=
  match play pf l (init0 t0 t1) with Some s => P s | None => false end.
Lemma after_reach pf t0 t1 l P : after pf t0 t1 l P = true -> exists s, reachable pf t0 t1 s /\ P s = true.
Proof. unfold after. rewrite init0_eq. destruct (play pf l (init t0 t1)) as [s|] eqn:E; [|intros H; discriminate H]. intros H. exists s. split; [exact (play_reach _ _ _ _ _ E)|exact H]. Qed.

(** Tasks as the builder makes them at second [now] (see Builder.v). *)
Definition every (uid tid p now : N) : task := Task uid tid (SecondsRepeated (step_by (now + p) p)) None 0 true None.
Definition ntimes (uid tid n p now : N) : task := Task uid tid (SecondsCountDown n (step_by (now + p) p)) None 0 true None.
Definition limited (m : N) (t : task) : task := Task (t_uid t) (t_id t) (t_freq t) (t_maxrun t) (t_cyl t) (t_valid t) (Some m).
Definition timed (m : N) (t : task) : task := Task (t_uid t) (t_id t) (t_freq t) (Some m) (t_cyl t) (t_valid t) (t_maxpar t).

(* ------------------------------------------------------------------ *)
(** ** Deciding the hypotheses of the theorems *)

Lemma run_log pf ls s s' : run pf ls s = Some s' -> exists l, log s' = l ++ log s.
Proof.
  revert s. induction ls as [|lb ls IH]; intros s H; cbn [run] in H; [simplify_eq; by exists []|].
  destruct (step pf lb s) as [s1|] eqn:E; [|done]. destruct (IH _ H) as [l ->]. destruct (step_log _ _ _ _ E) as [l' ->].
  exists (l ++ l'). by rewrite app_assoc.
Qed.
Lemma play_submitted pf acts s s' lb t : play pf acts s = Some s' -> Do lb ∈ acts -> lb = LAdd t \/ lb = LInsert t \/ lb = LUpdate t ->
  submitted t (log s').
Proof.
  intros Hp Hin Hlb. revert s Hp. induction acts as [|a acts IH]; intros s Hp; [by apply elem_of_nil in Hin|].
  cbn [play] in Hp. destruct (play1 pf a s) as [s1|] eqn:E; [|done].
  apply elem_of_cons in Hin as [<-|Hin]; [|by eapply IH].
  destruct (play_run _ _ _ _ Hp) as [ls Hls]. destruct (run_log _ _ _ _ Hls) as [l ->].
  change (step pf lb s = Some s1) in E.
  assert (exists e, OSend e ∈ log s1 /\ submits t e) as (e & He & Hs).
  { destruct Hlb as [->|[->| ->]]; cbn in E; unfold submit_insert, submit in E; destruct (_ && _); try done; cbn in E; simplify_eq; fsimpl;
      eexists; (split; [left|unfold submits; auto]). }
  exists e. split; [|done]. apply elem_of_app. by right.
Qed.

Definition quietb (t : task) (lg : list obs) : bool :=
  forallb (fun o => match o with
    | OSend (EAdd t') | OSend (EInsert t') => negb (t_id t' =? t_id t) || (t_uid t' =? t_uid t)
    | OSend (EUpdate t') => negb (t_id t' =? t_id t)
    | OSend (ERemove i) | OSend (EAdvance i) => negb (i =? t_id t)
    | _ => true end) lg.
Lemma quietb_ok pf t0 t1 s t : reachable pf t0 t1 s -> submitted t (log s) -> quietb t (log s) = true -> quiet t (log s).
Proof.
  intros Hr Hs Hq e He Hn. unfold quietb in Hq. rewrite forallb_forall in Hq.
  assert (submitted t (log s) /\ OSend e ∈ log s) as [_ He'] by done.
  apply elem_of_list_In in He. specialize (Hq _ He). 
  assert (forall t', submits t' e -> t_uid t' = t_uid t -> t' = t) as Hu.
  { intros t' Ht' E. eapply (ci_uniq s (cnt_reach _ _ _ _ Hr)); [|exact Hs|exact E]. exists e. split; [done|done]. }
  unfold submits in Hu. destruct e; cbn in Hn, Hq; try done.
  all: rewrite Hn, N.eqb_refl in Hq; cbn in Hq; try done; apply N.eqb_eq in Hq.
  - left. f_equal. apply Hu; auto.
  - right. f_equal. apply Hu; auto.
Qed.
Definition nearb (u : N) (lg : list obs) : bool :=
  forallb (fun o => match o with OPark u' _ _ _ d => negb (u' =? u) || (d + SLOTS <? U64) | _ => true end) lg.
Lemma nearb_ok u lg : nearb u lg = true -> near u lg.
Proof.
  intros H i it ts d Hin. unfold nearb in H. rewrite forallb_forall in H. apply elem_of_list_In in Hin.
  specialize (H _ Hin). cbn in H. rewrite N.eqb_refl in H. by apply N.ltb_lt in H.
Qed.
Definition steadyb (b : N) (lg : list obs) : bool :=
  forallb (fun o => match o with OTick k ts => (k =? 0) || (ts =? b + k) | _ => true end) lg.
Lemma steadyb_ok b lg : steadyb b lg = true -> steady b lg.
Proof.
  intros H k ts Hin Hk. unfold steadyb in H. rewrite forallb_forall in H. apply elem_of_list_In in Hin. apply H in Hin. cbn in Hin.
  apply orb_true_iff in Hin as [E%N.eqb_eq|E%N.eqb_eq]; [subst k; by apply N.lt_irrefl in Hk|exact E].
Qed.

Definition all_ok (t : task) (s : sys) : bool := quietb t (log s) && nearb (t_uid t) (log s).
Lemma scen_alone pf t0 t1 acts t (P : sys -> bool) :
  Do (LAdd t) ∈ acts \/ Do (LInsert t) ∈ acts ->
  after pf t0 t1 acts (fun s => all_ok t s && P s) = true -> exists s, alone pf t0 t1 t s /\ P s = true.
Proof.
  unfold after. rewrite init0_eq. destruct (play pf acts (init t0 t1)) as [s|] eqn:E; [|intros ? H; discriminate H]. intros Hin H.
  apply andb_true_iff in H as [H HP]. unfold all_ok in H. apply andb_true_iff in H as [H1 H2].
  exists s. split; [|exact HP]. pose proof (play_reach _ _ _ _ _ E) as Hr.
  assert (submitted t (log s)) as Hs.
  { destruct Hin as [Hin|Hin]; refine (play_submitted pf acts _ s _ t E Hin _); auto. }
  split; [exact Hr|]. split; [exact Hs|]. split; [exact (quietb_ok _ _ _ _ _ Hr Hs H1)|]. exact (nearb_ok _ _ H2).
Qed.
Lemma scen_ideal pf t0 t1 b acts t (P : sys -> bool) :
  Do (LAdd t) ∈ acts \/ Do (LInsert t) ∈ acts ->
  after pf t0 t1 acts (fun s => all_ok t s && (steadyb b (log s) && P s)) = true -> exists s, ideal pf t0 t1 b t s /\ P s = true.
Proof.
  intros H1 H2. destruct (scen_alone _ _ _ _ _ (fun s => steadyb b (log s) && P s) H1 H2) as (s & Ha & H).
  apply andb_true_iff in H as [H HP]. exists s. split; [split; [exact Ha|exact (steadyb_ok _ _ H)]|exact HP].
Qed.

(** The newest entry that satisfies [f]. *)
Fixpoint cut (f : obs -> bool) (l : list obs) : option (list obs * obs * list obs) :=
  match l with
  | [] => None
  | o :: r => if f o then Some ([], o, r)
              else match cut f r with Some (l1, o', l2) => Some (o :: l1, o', l2) | None => None end
  end.
Lemma cut_ok f l l1 o l2 : cut f l = Some (l1, o, l2) -> l = l1 ++ o :: l2 /\ f o = true.
Proof.
  revert l1. induction l as [|x l IH]; intros l1 H; [done|]. cbn in H. destruct (f x) eqn:E.
  - by simplify_eq.
  - destruct (cut f l) as [[[a b] c]|]; [|done]. simplify_eq. by destruct (IH _ eq_refl) as [-> ?].
Qed.

(** Equality of log entries (those without a Task). *)
Global Instance pubev_eq_dec : EqDecision pubev.
Proof. solve_decision. Defined.
Global Instance next_res_eq_dec : EqDecision next_res.
Proof. solve_decision. Defined.
Global Instance why_eq_dec : EqDecision why.
Proof. solve_decision. Defined.
Definition same (a b : obs) : bool :=
  match a, b with
  | OLaunch u i r k t, OLaunch u' i' r' k' t' => (u =? u') && (i =? i') && (r =? r')%Z && (k =? k') && (t =? t')
  | OSkip u i k t, OSkip u' i' k' t' => (u =? u') && (i =? i') && (k =? k') && (t =? t')
  | OQuit i r, OQuit i' r' => (i =? i') && (r =? r')%Z
  | ONotify r st, ONotify r' st' => (r =? r')%Z && (st =? st')
  | OPublic p, OPublic p' => bool_decide (p = p')
  | OSweep i r d n, OSweep i' r' d' n' => (i =? i') && (r =? r')%Z && (d =? d') && (n =? n')
  | OTick k t, OTick k' t' => (k =? k') && (t =? t')
  | ONext c r, ONext c' r' => (c =? c') && bool_decide (r = r')
  | OPlan u i k g d, OPlan u' i' k' g' d' => (u =? u') && (i =? i') && (k =? k') && (g =? g') && (d =? d')
  | OAdded u i k g d, OAdded u' i' k' g' d' => (u =? u') && (i =? i') && (k =? k') && (g =? g') && (d =? d')
  | OPark u i k g d, OPark u' i' k' g' d' => (u =? u') && (i =? i') && (k =? k') && (g =? g') && (d =? d')
  | OEnd u i, OEnd u' i' => (u =? u') && (i =? i')
  | ODrop u i w, ODrop u' i' w' => (u =? u') && (i =? i') && bool_decide (w = w')
  | OPop EStop, OPop EStop => true
  | OPop (ERemove i), OPop (ERemove i') | OPop (EAdvance i), OPop (EAdvance i') => i =? i'
  | _, _ => false
  end.
Lemma same_ok a b : same a b = true -> a = b.
Proof.
  destruct a, b; cbn [same]; try done.
  all: try (repeat case_match; try done).
  all: rewrite ?andb_true_iff, ?N.eqb_eq, ?Z.eqb_eq, ?bool_decide_eq_true; intros; destruct_and?; congruence.
Qed.
Definition inb (o : obs) (l : list obs) : bool := existsb (same o) l.
Lemma inb_ok o l : inb o l = true -> o ∈ l.
Proof. unfold inb. rewrite existsb_exists. intros (x & Hin & Hx). apply same_ok in Hx as <-. by apply elem_of_list_In. Qed.
Definition sees (o : obs) (l : list obs) (P : list obs -> list obs -> bool) : bool :=
  match cut (same o) l with Some (l1, _, l2) => P l1 l2 | None => false end.
Lemma sees_ok o l P : sees o l P = true -> exists l1 l2, l = l1 ++ o :: l2 /\ P l1 l2 = true.
Proof.
  unfold sees. destruct (cut (same o) l) as [[[l1 o'] l2]|] eqn:E; [|intros H; discriminate H]. intros HP.
  apply cut_ok in E as [-> E]. apply same_ok in E as <-. eauto.
Qed.
Definition is (o : option N) (x : option N) : bool := bool_decide (o = x).
Lemma is_ok o x : is o x = true -> o = x.
Proof. apply bool_decide_eq_true. Qed.
(** Turns the computed facts into propositions. *)
Ltac facts H :=
  repeat match type of H with
  | andb _ _ = true => let H' := fresh H in apply andb_true_iff in H as [H' H]; facts H'
  | sees _ _ _ = true => let l1 := fresh "l1" in let l2 := fresh "l2" in let E := fresh "El" in
      apply sees_ok in H as (l1 & l2 & E & H); cbv beta in H
  | inb _ _ = true => apply inb_ok in H
  | is _ _ = true => apply is_ok in H
  | (_ <? _) = true => apply N.ltb_lt in H
  | (_ =? _) = true => apply N.eqb_eq in H
  end.
