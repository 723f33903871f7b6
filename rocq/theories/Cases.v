(** What the events about instances do, case by case. *)
From Verif Require Import Tactics.

Definition quit_state (tid : N) (rec : Z) (tr : gmap N (list hbox)) (s : sys) : sys := emit (OQuit tid rec) (set_trace tr s).
Definition dec_if (b : bool) (m : mark) : mark := if b then dec_num m else m.

(** The outcome of a cancel or timeout ([fin = false]) or finish ([fin = true]) event, with final state [st]. *)
Inductive ended (fin : bool) (tid : N) (rec : Z) (st : N) (s : sys) : sys -> Prop :=
| ended_unknown :
    quit_one_task_handler tid rec (trace s) = None -> ended fin tid rec st s (complete false s)
| ended_nomark tr :
    quit_one_task_handler tid rec (trace s) = Some tr -> flags s !! tid = None ->
    ended fin tid rec st s (complete fin (quit_state tid rec tr s))
| ended_nochain tr m :
    quit_one_task_handler tid rec (trace s) = Some tr -> flags s !! tid = Some m -> m_chain m = None ->
    ended fin tid rec st s (complete true (set_flags (<[tid := dec_num m]> (flags s)) (quit_state tid rec tr s)))
| ended_dropped tr m cid l :
    quit_one_task_handler tid rec (trace s) = Some tr -> flags s !! tid = Some m -> m_chain m = Some (cid, l) ->
    chain_state s cid = Some DROPPED ->
    ended fin tid rec st s (complete false
      (set_flags (<[tid := set_m_chain None (dec_if (negb fin) m)]> (flags s)) (abandon_chain cid (quit_state tid rec tr s))))
| ended_unlisted tr m cid l :
    quit_one_task_handler tid rec (trace s) = Some tr -> flags s !! tid = Some m -> m_chain m = Some (cid, l) ->
    chain_state s cid <> Some DROPPED -> take_rec id rec l = None ->
    ended fin tid rec st s (complete false
      (set_flags (<[tid := dec_if (negb fin) m]> (flags s)) (quit_state tid rec tr s)))
| ended_notified tr m cid l z l' :
    quit_one_task_handler tid rec (trace s) = Some tr -> flags s !! tid = Some m -> m_chain m = Some (cid, l) ->
    chain_state s cid <> Some DROPPED -> take_rec id rec l = Some (z, l') ->
    ended fin tid rec st s (complete true
      (set_flags (<[tid := set_m_chain (Some (cid, l')) (dec_num m)]> (flags s))
        (notify_instance rec st (quit_state tid rec tr s)))).

Lemma notify_cases m rec st s m' s' ok : notify_cancel_finish m rec st s = (ok, m', s') ->
  (m_chain m = None /\ ok = false /\ m' = m /\ s' = s) \/
  (exists cid l, m_chain m = Some (cid, l) /\ chain_state s cid = Some DROPPED /\ ok = false /\ m' = set_m_chain None m /\ s' = abandon_chain cid s) \/
  (exists cid l, m_chain m = Some (cid, l) /\ chain_state s cid <> Some DROPPED /\ take_rec id rec l = None /\ ok = false /\ m' = m /\ s' = s) \/
  (exists cid l z l', m_chain m = Some (cid, l) /\ chain_state s cid <> Some DROPPED /\ take_rec id rec l = Some (z, l') /\ ok = true /\
     m' = set_m_chain (Some (cid, l')) m /\ s' = notify_instance rec st s).
Proof.
  unfold notify_cancel_finish, get_maintainer. destruct (m_chain m) as [[cid l]|] eqn:E.
  - destruct (decide (chain_state s cid = Some DROPPED)).
    + cbn [m_chain set_m_chain]. intros; simplify_eq. right; left. eauto 10.
    + rewrite E. destruct (take_rec id rec l) as [[z l']|] eqn:Et; intros; simplify_eq.
      * right; right; right. eauto 20.
      * right; right; left. eauto 20.
  - rewrite E. intros; simplify_eq. left. done.
Qed.

Lemma cancel_cases i tid rec st s : ended false tid rec st s (cancel_task i tid rec st s).
Proof.
  unfold cancel_task. destruct (quit_one_task_handler tid rec (trace s)) as [tr|] eqn:Eq; [|by apply ended_unknown].
  fold (quit_state tid rec tr s). change (flags (quit_state tid rec tr s)) with (flags s).
  destruct (flags s !! tid) as [m|] eqn:Em; [|by apply ended_nomark].
  change (m_chain (dec_num m)) with (m_chain m).
  destruct (m_chain m) as [[cid l]|] eqn:Ec; [|by apply ended_nochain].
  destruct (notify_cancel_finish (dec_num m) rec st (quit_state tid rec tr s)) as [[ok m'] s'] eqn:En.
  change (chain_state s) with (chain_state (quit_state tid rec tr s)).
  apply notify_cases in En as [(E1 & _)|[(c1 & l1 & E1 & E2 & -> & -> & ->)|[(c1 & l1 & E1 & E2 & E3 & -> & -> & ->)|(c1 & l1 & z & l' & E1 & E2 & E3 & -> & -> & ->)]]];
    change (m_chain (dec_num m)) with (m_chain m) in E1; rewrite Ec in E1; simplify_eq.
  - exact (ended_dropped false tid rec st s tr m c1 l1 Eq Em Ec E2).
  - exact (ended_unlisted false tid rec st s tr m c1 l1 Eq Em Ec E2 E3).
  - exact (ended_notified false tid rec st s tr m c1 l1 z l' Eq Em Ec E2 E3).
Qed.

Lemma finish_cases tid rec s : ended true tid rec COMPLETED s (finish_task tid rec s).
Proof.
  unfold finish_task. destruct (quit_one_task_handler tid rec (trace s)) as [tr|] eqn:Eq; [|by apply ended_unknown].
  fold (quit_state tid rec tr s). change (flags (quit_state tid rec tr s)) with (flags s).
  destruct (flags s !! tid) as [m|] eqn:Em; [|by apply ended_nomark].
  destruct (m_chain m) as [[cid l]|] eqn:Ec; [|by apply ended_nochain].
  destruct (notify_cancel_finish m rec COMPLETED (quit_state tid rec tr s)) as [[ok m'] s'] eqn:En.
  change (chain_state s) with (chain_state (quit_state tid rec tr s)).
  apply notify_cases in En as [(E1 & _)|[(c1 & l1 & E1 & E2 & -> & -> & ->)|[(c1 & l1 & E1 & E2 & E3 & -> & -> & ->)|(c1 & l1 & z & l' & E1 & E2 & E3 & -> & -> & ->)]]];
    rewrite Ec in E1; simplify_eq.
  - exact (ended_dropped true tid rec COMPLETED s tr m c1 l1 Eq Em Ec E2).
  - exact (ended_unlisted true tid rec COMPLETED s tr m c1 l1 Eq Em Ec E2 E3).
  - exact (ended_notified true tid rec COMPLETED s tr m c1 l1 z l' Eq Em Ec E2 E3).
Qed.

(** The outcome of AppendTaskHandle. *)
Definition unit_of (hb : hbox) : list runit := match hb_end hb with Some d => [RUnit d (hb_tid hb) (hb_rec hb)] | None => [] end.
Definition registered (tid : N) (hb : hbox) (s : sys) : sys :=
  complete true (set_trace (trace_insert tid hb (trace s)) (set_recq (recq s ++ unit_of hb) s)).
Inductive appended (tid : N) (hb : hbox) (s : sys) : sys -> Prop :=
| appended_nomark : flags s !! tid = None -> appended tid hb s (registered tid hb s)
| appended_nochain m : flags s !! tid = Some m -> m_chain m = None ->
    appended tid hb s (registered tid hb (set_flags (<[tid := m]> (flags s)) s))
| appended_dropped m cid l : flags s !! tid = Some m -> m_chain m = Some (cid, l) -> chain_state s cid = Some DROPPED ->
    appended tid hb s (registered tid hb (set_flags (<[tid := set_m_chain None m]> (flags s)) (abandon_chain cid s)))
| appended_pushed m cid l : flags s !! tid = Some m -> m_chain m = Some (cid, l) -> chain_state s cid <> Some DROPPED ->
    appended tid hb s (registered tid hb
      (set_flags (<[tid := set_m_chain (Some (cid, l ++ [hb_rec hb])) m]> (flags s)) (push_instance tid cid (hb_rec hb) s))).

Lemma registered_eq tid hb s :
  complete true (set_trace (trace_insert tid hb (trace (match hb_end hb with
            | Some d => set_recq (recq s ++ [RUnit d (hb_tid hb) (hb_rec hb)]) s | None => s end)))
   (match hb_end hb with Some d => set_recq (recq s ++ [RUnit d (hb_tid hb) (hb_rec hb)]) s | None => s end)) = registered tid hb s.
Proof.
  unfold registered, unit_of. destruct (hb_end hb); [done|]. rewrite app_nil_r. by destruct s.
Qed.

Lemma append_cases tid hb s : appended tid hb s (maintain_task_status tid hb s).
Proof.
  unfold maintain_task_status. rewrite registered_eq. unfold maintain_mark.
  destruct (flags s !! tid) as [m|] eqn:Em; [|by apply appended_nomark].
  unfold get_maintainer. destruct (m_chain m) as [[cid l]|] eqn:Ec.
  - destruct (decide (chain_state s cid = Some DROPPED)) as [Ed|Ed].
    + cbn [m_chain set_m_chain]. exact (appended_dropped tid hb s m cid l Em Ec Ed).
    + rewrite Ec. exact (appended_pushed tid hb s m cid l Em Ec Ed).
  - rewrite Ec. exact (appended_nochain tid hb s m Em Ec).
Qed.

(** Replaces an instance event of the goal by its cases. *)
Ltac by_cases L :=
  match type of L with
  | ended _ _ _ _ ?a ?x => generalize L; generalize x; let y := fresh "y" in let H := fresh "H" in intros y H; destruct H
  | appended _ _ ?a ?x => generalize L; generalize x; let y := fresh "y" in let H := fresh "H" in intros y H; destruct H
  end.
Ltac inst_cases :=
  lazymatch goal with
  | |- context [cancel_task ?i ?tid ?rec ?st ?s] => by_cases (cancel_cases i tid rec st s)
  | |- context [finish_task ?tid ?rec ?s] => by_cases (finish_cases tid rec s)
  | |- context [maintain_task_status ?tid ?hb ?s] => by_cases (append_cases tid hb s)
  | _ => idtac
  end.
Ltac isimpl :=
  unfold registered, quit_state, notify_instance, push_instance, abandon_chain, chain_state in *; fsimpl_all.
