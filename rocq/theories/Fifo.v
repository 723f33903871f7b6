(** The event channel is a queue. *)
From Verif Require Import Tactics Inv.

Lemma sends_app l1 l2 : sends (l1 ++ l2) = sends l1 ++ sends l2.
Proof. induction l1 as [|[] l1 IH]; cbn; congruence. Qed.
Lemma pops_app l1 l2 : pops (l1 ++ l2) = pops l1 ++ pops l2.
Proof. induction l1 as [|[] l1 IH]; cbn; congruence. Qed.
Lemma sends_inst lg : Forall inst_obs lg -> sends lg = [].
Proof. induction 1 as [|o lg Ho _ IH]; [done|]. by destruct o. Qed.
Lemma pops_inst lg : Forall inst_obs lg -> pops lg = [].
Proof. induction 1 as [|o lg Ho _ IH]; [done|]. by destruct o. Qed.
Lemma elem_sends e lg : e ∈ sends lg <-> OSend e ∈ lg.
Proof. induction lg as [|o lg IH]; [split; by intros ?%elem_of_nil|]. rewrite elem_of_cons. destruct o; cbn [sends]; rewrite ?elem_of_cons, IH; naive_solver. Qed.
Lemma elem_pops e lg : e ∈ pops lg <-> OPop e ∈ lg.
Proof. induction lg as [|o lg IH]; [split; by intros ?%elem_of_nil|]. rewrite elem_of_cons. destruct o; cbn [pops]; rewrite ?elem_of_cons, IH; naive_solver. Qed.

Lemma fifo_step pf lb s s' : step pf lb s = Some s' -> sends (log s) = reverse (queue s) ++ pops (log s) ->
  sends (log s') = reverse (queue s') ++ pops (log s').
Proof.
  intros Hs. step_inv Hs; inst_shape; fsimpl; rewrite ?sends_app, ?pops_app, ?sends_inst, ?pops_inst by done; cbn [app sends pops]; try done.
  all: rewrite ?reverse_app, ?reverse_cons; cbn [app]; rewrite <- ?app_assoc; cbn [app]; try done.
  all: try (intros ->; done).
  all: try (repeat case_match; done).
  all: rewrite (sends_inst lg), (pops_inst lg) by done; done.
Qed.
Lemma fifo_reach pf t0 t1 s : reachable pf t0 t1 s -> sends (log s) = reverse (queue s) ++ pops (log s).
Proof. apply (reach_ind pf t0 t1 (fun s => sends (log s) = reverse (queue s) ++ pops (log s))); [exact eq_refl|]. intros. by eapply fifo_step. Qed.
