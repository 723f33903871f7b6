(** Iterations and the seconds they belong to. *)
From Verif Require Import Tactics Inv.

(** The second with which an entry is stamped is the clock value of its iteration. *)
Definition stamped (lg : list obs) (o : obs) : Prop :=
  match o with
  | OLaunch _ _ _ it ts | OSkip _ _ it ts | OPark _ _ it ts _ => OTick it ts ∈ lg
  | _ => True
  end.

Definition stored (p : timer_pc) : bool :=
  match p with TCheck _ | TStore _ | TStopped => false | _ => true end.

Record clk_inv (t0 : N) (s : sys) : Prop := {
  ck_loop : forall l, loop_of (tpc s) = Some l -> OTick (iters s) (l_ts l) ∈ log s;
  ck_entry : forall o, o ∈ log s -> stamped (log s) o;
  ck_le : forall k ts, OTick k ts ∈ log s -> k <= iters s;
  ck_fun : forall k a b, OTick k a ∈ log s -> OTick k b ∈ log s -> a = b;
  ck_all : forall k, k <= iters s -> exists ts, OTick k ts ∈ log s;
  ck_stored : stored (tpc s) = true -> OTick (iters s) (gtime s) ∈ log s;
  ck_gtime : (gtime s = t0 /\ iters s = 0) \/ exists k, OTick k (gtime s) ∈ log s /\ k <= iters s /\ iters s <= k + 1
}.

Lemma stamped_mono lg lg' o : (forall x, x ∈ lg -> x ∈ lg') -> stamped lg o -> stamped lg' o.
Proof. destruct o; cbn; auto. Qed.
Lemma inst_not_tick o k ts : inst_obs o -> o <> OTick k ts.
Proof. by destruct o. Qed.

(** Steps that do not tick. *)
Lemma clk_frame t0 s s' lg : clk_inv t0 s -> log s' = lg ++ log s -> iters s' = iters s ->
  (forall l, loop_of (tpc s') = Some l -> loop_of (tpc s) = Some l) ->
  (gtime s' = gtime s /\ (stored (tpc s') = true -> stored (tpc s) = true) \/ OTick (iters s) (gtime s') ∈ log s) ->
  (forall o, o ∈ lg -> stamped (log s) o /\ forall k ts, o <> OTick k ts) -> clk_inv t0 s'.
Proof.
  intros [H1 H2 H3 H4 H5 H7 H6] El Ei Ep Eg Ho.
  assert (forall x, x ∈ log s -> x ∈ log s') as Hm by (intros x Hx; rewrite El, elem_of_app; auto).
  assert (forall k ts, OTick k ts ∈ log s' -> OTick k ts ∈ log s) as Ht.
  { intros k ts. rewrite El, elem_of_app. intros [Hx|?]; [|done]. exfalso. by eapply Ho. }
  split; rewrite ?Ei.
  - eauto.
  - intros o Hin. rewrite El, elem_of_app in Hin. destruct Hin as [Hin|Hin]; eapply stamped_mono; [exact Hm| |exact Hm|]; [by apply Ho|auto].
  - eauto.
  - eauto.
  - intros k Hk. destruct (H5 k Hk) as [ts ?]. eauto.
  - intros Hst. destruct Eg as [[-> Hx]|Hg]; auto.
  - destruct Eg as [[-> _]|Hg].
    + destruct H6 as [?|(k & ? & ? & ?)]; [by left|right; exists k; auto].
    + right. exists (iters s). split; [auto|lia].
Qed.

Lemma clk_step pf t0 lb s s' : clk_inv t0 s -> step pf lb s = Some s' -> clk_inv t0 s'.
Proof.
  intros Hi Hs. pose proof (ck_loop _ _ Hi) as Hl. 
  step_inv Hs; inst_shape; fsimpl.
  all: try (eapply (clk_frame t0 s _ []); [exact Hi|reflexivity|reflexivity| | |];
     [intros l1 Hx; first [exact Hx|rewrite Heqt; exact Hx|discriminate Hx]|
      first [left; split; [reflexivity|first [intros Hx; exact Hx|intros Hx; rewrite Heqt; exact Hx|intros Hx; discriminate Hx]]|right; by apply Hl]|by intros o ?%elem_of_nil]; fail).
  all: try (eapply (clk_frame t0 s _ [_]); [exact Hi|reflexivity|reflexivity| | |];
     [intros l1 Hx; first [exact Hx|rewrite Heqt; exact Hx|discriminate Hx]|
      left; split; [reflexivity|first [intros Hx; exact Hx|intros Hx; rewrite Heqt; exact Hx|intros Hx; discriminate Hx]]|]; intros o ->%elem_of_list_singleton; split; [cbn; auto; by apply Hl|done]; fail).
  all: try (eapply (clk_frame t0 s _ [_; _]); [exact Hi|reflexivity|reflexivity| | |];
     [intros l1 Hx; exact Hx|left; split; [reflexivity|intros Hx; exact Hx]|]; intros o [->| ->%elem_of_list_singleton]%elem_of_cons; split; done).
  all: try match goal with H : Forall inst_obs ?lg |- _ => eapply (clk_frame t0 s _ (lg ++ [_]));
      [exact Hi|rewrite <- app_assoc; reflexivity|reflexivity|intros l1 Hx; exact Hx|left; split; [reflexivity|intros Hx; exact Hx]|];
     intros o [Hx| ->%elem_of_list_singleton]%elem_of_app; [|done];
     rewrite Forall_forall in H; specialize (H o Hx); destruct o; done end.
  1: { destruct Hi as [H1 H2 H3 H4 H5 H7 H6]. rewrite Heqt in *.
       assert (forall k ts, OTick k ts ∈ log s -> k <= iters s) as H3' by done.
       split; fsimpl.
       - intros l1 Hx. cbn in Hx. simplify_eq. apply elem_of_list_here.
       - intros o [->|Hin]%elem_of_cons; [done|]. eapply stamped_mono; [|by apply H2]. intros x Hx. by right.
       - intros k ts [?|Hin]%elem_of_cons; [simplify_eq; lia|]. apply H3 in Hin. lia.
       - intros k a b [Ha|Ha]%elem_of_cons [Hb|Hb]%elem_of_cons; simplify_eq; eauto.
         + apply H3 in Hb. lia.
         + apply H3 in Ha. lia.
       - intros k Hk. destruct (decide (k = iters s + 1)) as [->|]; [exists now; left|].
         destruct (H5 k) as [ts ?]; [lia|]. exists ts. by right.
       - done.
       - right. exists (iters s). split; [right; by apply H7|lia]. }
  all: unfold complete, drop_mark, abandon_opt; fsimpl; destruct (hpub s); try destruct ok.
  all: try (eapply (clk_frame t0 s _ []); [exact Hi|reflexivity|reflexivity|intros l1 Hx; exact Hx|left; split; [reflexivity|intros Hx; exact Hx]|by intros o ?%elem_of_nil]; fail).
  all: try (eapply (clk_frame t0 s _ [_]); [exact Hi|reflexivity|reflexivity|intros l1 Hx; exact Hx|left; split; [reflexivity|intros Hx; exact Hx]|intros o ->%elem_of_list_singleton; done]; fail).
Qed.

Lemma clk_init n t0 t1 : clk_inv t0 (init_n n t0 t1).
Proof.
  split; cbn [init_n tpc loop_of stored iters log gtime].
  - intros l E. simplify_eq. apply elem_of_list_here.
  - by intros o ->%elem_of_list_singleton.
  - intros k ts H%elem_of_list_singleton. simplify_eq. lia.
  - intros k a b Ha%elem_of_list_singleton Hb%elem_of_list_singleton. by simplify_eq.
  - intros k Hk. assert (k = 0) as -> by lia. exists t1. apply elem_of_list_here.
  - done.
  - by left.
Qed.
Lemma clk_reach pf t0 t1 s : reachable pf t0 t1 s -> clk_inv t0 s.
Proof. revert s. apply (reach_ind pf t0 t1 (clk_inv t0)); [apply clk_init|]. intros. by eapply clk_step. Qed.


