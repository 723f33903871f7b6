(** C17: timeouts are delivered promptly. *)
From Verif Require Import Tactics Inv PropSweep Sweeper.

Lemma sw_run_app lat l1 l2 s : sw_run lat (l1 ++ l2) s = match sw_run lat l1 s with Some s' => sw_run lat l2 s' | None => None end.
Proof. revert s. induction l1 as [|lb l1 IH]; intros s; [done|]. cbn. destruct (sw_step lat lb s); [apply IH|done]. Qed.

Lemma sw_ind (P : swst -> Prop) lat c0 :
  P (sw_init c0) -> (forall lb s s', sw_reachable lat c0 s -> P s -> sw_step lat lb s = Some s' -> P s') ->
  forall s, sw_reachable lat c0 s -> P s.
Proof.
  intros H0 Hs s [ls Hr]. revert s Hr. induction ls as [|lb ls IH] using rev_ind; intros s Hr; cbn in Hr; [by simplify_eq|].
  rewrite sw_run_app in Hr. destruct (sw_run lat ls (sw_init c0)) as [s1|] eqn:E; [|done]. cbn in Hr.
  destruct (sw_step lat lb s1) as [s2|] eqn:E2; [|done]. simplify_eq. eapply Hs; [by exists ls|by apply IH|done].
Qed.

(** One round. *)
Lemma sweep_round_spec now k chs h us h' dur :
  sweep_round now k chs h = Some (us, h', dur) ->
  h ≡ₚ us ++ h' /\ (length us <= k)%nat /\ Forall (fun u => u_deadline u <= now) us /\
  Forall (fun u => Forall (fun v => u_deadline u <= u_deadline v) h') us /\
  ((length us = k /\ dur = None) \/
   (h' = [] /\ dur = None) \/
   (exists d, least_deadline h' = Some d /\ now < d /\ dur = Some (d - now))).
Proof.
  revert chs h us h' dur. induction k as [|k IH]; intros chs h us h' dur H; cbn [sweep_round] in H.
  - simplify_eq. split; [done|]. split; [done|]. split; [done|]. split; [done|]. auto.
  - pose proof (least_spec h) as Hl. destruct (least_deadline h) as [d|] eqn:El.
    2: { simplify_eq. split; [done|]. split; [cbn; lia|]. split; [done|]. split; [done|]. auto. }
    destruct (d <=? now) eqn:Ed.
    2: { simplify_eq. split; [done|]. split; [cbn; lia|]. split; [done|]. split; [done|]. right; right. exists d. split; [done|]. split; [lia|done]. }
    destruct chs as [|ch chs]; [done|]. destruct (h !! ch) as [u|] eqn:Eu; [|done]. destruct (u_deadline u =? d) eqn:E; [|done].
    destruct (sweep_round now k chs (delete ch h)) as [[[us1 h1] dur1]|] eqn:Er; [|done]. simplify_eq.
    destruct (IH _ _ _ _ _ Er) as (H1 & H2 & H3 & H4 & H5). pose proof (delete_Permutation h ch u Eu) as Hp.
    destruct Hl as [_ Hl]. split; [rewrite Hp; cbn; by rewrite <- H1|]. split; [cbn; lia|]. split; [constructor; [lia|done]|]. split.
    + constructor; [|done]. apply Forall_forall. intros v Hv. rewrite Forall_forall in Hl. assert (d <= u_deadline v); [|lia].
      apply Hl. rewrite Hp, elem_of_cons, H1, elem_of_app. auto.
    + destruct H5 as [[<- ->]|[[-> ->]|H5]]; [left; done|right; left; done|right; right; done].
Qed.

(** The round of this model is the round of System.v. *)
Theorem C46_same_round pf now k chs h us h' dur s :
  sweep_round now k chs h = Some (us, h', dur) -> heap s = h -> spc s = SRound now (N.of_nat k) ->
  exists ls s', run pf ls s = Some s' /\ Forall (fun lb => exists ch, lb = LSweep ch now) ls /\ spc s' = SSleep /\ heap s' = h' /\
    swept (log s') = reverse us ++ swept (log s) /\ queue s' = queue s ++ (timeout_of <$> us).
Proof.
  revert chs h us h' dur s. induction k as [|k IH]; intros chs h us h' dur s H Eh Ep; cbn [sweep_round] in H.
  - simplify_eq. exists [LSweep 0 now], (set_spc SSleep s). cbn [run step]. unfold sweep_step. rewrite Ep. cbn.
    split; [done|]. split; [repeat constructor; eauto|]. split; [done|]. split; [done|]. split; [done|]. by rewrite app_nil_r.
  - destruct (least_deadline h) as [d|] eqn:El.
    2: { simplify_eq. exists [LSweep 0 now], (set_spc SSleep s). cbn [run step]. unfold sweep_step. rewrite Ep, El.
         destruct (N.of_nat (S k) =? 0); (split; [done|]); (split; [repeat constructor; eauto|]); (split; [done|]); (split; [done|]); (split; [done|]); by rewrite app_nil_r. }
    destruct (d <=? now) eqn:Ed.
    2: { simplify_eq. exists [LSweep 0 now], (set_spc SSleep s). cbn [run step]. unfold sweep_step. rewrite Ep, El, Ed.
         destruct (N.of_nat (S k) =? 0); (split; [done|]); (split; [repeat constructor; eauto|]); (split; [done|]); (split; [done|]); (split; [done|]); by rewrite app_nil_r. }
    destruct chs as [|ch chs]; [done|]. destruct (h !! ch) as [u|] eqn:Eu; [|done]. destruct (u_deadline u =? d) eqn:E; [|done].
    destruct (sweep_round now k chs (delete ch h)) as [[[us1 h1] dur1]|] eqn:Er; [|done]. simplify_eq.
    set (s1 := set_spc (SRound now (N.of_nat (S k) - 1)) (emit (OSweep (u_tid u) (u_rec u) (u_deadline u) now)
                      (enqueue (ETimeout (u_tid u) (u_rec u)) (set_heap (delete ch (heap s)) s)))).
    destruct (IH _ _ _ _ _ s1 Er) as (ls & s' & H1 & H2 & H3 & H4 & H5 & H6); [done|unfold s1; fsimpl; f_equal; lia|].
    exists (LSweep ch now :: ls), s'. split.
    { cbn [run step]. unfold sweep_step. rewrite Ep. assert ((N.of_nat (S k) =? 0) = false) as -> by done. rewrite El, Ed, Eu, E. exact H1. }
    split; [constructor; eauto|]. split; [done|]. split; [done|]. split.
    + rewrite H5. change (swept (log s1)) with (RUnit (u_deadline u) (u_tid u) (u_rec u) :: swept (log s)).
      rewrite reverse_cons, <- (assoc_L (++)). by destruct u.
    + rewrite H6. change (queue s1) with (queue s ++ [timeout_of u]). rewrite <- (assoc_L (++)). done.
Qed.
Print Assumptions C46_same_round.
Example C46_same_round_example :
  sweep_round 10 200 [1; 0]%nat [RUnit 7 2 1; RUnit 5 2 2; RUnit 20 3 3] = Some ([RUnit 5 2 2; RUnit 7 2 1], [RUnit 20 3 3], Some 10).
Proof. vm_compute. reflexivity. Qed.

(** ** Bookkeeping *)

Definition pushed (lg : list (runit * N * N + runit * N)) : list runit := omap (fun e => match e with inl (u, _, _) => Some u | inr _ => None end) lg.
Definition sent (lg : list (runit * N * N + runit * N)) : list runit := omap (fun e => match e with inr (u, _) => Some u | inl _ => None end) lg.
(** How many of the units have a deadline of at most [d]. *)
Definition upto (d : N) (l : list runit) : N := N.of_nat (length (filter (fun u => u_deadline u <= d) l)).

Lemma upto_app d l1 l2 : upto d (l1 ++ l2) = upto d l1 + upto d l2.
Proof. unfold upto. rewrite filter_app, app_length. lia. Qed.
Lemma upto_perm d l1 l2 : l1 ≡ₚ l2 -> upto d l1 = upto d l2.
Proof. intros H. unfold upto. by rewrite H. Qed.
Lemma upto_all d l : Forall (fun u => u_deadline u <= d) l -> upto d l = N.of_nat (length l).
Proof. unfold upto. induction 1 as [|u l Hu Hl IH]; [done|]. rewrite filter_cons_True by done. cbn. lia. Qed.
Lemma upto_in d l u : u ∈ l -> u_deadline u <= d -> 1 <= upto d l.
Proof.
  intros Hin Hu. unfold upto. assert (u ∈ filter (fun u => u_deadline u <= d) l) as Hx by (by apply elem_of_list_filter).
  destruct (filter _ l); [by apply elem_of_nil in Hx|]. cbn. lia.
Qed.
Lemma pushed_app l1 l2 : pushed (l1 ++ l2) = pushed l1 ++ pushed l2.
Proof. apply omap_app. Qed.
Lemma sent_app l1 l2 : sent (l1 ++ l2) = sent l1 ++ sent l2.
Proof. apply omap_app. Qed.
Lemma round_log us c : pushed (reverse ((fun u => was_sent u c) <$> us)) = [] /\ sent (reverse ((fun u => was_sent u c) <$> us)) = reverse us.
Proof.
  induction us as [|u us [IH1 IH2]]; [done|]. rewrite fmap_cons, !reverse_cons, pushed_app, sent_app, IH1, IH2. done.
Qed.

Lemma sw_conserved lat c0 s : sw_reachable lat c0 s -> pushed (sw_log s) ≡ₚ sw_heap s ++ sent (sw_log s).
Proof.
  apply (sw_ind (fun s => pushed (sw_log s) ≡ₚ sw_heap s ++ sent (sw_log s)) lat c0); [done|].
  intros lb s1 s2 _ IH Hs. destruct lb as [u|chs|dt]; cbn [sw_step] in Hs.
  - simplify_eq. cbn. by rewrite IH.
  - destruct (sw_wake s1 <=? sw_clock s1); [|done].
    destruct (sweep_round _ _ _ _) as [[[us h] dur]|] eqn:E; [|done]. simplify_eq. cbn [sw_log sw_heap].
    destruct (round_log us (sw_clock s1)) as [E1 E2]. rewrite pushed_app, sent_app, E1, E2. cbn [app]. rewrite IH.
    apply sweep_round_spec in E as (H1 & _). rewrite H1, reverse_Permutation. rewrite (comm (++) us h), <- (assoc (++)). done.
  - destruct (_ <=? _); [|done]. by simplify_eq.
Qed.

(** ** The delay of a timeout *)

(** When the last round before the one that sends [u] has its wake-up, at the latest:
    [w] was planned when [u] arrived; [n] other units have no later deadline. *)
Definition late_bound (lat : N) (u : runit) (w n : N) : N := N.max w (1000 * u_deadline u + 999) + n / 200 * (3000 + lat).

Record delay_inv (lat : N) (s : swst) : Prop := {
  de_clock : sw_clock s <= sw_wake s + lat;
  de_heap : forall u, u ∈ sw_heap s -> exists p w j, arrived u p w ∈ sw_log s /\ 200 * j <= upto (u_deadline u) (sent (sw_log s)) /\
    sw_wake s <= N.max w (1000 * u_deadline u + 999) + j * (3000 + lat);
  de_sent : forall u c, was_sent u c ∈ sw_log s -> exists p w n, arrived u p w ∈ sw_log s /\
    n + 1 <= upto (u_deadline u) (pushed (sw_log s)) /\ c <= late_bound lat u w n + lat
}.

Lemma delay_step lat c0 lb s s' : sw_reachable lat c0 s -> delay_inv lat s -> sw_step lat lb s = Some s' -> delay_inv lat s'.
Proof.
  intros Hr [Hc Hh Hl] Hs. destruct lb as [u|chs|dt]; cbn [sw_step] in Hs.
  - simplify_eq. split; cbn [sw_clock sw_wake sw_heap sw_log]; [done| |].
    + intros v Hv. apply elem_of_cons in Hv as [->|Hv].
      * exists (sw_clock s), (sw_wake s), 0. split; [left|]. split; [lia|]. lia.
      * destruct (Hh v Hv) as (p & w & j & H1 & H2 & H3). exists p, w, j. split; [by right|]. done.
    + intros v c Hv. apply elem_of_cons in Hv as [Hv|Hv]; [discriminate Hv|].
      destruct (Hl v c Hv) as (p & w & n & H1 & H2 & H3). exists p, w, n. split; [by right|]. split; [|done].
      change (pushed (arrived u (sw_clock s) (sw_wake s) :: sw_log s)) with ([u] ++ pushed (sw_log s)). rewrite upto_app. lia.
  - destruct (sw_wake s <=? sw_clock s) eqn:Ew; [|done]. pose proof (sw_conserved _ _ _ Hr) as Hcons.
    destruct (sweep_round _ _ _ _) as [[[us h] dur]|] eqn:E; [|done]. simplify_eq.
    apply sweep_round_spec in E as (H1 & H2 & H3 & H4 & H5).
    destruct (round_log us (sw_clock s)) as [E1 E2]. pose proof (N.div_mod (sw_clock s) 1000 ltac:(lia)) as Hdm.
    pose proof (N.mod_lt (sw_clock s) 1000 ltac:(lia)) as Hml.
    split; cbn [sw_clock sw_wake sw_heap sw_log].
    + lia.
    + intros v Hv. destruct (Hh v) as (p & w & j & Ha & Hj & Hw); [rewrite H1; apply elem_of_app; by right|].
      rewrite sent_app, E2, upto_app, (upto_perm _ _ _ (reverse_Permutation us)).
      destruct H5 as [[H5 ->]|[[-> ->]|(d & Hd & Hdn & ->)]].
      * exists p, w, (j + 1). split; [apply elem_of_app; by right|]. rewrite upto_all.
        -- split; [lia|]. cbn [default]. lia.
        -- apply Forall_forall. intros x Hx. rewrite Forall_forall in H4. specialize (H4 x Hx). rewrite Forall_forall in H4. by apply H4.
      * by apply elem_of_nil in Hv.
      * exists p, w, j. split; [apply elem_of_app; by right|]. split; [lia|]. cbn [default id].
        pose proof (least_spec h) as Hls. rewrite Hd in Hls. destruct Hls as [_ Hls]. rewrite Forall_forall in Hls. specialize (Hls v Hv).
        assert (sw_clock s + 1000 * (d - sw_clock s / 1000) <= 1000 * d + 999) as Hx by lia. lia.
    + intros v c Hv. apply elem_of_app in Hv as [Hv|Hv].
      * apply elem_of_reverse, elem_of_list_fmap in Hv as (x & Hx & Hin). injection Hx as -> ->.
        destruct (Hh x) as (p & w & j & Ha & Hj & Hw); [rewrite H1; apply elem_of_app; by left|].
        exists p, w, (200 * j). split; [apply elem_of_app; by right|]. rewrite pushed_app, E1. cbn [app].
        rewrite (upto_perm _ _ _ Hcons), upto_app. assert (1 <= upto (u_deadline x) (sw_heap s)) as Hu.
        { apply (upto_in _ _ x); [|lia]. rewrite H1. apply elem_of_app. by left. }
        split; [lia|]. unfold late_bound. rewrite (N.mul_comm 200 j), N.div_mul by lia. lia.
      * destruct (Hl v c Hv) as (p & w & n & Ha & Hn & Hb). exists p, w, n. split; [apply elem_of_app; by right|].
        rewrite pushed_app, E1. done.
  - destruct (_ <=? _) eqn:E; [|done]. simplify_eq. split; cbn [sw_clock sw_wake sw_heap sw_log]; [lia|done|done].
Qed.
Lemma delay_reach lat c0 s : sw_reachable lat c0 s -> delay_inv lat s.
Proof.
  apply (sw_ind (delay_inv lat) lat c0).
  - split; cbn; [lia|intros u Hu; by apply elem_of_nil in Hu|intros u c Hu; by apply elem_of_nil in Hu].
  - intros lb s1 s2 Hr IH Hs. by eapply delay_step.
Qed.

(** What holds of every execution: a unit is sent, or still waits, not later
    than its deadline or the end of the sleep that was on when it arrived,
    whichever is later, plus the rounds needed for the units that go before it. *)
Theorem C17_delay lat c0 s u :
  sw_reachable lat c0 s ->
  let n := upto (u_deadline u) (pushed (sw_log s)) - 1 in
  (forall c, was_sent u c ∈ sw_log s -> exists p w, arrived u p w ∈ sw_log s /\ c <= late_bound lat u w n + lat) /\
  (u ∈ sw_heap s -> exists p w, arrived u p w ∈ sw_log s /\ sw_clock s <= late_bound lat u w n + lat).
Proof.
  intros Hr. pose proof (delay_reach _ _ _ Hr) as [Hc Hh Hl]. cbn zeta. set (n := upto _ _ - 1).
  assert (forall w m, m <= n -> late_bound lat u w m <= late_bound lat u w n) as Hmono.
  { intros w m Hm. unfold late_bound. apply N.add_le_mono_l, N.mul_le_mono_r, N.div_le_mono; lia. }
  split.
  - intros c Hs. destruct (Hl u c Hs) as (p & w & m & H1 & H2 & H3). exists p, w. split; [done|].
    specialize (Hmono w m ltac:(subst n; lia)). lia.
  - intros Hin. destruct (Hh u Hin) as (p & w & j & H1 & H2 & H3). exists p, w. split; [done|].
    pose proof (sw_conserved _ _ _ Hr) as Hcons. pose proof (upto_perm (u_deadline u) _ _ Hcons) as En. rewrite upto_app in En.
    pose proof (upto_in (u_deadline u) _ u Hin (N.le_refl _)) as Hu. specialize (Hmono w (200 * j) ltac:(subst n; lia)).
    unfold late_bound in Hmono at 1. rewrite (N.mul_comm 200 j), N.div_mul in Hmono by lia. lia.
Qed.
Print Assumptions C17_delay.

(** C17, as stated: within a few seconds of the deadline ([K] milliseconds, with a
    sweeper that is never late and never has more than 200 units). *)
Definition C17_prompt (K : N) : Prop :=
  forall c0 s u, sw_reachable 0 c0 s -> (length (pushed (sw_log s)) <= 200)%nat ->
  (forall p w, arrived u p w ∈ sw_log s -> p <= 1000 * u_deadline u) ->
  (forall c, was_sent u c ∈ sw_log s -> c <= 1000 * u_deadline u + K) /\
  (u ∈ sw_heap s -> sw_clock s <= 1000 * u_deadline u + K).

(** No [K] will do: an instance that may run long makes the sweeper sleep past
    the deadlines of those that are registered meanwhile. *)
Theorem C17_prompt_refuted K : ~ C17_prompt K.
Proof.
  intros H. set (a := RUnit (K + 100) 1 0). set (b := RUnit 5 2 1).
  set (s := Sw [b; a] (1000 * (K + 100)) (1000 * (K + 100)) [arrived b 0 (1000 * (K + 100)); arrived a 0 0]).
  assert (sw_reachable 0 0 s) as Hr.
  { exists [WPush a; WRound []; WPush b; WPass (1000 * (K + 100))]. cbn [sw_run sw_step sw_init sw_wake sw_clock sw_heap sw_log].
    change (0 <=? 0) with true. cbn iota. change (0 / 1000) with 0.
    cbn [sweep_round least_deadline u_deadline a]. assert ((K + 100 <=? 0) = false) as -> by lia. cbn [fmap list_fmap app].
    change (reverse (@nil (runit * N * N + runit * N))) with (@nil (runit * N * N + runit * N)). cbn [app default id].
    rewrite N.sub_0_r, !N.add_0_l, N.add_0_r. rewrite (proj2 (N.leb_le _ _) (N.le_refl _)). reflexivity. }
  destruct (H 0 s b Hr) as [_ H2].
  - cbn. lia.
  - cbn [sw_log s]. intros p w Hp. apply elem_of_cons in Hp as [Hp|Hp]; [injection Hp as -> ->; lia|].
    apply elem_of_cons in Hp as [Hp|Hp]; [|by apply elem_of_nil in Hp]. injection Hp as E. exfalso. lia.
  - specialize (H2 ltac:(left)). cbn [sw_clock s u_deadline b] in H2. lia.
Qed.
Print Assumptions C17_prompt_refuted.

(** Where it holds: units arrive when no earlier deadline than theirs puts the
    sweeper to sleep, that is, when the heap is empty or holds a unit whose
    deadline is not later. *)
Inductive orderly (lat c0 : N) : swst -> Prop :=
| or_init : orderly lat c0 (sw_init c0)
| or_push s u : orderly lat c0 s -> (sw_heap s = [] \/ exists v, v ∈ sw_heap s /\ u_deadline v <= u_deadline u) ->
    forall s', sw_step lat (WPush u) s = Some s' -> orderly lat c0 s'
| or_other s lb s' : orderly lat c0 s -> (forall u, lb <> WPush u) -> sw_step lat lb s = Some s' -> orderly lat c0 s'.

Lemma orderly_reach lat c0 s : orderly lat c0 s -> sw_reachable lat c0 s.
Proof.
  assert (forall s lb s', sw_reachable lat c0 s -> sw_step lat lb s = Some s' -> sw_reachable lat c0 s') as Hx.
  { intros s1 lb s2 [ls H] Hs. exists (ls ++ [lb]). rewrite sw_run_app, H. cbn. by rewrite Hs. }
  induction 1; [by exists []|by eapply Hx|by eapply Hx].
Qed.

Record orderly_inv (s : swst) : Prop := {
  oi_wake : sw_wake s <= sw_clock s + 3000 \/ exists d, least_deadline (sw_heap s) = Some d /\ sw_wake s <= 1000 * d + 999;
  oi_arr : forall u p w, arrived u p w ∈ sw_log s -> w <= N.max (p + 3000) (1000 * u_deadline u + 999)
}.
Lemma orderly_holds lat c0 s : orderly lat c0 s -> orderly_inv s.
Proof.
  induction 1 as [|s u Ho [IHw IHa] Hu s' Hs|s lb s' Ho [IHw IHa] Hn Hs].
  - split; cbn; [left; lia|]. intros u p w Hx. by apply elem_of_nil in Hx.
  - cbn [sw_step] in Hs. simplify_eq. split; cbn [sw_wake sw_clock sw_heap sw_log].
    + destruct IHw as [?|(d & Hd & Hw)]; [by left|]. right. cbn [least_deadline]. rewrite Hd.
      eexists. split; [done|]. destruct Hu as [E|(v & Hv & Hvu)]; [rewrite E in Hd; done|].
      pose proof (least_spec (sw_heap s)) as Hl. rewrite Hd in Hl. destruct Hl as [_ Hl]. rewrite Forall_forall in Hl. specialize (Hl v Hv). lia.
    + intros v p w Hx. apply elem_of_cons in Hx as [Hx|Hx]; [|by apply IHa]. injection Hx as -> -> ->.
      destruct IHw as [?|(d & Hd & Hw)]; [lia|]. destruct Hu as [E|(v & Hv & Hvu)]; [rewrite E in Hd; done|].
      pose proof (least_spec (sw_heap s)) as Hl. rewrite Hd in Hl. destruct Hl as [_ Hl]. rewrite Forall_forall in Hl. specialize (Hl v Hv). lia.
  - destruct lb as [u|chs|dt]; [by destruct (Hn u)| |]; cbn [sw_step] in Hs.
    + destruct (sw_wake s <=? sw_clock s); [|done]. destruct (sweep_round _ _ _ _) as [[[us h] dur]|] eqn:E; [|done]. simplify_eq.
      apply sweep_round_spec in E as (_ & _ & _ & _ & H5). split; cbn [sw_wake sw_clock sw_heap sw_log].
      * destruct H5 as [[_ ->]|[[_ ->]|(d & Hd & Hdn & ->)]]; cbn [default]; [left; lia|left; lia|right].
        exists d. split; [done|]. unfold id. pose proof (N.div_mod (sw_clock s) 1000 ltac:(lia)). pose proof (N.mod_lt (sw_clock s) 1000 ltac:(lia)). lia.
      * intros v p w Hx. apply elem_of_app in Hx as [Hx|Hx]; [|by apply IHa].
        apply elem_of_reverse, elem_of_list_fmap in Hx as (x & Hx & _). discriminate Hx.
    + destruct (_ <=? _) eqn:E; [|done]. simplify_eq. split; cbn [sw_wake sw_clock sw_heap sw_log]; [|done].
      destruct IHw as [?|?]; [left; lia|by right].
Qed.

(** Missing from [C17_prompt]: units whose deadline is before all deadlines in
    the heap.  For the others, with at most 200 units before them: at most 3
    seconds after the arrival or 1 second after the deadline. *)
Theorem C17_prompt_partial lat c0 s u :
  orderly lat c0 s -> upto (u_deadline u) (pushed (sw_log s)) <= 200 ->
  (forall c, was_sent u c ∈ sw_log s -> exists p w, arrived u p w ∈ sw_log s /\ c <= N.max (p + 3000) (1000 * u_deadline u + 999) + lat) /\
  (u ∈ sw_heap s -> exists p w, arrived u p w ∈ sw_log s /\ sw_clock s <= N.max (p + 3000) (1000 * u_deadline u + 999) + lat).
Proof.
  intros Ho Hn. pose proof (orderly_holds _ _ _ Ho) as [_ Ha].
  destruct (C17_delay lat c0 s u (orderly_reach _ _ _ Ho)) as [H1 H2].
  assert (forall w, late_bound lat u w (upto (u_deadline u) (pushed (sw_log s)) - 1) = N.max w (1000 * u_deadline u + 999)) as E.
  { intros w. unfold late_bound. rewrite N.div_small by lia. lia. }
  split.
  - intros c Hc. destruct (H1 c Hc) as (p & w & Hp & Hb). exists p, w. split; [done|]. rewrite E in Hb. specialize (Ha _ _ _ Hp). lia.
  - intros Hi. destruct (H2 Hi) as (p & w & Hp & Hb). exists p, w. split; [done|]. rewrite E in Hb. specialize (Ha _ _ _ Hp). lia.
Qed.
Print Assumptions C17_prompt_partial.

(** Not early either: a timeout is sent in a second that is not before the deadline. *)
Theorem C17_not_early lat c0 s u c : sw_reachable lat c0 s -> was_sent u c ∈ sw_log s -> u_deadline u <= c / 1000.
Proof.
  intros Hr. revert s Hr. apply (sw_ind (fun s => was_sent u c ∈ sw_log s -> u_deadline u <= c / 1000) lat c0).
  - intros H. by apply elem_of_nil in H.
  - intros lb s1 s2 _ IH Hs Hin. destruct lb as [v|chs|dt]; cbn [sw_step] in Hs.
    + simplify_eq. cbn [sw_log] in Hin. apply elem_of_cons in Hin as [Hin|Hin]; [discriminate Hin|auto].
    + destruct (sw_wake s1 <=? sw_clock s1); [|done]. destruct (sweep_round _ _ _ _) as [[[us h] dur]|] eqn:E; [|done]. simplify_eq.
      cbn [sw_log] in Hin. apply elem_of_app in Hin as [Hin|Hin]; [|auto].
      apply elem_of_reverse, elem_of_list_fmap in Hin as (x & Hx & Hin). injection Hx as -> ->.
      apply sweep_round_spec in E as (_ & _ & H3 & _). rewrite Forall_forall in H3. by apply H3.
    + destruct (_ <=? _); [|done]. simplify_eq. auto.
Qed.
Print Assumptions C17_not_early.

(** Two units in the order of their deadlines, sent in the second of their
    deadline; and the long sleep in numbers. *)
Definition sees_sent (u : runit) (c : N) (s : swst) : bool :=
  existsb (fun e => match e with inr (v, c') => (u_deadline u =? u_deadline v) && (u_tid u =? u_tid v) && (u_rec u =? u_rec v)%Z && (c =? c') | inl _ => false end) (sw_log s).
Lemma sees_sent_ok u c s : sees_sent u c s = true -> was_sent u c ∈ sw_log s.
Proof.
  unfold sees_sent. rewrite existsb_exists. intros (e & He & H). apply elem_of_list_In in He. destruct e as [?|[v c']]; [done|].
  rewrite !andb_true_iff in H. destruct u, v. cbn in H.
  assert (u_deadline = u_deadline0 /\ u_tid = u_tid0 /\ u_rec = u_rec0 /\ c = c') as (-> & -> & -> & ->) by lia. done.
Qed.
Definition in_order (lb : swlabel) (s : swst) : bool :=
  match lb with WPush u => match sw_heap s with [] => true | h => existsb (fun v => u_deadline v <=? u_deadline u) h end | _ => true end.
Fixpoint orderly_run (lat : N) (ls : list swlabel) (s : swst) : option swst :=
  match ls with
  | [] => Some s
  | lb :: r => if in_order lb s then match sw_step lat lb s with Some s' => orderly_run lat r s' | None => None end else None
  end.
Lemma orderly_run_ok lat c0 ls s s' : orderly lat c0 s -> orderly_run lat ls s = Some s' -> orderly lat c0 s'.
Proof.
  revert s. induction ls as [|lb l IH]; intros s Ho H; cbn [orderly_run] in H; [by simplify_eq|].
  destruct (in_order lb s) eqn:E; [|done]. destruct (sw_step lat lb s) as [s1|] eqn:Es; [|done].
  apply (IH s1); [|done]. destruct lb as [u|chs|dt].
  - eapply or_push; [done| |done]. unfold in_order in E. destruct (sw_heap s) as [|v h] eqn:Eh; [by left|right].
    rewrite existsb_exists in E. destruct E as (x & Hx & Hle). exists x. split; [by apply elem_of_list_In|]. lia.
  - by apply (or_other lat c0 s (WRound chs) s1 Ho).
  - by apply (or_other lat c0 s (WPass dt) s1 Ho).
Qed.
Definition two_units : list swlabel :=
  [WRound []; WPass 500; WPush (RUnit 15 1 0); WPush (RUnit 17 2 1); WPass 2500; WRound []; WPass 2000; WRound [1%nat]; WPass 2000; WRound [0%nat]].
Example C17_example : exists s, orderly 0 10000 s /\ upto 17 (pushed (sw_log s)) <= 200 /\
  was_sent (RUnit 15 1 0) 15000 ∈ sw_log s /\ was_sent (RUnit 17 2 1) 17000 ∈ sw_log s.
Proof.
  destruct (orderly_run 0 two_units (sw_init 10000)) as [s|] eqn:E; [|exfalso; revert E; vm_compute; discriminate].
  exists s. split; [exact (orderly_run_ok 0 10000 two_units (sw_init 10000) s (or_init 0 10000) E)|].
  assert ((upto 17 (pushed (sw_log s)) <=? 200) && sees_sent (RUnit 15 1 0) 15000 s && sees_sent (RUnit 17 2 1) 17000 s = true) as H.
  { revert E. vm_compute. intros [= <-]. vm_compute. reflexivity. }
  rewrite !andb_true_iff in H. destruct H as [[H1 H2] H3]. split; [lia|]. split; by apply sees_sent_ok.
Qed.
(** A unit that is due in second 5 is sent in second 1000. *)
Example C17_long_sleep : exists s, sw_reachable 0 0 s /\ was_sent (RUnit 5 2 1) 1000000 ∈ sw_log s.
Proof.
  destruct (sw_run 0 [WPush (RUnit 1000 1 0); WRound []; WPass 100; WPush (RUnit 5 2 1); WPass 999900; WRound [0%nat; 0%nat]] (sw_init 0)) as [s|] eqn:E;
    [|exfalso; revert E; vm_compute; discriminate].
  exists s. split; [eexists; exact E|]. apply sees_sent_ok. revert E. vm_compute. intros [= <-]. vm_compute. reflexivity.
Qed.
