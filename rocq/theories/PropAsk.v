(** A user who keeps asking for the next instance gets every instance (C64). *)
From Verif Require Import Tactics Inv Own Life Count Quiet Scen Inst Ended Fifo Account Chain Kept Live LiveEnd PropInst PropSched PropLive PropCalm PropChain PropEnding PropNext PropOrphan.

(** ** A chain on which calls wait again and again is alive *)
Lemma dead_step pf t0 t1 lb s s' c ch : reachable pf t0 t1 s -> step pf lb s = Some s' -> chains s !! c = Some ch -> c_state ch = ABANDONED \/ c_state ch = DROPPED ->
  exists ch', chains s' !! c = Some ch' /\ (c_state ch' = ABANDONED \/ c_state ch' = DROPPED) /\ (c_pend ch' <= c_pend ch)%nat.
Proof.
  intros Hr Hs Hc Hd. destruct (chain_kinds _ _ _ _ c Hs) as [K1 K2 _|x y K1 K2 K3 K4 K5 _ K6|x y i hb q m l K1 K2 _ _ _ Kf Km _ Ks _ _ _|x y r K1 K2 Kl K5 K3 K4 K6|t _ <- K2 _ _]; try congruence.
  1-3: assert (x = ch) as -> by congruence; exists y; (split; [done|]); (split; [|by destruct (pend_step _ _ _ _ _ _ _ Hs K1 K2 Hd)]).
  - destruct K5 as [->|[->| ->]]; auto.
  - by rewrite Ks.
  - by rewrite K5.
  - destruct K2. by eapply used_ins.
Qed.
Lemma dead_later pf t0 t1 σ lb n k c ch : exec pf t0 t1 σ lb -> chains (σ n) !! c = Some ch -> c_state ch = ABANDONED \/ c_state ch = DROPPED -> (n <= k)%nat ->
  exists ch', chains (σ k) !! c = Some ch' /\ (c_state ch' = ABANDONED \/ c_state ch' = DROPPED) /\ (c_pend ch' <= c_pend ch)%nat.
Proof.
  intros He Hc Hd Hk. induction Hk as [|k Hk (ch1 & H1 & D1 & P1)]; [eauto|].
  destruct (dead_step _ _ _ _ _ _ _ _ (exec_reach _ _ _ _ _ k He) (ex_step _ _ _ _ _ He k) H1 D1) as (ch2 & H2 & D2 & P2). exists ch2. split; [done|]. split; [done|lia].
Qed.
Lemma asked_lives pf t0 t1 σ lb c n ch : exec pf t0 t1 σ lb -> weakly_fair pf (fun l => l = LNextRecv c) σ lb -> infinitely_often (fun k => waiting c (σ k)) ->
  chains (σ n) !! c = Some ch -> c_state ch = LIVING.
Proof.
  intros He Hf Hw Hc. pose proof (exec_reach _ _ _ _ _ n He) as Hr. destruct (chain_states _ _ _ _ _ _ Hr Hc) as [?|[Hd|Ha]]; [done|exfalso..].
  - assert (c_pend ch = O) as Hp. { destruct (decide (c_pend ch = O)) as [?|Hp]; [done|]. by destruct (pend_held _ _ _ _ _ _ Hr Hc Hp). }
    destruct (Hw n) as (k & Hk & ch' & Hc' & Hp'). destruct (dead_later _ _ _ _ _ _ _ _ _ He Hc (or_intror Hd) Hk) as (x & Hx & _ & Px). assert (x = ch') as -> by congruence. lia.
  - assert (shut c ch (σ n)) as Hx. { split; [done|]. split; [by left|]. apply (abandoned_free _ _ _ _ _ Hr). unfold chain_state. rewrite Hc. cbn. by rewrite Ha. }
    destruct (all_return _ _ _ _ _ _ _ _ He Hf Hx) as (m & _ & Hm). destruct (Hw m) as (k & Hk & ch' & Hc' & Hp'). by destruct Hp'; eapply Hm.
Qed.

(** ** What is in the chain is delivered *)
Lemma take_grows pf lb s s' c ch : step pf lb s = Some s' -> chains s !! c = Some ch -> c_buf ch <> [] -> lb = LNextTry c \/ lb = LNextRecv c ->
  (length (delivered c (log s)) < length (delivered c (log s')))%nat.
Proof.
  intros Hs Hc Hb Hl. assert (exists bl, next_take bl c s = Some s') as [bl Hn] by (destruct Hl as [->| ->]; eauto). clear Hs Hl.
  unfold next_take in Hn. rewrite Hc in Hn. destruct (c_pend ch); [discriminate Hn|]. destruct (c_buf ch); [done|]. injection Hn as <-. fsimpl. cbn [delivered]. rewrite N.eqb_refl, app_length. cbn [length]. lia.
Qed.
Lemma ask_step pf t0 t1 σ lb c k : exec pf t0 t1 σ lb -> waiting c (σ k) -> (forall ch, chains (σ k) !! c = Some ch -> c_buf ch <> []) ->
  waiting c (σ (S k)) /\ delivered c (log (σ (S k))) = delivered c (log (σ k)) /\ lb k <> LNextRecv c \/ (length (delivered c (log (σ k))) < length (delivered c (log (σ (S k)))))%nat.
Proof.
  intros He (ch & Hc & Hp) Hb. pose proof (exec_reach _ _ _ _ _ k He) as Hr. pose proof (ex_step _ _ _ _ _ He k) as Hs.
  destruct (waits_step _ _ _ _ _ _ Hs Hc Hp (used_ins _ _ _ _ _ _ Hr Hc)) as [(ch' & H1 & H2 & Ht & H3)|[Hl _]]; [left|right; by eapply take_grows; eauto].
  split; [exists ch'; split; [done|lia]|]. split; [|done].
  destruct (chain_kinds _ _ _ _ c Hs) as [K1 K2 K|x y K1 K2 K3 K4 K5 _ K6|x y i hb q m l K1 K2 _ _ _ Kf Km _ Ks _ _ K6|x y r K1 K2 Kl K5 K3 K4 K6|t _ <- K2 _ K6]; try done. by destruct Kl.
Qed.
Lemma asked_grows pf t0 t1 σ lb c n D : exec pf t0 t1 σ lb -> weakly_fair pf (fun l => l = LNextRecv c) σ lb -> infinitely_often (fun k => waiting c (σ k)) ->
  (forall k ch, (n <= k)%nat -> chains (σ k) !! c = Some ch -> (length (delivered c (log (σ k))) < D)%nat -> c_buf ch <> []) ->
  exists k, (n <= k)%nat /\ (D <= length (delivered c (log (σ k))))%nat.
Proof.
  intros He Hf Hw Hb. assert (forall d k, (n <= k)%nat -> (D - length (delivered c (log (σ k))) <= d)%nat -> exists k', (k <= k')%nat /\ (D <= length (delivered c (log (σ k'))))%nat) as Hx.
  2: { destruct (Hx _ n (le_n _) (le_n _)) as (k & ? & ?). eauto. }
  induction d as [|d IH]; intros k Hk Hd; [exists k; split; [done|lia]|].
  destruct (le_lt_dec D (length (delivered c (log (σ k))))) as [?|Hlt]; [by exists k|].
  assert (exists j, (k <= j)%nat /\ (length (delivered c (log (σ k))) < length (delivered c (log (σ j))))%nat) as (j & Hj & Hg).
  2: { destruct (IH j ltac:(lia) ltac:(lia)) as (k' & ? & ?). exists k'. split; [lia|done]. }
  destruct (Hw k) as (j & Hkj & Hwj). destruct (exec_log _ _ _ _ _ k j He Hkj) as [l El].
  pose proof (delivered_grows c l (log (σ k))) as Hg. rewrite <- El in Hg. destruct (decide (length (delivered c (log (σ j))) = length (delivered c (log (σ k))))) as [Eq|Hne]; [|exists j; split; [done|lia]].
  destruct (Hf j) as (i & Hi & Hx).
  assert (forall k0, (j <= k0)%nat -> waiting c (σ k0) /\ delivered c (log (σ k0)) = delivered c (log (σ j)) -> waiting c (σ (S k0)) /\ delivered c (log (σ (S k0))) = delivered c (log (σ j)) /\ lb k0 <> LNextRecv c \/ (length (delivered c (log (σ j))) < length (delivered c (log (σ (S k0)))))%nat) as Hstep.
  { intros k0 Hk0 [H1 H2]. destruct (ask_step _ _ _ _ _ _ k0 He H1) as [(G1 & G2 & G3)|G]; [intros ch Hc; eapply Hb; [|exact Hc|]; [lia|rewrite H2; lia]|left; split; [done|]; split; [congruence|done]|right; by rewrite <- H2]. }
  destruct (until (fun k0 => waiting c (σ k0) /\ delivered c (log (σ k0)) = delivered c (log (σ j))) (fun k0 => (length (delivered c (log (σ j))) < length (delivered c (log (σ k0))))%nat) j i) as [Hp|(k1 & Hk1 & Hq)]; [|done|done| |].
  - intros k0 Hk0 H. destruct (Hstep k0 Hk0 H) as [(? & ? & _)|?]; auto.
  - destruct (Hstep i Hi Hp) as [(_ & _ & Hl)|?]; [|exists (S i); split; [lia|lia]]. destruct Hx as [Hx|Hx]; [done|]. destruct Hp as [(ch & Hc & Hpe) Hdel]. destruct Hx. apply (recv_enabled pf _ _ _ Hc Hpe). right.
    eapply Hb; [|exact Hc|]; [lia|rewrite Hdel; lia].
  - exists k1. split; [lia|lia].
Qed.

(** ** An instance that was started is sent to the event handler *)
Lemma other_tpc pf lb s s' : step pf lb s = Some s' -> ~ by_scheduler lb -> tpc s' = tpc s \/ exists l ids t r, tpc s = TSpawn l ids t r.
Proof. intros Hs. step_inv Hs; inst_shape; fsimpl; intros Hl; try (by left); try (by destruct Hl). right. eauto. Qed.
Lemma send_step pf lb s s' l ids t r e : step pf lb s = Some s' -> tpc s = TSend l ids t r e -> tpc s' = tpc s /\ ~ by_scheduler lb \/ tpc s' = TGate l ids t r.
Proof.
  intros Hs Ht. assert (by_scheduler lb \/ ~ by_scheduler lb) as [Hb|Hb] by (destruct lb; first [by left|by right; intros []]); [|left; split; [|done]; destruct (other_tpc _ _ _ _ Hs Hb) as [?|(? & ? & ? & ? & ?)]; congruence]. destruct lb; try done. right. cbn [step] in Hs.
  unfold timer_step in Hs. rewrite Ht in Hs. injection Hs as <-. by fsimpl.
Qed.
Lemma started_sent pf t0 t1 σ lb n i : exec pf t0 t1 σ lb -> weakly_fair pf by_handler σ lb -> strongly_fair pf by_scheduler σ lb ->
  exists m, (n <= m)%nat /\ (started i (log (σ m)) = Chain.taken i (log (σ m)) ++ (queue (σ m) ≫= app_of i) \/ tpc (σ m) = TDead).
Proof.
  intros He Hf Hs. assert (exists m, (n <= m)%nat /\ (sending i (tpc (σ m)) = [] \/ tpc (σ m) = TDead)) as (m & Hm & Hx).
  { destruct (tpc (σ n)) as [| | | | | |l ids t rz ez| | | | | |] eqn:Et; try (exists n; split; [done|]; left; by rewrite Et).
    destruct (goes_on _ _ _ _ _ He Hf Hs n) as (m & Hm & Hg).
    destruct (until (fun k => tpc (σ k) = TSend l ids t rz ez) (fun k => tpc (σ k) = TGate l ids t rz) n m) as [Hx|(k & Hk & Hx)]; [|done|done| |].
    - intros k _ Hk. destruct (send_step _ _ _ _ _ _ _ _ _ (ex_step _ _ _ _ _ He k) Hk) as [[E _]|?]; [left; by rewrite E|by right].
    - destruct Hg as [Hg|[Hg|Hg]]; [|congruence..]. destruct (send_step _ _ _ _ _ _ _ _ _ (ex_step _ _ _ _ _ He m) Hx) as [[_ ?]|Hy]; [done|]. exists (S m). split; [lia|]. left. by rewrite Hy.
    - exists k. split; [lia|]. left. by rewrite Hx. }
  exists m. split; [done|]. destruct Hx as [Hx|?]; [|by right]. destruct (flow_reach _ _ _ _ i (exec_reach _ _ _ _ _ m He)) as (l0 & Ef & Hl0). rewrite Hx in Ef. cbn [app] in Ef.
  destruct (decide (l0 = [])) as [->|Hn]; [left; by rewrite app_nil_r in Ef|right]. destruct (tpc (σ m)); try done; by destruct Hn; apply Hl0.
Qed.
Lemma taken_pops i lg : Chain.taken i lg = reverse (pops lg) ≫= app_of i.
Proof. induction lg as [|o lg IH]; [done|]. destruct o; cbn [Chain.taken pops]; try done. rewrite reverse_cons, bind_app, IH. cbn. by rewrite app_nil_r. Qed.

(** ** C64 Every instance that was started is handed to a user who keeps asking, in the order of the starts *)
Theorem C64_gets_every_instance pf t0 t1 σ lb n t : exec pf t0 t1 σ lb -> weakly_fair pf by_handler σ lb -> strongly_fair pf by_scheduler σ lb -> weakly_fair pf (fun l => l = LNextRecv (t_uid t)) σ lb ->
  OSend (EInsert t) ∈ log (σ n) -> (forall k, kept t (log (σ k))) -> infinitely_often (fun k => waiting (t_uid t) (σ k)) ->
  exists m, (n <= m)%nat /\ (started (t_id t) (log (σ n)) `prefix_of` delivered (t_uid t) (log (σ m)) \/ tpc (σ m) = TDead \/ hpc (σ m) = HDead).
Proof.
  intros He Hf Hs Hw Hi Hk Hask. destruct (started_sent _ _ _ _ _ n (t_id t) He Hf Hs) as (m & Hm & [Hst|?]); [|exists m; auto].
  destruct (C54_every_event_is_handled _ _ _ _ _ m He Hf) as (m' & Hm' & [?|[_ Hpop]]); [exists m'; split; [lia|auto]|].
  assert (Chain.taken (t_id t) (log (σ m')) = started (t_id t) (log (σ m))) as Ht.
  { rewrite taken_pops, Hpop, (fifo_reach _ _ _ _ (exec_reach _ _ _ _ _ m He)), reverse_app, reverse_involutive, bind_app, <- taken_pops. by rewrite Hst. }
  assert (started (t_id t) (log (σ n)) `prefix_of` Chain.taken (t_id t) (log (σ m'))) as Hpre.
  { rewrite Ht. destruct (exec_log _ _ _ _ _ n m He Hm) as [l ->]. destruct (started_grows (t_id t) l (log (σ n))) as [x ->]. by exists x. }
  assert (forall k, (m' <= k)%nat -> exists ch, chains (σ k) !! t_uid t = Some ch /\ delivered (t_uid t) (log (σ k)) ++ c_buf ch = Chain.taken (t_id t) (log (σ k)) /\ started (t_id t) (log (σ n)) `prefix_of` Chain.taken (t_id t) (log (σ k))) as Hex.
  { intros k Hmk. pose proof (exec_reach _ _ _ _ _ k He) as Hr. destruct (exec_log _ _ _ _ _ n k He ltac:(lia)) as [l El]. destruct (exec_log _ _ _ _ _ m' k He Hmk) as [l' El'].
    assert (OSend (EInsert t) ∈ log (σ k)) as Hi' by (rewrite El; apply elem_of_app; by right). destruct (chain_there _ _ _ _ _ Hr Hi') as [ch Hc]. exists ch. split; [done|].
    pose proof (chain_exact _ _ _ _ _ _ Hr Hi' (Hk k) Hc (asked_lives _ _ _ _ _ _ _ _ He Hw Hask Hc)) as Ex. rewrite (ch_got _ (chain_reach _ _ _ _ Hr) _ _ Hc) in Ex. split; [done|].
    etrans; [exact Hpre|]. rewrite El', !taken_pops, pops_app, reverse_app, bind_app. by eexists. }
  destruct (asked_grows _ _ _ _ _ (t_uid t) m' (length (started (t_id t) (log (σ n)))) He Hw Hask) as (k & Hmk & Hlen).
  - intros k ch Hmk Hc Hlt Eb. destruct (Hex k Hmk) as (x & Hx & Ex & Hp). assert (x = ch) as -> by congruence. rewrite Eb, app_nil_r in Ex. rewrite <- Ex in Hp. apply prefix_length in Hp. lia.
  - exists k. split; [lia|]. left. destruct (Hex k Hmk) as (ch & Hc & Ex & Hp). rewrite <- Ex in Hp. destruct Hp as [x E]. apply app_eq_inv in E as [(y & E & _)|(y & E & _)]; [by exists y|].
    rewrite E, app_length in Hlen. destruct y; [|cbn [length] in Hlen; lia]. rewrite app_nil_r in E. by exists []; rewrite app_nil_r.
Qed.
Print Assumptions C64_gets_every_instance.

(** With routines that do not panic, no stop and release arithmetic there are no exceptions. *)
Theorem C64_calm_gets_every_instance t0 t1 σ lb n t : calm_exec t0 t1 σ lb -> weakly_fair Release by_handler σ lb -> strongly_fair Release by_scheduler σ lb -> weakly_fair Release (fun l => l = LNextRecv (t_uid t)) σ lb ->
  OSend (EInsert t) ∈ log (σ n) -> (forall k, kept t (log (σ k))) -> infinitely_often (fun k => waiting (t_uid t) (σ k)) ->
  exists m, (n <= m)%nat /\ started (t_id t) (log (σ n)) `prefix_of` delivered (t_uid t) (log (σ m)).
Proof.
  intros Hc Hf Hs Hw H1 H2 H3. destruct (C64_gets_every_instance _ _ _ _ _ n t (calm_is_exec _ _ _ _ Hc) Hf Hs Hw H1 H2 H3) as (m & Hm & Hx). exists m. split; [done|].
  destruct (calm_going _ _ _ (calm_reach _ _ _ _ m Hc)) as (_ & ? & ?). naive_solver.
Qed.
Print Assumptions C64_calm_gets_every_instance.

(** ** C64 The user of a repeated task gets instances without end *)
Lemma starts_started i u lg : (forall j r it ts, OLaunch u j r it ts ∈ lg -> j = i) -> starts u lg <= N.of_nat (length (started i lg)).
Proof.
  induction lg as [|o lg IH]; intros H; [done|]. assert (starts u lg <= N.of_nat (length (started i lg))) as Hx. { apply IH. intros j r it ts Hin. eapply H. right. exact Hin. }
  destruct o; cbn [started starts]; try done. rewrite app_length. destruct (uid =? u) eqn:E; [|lia].
  apply N.eqb_eq in E. subst uid. rewrite (H tid rec it ts) by left. rewrite N.eqb_refl. cbn [length]. lia.
Qed.
Theorem C64_without_end t0 t1 σ lb n t st k : calm_exec t0 t1 σ lb -> weakly_fair Release by_handler σ lb -> strongly_fair Release by_scheduler σ lb -> weakly_fair Release (fun l => l = LNextRecv (t_uid t)) σ lb ->
  t_freq t = SecondsRepeated st -> t_maxpar t = None -> OSend (EInsert t) ∈ log (σ n) -> (forall j, quiet t (log (σ j))) -> infinitely_often (fun j => waiting (t_uid t) (σ j)) ->
  exists m, (n <= m)%nat /\ (k <= length (delivered (t_uid t) (log (σ m))))%nat.
Proof.
  intros Hc Hf Hs Hw Hfr Hmp Hi Hq Hask. pose proof (calm_is_exec _ _ _ _ Hc) as He.
  assert (forall m, (n <= m)%nat -> OSend (EInsert t) ∈ log (σ m)) as Him. { intros m Hm. destruct (exec_log _ _ _ _ _ n m He Hm) as [l ->]. apply elem_of_app. by right. }
  destruct (C56_calm_starts_for_ever _ _ _ _ t st n Hc Hf Hs Hfr Hmp Hq) with (a := N.of_nat k) as (m & Hm & Hk).
  { exists (EInsert t). split; [exact Hi|unfold submits; auto]. }
  destruct (C64_calm_gets_every_instance _ _ _ _ m t Hc Hf Hs Hw (Him m Hm)) as (m' & Hm' & Hp); [intros j; by apply quiet_kept|done|].
  exists m'. split; [lia|]. apply prefix_length in Hp. assert (starts (t_uid t) (log (σ m)) <= N.of_nat (length (started (t_id t) (log (σ m))))) as Hx; [|lia].
  apply starts_started. intros j r it ts Hl. pose proof (exec_reach _ _ _ _ _ m He) as Hr. destruct (launch_sub _ _ _ _ _ _ _ _ _ Hr Hl) as (t' & Ht' & Eu & <-). f_equal.
  eapply (ci_uniq _ (cnt_reach _ _ _ _ Hr)); [exact Ht'| |exact Eu]. exists (EInsert t). split; [by apply Him|unfold submits; auto].
Qed.
Print Assumptions C64_without_end.

(** ** C64 Such executions exist, from every state with a chain that is alive

    The user takes the next instance if there is one, and asks for it if no call waits. *)
Definition asks (pf : profile) (c : N) (s : sys) : label := if can pf (LNextRecv c) s then LNextRecv c else LNextCheck c.
Definition asking (c : N) (lb : label) : Prop := inner lb \/ lb = LNextCheck c \/ lb = LNextRecv c.
Lemma asking_sends pf lb s s' c : step pf lb s = Some s' -> asking c lb -> inner lb \/ log s' = log s \/ exists a, log s' = ONext c a :: log s.
Proof.
  intros Hs [?|[->| ->]]; [by left|right; cbn [step] in Hs..].
  - unfold next_check in Hs. destruct (chains s !! c) as [ch|]; [|discriminate Hs]. destruct (_ =? _); [discriminate Hs|]. destruct (_ =? _); injection Hs as <-; fsimpl; eauto.
  - unfold next_take in Hs. destruct (chains s !! c) as [ch|]; [|discriminate Hs]. destruct (c_pend ch); [discriminate Hs|]. destruct (c_buf ch); [|injection Hs as <-; fsimpl; eauto].
    destruct (_ =? _); [|discriminate Hs]. injection Hs as <-. fsimpl. eauto.
Qed.
Lemma asking_quiet pf lb s s' c t : step pf lb s = Some s' -> asking c lb -> quiet t (log s) -> quiet t (log s').
Proof.
  intros Hs Hl Hq. destruct (asking_sends _ _ _ _ _ Hs Hl) as [Hi|[->|[a ->]]]; [|done|].
  - eapply internal_quiet; [exact Hs| |done]. by destruct lb.
  - intros e He. apply Hq. by apply elem_of_cons in He as [He|He]; [discriminate He|].
Qed.
Theorem C64_asking_users_exist t0 t1 clk s t u r it ts : reachable_with calm Release t0 t1 s -> reachable Release t0 t1 s -> OSend (EInsert t) ∈ log s -> quiet t (log s) ->
  chain_state s (t_uid t) = Some LIVING -> OLaunch u (t_id t) r it ts ∈ log s ->
  exists σ lb, σ 0%nat = s /\ calm_exec t0 t1 σ lb /\ weakly_fair Release by_handler σ lb /\ strongly_fair Release by_scheduler σ lb /\ weakly_fair Release (fun l => l = LNextRecv (t_uid t)) σ lb /\
    (forall k, quiet t (log (σ k))) /\ infinitely_often (fun k => waiting (t_uid t) (σ k)) /\ forall n, match lb n with LTimer _ _ now | LSweep _ now => now = clk n | _ => True end.
Proof.
  intros Hcr Hr Hi Hq Hc Hl. set (c := t_uid t) in *.
  destruct (fair_user_exists Release t0 t1 clk (fun _ => asks Release c) s Hr) as (σ & lb & E & He & H1 & H2 & _ & _ & H3 & H4). exists σ, lb.
  assert (forall n, asking c (lb n)) as Ha.
  { intros n. destruct (H4 n) as [->|Hx]; [unfold asks; destruct (can _ _ _); unfold asking; auto|left; by destruct (lb n)]. }
  assert (forall k, quiet t (log (σ k))) as Hqk. { induction k as [|k IH]; [by rewrite E|]. eapply asking_quiet; [apply (ex_step _ _ _ _ _ He)|apply Ha|done]. }
  assert (forall k, chain_state (σ k) c = Some LIVING) as Hck.
  { induction k as [|k IH]; [by rewrite E|]. destruct (exec_log _ _ _ _ _ 0%nat k He ltac:(lia)) as [l El]. rewrite E in El.
    refine (kept_living _ _ _ _ _ _ _ u r it ts (exec_reach _ _ _ _ _ k He) (ex_step _ _ _ _ _ He k) _ (quiet_kept _ _ (Hqk k)) _ _ IH); [rewrite El; apply elem_of_app; by right..|].
    intros Ex. specialize (Ha k). rewrite Ex in Ha. destruct Ha as [[]|[?|?]]; discriminate. }
  split_and!; try done.
  - split; [by rewrite E|apply He|]. intros n. split; intros Ex; specialize (Ha n); rewrite Ex in Ha; destruct Ha as [[]|[?|?]]; discriminate.
  - intros n. destruct (H3 n) as (m & Hm & Hx). exists m. split; [done|]. unfold asks, can in Hx. destruct (step Release (LNextRecv c) (σ m)) as [s'|] eqn:Es; [left; destruct Hx; congruence|right].
    intros (l & -> & Hy). rewrite Es in Hy. by destruct Hy.
  - intros n. destruct (H3 n) as (m & Hm & Hx). assert (waiting c (σ m) \/ waiting c (σ (S m))) as [?|?]; [|by exists m|exists (S m); split; [lia|done]].
    specialize (Hck m). unfold chain_state in Hck. destruct (chains (σ m) !! c) as [ch|] eqn:Ec; [|discriminate Hck]. injection Hck as Hck. destruct (c_pend ch) as [|p] eqn:Ep; [right|left; exists ch; by rewrite Ep].
    assert (step Release (LNextRecv c) (σ m) = None) as Hn. { cbn [step]. unfold next_take. by rewrite Ec, Ep. }
    unfold asks, can in Hx. rewrite Hn in Hx. pose proof (ex_step _ _ _ _ _ He m) as Hst.
    assert (exists x, step Release (LNextCheck c) (σ m) = Some x /\ waiting c x) as (x & Hsx & Hwx).
    { cbn [step]. unfold next_check. rewrite Ec, Hck. eexists. split; [reflexivity|]. exists (Chain LIVING (c_buf ch) (c_got ch) (S (c_pend ch))). split; [fsimpl; apply lookup_insert|done]. }
    destruct Hx as [Hx|Hx]; [|congruence]. rewrite Hx, Hsx in Hst. by injection Hst as <-.
  - intros n. destruct (H4 n) as [Hx|Hx]; [rewrite Hx; unfold asks; by destruct (can _ _ _)|by destruct (lb n)].
Qed.
Print Assumptions C64_asking_users_exist.
Definition asked_acts : list act := [Do (LInsert (every 1 11 5 100)); Handle; Ticks 13; Do (LNextCheck 1)].
Example C64_example : exists σ lb, calm_exec 100 100 σ lb /\ weakly_fair Release by_handler σ lb /\ strongly_fair Release by_scheduler σ lb /\ weakly_fair Release (fun l => l = LNextRecv 1) σ lb /\
  OSend (EInsert (every 1 11 5 100)) ∈ log (σ 0%nat) /\ (forall k, quiet (every 1 11 5 100) (log (σ k))) /\ infinitely_often (fun k => waiting 1 (σ k)) /\
  started 11 (log (σ 0%nat)) = [0%Z; 1%Z] /\ delivered 1 (log (σ 0%nat)) = [].
Proof.
  set (t := every 1 11 5 100).
  destruct (calm_scen 100 100 asked_acts (fun s => quietb t (log s) && insb 1 (log s) && waitb 1 s && inb (OLaunch 1 11 0 6 106) (log s) && bool_decide (started 11 (log s) = [0%Z; 1%Z]) && bool_decide (delivered 1 (log s) = [])))
    as (s & Hcr & Hr & HP & Hs); [calm_acts asked_acts|vm_compute; reflexivity|]. specialize (Hs t ltac:(left)).
  apply andb_true_iff in HP as [HP H6]. apply andb_true_iff in HP as [HP H5]. apply andb_true_iff in HP as [HP H4]. apply andb_true_iff in HP as [HP H3]. apply andb_true_iff in HP as [H1 H2].
  apply (quietb_ok _ _ _ _ _ Hr Hs) in H1. apply (insb_ok _ _ _ _ _ Hr Hs) in H2. apply waitb_ok in H3 as [_ H3]. apply inb_ok in H4. apply bool_decide_eq_true in H5. apply bool_decide_eq_true in H6.
  destruct (C64_asking_users_exist 100 100 (fun n => 113 + N.of_nat n) s t 1 0 6 106 Hcr Hr H2 H1 H3 H4) as (σ & lb & E & G1 & G2 & G3 & G4 & G5 & G6 & _).
  exists σ, lb. rewrite E. split_and!; done.
Qed.
