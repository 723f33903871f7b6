(** Due times of tasks with an interval frequency. *)
From Verif Require Import Tactics Inv Own Life Count Quiet Sched.


Lemma add64_mod pf a b c : add64 pf a b = Ret c -> c = (a + b) mod U64.
Proof. unfold add64, U64. repeat case_match; intros; simplify_eq; lia. Qed.
Lemma as_roundtrip x : x < U64 -> as_u64 (as_i64 x) = x.
Proof. unfold as_u64, as_i64, U64. case_match; lia. Qed.

Lemma mod3 a b c : (((a mod U64 + b) mod U64 + c) mod U64 = (a + b + c) mod U64).
Proof. rewrite (N.add_mod_idemp_l (a mod U64 + b) c) by done. rewrite <- !N.add_assoc. by rewrite N.add_mod_idemp_l. Qed.
Lemma times_next st stp n : (((st + N.of_nat n * (stp + 1)) mod U64 + 1) mod U64 + stp) mod U64 = (st + N.of_nat (S n) * (stp + 1)) mod U64.
Proof. rewrite mod3. f_equal. rewrite Nat2N.inj_succ, N.mul_succ_l. lia. Qed.

Lemma follows_secs pf st stp l i' : st < U64 -> follows pf (inr (SState st true stp)) l i' ->
  l = times st (stp + 1) (length l) /\
  i' = inr (match l with [] => SState st true stp | d :: _ => SState ((d + 1) mod U64) false stp end).
Proof.
  intros Hst. induction 1 as [|l i1 z i2 Hf [IH1 IH2] Hn]; [done|]. subst i1. cbn [iter_next] in Hn.
  unfold res_bind, ss_next in Hn.
  assert (exists x s', z = as_i64 x /\ i2 = inr s' /\ s' = SState ((x + 1) mod U64) false stp /\
    x = (st + N.of_nat (length l) * (stp + 1)) mod U64) as (x & s' & -> & -> & -> & Hx).
  { destruct l as [|d r]; cbn [ss_start ss_first ss_step length] in *.
    - unfold res_bind in Hn. destruct (add64 pf st 0) as [x|] eqn:E1; [|done]. destruct (add64 pf x 1) as [y|] eqn:E2; [|done].
      apply add64_mod in E1, E2. simplify_eq. do 2 eexists. repeat split.
    - cbn [times] in IH1. injection IH1 as Hd _. unfold res_bind in Hn.
      destruct (add64 pf ((d + 1) mod U64) stp) as [x|] eqn:E1; [|done]. destruct (add64 pf x 1) as [y|] eqn:E2; [|done].
      apply add64_mod in E1, E2. simplify_eq. do 2 eexists. repeat split. 
      apply times_next. }
  assert (x < U64) by (rewrite Hx; apply N.mod_lt; done).
  rewrite as_roundtrip by done. cbn [length times]. rewrite <- IH1, <- Hx. done.
Qed.


Theorem planned_times pf t0 t1 s t st p : reachable pf t0 t1 s -> submitted t (log s) ->
  interval (t_freq t) = Some (st, p) -> st < U64 ->
  planned (t_uid t) (log s) = times st p (length (planned (t_uid t) (log s))).
Proof.
  intros Hr Hs Hi Hst. destruct (f_sub _ _ (finv_reach _ _ _ _ Hr) t Hs) as (i' & Hf & _).
  unfold interval in Hi. assert (iter_of (t_freq t) = inr (SState st true (p - 1)) /\ 1 <= p) as [E Hp].
  { destruct (t_freq t) as [| |[]|? []]; cbn in *; try done; destruct ss_first; simplify_eq; (split; [|lia]); repeat f_equal; lia. }
  rewrite E in Hf. apply follows_secs in Hf as [Hl _]; [|done]. by replace (p - 1 + 1) with p in Hl by lia.
Qed.
