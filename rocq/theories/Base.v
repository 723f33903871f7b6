(** Imports shared by all files, and Rust's 64-bit arithmetic. *)
From Coq Require Export ZifyBool ZifyNat ZifyN.
From stdpp Require Export gmap list.
Ltac Zify.zify_post_hook ::= Z.div_mod_to_equations.
Global Open Scope N_scope.

(** Cargo's two build profiles.  Integer overflow panics in [Debug] (overflow
    checks on) and wraps around in [Release].  /repo/Cargo.toml:100-102 sets
    nothing about overflow checks, so both defaults apply. *)
Inductive profile := Debug | Release.

(** The result of a computation that may panic. *)
Inductive res (A : Type) := Ret (a : A) | Panic.
Arguments Ret {A} a.
Arguments Panic {A}.

Definition res_bind {A B} (r : res A) (f : A -> res B) : res B :=
  match r with Ret a => f a | Panic => Panic end.
Notation "'let!' x := r 'in' k" := (res_bind r (fun x => k))
  (at level 200, x pattern, r at level 100, k at level 200).

(** 2^64: the number of u64 values. *)
Definition U64 : N := 18446744073709551616.

(** Rust's [a + b] on u64. *)
Definition add64 (pf : profile) (a b : N) : res N :=
  if a + b <? U64 then Ret (a + b)
  else match pf with Debug => Panic | Release => Ret ((a + b) mod U64) end.

(** Rust's [a - b] on u64. *)
Definition sub64 (pf : profile) (a b : N) : res N :=
  if b <=? a then Ret (a - b)
  else match pf with Debug => Panic | Release => Ret ((a + U64 - b) mod U64) end.

(** Rust's [a * b] on u64. *)
Definition mul64 (pf : profile) (a b : N) : res N :=
  if a * b <? U64 then Ret (a * b)
  else match pf with Debug => Panic | Release => Ret ((a * b) mod U64) end.

(** [u64::checked_sub]. *)
Definition checked_sub (a b : N) : option N :=
  if b <=? a then Some (a - b) else None.

(** [x as i64] for x : u64 and [x as u64] for x : i64 (two's complement). *)
Definition as_i64 (x : N) : Z :=
  if x <? 9223372036854775808 then Z.of_N x else (Z.of_N x - Z.of_N U64)%Z.
Definition as_u64 (x : Z) : N := Z.to_N (x mod Z.of_N U64)%Z.

(** Number of slots of the wheel.
    /repo/src/timer/timer_core.rs:15  DEFAULT_TIMER_SLOT_COUNT. *)
Definition SLOTS : N := 3600.

(** /repo/src/prelude.rs:86-89. *)
Definition ONE_SECOND : N := 1.
Definition ONE_MINUTE : N := ONE_SECOND * 60.
Definition ONE_HOUR : N := ONE_MINUTE * 60.
Definition ONE_DAY : N := ONE_HOUR * 24.

Lemma add64_small pf a b : a + b < U64 -> add64 pf a b = Ret (a + b).
Proof. intros H. unfold add64. apply N.ltb_lt in H. by rewrite H. Qed.
