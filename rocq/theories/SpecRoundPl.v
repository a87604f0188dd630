(** * Vocabulary for the power law in double precision. *)
From Coq Require Import Reals ZArith.
From Flocq Require Import Core BinarySingleNaN.
From Verif Require Import Double Double_facts SpecRound.
Local Open Scope R_scope.

(** A power function that returns the double nearest to the exact power (checked where no overflow or underflow is near). *)
Definition correctly_rounded (pow : b64 -> b64 -> b64) : Prop :=
  forall x y, is_finite x = true -> is_finite y = true -> 0 < B2R x -> / 2 ^ 1000 <= Rpower (B2R x) (B2R y) <= 2 ^ 1000 ->
  is_finite (pow x y) = true /\ B2R (pow x y) = rnd64 (Rpower (B2R x) (B2R y)).
(** A power function with an error of at most [n] rounding errors, as libraries document it (n = 1: correctly rounded, or off by one unit). *)
Definition accurate (n : nat) (pow : b64 -> b64 -> b64) : Prop :=
  forall x y, is_finite x = true -> is_finite y = true -> 0 < B2R x -> / 2 ^ 1000 <= Rpower (B2R x) (B2R y) <= 2 ^ 1000 ->
  is_finite (pow x y) = true /\
  (1 - u64) ^ n * Rpower (B2R x) (B2R y) <= B2R (pow x y) /\ (1 - u64) ^ n * B2R (pow x y) <= Rpower (B2R x) (B2R y).
(** The exact density. *)
Definition exact_powerlaw (alpha high low x : R) : R :=
  (1 + alpha) / (Rpower high (1 + alpha) - Rpower low (1 + alpha)) * Rpower x alpha.
(** How strongly the normalisation amplifies the errors of the two powers it subtracts. *)
Definition amplification (alpha high low : R) : R :=
  (Rpower high (1 + alpha) + Rpower low (1 + alpha)) / Rabs (Rpower high (1 + alpha) - Rpower low (1 + alpha)).
(** A logarithm with an error of at most [n] rounding errors, for arguments above one. *)
Definition accurate_log (n : nat) (log : b64 -> b64) : Prop :=
  forall x, is_finite x = true -> 1 < B2R x ->
  is_finite (log x) = true /\ (1 - u64) ^ n * ln (B2R x) <= B2R (log x) /\ (1 - u64) ^ n * B2R (log x) <= ln (B2R x).
(** The exact density for slope -1. *)
Definition exact_log_uniform (high low x : R) : R := / ln (high / low) * / x.
