(** * Vocabulary for the Beta distribution in double precision. *)
From Coq Require Import Reals.
From Flocq Require Import Core BinarySingleNaN.
From Verif Require Import Double Double_facts SpecRound Special.
Local Open Scope R_scope.

(** The Beta density on [0, scale]. *)
Definition exact_beta (alpha beta scale x : R) : R :=
  Rpower x (alpha - 1) * Rpower (scale - x) (beta - 1) / (Beta_fun alpha beta * Rpower scale (alpha + beta - 1)).
(** The sizes of the terms of its logarithm that are added and subtracted. *)
Definition term_sizes (alpha beta scale x : R) : R :=
  Rabs (alpha - 1) * Rabs (ln x) + Rabs (beta - 1) * (Rabs (ln (scale - x)) + 1) + Rabs (ln (Beta_fun alpha beta)) + (alpha + beta + 1) * Rabs (ln scale).
(** The values of the logarithm and the exponential outside their domains that IEEE-754 prescribes. *)
Definition log_of_zero (log64 : b64 -> b64) : Prop := forall x, is_finite x = true -> B2R x = 0 -> log64 x = B754_infinity true.
Definition exp_of_nan (exp64 : b64 -> b64) : Prop := exp64 B754_nan = B754_nan.
