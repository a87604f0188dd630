(** * Vocabulary for the truncated normal in double precision. *)
From Coq Require Import Reals.
From Flocq Require Import Core BinarySingleNaN.
From Verif Require Import Double Double_facts SpecRound SpecRoundLogl Special.
Local Open Scope R_scope.

(** An exponential that is never negative. *)
Definition never_negative (exp64 : b64 -> b64) : Prop := forall x, is_nan (exp64 x) = true \/ (Bsign (exp64 x) = false /\ is_nan (exp64 x) = false).
(** Functions with relative error at most [eta] (where the exact result is not too large or small for a double). *)
Definition exp_accuracy (exp64 : b64 -> b64) (eta : R) : Prop :=
  forall x, is_finite x = true -> / 2 ^ 1010 <= exp (B2R x) <= 2 ^ 1010 ->
  is_finite (exp64 x) = true /\ Rabs (B2R (exp64 x) - exp (B2R x)) <= eta * exp (B2R x).
Definition log1p_accuracy (log1p64 : b64 -> b64) (eta : R) : Prop :=
  forall x, is_finite x = true -> -1 < B2R x <= 0 ->
  is_finite (log1p64 x) = true /\ Rabs (B2R (log1p64 x) - ln (1 + B2R x)) <= eta * Rabs (ln (1 + B2R x)) + / 2 ^ 1000.
Definition ndtr_accuracy (ndtr64 : b64 -> b64) (eta : R) : Prop :=
  forall x, is_finite x = true -> is_finite (ndtr64 x) = true /\ 0 <= B2R (ndtr64 x) /\ Rabs (B2R (ndtr64 x) - Phi (B2R x)) <= eta * Phi (B2R x) + / 2 ^ 1000.
Definition log_ndtr_accuracy (log_ndtr64 : b64 -> b64) (eta : R) : Prop :=
  forall x, is_finite x = true -> Rabs (B2R x) <= 40 -> is_finite (log_ndtr64 x) = true /\ Rabs (B2R (log_ndtr64 x) - ln (Phi (B2R x))) <= eta * Rabs (ln (Phi (B2R x))) + / 2 ^ 1000.
(** It returns the double nearest to the exact probability. *)
Definition correctly_rounded_ndtr (ndtr64 : b64 -> b64) : Prop :=
  forall x, is_finite x = true -> is_finite (ndtr64 x) = true /\ B2R (ndtr64 x) = rnd64 (Phi (B2R x)).
(** The values at the ends of the domains that IEEE-754 prescribes. *)
Definition limits (exp64 log1p64 : b64 -> b64) : Prop :=
  exp64 (B754_infinity false) = B754_infinity false /\ forall x, is_finite x = true -> B2R x = -1 -> log1p64 x = B754_infinity true.
(** A finite double of modulus at most 2^400. *)
Definition bounded_double (x : b64) : Prop := is_finite x = true /\ Rabs (B2R x) <= 2 ^ 400.
(** The truncated normal density. *)
Definition exact_truncnorm (mu sigma high low x : R) : R :=
  gauss ((x - mu) / sigma) / sigma / (Phi ((high - mu) / sigma) - Phi ((low - mu) / sigma)).
