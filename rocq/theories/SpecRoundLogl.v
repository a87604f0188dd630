(** * Vocabulary for the rounding error of the log-likelihood. *)
From Coq Require Import Reals List.
From Flocq Require Import Core BinarySingleNaN.
From Verif Require Import Double Double_facts SpecRound.
Import ListNotations.
Local Open Scope R_scope.

(** A logarithm of doubles with relative error at most [eta] at every positive double. *)
Definition log_accuracy (log64 : b64 -> b64) (eta : R) : Prop :=
  forall x, positive_double x -> is_finite (log64 x) = true /\ Rabs (B2R (log64 x) - ln (B2R x)) <= eta * Rabs (ln (B2R x)).
(** It returns the double nearest to the exact logarithm. *)
Definition correctly_rounded_log (log64 : b64 -> b64) : Prop :=
  forall x, positive_double x -> is_finite (log64 x) = true /\ B2R (log64 x) = rnd64 (ln (B2R x)).
