(** * Vocabulary for mixtures in double precision. *)
From Coq Require Import Reals.
From Flocq Require Import Core BinarySingleNaN.
From Verif Require Import Double Double_facts SpecRound.
Local Open Scope R_scope.

(** A fraction: a double between 0 and 1. *)
Definition fraction_double (x : b64) : Prop := is_finite x = true /\ 0 <= B2R x <= 1.
(** A density that is not absurdly large (it may be 0). *)
Definition density_real (p : R) : Prop := 0 <= p <= 2 ^ 200.
(** The computed number [y] is a finite double, not negative, and agrees with [x] up to a factor exp(d) and the tiny number [t] (for underflow). *)
Definition approximates (d t x : R) (y : b64) : Prop := is_finite y = true /\ 0 <= B2R y /\ exp (- d) * x - t <= B2R y <= exp d * x + t.
