(** * Vocabulary for the redshift models in double precision. *)
From Coq Require Import Reals.
From Flocq Require Import Core BinarySingleNaN.
From Verif Require Import Double Double_facts SpecRound.
Local Open Scope R_scope.

(** A redshift: a double that is not negative and not absurdly large. *)
Definition redshift_double (z : b64) : Prop := is_finite z = true /\ 0 <= B2R z <= 2 ^ 100.
(** Far from overflow and underflow. *)
Definition moderate_real (x : R) : Prop := / 2 ^ 300 <= x <= 2 ^ 300.
(** The Madau-Dickinson rate evolution. *)
Definition exact_madau (gamma kappa z_peak z : R) : R :=
  Rpower (1 + z) gamma / (1 + Rpower ((1 + z) / (1 + z_peak)) kappa) * (1 + Rpower (1 + z_peak) (- kappa)).
(** The computed number [y] is a positive finite double whose logarithm differs from that of [x] by at most [d]. *)
Definition log_close (d : R) (x : R) (y : b64) : Prop := is_finite y = true /\ 0 < B2R y /\ Rabs (ln (B2R y) - ln x) <= d.
