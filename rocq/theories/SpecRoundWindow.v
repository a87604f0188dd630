(** * Vocabulary for the smoothing window in double precision. *)
From Coq Require Import Reals.
From Flocq Require Import Core BinarySingleNaN.
From Verif Require Import Double Double_facts SpecRound.
Local Open Scope R_scope.

(** A logistic function that returns the double nearest to the exact value. *)
Definition nearest_expit (expit : b64 -> b64) : Prop :=
  forall z, is_finite z = true -> is_finite (expit z) = true /\ B2R (expit z) = rnd64 (/ (1 + exp (- B2R z))).
(** Finite masses of moderate size and a positive smoothing length of moderate size. *)
Definition window_arguments (mass mmin mmax delta_m : b64) : Prop :=
  is_finite mass = true /\ is_finite mmin = true /\ is_finite mmax = true /\ Rabs (B2R mass) <= 2 ^ 400 /\ Rabs (B2R mmin) <= 2 ^ 400 /\ moderate delta_m.
(** The exact window: the mass relative to [mmin] in units of [delta_m] is [s]. *)
Definition exact_window (s : R) : R := / (1 + exp (/ s - / (1 - s))).
