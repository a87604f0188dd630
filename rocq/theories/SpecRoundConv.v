(** * Vocabulary for the beta-parameter conversions in double precision. *)
From Coq Require Import Reals.
From Flocq Require Import Core BinarySingleNaN.
From Verif Require Import Double Double_facts SpecRound.
Local Open Scope R_scope.

(** Mean and variance of the beta distribution on (0, amax), and its parameters in terms of them. *)
Definition beta_mean (alpha beta amax : R) : R := amax * (alpha / (alpha + beta)).
Definition beta_variance (alpha beta amax : R) : R := amax ^ 2 * (alpha * beta / ((alpha + beta) ^ 2 * (alpha + beta + 1))).
Definition beta_alpha (mu var amax : R) : R := let m := mu / amax in let v := var / amax ^ 2 in m * (m * (1 - m) / v - 1).
Definition beta_beta (mu var amax : R) : R := let m := mu / amax in let v := var / amax ^ 2 in (1 - m) * (m * (1 - m) / v - 1).
(** A finite double between 2^-B and 2^B. *)
Definition between (B : nat) (w : b64) : Prop := is_finite w = true /\ / 2 ^ B <= B2R w <= 2 ^ B.
