(** * Vocabulary for the trapezoid rule in double precision. *)
From Coq Require Import Reals ZArith List.
From Flocq Require Import Core BinarySingleNaN.
From Verif Require Import Xf Xf_facts Double_facts Rounded_model SpecRound.
Import ListNotations.
Local Open Scope R_scope.

(** The real values of a list of doubles. *)
Definition reals (l : list b64) : list R := map (fun w : b64 => B2R w) l.
(** The sum over the intervals of the grid of width times mean height. *)
Definition exact_trapezoid (y x : list R) : R :=
  Rsum (map (fun i => (nth (S i) x 0 - nth i x 0) * (nth (S i) y 0 + nth i y 0) / 2) (seq 0 (List.length x - 1))).
(** Finite nodes, each step between [2^-B] and [2^B]. *)
Definition steps_within (B : nat) (x : list b64) : Prop :=
  Forall (fun w : b64 => is_finite w = true) x /\
  forall i, (S i < List.length x)%nat -> / 2 ^ B <= nth (S i) (reals x) 0 - nth i (reals x) 0 <= 2 ^ B.
(** Finite values, each zero or between [2^-B] and [2^B]. *)
Definition values_within (B : nat) (y : list b64) : Prop :=
  Forall (fun w : b64 => is_finite w = true /\ (B2R w = 0 \/ / 2 ^ B <= B2R w <= 2 ^ B)) y.
