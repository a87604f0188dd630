(** * Vocabulary for the rounding properties. *)
From Coq Require Import Reals List.
From Flocq Require Import Core BinarySingleNaN.
From Verif Require Import Double_facts Rounded_model.
Import ListNotations.
Local Open Scope R_scope.

(** The unit roundoff of binary64. *)
Definition u64 : R := / 2 ^ 53.
(** The real values of the summands. *)
Definition values (t : order) : list R := map (fun w : b64 => B2R w) (leaves t).
(** [t2] adds up, in some order, the rounded squares of the summands of [t]. *)
Definition adds_squares (t t2 : order) : Prop := leaves t2 = map square64 (leaves t).
(** Finite, and between two positive powers of two: far away from underflow and overflow. *)
Definition moderate (w : b64) : Prop := is_finite w = true /\ / 2 ^ 400 <= B2R w <= 2 ^ 400.
Definition positive_double (w : b64) : Prop := is_finite w = true /\ 0 < B2R w.
Definition nonneg_double (w : b64) : Prop := is_finite w = true /\ 0 <= B2R w.
