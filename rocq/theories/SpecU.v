(** Specification vocabulary for [apply_conditions]. *)
From Coq Require Import Reals List.
From Verif Require Import Xf Py Utils_model.

(** A value (an array) violates a condition when a callable condition returns false on it,
    or some element fails the comparison; a non-callable operator is always violated. *)
Definition violates (c : condition) (value : list xf) : Prop :=
  match c with
  | CCallable f => f value = false
  | COp (Some op) val => exists v, In v value /\ op v val = false
  | COp None _ => True
  end.

