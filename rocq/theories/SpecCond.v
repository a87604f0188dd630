(** * Vocabulary for changes of the limits of a distribution (C118). *)
From Coq Require Import Reals.
From Coquelicot Require Import Coquelicot.
From Verif Require Import Xf Py Spec.
Local Open Scope R_scope.

(** [narrow] is the distribution [wide] conditioned on the interval [a, b]: on the interval, its values are those of [wide] divided by the probability
    [wide] gives to the interval. *)
Definition conditioned (wide narrow : R -> result xf) (a b : R) : Prop :=
  exists (g : R -> R) (prob : R), 0 < prob /\ is_RInt g a b prob /\
  forall x, a <= x <= b -> returns (wide x) (g x) /\ returns (narrow x) (g x / prob).
