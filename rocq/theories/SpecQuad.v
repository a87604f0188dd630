(** * Vocabulary for the accuracy of the trapezoid rule. *)
From Coq Require Import Reals List.
From Coquelicot Require Import Coquelicot.
Import ListNotations.
Local Open Scope R_scope.

(** [f] is twice differentiable on the closed interval and its second derivative is at most [M] in absolute value. *)
Definition second_derivative_at_most (f : R -> R) (a b M : R) : Prop :=
  exists f1 f2 : R -> R, forall x, a <= x <= b -> is_derive f x (f1 x) /\ is_derive f1 x (f2 x) /\ Rabs (f2 x) <= M.

(** [x] runs from [a] to [b] in non-decreasing steps of at most [h]. *)
Fixpoint partition (a b h : R) (x : list R) : Prop :=
  match x with
  | [] => False
  | [x0] => x0 = a /\ x0 = b
  | x0 :: ((x1 :: _) as rest) => x0 = a /\ x0 <= x1 <= x0 + h /\ partition x1 b h rest
  end.
