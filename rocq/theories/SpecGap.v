(** Specification of linear interpolation between nodes, as promised by [_setup_interpolant(..., kind="linear")]. *)
From Coq Require Import Reals List.
From Verif Require Import Xf Spec.
Import ListNotations.
Local Open Scope R_scope.

(** The straight line through (x0, y0) and (x1, y1), at [m]. *)
Definition chord (x0 y0 x1 y1 m : R) : R := y0 + (y1 - y0) * (m - x0) / (x1 - x0).

(** A kernel that, between two adjacent nodes of a strictly increasing list of finite nodes carrying finite values there, returns the
    chord.  What it does outside the nodes is left open. *)
Definition linear_between (interp : list xf -> list xf -> xf -> xf) : Prop :=
  forall (nodes : list R) (vals : list xf) i m y0 y1,
  strictly_increasing nodes -> List.length vals = List.length nodes -> (S i < List.length nodes)%nat ->
  nth i vals NaN = Fin y0 -> nth (S i) vals NaN = Fin y1 ->
  nth i nodes 0 <= m <= nth (S i) nodes 0 ->
  interp (map Fin nodes) vals (Fin m) = Fin (chord (nth i nodes 0) y0 (nth (S i) nodes 0) y1 m).
