(** * What integrating an n-dimensional array along one axis means. Definitions only, independent of the model of [trapezoid]. *)
From Coq Require Import Reals List Arith.
From Verif Require Import Xf Vt_model.
Import ListNotations.

(** A multi-index of an array of this shape. *)
Definition in_range (shape i : list nat) : Prop := Forall2 lt i shape.
(** The shape without axis [k]; the index with coordinate [j] at axis [k]. *)
Definition without (k : nat) (shape : list nat) : list nat := (firstn k shape ++ skipn (S k) shape)%list.
Definition with_coord (k j : nat) (i : list nat) : list nat := (firstn k i ++ j :: skipn k i)%list.
(** The values met when coordinate [k] runs and the others stay at [i]. *)
Definition line (y : array) (k : nat) (i : list nat) : list xf := map (fun j => ar_at y (with_coord k j i)) (seq 0 (nth k (ar_shape y) 0)).
(** The trapezoid sum of [n] ordinates at [n] abscissae, as a sum over the intervals. *)
Fixpoint sum_upto (n : nat) (f : nat -> R) : R := match n with O => 0 | S n' => sum_upto n' f + f n' end%R.
Definition trapezoid_sum (n : nat) (y x : nat -> R) : R := sum_upto (n - 1) (fun j => (x (S j) - x j) * (y (S j) + y j) / 2)%R.
(** Every element is a finite number, given by [f]. *)
Definition finite_array (y : array) (f : list nat -> R) : Prop := forall i, in_range (ar_shape y) i -> ar_at y i = Fin (f i).
(** Python's numbering of the axes of an array of rank [n]. *)
Definition names_axis (n k : nat) (axis : Z) : Prop := k < n /\ (axis = Z.of_nat k \/ axis = Z.of_nat k - Z.of_nat n)%Z.
