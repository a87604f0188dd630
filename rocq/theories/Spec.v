(** * Specification vocabulary used by the property theorems.

    Nothing here refers to the model of the code. A density is described by
    the value [f x] a call returns at every real abscissa [x]. *)
From Coq Require Import Reals.
From Coquelicot Require Import Coquelicot.
From Coq Require Import List.
From Verif Require Import Xf Py.
Import ListNotations.
Local Open Scope R_scope.

(** The call returns the finite number [r] (no exception, not NaN, not infinite). *)
Definition returns (c : result xf) (r : R) : Prop := c = Ok (Fin r).

(** [f] returns finite, non-negative numbers on [a,b] that integrate (Riemann) to [v]. *)
Definition integrates_to (f : R -> result xf) (a b v : R) : Prop :=
  exists g : R -> R, (forall x, a <= x <= b -> returns (f x) (g x)) /\ is_RInt g a b v.

Definition nonneg_on (f : R -> result xf) (a b : R) : Prop :=
  forall x, a <= x <= b -> exists r, returns (f x) r /\ 0 <= r.
Definition positive_on (f : R -> result xf) (a b : R) : Prop :=
  forall x, a <= x <= b -> exists r, returns (f x) r /\ 0 < r.

(** A probability density on the interval [a,b]. *)
Definition density_on (f : R -> result xf) (a b : R) : Prop :=
  nonneg_on f a b /\ integrates_to f a b 1.

(** Improper integral over the open interval (a,b). *)
Definition integrates_to_open (f : R -> result xf) (a b v : R) : Prop :=
  exists g : R -> R, (forall x, a < x < b -> returns (f x) (g x)) /\
                     is_RInt_gen g (at_right a) (at_left b) v.

(** [f] is exactly zero at the points of [dom] outside [a,b]. *)
Definition zero_outside (f : R -> result xf) (dom : R -> Prop) (a b : R) : Prop :=
  forall x, dom x -> (x < a \/ b < x) -> returns (f x) 0.

(** Iterated integral of a function of two variables: [x] over [a,b], and for every
    [x] in the open interval, [y] over [lo x, hi x]. *)
Definition integrates2_to (f : R -> R -> result xf) (a b : R) (lo hi : R -> R) (v : R) : Prop :=
  exists (g : R -> R -> R) (G : R -> R),
    (forall x y, a < x < b -> lo x <= y <= hi x -> returns (f x y) (g x y)) /\
    (forall x, a < x < b -> is_RInt (g x) (lo x) (hi x) (G x)) /\
    is_RInt G a b v.

(** Increasing grids. *)
Fixpoint increasing (x : list R) : Prop :=
  match x with x0 :: ((x1 :: _) as x') => x0 <= x1 /\ increasing x' | _ => True end.
Fixpoint strictly_increasing (x : list R) : Prop :=
  match x with x0 :: ((x1 :: _) as x') => x0 < x1 /\ strictly_increasing x' | _ => True end.

(** [p] is the piecewise linear interpolant of the points (x_i, y_i). *)
Definition interpolates_linearly (p : R -> R) (y x : list R) : Prop :=
  forall i, (S i < length x)%nat ->
    let xi := nth i x 0 in let xj := nth (S i) x 0 in
    let yi := nth i y 0 in let yj := nth (S i) y 0 in
    forall t, xi <= t <= xj -> p t = yi + (yj - yi) / (xj - xi) * (t - xi).

(** The list of [c * y_i + d * z_i]. *)
Definition lin (c d : R) (y z : list R) : list R := map (fun p => c * fst p + d * snd p) (combine y z).


(** [[[p, q], [q, s]]] is the inverse of the symmetric matrix [[[a, b], [b, d]]]. *)
Definition inverse2 (a b d p q s : R) : Prop :=
  a * p + b * q = 1 /\ a * q + b * s = 0 /\ b * p + d * q = 0 /\ b * q + d * s = 1.
