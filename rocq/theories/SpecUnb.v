(** Specification vocabulary for densities on unbounded intervals. Nothing here refers to the model of the code. *)
From Coq Require Import Reals.
From Coquelicot Require Import Coquelicot.
From Verif Require Import Xf Py Spec.
Local Open Scope R_scope.

(** The normal density with mean [mu] and standard deviation [sigma]. *)
Definition normal_density (mu sigma x : R) : R :=
  exp (- ((x - mu) * (x - mu)) / (2 * (sigma * sigma))) / (sigma * sqrt (2 * PI)).

(** [f] returns finite numbers on [a, infinity), (-infinity, b], the whole line or (0, b], with improper integral [v]. *)
Definition integrates_above (f : R -> result xf) (a v : R) : Prop :=
  exists g : R -> R, (forall x, a <= x -> returns (f x) (g x)) /\ is_RInt_gen g (at_point a) (Rbar_locally p_infty) v.
Definition integrates_below (f : R -> result xf) (b v : R) : Prop :=
  exists g : R -> R, (forall x, x <= b -> returns (f x) (g x)) /\ is_RInt_gen g (Rbar_locally m_infty) (at_point b) v.
Definition integrates_line (f : R -> result xf) (v : R) : Prop :=
  exists g : R -> R, (forall x, returns (f x) (g x)) /\ is_RInt_gen g (Rbar_locally m_infty) (Rbar_locally p_infty) v.
Definition integrates_from_zero (f : R -> result xf) (b v : R) : Prop :=
  exists g : R -> R, (forall x, 0 < x <= b -> returns (f x) (g x)) /\ is_RInt_gen g (at_right 0) (at_point b) v.
