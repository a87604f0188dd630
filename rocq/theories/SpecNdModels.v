(** * What a population model gives for a dataset of arrays. Definitions only, independent of the model. *)
From Coq Require Import Reals List Bool Arith.
From Verif Require Import Xf Py Nd_model SpecNd.
Import ListNotations.

(** A column of the dataset: an array (or a scalar of the library) of shape [s], of integers or floats. *)
Definition column (s : list nat) (a : nd xf) : Prop := nd_shape a = s /\ nd_py a = false.
(** A hyperparameter: a Python int or float, or a float scalar of the library. *)
Definition parameter (p : nd xf) : Prop := nd_shape p = [] /\ (nd_py p = true \/ nd_int p = false).
(** Its value. *)
Definition value (p : nd xf) : xf := nd_at p [].
(** It is not a zero given as a Python number. *)
Definition not_python_zero (p : nd xf) : Prop := nd_py p = true -> value p <> Fin 0%R.
(** Not both numbers of integer type. *)
Definition not_both_integers (a p : nd xf) : Prop := nd_int a = false \/ nd_int p = false.
(** The call on arrays gives the array of shape [s] whose element at every index is what the call on the numbers at that index gives, or raises the
    exception that every one of those calls raises. *)
Definition elementwise (r : result (nd xf)) (s : list nat) (f : list nat -> result xf) : Prop :=
  (exists y, r = Ok y /\ nd_shape y = s /\ forall i, inside s i -> f i = Ok (nd_at y i)) \/
  (exists e, r = Err e /\ forall i, inside s i -> f i = Err e).
