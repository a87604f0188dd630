(** * Array vocabulary shared by the models: [numpy.linspace] and iterated trapezoids. *)
From Coq Require Import Reals.
From Coq Require Import List.
From Verif Require Import Xf Py Utils_model.
Import ListNotations.
Local Open Scope R_scope.

(** [numpy.linspace(a, b, n)] (endpoint included): [a + i * (b - a) / (n - 1)]; [a] alone for [n = 1].
    Exact arithmetic: numpy's rounding, and its exact assignment of the last point, are not modelled. *)
Definition linspace (a b : R) (n : nat) : list R :=
  map (fun i => a + INR i * ((b - a) / INR (n - 1))) (seq 0 n).
Definition xlinspace (a b : R) (n : nat) : list xf := map Fin (linspace a b n).

(** Broadcasting of two one-dimensional arrays: equal lengths, or one of them of length 1. *)
Definition zipWith {A B C} (f : A -> B -> C) (a : list A) (b : list B) : list C :=
  map (fun p => f (fst p) (snd p)) (combine a b).
Definition bcast2 {A B C} (f : A -> B -> C) (a : list A) (b : list B) : option (list C) :=
  if Nat.eqb (List.length a) (List.length b) then Some (zipWith f a b)
  else match a, b with
       | [x], _ => Some (map (f x) b)
       | _, [y] => Some (map (fun x => f x y) a)
       | _, _ => None
       end.
(** The exception a shape mismatch raises: ValueError in numpy/cupy, TypeError in jax. *)
Definition shape_error (bk : backend) : exn := if is_jax bk then TypeError else ValueError.
Definition bcast {A B C} (bk : backend) (f : A -> B -> C) (a : list A) (b : list B) : result (list C) :=
  match bcast2 f a b with Some l => Ok l | None => Err (shape_error bk) end.
(** The augmented assignment [a op= b]. In numpy/cupy it writes into [a], whose length must not
    change; jax arrays are immutable and [a] is rebound to the broadcast result. *)
Definition bcast_into {A B} (bk : backend) (f : A -> B -> A) (a : list A) (b : list B) : result (list A) :=
  if is_jax bk then bcast bk f a b
  else if Nat.eqb (List.length a) (List.length b) then Ok (zipWith f a b)
  else match b with [y] => Ok (map (fun x => f x y) a) | _ => Err (shape_error bk) end.
