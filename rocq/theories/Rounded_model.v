(** * The Monte Carlo estimators of hyperpe.py and vt.py on binary64 numbers. Definitions only.

    The other model files compute with exact reals. Here the same lines are modelled on the IEEE-754 binary64 numbers of the Flocq library (signed zeros,
    subnormals, infinities, NaN, round to nearest even), so that the effect of rounding can be stated. The weights are given; numpy, cupy and jax add up
    an array in different orders, so a sum is an arbitrary binary tree of additions ([order]). [x**2] is the rounded product [x * x] (on numpy and jax it
    is computed so; Python's [float ** 2] is the C library's [pow], taken to be correctly rounded here). *)
From Coq Require Import Reals ZArith List.
From Flocq Require Import Core BinarySingleNaN.
From Verif Require Import Double_facts.
Import ListNotations.

(** A sum of doubles and the order of its additions. *)
Inductive order := One (w : b64) | Add (l r : order).
Fixpoint leaves (t : order) : list b64 := match t with One w => [w] | Add l r => leaves l ++ leaves r end.
(** The number of additions on the longest way from a summand to the result. *)
Fixpoint depth (t : order) : nat := match t with One _ => 0 | Add l r => S (Nat.max (depth l) (depth r)) end.
(** [xp.sum] of the summands. *)
Fixpoint sum64 (t : order) : b64 := match t with One w => w | Add l r => Bplus mode_NE (sum64 l) (sum64 r) end.

(** An integer converted to a double. *)
Definition int64 (n : nat) : b64 := binary_normalize 53 1024 _ _ mode_NE (Z.of_nat n) 0 false.
Definition square64 (x : b64) : b64 := Bmult mode_NE x x.

(** hyperpe.py line 198: [xp.mean(weights, axis=-1)] of [K] weights. *)
Definition mean64 (K : nat) (t : order) : b64 := Bdiv mode_NE (sum64 t) (int64 K).
(** hyperpe.py lines 198-203: the variance of one event; [t] adds up the weights and [t2] their squares. *)
Definition event_variance64 (K : nat) (t t2 : order) : b64 :=
  let expectation := mean64 K t in
  let square_expectation := mean64 K t2 in
  Bdiv mode_NE (Bminus mode_NE square_expectation (square64 expectation)) (Bmult mode_NE (int64 K) (square64 expectation)).

(** vt.py lines 252-259: [detection_efficiency] for [N] generated injections; [t] adds up the weights of the found ones and [t2] their squares. *)
Definition efficiency64 (N : nat) (t : order) : b64 := Bdiv mode_NE (sum64 t) (int64 N).
Definition efficiency_variance64 (N : nat) (t t2 : order) : b64 :=
  Bminus mode_NE (Bdiv mode_NE (sum64 t2) (int64 (N * N))) (Bdiv mode_NE (square64 (efficiency64 N t)) (int64 N)).
(** vt.py line 202: [mu**2 > 4 * self.n_events * var], with [n_events] a double (the default is infinity). *)
Definition converged64 (n_events mu var : b64) : bool := Bltb (Bmult mode_NE (Bmult mode_NE (int64 4) n_events) var) (square64 mu).
