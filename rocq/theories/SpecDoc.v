(** The formulas printed in the docstrings of /repo, transcribed. Nothing here refers to the model of the code. *)
From Coq Require Import Reals.
From Coquelicot Require Import Coquelicot.
Local Open Scope R_scope.

(** utils.py line 69; [B] is the Beta function at (alpha, beta). *)
Definition documented_beta (B alpha beta scale x : R) : R :=
  Rpower x (alpha - 1) * Rpower (scale - x) (beta - 1) / (B * Rpower scale (alpha + beta + 1)).
Definition is_beta_function (alpha beta B : R) : Prop :=
  is_RInt_gen (fun t => Rpower t (alpha - 1) * Rpower (1 - t) (beta - 1)) (at_right 0) (at_left 1) B.

(** utils.py lines 140-142; the error function is 2 / sqrt pi times the integral of exp (- t^2) from 0. *)
Definition erf (x : R) : R := 2 / sqrt PI * RInt (fun t => exp (- (t * t))) 0 x.
Definition documented_truncnorm (mu sigma high low x : R) : R :=
  sqrt (2 / (PI * (sigma * sigma))) * exp (- ((mu - x) * (mu - x)) / (2 * (sigma * sigma)))
  / (erf ((high - mu) / sqrt 2) + erf ((mu - low) / sqrt 2)).

(** mass.py lines 672-673, with [m] the mass above the minimum. *)
Definition documented_window (delta_m m : R) : R := / ((delta_m / m + delta_m / (m - delta_m)) + 1).

(** redshift.py line 231. *)
Definition documented_madau (gamma kappa z_peak z : R) : R := Rpower (1 + z) gamma / (1 + Rpower ((1 + z) / (1 + z_peak)) kappa).

(** mass.py lines 42-46: one constant of proportionality for both pieces of the broken power law [p]. *)
Definition documented_broken_power_law (p : R -> R) (alpha_1 alpha_2 mmin mmax delta : R) : Prop :=
  exists c, (forall m, mmin <= m < mmin + delta * (mmax - mmin) -> p m = c * Rpower m (- alpha_1)) /\
            (forall m, mmin + delta * (mmax - mmin) <= m < mmax -> p m = c * Rpower m (- alpha_2)).
