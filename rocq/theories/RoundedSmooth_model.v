(** * The smoothed primary mass density of models/mass.py on binary64 numbers. Definitions only.

    The same lines as [Smoothed_model.p_m1] and [norm_p_m1], on the IEEE-754 numbers of Flocq, with the window of [RoundedWindow_model] and the trapezoid rule of
    [RoundedTrap_model]. One sample; [primary] is the density of the subclass at one mass (with its keyword arguments), an argument, and [expit] scipy's logistic function;
    [t] is the order in which the terms of the trapezoid rule are added. *)
From Coq Require Import Reals ZArith Bool List.
From Flocq Require Import Core BinarySingleNaN.
From Verif Require Import Double_facts Rounded_model RoundedPl_model RoundedTrap_model RoundedWindow_model SpecHyper.

Section Smoothed.
  Variable jax : bool.
  Variable expit : b64 -> b64.
  Variable primary : b64 -> b64.
  Variables mmin mmax delta_m : b64.

  (** models/mass.py lines 594-597 and 606-607. *)
  Definition smoothed_primary64 (m : b64) : b64 := Bmult mode_NE (primary m) (smoothing64 jax expit m mmin mmax delta_m).
  (** models/mass.py lines 601-612; the terms of the integral are those of the grid [m1s]. *)
  Definition norm_terms64 (m1s : list b64) : list b64 := trap_terms64 (map smoothed_primary64 m1s) m1s.
  Definition norm_p_m1_64 (t : order) : b64 :=
    if negb jax && Beqb delta_m zero64 then one64
    else Bplus mode_NE (Bmult mode_NE (nan_to_num_b zero64 (sum64 t)) (if Beqb delta_m zero64 then zero64 else one64))
                       (Bmult mode_NE one64 (if Beqb delta_m zero64 then one64 else zero64)).
  (** models/mass.py lines 591-599. *)
  Definition p_m1_64 (t : order) (m : b64) : b64 := Bdiv mode_NE (smoothed_primary64 m) (norm_p_m1_64 t).
End Smoothed.
