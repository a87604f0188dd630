(** * The joint densities of two masses and of two spins (models/mass.py, models/spin.py) on binary64 numbers. Definitions only.

    The same lines as in [Mass_model] and [Spin_model], on the IEEE-754 numbers of Flocq. The library functions are arguments, as in [RoundedMix_model] and [RoundedBeta_model].
    One element of the arrays; the conditions of the decorator of the elementary densities are not repeated here. *)
From Coq Require Import Reals ZArith.
From Flocq Require Import Core BinarySingleNaN.
From Verif Require Import Double_facts Rounded_model RoundedPl_model RoundedBeta_model RoundedMix_model.

(** models/mass.py line 218: multiplying by a boolean multiplies by 1.0 or 0.0. *)
Definition primary_secondary64 (mass_1 mass_2 p_m1 p_m2 : b64) : b64 :=
  Bmult mode_NE (Bmult mode_NE (Bmult mode_NE p_m1 p_m2) (if Bleb mass_2 mass_1 then one64 else zero64)) (int64 2).

Section Joint.
  Variable pow : b64 -> b64 -> b64.
  Variables exp64 log64 log1p64 ndtr64 log_ndtr64 : b64 -> b64.
  Variable half_log_two_pi : b64.
  Variable betaln64 : b64 -> b64 -> b64.

  (** models/mass.py lines 244-247. *)
  Definition power_law_pair64 (mass_1 mass_2 alpha beta mmin mmax : b64) : b64 :=
    primary_secondary64 mass_1 mass_2 (powerlaw64 pow log64 mass_1 (Bopp alpha) mmax mmin) (powerlaw64 pow log64 mass_2 (Bopp beta) mmax mmin).
  (** models/mass.py lines 473-485. *)
  Definition two_component_pair64 (mass_1 mass_2 alpha beta mmin mmax lam mpp sigpp gaussian_mass_maximum : b64) : b64 :=
    let single := two_component64 pow exp64 log64 log1p64 ndtr64 log_ndtr64 half_log_two_pi in
    primary_secondary64 mass_1 mass_2
      (single mass_1 alpha mmin mmax lam mpp sigpp gaussian_mass_maximum)
      (single mass_2 beta mmin mmax lam mpp sigpp gaussian_mass_maximum).
  (** models/spin.py lines 89-92. *)
  Definition spin_magnitude64 (a_1 a_2 alpha_chi_1 alpha_chi_2 beta_chi_1 beta_chi_2 amax_1 amax_2 : b64) : b64 :=
    Bmult mode_NE (beta_dist64 exp64 log64 betaln64 a_1 alpha_chi_1 beta_chi_1 amax_1) (beta_dist64 exp64 log64 betaln64 a_2 alpha_chi_2 beta_chi_2 amax_2).
  (** models/spin.py lines 44-47, with the default [mu_spin=1] of line 95. *)
  Definition iid_spin64 (a_1 a_2 cos_tilt_1 cos_tilt_2 xi_spin sigma_spin amax alpha_chi beta_chi : b64) : b64 :=
    Bmult mode_NE
      (spin_orientation64 exp64 log64 log1p64 ndtr64 log_ndtr64 half_log_two_pi cos_tilt_1 cos_tilt_2 xi_spin sigma_spin sigma_spin one64 one64)
      (spin_magnitude64 a_1 a_2 alpha_chi alpha_chi beta_chi beta_chi amax amax).
End Joint.
