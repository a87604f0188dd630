(** * The mass-ratio models of models/mass.py on binary64 numbers. Definitions only.

    The same lines as [Mass_model.mass_ratio_factor] and [two_component_primary_mass_ratio], on the IEEE-754 numbers of Flocq, with the library functions as arguments.
    One element of the arrays; the conditions of the decorator of the elementary densities are not repeated here. *)
From Coq Require Import Reals ZArith.
From Flocq Require Import Core BinarySingleNaN.
From Verif Require Import Double_facts Rounded_model RoundedPl_model RoundedMix_model.

(** models/mass.py lines 182 and 437: [powerlaw(dataset["mass_ratio"], beta, 1, mmin / dataset["mass_1"])]; the quotient is rounded. *)
Definition mass_ratio64 (pow : b64 -> b64 -> b64) (log64 : b64 -> b64) (mass_1 mass_ratio beta mmin : b64) : b64 :=
  powerlaw64 pow log64 mass_ratio beta one64 (Bdiv mode_NE mmin mass_1).
(** models/mass.py lines 428-439. *)
Definition two_component_ratio64 (pow : b64 -> b64 -> b64) (exp64 log64 log1p64 ndtr64 log_ndtr64 : b64 -> b64) (half_log_two_pi : b64)
    (mass_1 mass_ratio alpha beta mmin mmax lam mpp sigpp gaussian_mass_maximum : b64) : b64 :=
  Bmult mode_NE
    (two_component64 pow exp64 log64 log1p64 ndtr64 log_ndtr64 half_log_two_pi mass_1 alpha mmin mmax lam mpp sigpp gaussian_mass_maximum)
    (mass_ratio64 pow log64 mass_1 mass_ratio beta mmin).
