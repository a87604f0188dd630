(** * The mixture models of models/mass.py and models/spin.py on binary64 numbers. Definitions only.

    The same lines as [Mass_model.two_component_single], [three_component_single] and [Spin_model.independent_spin_orientation_gaussian_isotropic], with the
    components of [RoundedPl_model] and [RoundedTn_model] (one element, scalar hyper-parameters). The library's elementary functions are arguments. *)
From Coq Require Import Reals ZArith Bool.
From Flocq Require Import Core BinarySingleNaN.
From Verif Require Import Double_facts Rounded_model RoundedPl_model RoundedTn_model.

Section Mixtures.
  Variable pow : b64 -> b64 -> b64.
  Variables exp64 log64 log1p64 ndtr64 log_ndtr64 : b64 -> b64.
  Variable half_log_two_pi : b64.
  Let pl := powerlaw64 pow log64.
  Let tn := truncnorm64 exp64 log64 log1p64 ndtr64 log_ndtr64 half_log_two_pi.

  (** models/mass.py lines 329-332. *)
  Definition two_component64 (mass alpha mmin mmax lam mpp sigpp gaussian_mass_maximum : b64) : b64 :=
    let p_pow := pl mass (Bopp alpha) mmax mmin in
    let p_norm := tn mass mpp sigpp gaussian_mass_maximum mmin in
    Bplus mode_NE (Bmult mode_NE (Bminus mode_NE one64 lam) p_pow) (Bmult mode_NE lam p_norm).
  (** models/mass.py lines 386-394. *)
  Definition three_component64 (mass alpha mmin mmax lam lam_1 mpp_1 sigpp_1 mpp_2 sigpp_2 gaussian_mass_maximum : b64) : b64 :=
    let p_pow := pl mass (Bopp alpha) mmax mmin in
    let p_norm1 := tn mass mpp_1 sigpp_1 gaussian_mass_maximum mmin in
    let p_norm2 := tn mass mpp_2 sigpp_2 gaussian_mass_maximum mmin in
    Bplus mode_NE
      (Bplus mode_NE (Bmult mode_NE (Bminus mode_NE one64 lam) p_pow) (Bmult mode_NE (Bmult mode_NE lam lam_1) p_norm1))
      (Bmult mode_NE (Bmult mode_NE lam (Bminus mode_NE one64 lam_1)) p_norm2).
  (** models/spin.py lines 163-166. *)
  Definition spin_orientation64 (cos_tilt_1 cos_tilt_2 xi_spin sigma_1 sigma_2 mu_1 mu_2 : b64) : b64 :=
    let t1 := tn cos_tilt_1 mu_1 sigma_1 one64 (Bopp one64) in
    let t2 := tn cos_tilt_2 mu_2 sigma_2 one64 (Bopp one64) in
    Bplus mode_NE (Bdiv mode_NE (Bminus mode_NE one64 xi_spin) (int64 4)) (Bmult mode_NE (Bmult mode_NE xi_spin t1) t2).
End Mixtures.
