(** Property theorems (ndmodels). Proofs are in [ndmodels_thms]; the vocabulary is in [Spec]. *)
From Coq Require Import Reals Lra String.
From Coq Require Import List Bool Arith Lia.
From Verif Require Import Xf Py Np Special Utils_model Mass_model Spin_model Xf_facts Nd_model SpecNd nd_thms NdModels_model SpecNdModels.
Import ListNotations.
From Verif Require Import ndmodels_thms.

(** C148. The densities of one mass on an array of any shape, of integers or floats, on every library: the array of that shape with the density of the
    number at each index, or the exception that the density of every one of these numbers raises. The hyperparameters may be Python ints, Python floats or
    float scalars of the library. This needs: masses and slopes are not both integers; bounds given as Python numbers are not 0; the break fraction is
    a float. *)

Theorem C148_mass_single_partial :
  forall bk s mass alpha alpha_1 alpha_2 mmin mmax break_fraction lam lam_1 mpp sigpp mpp_2 sigpp_2 gmax,
  column s mass -> Forall parameter [alpha; alpha_1; alpha_2; mmin; mmax; break_fraction; lam; lam_1; mpp; sigpp; mpp_2; sigpp_2; gmax] ->
  not_both_integers mass alpha -> not_both_integers mass alpha_1 -> not_both_integers mass alpha_2 -> not_python_zero mmin -> not_python_zero mmax ->
  elementwise (power_law_mass_nd bk mass alpha mmin mmax) s (fun i => power_law_mass bk (nd_at mass i) (value alpha) (value mmin) (value mmax)) /\
  elementwise (two_component_single_nd bk mass alpha mmin mmax lam mpp sigpp gmax) s
    (fun i => two_component_single bk (nd_at mass i) (value alpha) (value mmin) (value mmax) (value lam) (value mpp) (value sigpp) (value gmax)) /\
  elementwise (three_component_single_nd bk mass alpha mmin mmax lam lam_1 mpp sigpp mpp_2 sigpp_2 gmax) s
    (fun i => three_component_single bk (nd_at mass i) (value alpha) (value mmin) (value mmax) (value lam) (value lam_1) (value mpp) (value sigpp)
       (value mpp_2) (value sigpp_2) (value gmax)) /\
  (nd_int break_fraction = false ->
   (nd_py mmin && nd_py mmax && nd_py break_fraction = true -> fadd (value mmin) (fmul (value break_fraction) (fsub (value mmax) (value mmin))) <> Fin 0) ->
   elementwise (double_power_law_primary_mass_nd bk mass alpha_1 alpha_2 mmin mmax break_fraction) s
     (fun i => double_power_law_primary_mass bk (nd_at mass i) (value alpha_1) (value alpha_2) (value mmin) (value mmax) (value break_fraction)) /\
   elementwise (double_power_law_peak_primary_mass_nd bk mass alpha_1 alpha_2 mmin mmax break_fraction lam mpp sigpp gmax) s
     (fun i => double_power_law_peak_primary_mass bk (nd_at mass i) (value alpha_1) (value alpha_2) (value mmin) (value mmax) (value break_fraction)
        (value lam) (value mpp) (value sigpp) (value gmax))).
Proof. exact C148_mass_single_partial_pf. Qed.
Print Assumptions C148_mass_single_partial.

(** C148. The densities of two masses, on two columns of one shape: the same. Each slope and the column it belongs to are not both integers. *)

Theorem C148_mass_joint_partial :
  forall bk s m1 m2 q alpha alpha_1 alpha_2 beta mmin mmax break_fraction lam mpp sigpp gmax,
  Forall (column s) [m1; m2; q] -> Forall parameter [alpha; alpha_1; alpha_2; beta; mmin; mmax; break_fraction; lam; mpp; sigpp; gmax] ->
  not_both_integers m1 alpha -> not_both_integers m1 alpha_1 -> not_both_integers m1 alpha_2 -> not_python_zero mmin -> not_python_zero mmax ->
  (not_both_integers q beta ->
   elementwise (power_law_primary_mass_ratio_nd bk m1 q alpha beta mmin mmax) s
     (fun i => power_law_primary_mass_ratio bk (nd_at m1 i) (nd_at q i) (value alpha) (value beta) (value mmin) (value mmax)) /\
   elementwise (two_component_primary_mass_ratio_nd bk m1 q alpha beta mmin mmax lam mpp sigpp gmax) s
     (fun i => two_component_primary_mass_ratio bk (nd_at m1 i) (nd_at q i) (value alpha) (value beta) (value mmin) (value mmax) (value lam) (value mpp)
        (value sigpp) (value gmax)) /\
   (nd_int break_fraction = false ->
    (nd_py mmin && nd_py mmax && nd_py break_fraction = true -> fadd (value mmin) (fmul (value break_fraction) (fsub (value mmax) (value mmin))) <> Fin 0) ->
    elementwise (double_power_law_primary_power_law_mass_ratio_nd bk m1 q alpha_1 alpha_2 beta mmin mmax break_fraction) s
      (fun i => double_power_law_primary_power_law_mass_ratio bk (nd_at m1 i) (nd_at q i) (value alpha_1) (value alpha_2) (value beta) (value mmin) (value mmax)
         (value break_fraction)))) /\
  (not_both_integers m2 beta ->
   elementwise (power_law_primary_secondary_independent_nd bk m1 m2 alpha beta mmin mmax) s
     (fun i => power_law_primary_secondary_independent bk (nd_at m1 i) (nd_at m2 i) (value alpha) (value beta) (value mmin) (value mmax)) /\
   elementwise (two_component_primary_secondary_independent_nd bk m1 m2 alpha beta mmin mmax lam mpp sigpp gmax) s
     (fun i => two_component_primary_secondary_independent bk (nd_at m1 i) (nd_at m2 i) (value alpha) (value beta) (value mmin) (value mmax) (value lam)
        (value mpp) (value sigpp) (value gmax))) /\
  (not_both_integers m2 alpha ->
   elementwise (power_law_primary_secondary_identical_nd bk m1 m2 alpha mmin mmax) s
     (fun i => power_law_primary_secondary_identical bk (nd_at m1 i) (nd_at m2 i) (value alpha) (value mmin) (value mmax)) /\
   elementwise (two_component_primary_secondary_identical_nd bk m1 m2 alpha mmin mmax lam mpp sigpp gmax) s
     (fun i => two_component_primary_secondary_identical bk (nd_at m1 i) (nd_at m2 i) (value alpha) (value mmin) (value mmax) (value lam)
        (value mpp) (value sigpp) (value gmax))).
Proof. exact C148_mass_joint_partial_pf. Qed.
Print Assumptions C148_mass_joint_partial.

(** C148. The spin densities, on columns of one shape, of integers or floats, on every library: the same, with no further condition. *)

Theorem C148_spin :
  forall bk s a_1 a_2 cos_tilt_1 cos_tilt_2 chi xi_spin sigma_1 sigma_2 mu_1 mu_2 alpha_1 alpha_2 beta_1 beta_2 amax_1 amax_2,
  Forall (column s) [a_1; a_2; cos_tilt_1; cos_tilt_2; chi] ->
  Forall parameter [xi_spin; sigma_1; sigma_2; mu_1; mu_2; alpha_1; alpha_2; beta_1; beta_2; amax_1; amax_2] ->
  elementwise (independent_spin_magnitude_beta_nd bk a_1 a_2 alpha_1 alpha_2 beta_1 beta_2 amax_1 amax_2) s
    (fun i => independent_spin_magnitude_beta bk (nd_at a_1 i) (nd_at a_2 i) (value alpha_1) (value alpha_2) (value beta_1) (value beta_2) (value amax_1) (value amax_2)) /\
  elementwise (iid_spin_magnitude_beta_nd bk a_1 a_2 amax_1 alpha_1 beta_1) s
    (fun i => iid_spin_magnitude_beta bk (nd_at a_1 i) (nd_at a_2 i) (value amax_1) (value alpha_1) (value beta_1)) /\
  elementwise (independent_spin_orientation_gaussian_isotropic_nd bk cos_tilt_1 cos_tilt_2 xi_spin sigma_1 sigma_2 mu_1 mu_2) s
    (fun i => independent_spin_orientation_gaussian_isotropic bk (nd_at cos_tilt_1 i) (nd_at cos_tilt_2 i) (value xi_spin) (value sigma_1) (value sigma_2)
       (value mu_1) (value mu_2)) /\
  elementwise (iid_spin_orientation_gaussian_isotropic_nd bk cos_tilt_1 cos_tilt_2 xi_spin sigma_1 mu_1) s
    (fun i => iid_spin_orientation_gaussian_isotropic bk (nd_at cos_tilt_1 i) (nd_at cos_tilt_2 i) (value xi_spin) (value sigma_1) (value mu_1)) /\
  elementwise (iid_spin_nd bk a_1 a_2 cos_tilt_1 cos_tilt_2 xi_spin sigma_1 amax_1 alpha_1 beta_1) s
    (fun i => iid_spin bk (nd_at a_1 i) (nd_at a_2 i) (nd_at cos_tilt_1 i) (nd_at cos_tilt_2 i) (value xi_spin) (value sigma_1) (value amax_1) (value alpha_1)
       (value beta_1)) /\
  elementwise (gaussian_chi_eff_nd bk chi mu_1 sigma_1) s (fun i => gaussian_chi_eff bk (nd_at chi i) (value mu_1) (value sigma_1)) /\
  elementwise (gaussian_chi_p_nd bk chi mu_1 sigma_1) s (fun i => gaussian_chi_p bk (nd_at chi i) (value mu_1) (value sigma_1)).
Proof. exact C148_spin_pf. Qed.
Print Assumptions C148_spin.

(** C148. The conditions are needed. On numpy an array of integer masses with a slope given as a Python integer never gives a result, whatever the values.
    A smallest mass 0 given as a Python number, which the check [low >= 0] admits, never gives one either, on any library, if the largest mass is a Python
    number. *)

Theorem C148_integers_and_zero_refuted :
  (forall mass alpha mmin mmax, nd_int mass = true -> nd_int alpha = true -> nd_shape mass <> [] ->
   exists e, power_law_mass_nd Numpy mass alpha mmin mmax = Err e) /\
  (forall bk mass alpha mmin mmax, nd_py mmin = true -> nd_shape mmin = [] -> value mmin = Fin 0 -> nd_py mmax = true -> nd_shape alpha = [] ->
   (exists a, value alpha = Fin a /\ a <> (-1)%R) ->
   power_law_mass_nd bk mass alpha mmin mmax = Err ZeroDivisionError).
Proof. exact C148_integers_and_zero_refuted_pf. Qed.
Print Assumptions C148_integers_and_zero_refuted.

(** C148. The checks of keyword arguments look at every element of an array: on numpy and cupy the truncated normal with keyword sigma raises ValueError
    if any width is not positive, and the power law with keywords if any lower limit is negative (or NaN) or any index is 1; otherwise, and always on jax
    or with positional arguments, the density is computed. *)

Theorem C148_checks :
  forall bk,
  (forall xx mu sigma high low, let bad := exists i, inside (nd_shape sigma) i /\ fgt (nd_at sigma i) (Fin 0) = false in
   (bk <> Jax -> bad -> truncnorm_call bk tn_kw xx mu sigma high low = Err ValueError) /\
   (bk = Jax \/ ~ bad -> truncnorm_call bk tn_kw xx mu sigma high low = truncnorm_nd bk xx mu sigma high low) /\
   truncnorm_call bk [] xx mu sigma high low = truncnorm_nd bk xx mu sigma high low) /\
  (forall xx alpha high low,
   let bad := (exists i, inside (nd_shape low) i /\ fge (nd_at low i) (Fin 0) = false) \/ (exists i, inside (nd_shape alpha) i /\ nd_at alpha i = Fin 1) in
   (bk <> Jax -> bad -> powerlaw_call bk pl_kw xx alpha high low = Err ValueError) /\
   (bk = Jax \/ ~ bad -> powerlaw_call bk pl_kw xx alpha high low = powerlaw_nd bk xx alpha high low) /\
   powerlaw_call bk [] xx alpha high low = powerlaw_nd bk xx alpha high low).
Proof. exact C148_checks_pf. Qed.
Print Assumptions C148_checks.

(** Primary masses as a 2 x 3 array of integers, mass ratios as floats, bounds as Python numbers and a slope as a library scalar. *)
Example C148_met : forall bk,
  let m1 := {| nd_py := false; nd_int := true; nd_shape := [3; 2]; nd_at := fun i => Fin (INR (10 + nth 0 i 0 + 3 * nth 1 i 0)) |} in
  let q := {| nd_py := false; nd_int := false; nd_shape := [3; 2]; nd_at := fun i => Fin (INR (1 + nth 0 i O)%nat / 4)%R |} in
  let alpha := {| nd_py := false; nd_int := false; nd_shape := []; nd_at := fun _ => Fin 2 |} in
  elementwise (power_law_primary_mass_ratio_nd bk m1 q alpha (py_int (Fin 1)) (py_int (Fin 5)) (py_float (Fin 50))) [3; 2]
    (fun i => power_law_primary_mass_ratio bk (nd_at m1 i) (nd_at q i) (Fin 2) (Fin 1) (Fin 5) (Fin 50)) /\
  inside [3; 2] [2; 1].
Proof.
  intros bk m1 q alpha. split; [|repeat constructor].
  assert (P : forall x, parameter (py_int x)) by (intros x; split; [reflexivity|now left]). assert (P' : forall x, parameter (py_float x)) by (intros x; split; [reflexivity|now left]).
  refine (proj1 (proj1 (C148_mass_joint_partial bk [3; 2] m1 m1 q alpha alpha alpha (py_int (Fin 1)) (py_int (Fin 5)) (py_float (Fin 50)) (py_float (Fin 0)) (py_int (Fin 0)) (py_int (Fin 0)) (py_int (Fin 0)) (py_int (Fin 0)) _ _ _ _ _ _ _) _)).
  - repeat constructor.
  - assert (PA : parameter alpha) by (split; [reflexivity|now right]).
    repeat (apply Forall_cons; [first [exact PA|apply P|apply P']|]). constructor.
  - now right.
  - now right.
  - now right.
  - intros _ E. injection E. lra.
  - intros _ E. injection E. lra.
  - now left.
Qed.
(** Two widths, the second of them 0. *)
Example C148_checks_met :
  let sigma := {| nd_py := false; nd_int := false; nd_shape := [2]; nd_at := fun i => Fin (1 - INR (nth 0 i O))%R |} in
  forall xx mu high low, truncnorm_call Numpy tn_kw xx mu sigma high low = Err ValueError.
Proof.
  intros sigma xx mu high low. apply (proj1 (proj1 (C148_checks Numpy) xx mu sigma high low)); [discriminate|]. exists [1]. split; [repeat constructor|].
  cbn. unfold fgt, flt, Rltb. destruct (Rlt_dec 0 (1 - 1)) as [L|_]; [lra|reflexivity].
Qed.

