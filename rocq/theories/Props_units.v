(** Property theorems (units). Proofs are in [units_thms]; the vocabulary is in [Spec]. *)
From Coq Require Import Reals Lra Lia Psatz String Bool.
From Coquelicot Require Import Coquelicot.
From Coq Require Import List.
From Verif Require Import Xf Py St Xf_facts Py_facts Calc Spec Utils_model Powerlaw_facts Truncnorm_facts Trap_facts Np Np_facts Mass_model Mass_facts Smoothed_model Smoothed_facts SpecClass SpecUnits.
Import ListNotations.
Local Open Scope R_scope.
From Verif Require Import units_thms.

(** C126. The analytic primary mass models do not depend on the unit of mass: with all masses (the mass itself and the hyper-parameters that are masses) multiplied by c the density is divided by c, inside and outside the support. *)
Theorem C126_primary_models :
  forall bk c m mmin mmax gmax alpha alpha_1 alpha_2 lam lam_1 mpp sigpp mpp_2 sigpp_2 break_fraction,
  0 < c -> 0 < m -> 0 < mmin < mmax -> mmin < gmax -> 0 < sigpp -> 0 < sigpp_2 -> 0 < break_fraction < 1 -> slope_ok bk alpha -> slope_ok bk alpha_1 -> slope_ok bk alpha_2 ->
  rescaled c (power_law_mass bk (Fin m) (Fin alpha) (Fin mmin) (Fin mmax)) (power_law_mass bk (Fin (c * m)) (Fin alpha) (Fin (c * mmin)) (Fin (c * mmax))) /\
  rescaled c (double_power_law_primary_mass bk (Fin m) (Fin alpha_1) (Fin alpha_2) (Fin mmin) (Fin mmax) (Fin break_fraction))
             (double_power_law_primary_mass bk (Fin (c * m)) (Fin alpha_1) (Fin alpha_2) (Fin (c * mmin)) (Fin (c * mmax)) (Fin break_fraction)) /\
  rescaled c (two_component_single bk (Fin m) (Fin alpha) (Fin mmin) (Fin mmax) (Fin lam) (Fin mpp) (Fin sigpp) (Fin gmax))
             (two_component_single bk (Fin (c * m)) (Fin alpha) (Fin (c * mmin)) (Fin (c * mmax)) (Fin lam) (Fin (c * mpp)) (Fin (c * sigpp)) (Fin (c * gmax))) /\
  rescaled c (three_component_single bk (Fin m) (Fin alpha) (Fin mmin) (Fin mmax) (Fin lam) (Fin lam_1) (Fin mpp) (Fin sigpp) (Fin mpp_2) (Fin sigpp_2) (Fin gmax))
             (three_component_single bk (Fin (c * m)) (Fin alpha) (Fin (c * mmin)) (Fin (c * mmax)) (Fin lam) (Fin lam_1) (Fin (c * mpp)) (Fin (c * sigpp)) (Fin (c * mpp_2)) (Fin (c * sigpp_2)) (Fin (c * gmax))) /\
  rescaled c (double_power_law_peak_primary_mass bk (Fin m) (Fin alpha_1) (Fin alpha_2) (Fin mmin) (Fin mmax) (Fin break_fraction) (Fin lam) (Fin mpp) (Fin sigpp) (Fin gmax))
             (double_power_law_peak_primary_mass bk (Fin (c * m)) (Fin alpha_1) (Fin alpha_2) (Fin (c * mmin)) (Fin (c * mmax)) (Fin break_fraction) (Fin lam) (Fin (c * mpp)) (Fin (c * sigpp)) (Fin (c * gmax))).
Proof. exact C126_primary_models_pf. Qed.
Print Assumptions C126_primary_models.

(** C126. The mass ratio: its conditional density is the power law of the same slope in the secondary mass m_1 q, between mmin and m_1, times m_1 (the Jacobian). Hence it does not depend on the unit of mass. *)
Theorem C126_mass_ratio :
  forall bk kw c m q beta mmin, 0 < c -> 0 < mmin < m -> 0 < q -> (bk = Jax \/ ~ In "alpha"%string kw \/ beta <> 1) ->
  rescaled m (mass_ratio_factor bk (Fin m) (Fin q) (Fin beta) (Fin mmin)) (powerlaw bk kw (Fin (m * q)) (Fin beta) (Fin m) (Fin mmin)) /\
  mass_ratio_factor bk (Fin (c * m)) (Fin q) (Fin beta) (Fin (c * mmin)) = mass_ratio_factor bk (Fin m) (Fin q) (Fin beta) (Fin mmin).
Proof. exact C126_mass_ratio_pf. Qed.
Print Assumptions C126_mass_ratio.

(** C126. The joint models: with masses multiplied by c, models of (m_1, q) are divided by c and models of (m_1, m_2) by c^2. power_law_primary_mass_ratio contains a peak at 35 which has weight zero. *)
Theorem C126_joint_models :
  forall bk c m q m1 m2 mmin mmax gmax alpha beta alpha_1 alpha_2 lam mpp sigpp break_fraction,
  0 < c -> 0 < mmin < mmax -> mmin < m -> 0 < q -> 0 < m1 -> 0 < m2 -> mmin < gmax -> mmin < 100 -> c * mmin < 100 -> 0 < sigpp -> 0 < break_fraction < 1 ->
  slope_ok bk alpha -> slope_ok bk beta -> slope_ok bk alpha_1 -> slope_ok bk alpha_2 ->
  rescaled c (power_law_primary_mass_ratio bk (Fin m) (Fin q) (Fin alpha) (Fin beta) (Fin mmin) (Fin mmax))
             (power_law_primary_mass_ratio bk (Fin (c * m)) (Fin q) (Fin alpha) (Fin beta) (Fin (c * mmin)) (Fin (c * mmax))) /\
  rescaled c (two_component_primary_mass_ratio bk (Fin m) (Fin q) (Fin alpha) (Fin beta) (Fin mmin) (Fin mmax) (Fin lam) (Fin mpp) (Fin sigpp) (Fin gmax))
             (two_component_primary_mass_ratio bk (Fin (c * m)) (Fin q) (Fin alpha) (Fin beta) (Fin (c * mmin)) (Fin (c * mmax)) (Fin lam) (Fin (c * mpp)) (Fin (c * sigpp)) (Fin (c * gmax))) /\
  rescaled c (double_power_law_primary_power_law_mass_ratio bk (Fin m) (Fin q) (Fin alpha_1) (Fin alpha_2) (Fin beta) (Fin mmin) (Fin mmax) (Fin break_fraction))
             (double_power_law_primary_power_law_mass_ratio bk (Fin (c * m)) (Fin q) (Fin alpha_1) (Fin alpha_2) (Fin beta) (Fin (c * mmin)) (Fin (c * mmax)) (Fin break_fraction)) /\
  rescaled (c * c) (power_law_primary_secondary_independent bk (Fin m1) (Fin m2) (Fin alpha) (Fin beta) (Fin mmin) (Fin mmax))
                   (power_law_primary_secondary_independent bk (Fin (c * m1)) (Fin (c * m2)) (Fin alpha) (Fin beta) (Fin (c * mmin)) (Fin (c * mmax))) /\
  rescaled (c * c) (two_component_primary_secondary_independent bk (Fin m1) (Fin m2) (Fin alpha) (Fin beta) (Fin mmin) (Fin mmax) (Fin lam) (Fin mpp) (Fin sigpp) (Fin gmax))
                   (two_component_primary_secondary_independent bk (Fin (c * m1)) (Fin (c * m2)) (Fin alpha) (Fin beta) (Fin (c * mmin)) (Fin (c * mmax)) (Fin lam) (Fin (c * mpp)) (Fin (c * sigpp)) (Fin (c * gmax))).
Proof. exact C126_joint_models_pf. Qed.
Print Assumptions C126_joint_models.

Example C126_hyps : 0 < 1/2 /\ 0 < 5 < 80 /\ 5 < 30 /\ 5 < 100 /\ 1/2 * 5 < 100 /\ slope_ok Numpy (5/2).
Proof. repeat split; try lra. right. lra. Qed.

(** C126. The smoothed mass models do not depend on the unit of mass: take two objects that differ by the unit (for instance two new ones, [C126_new_objects]), with whatever masses they remember, and call them with all masses, limits and smoothing length multiplied by c. The same calls raise, with the same exceptions, all densities are divided by c, and the two objects still differ by the unit. beta, delta_m and the mass ratios are arbitrary, NaN and infinities included. *)
Theorem C126_smoothed :
  forall bk cls interp c s s' ds kw beta delta mmin mmax hi,
  0 < c -> unit_free interp -> object_in_units c s s' -> sm_mmax s = Fin hi -> positive_masses (sm_m1s s) ->
  (forall ms, dget "mass_1"%string ds = Some ms -> positive_masses ms) -> legal bk mmin mmax cls kw -> 0 < mmin < mmax -> mmin < hi ->
  let K := ("beta", beta)%string :: ("delta_m", delta)%string :: kw in
  let old := class_call cls bk interp ds K s in
  let new := class_call cls bk interp (dataset_in_units c ds) (in_units c K) s' in
  object_in_units c (fst old) (fst new) /\ snd new = rmap (map (fun p => fdiv p (Fin c))) (snd old).
Proof. exact C126_smoothed_pf. Qed.
Print Assumptions C126_smoothed.

(** C126. New objects made with limits that differ by the unit do differ by the unit, and all their grid masses are positive. *)
Theorem C126_new_objects :
  forall c lo hi shape cache s s', 0 < lo < hi -> smoothed_init lo hi shape cache = Ok s -> smoothed_init (c * lo) (c * hi) shape cache = Ok s' ->
  object_in_units c s s' /\ sm_mmax s = Fin hi /\ positive_masses (sm_m1s s).
Proof. exact C126_new_objects_pf. Qed.
Print Assumptions C126_new_objects.

Example C126_met : exists s s', smoothed_init 2 100 (3, 3)%nat true = Ok s /\ smoothed_init (1/2 * 2) (1/2 * 100) (3, 3)%nat true = Ok s' /\ unit_free piecewise_linear /\
  legal Numpy 5 80 SinglePeak [("alpha", Fin 2); ("mmin", Fin 5); ("mmax", Fin 80); ("lam", Fin (1/10)); ("mpp", Fin 35); ("sigpp", Fin 4)]%string.
Proof.
  eexists. eexists. split; [reflexivity|]. split; [reflexivity|]. split; [exact piecewise_linear_unit_free|]. constructor; [right|split|]; lra.
Qed.

