(** Property theorems (cont). Proofs are in [cont_thms]; the vocabulary is in [Spec]. *)
From Coq Require Import Reals Lra Lia Psatz String Bool.
From Coquelicot Require Import Coquelicot.
From Coq Require Import List.
From Verif Require Import Xf Py Xf_facts Py_facts Calc Special Gauss_facts Spec Utils_model Powerlaw_facts Truncnorm_facts Mass_model Spin_model Np Cosmo_model Redshift_model SpecCont.
Import ListNotations.
Local Open Scope R_scope.
From Verif Require Import cont_thms.

(** C129. The power law varies continuously with its argument, slope and limits, jointly, at every point strictly inside the limits, also through the slope -1. *)
Theorem C129_powerlaw :
  forall (T : UniformSpace) bk kw (x alpha high low : T -> R) t, continuous x t -> continuous alpha t -> continuous high t -> continuous low t ->
  0 < low t < x t -> x t < high t -> (bk = Jax \/ ~ In "alpha"%string kw \/ alpha t <> 1) ->
  continuous_call (fun u => powerlaw bk kw (Fin (x u)) (Fin (alpha u)) (Fin (high u)) (Fin (low u))) t.
Proof. exact C129_powerlaw_pf. Qed.
Print Assumptions C129_powerlaw.

(** C129. The truncated normal density varies continuously with its argument, mean, width and limits, jointly, at every point strictly inside the limits: in particular where the code switches between its three formulas. *)
Theorem C129_truncnorm :
  forall (T : UniformSpace) bk kw (x mu sigma high low : T -> R) t, continuous x t -> continuous mu t -> continuous sigma t -> continuous high t -> continuous low t ->
  0 < sigma t -> low t < x t < high t ->
  continuous_call (fun u => truncnorm bk kw (Fin (x u)) (Fin (mu u)) (Fin (sigma u)) (Fin (high u)) (Fin (low u))) t.
Proof. exact C129_truncnorm_pf. Qed.
Print Assumptions C129_truncnorm.

(** The mean passes through the upper limit (where the branch changes) while the width varies as well; and the slope passes through -1. *)
Example C129_truncnorm_met : continuous_call (fun u : R => truncnorm Numpy ["sigma"%string] (Fin 3) (Fin (10 + u)) (Fin (2 + u)) (Fin 10) (Fin 2)) 0.
Proof. apply (C129_truncnorm R_UniformSpace Numpy ["sigma"%string] (fun _ => 3) (fun u => 10 + u) (fun u => 2 + u) (fun _ => 10) (fun _ => 2) 0); try apply cont_of_deriv; try (auto_derive; exact I); lra. Qed.
Example C129_powerlaw_met : continuous_call (fun u : R => powerlaw Numpy ["alpha"%string] (Fin 3) (Fin (u - 1)) (Fin (10 - u)) (Fin (2 + u))) 0.
Proof. apply (C129_powerlaw R_UniformSpace Numpy ["alpha"%string] (fun _ => 3) (fun u => u - 1) (fun u => 10 - u) (fun u => 2 + u) 0); try apply cont_of_deriv; try (auto_derive; exact I); try lra; right; right; lra. Qed.

(** C129. The broken power law varies continuously with the mass, both slopes, the limits and the break, jointly, at every mass strictly inside the limits, also at the break. *)
Theorem C129_broken_power_law :
  forall (T : UniformSpace) bk (mass alpha_1 alpha_2 mmin mmax break_fraction : T -> R) t,
  continuous mass t -> continuous alpha_1 t -> continuous alpha_2 t -> continuous mmin t -> continuous mmax t -> continuous break_fraction t ->
  0 < mmin t < mass t -> mass t < mmax t -> 0 < break_fraction t < 1 -> (bk = Jax \/ alpha_1 t <> -1) -> (bk = Jax \/ alpha_2 t <> -1) ->
  continuous_call (fun u => double_power_law_primary_mass bk (Fin (mass u)) (Fin (alpha_1 u)) (Fin (alpha_2 u)) (Fin (mmin u)) (Fin (mmax u)) (Fin (break_fraction u))) t.
Proof. exact C129_broken_power_law_pf. Qed.
Print Assumptions C129_broken_power_law.

(** C129. The mixtures of a power law and peaks vary continuously with the mass and all hyper-parameters, jointly. *)
Theorem C129_peak_models :
  forall (T : UniformSpace) bk (mass alpha mmin mmax lam mpp sigpp gmax lam_1 mpp_2 sigpp_2 : T -> R) t,
  continuous mass t -> continuous alpha t -> continuous mmin t -> continuous mmax t -> continuous lam t -> continuous mpp t -> continuous sigpp t -> continuous gmax t ->
  continuous lam_1 t -> continuous mpp_2 t -> continuous sigpp_2 t ->
  0 < mmin t < mass t -> mass t < mmax t -> mass t < gmax t -> 0 < sigpp t -> 0 < sigpp_2 t -> (bk = Jax \/ alpha t <> -1) ->
  continuous_call (fun u => two_component_single bk (Fin (mass u)) (Fin (alpha u)) (Fin (mmin u)) (Fin (mmax u)) (Fin (lam u)) (Fin (mpp u)) (Fin (sigpp u)) (Fin (gmax u))) t /\
  continuous_call (fun u => three_component_single bk (Fin (mass u)) (Fin (alpha u)) (Fin (mmin u)) (Fin (mmax u)) (Fin (lam u)) (Fin (lam_1 u)) (Fin (mpp u)) (Fin (sigpp u)) (Fin (mpp_2 u)) (Fin (sigpp_2 u)) (Fin (gmax u))) t.
Proof. exact C129_peak_models_pf. Qed.
Print Assumptions C129_peak_models.

(** C129. The power law in the mass ratio and its product with a continuous primary density vary continuously, jointly in masses and hyper-parameters. *)
Theorem C129_mass_ratio :
  forall (T : UniformSpace) bk (m1 q alpha beta mmin mmax lam mpp sigpp gmax : T -> R) t,
  continuous m1 t -> continuous q t -> continuous alpha t -> continuous beta t -> continuous mmin t -> continuous mmax t -> continuous lam t -> continuous mpp t -> continuous sigpp t -> continuous gmax t ->
  0 < mmin t < m1 t -> m1 t < mmax t -> m1 t < gmax t -> 0 < sigpp t -> mmin t / m1 t < q t < 1 -> (bk = Jax \/ alpha t <> -1) ->
  continuous_call (fun u => two_component_primary_mass_ratio bk (Fin (m1 u)) (Fin (q u)) (Fin (alpha u)) (Fin (beta u)) (Fin (mmin u)) (Fin (mmax u)) (Fin (lam u)) (Fin (mpp u)) (Fin (sigpp u)) (Fin (gmax u))) t.
Proof. exact C129_mass_ratio_pf. Qed.
Print Assumptions C129_mass_ratio.

(** C129. Spin orientations and effective spins vary continuously with their arguments and hyper-parameters. *)
Theorem C129_spins :
  forall (T : UniformSpace) bk (c_1 c_2 xi sigma_1 sigma_2 mu_1 mu_2 : T -> R) t,
  continuous c_1 t -> continuous c_2 t -> continuous xi t -> continuous sigma_1 t -> continuous sigma_2 t -> continuous mu_1 t -> continuous mu_2 t ->
  -1 < c_1 t < 1 -> -1 < c_2 t < 1 -> 0 < sigma_1 t -> 0 < sigma_2 t ->
  continuous_call (fun u => independent_spin_orientation_gaussian_isotropic bk (Fin (c_1 u)) (Fin (c_2 u)) (Fin (xi u)) (Fin (sigma_1 u)) (Fin (sigma_2 u)) (Fin (mu_1 u)) (Fin (mu_2 u))) t /\
  continuous_call (fun u => gaussian_chi_eff bk (Fin (c_1 u)) (Fin (mu_1 u)) (Fin (sigma_1 u))) t /\
  (0 < c_1 t -> continuous_call (fun u => gaussian_chi_p bk (Fin (c_1 u)) (Fin (mu_1 u)) (Fin (sigma_1 u))) t).
Proof. exact C129_spins_pf. Qed.
Print Assumptions C129_spins.

