(** * Model of gwpopulation/models/spin.py (lines 24-330), pointwise.
    The spline classes (lines 333-396) are modelled in [Interp_model]. *)
From Coq Require Import Reals String Bool.
From Coq Require Import List.
From Verif Require Import Xf Py Utils_model Np.
Import ListNotations.
Local Open Scope R_scope.
Local Open Scope string_scope.

(** spin.py lines 70-92: alpha and beta positional, only [scale] by keyword *)
Definition independent_spin_magnitude_beta (bk : backend)
    (a_1 a_2 alpha_chi_1 alpha_chi_2 beta_chi_1 beta_chi_2 amax_1 amax_2 : xf) : result xf :=
  p1 <- beta_dist bk ["scale"] a_1 alpha_chi_1 beta_chi_1 amax_1 ;;
  p2 <- beta_dist bk ["scale"] a_2 alpha_chi_2 beta_chi_2 amax_2 ;;
  Ok (fmul p1 p2).

(** spin.py lines 50-67 (defaults amax = alpha_chi = beta_chi = 1, line 50) *)
Definition iid_spin_magnitude_beta (bk : backend) (a_1 a_2 amax alpha_chi beta_chi : xf) : result xf :=
  independent_spin_magnitude_beta bk a_1 a_2 alpha_chi alpha_chi beta_chi beta_chi amax amax.

(** spin.py lines 127-166: [truncnorm] called positionally with high = 1, low = -1 *)
Definition independent_spin_orientation_gaussian_isotropic (bk : backend)
    (cos_tilt_1 cos_tilt_2 xi_spin sigma_1 sigma_2 mu_1 mu_2 : xf) : result xf :=
  t1 <- truncnorm bk [] cos_tilt_1 mu_1 sigma_1 (Fin 1) (Fin (-1)) ;;
  t2 <- truncnorm bk [] cos_tilt_2 mu_2 sigma_2 (Fin 1) (Fin (-1)) ;;
  Ok (fadd (fdiv (fsub (Fin 1) xi_spin) (Fin 4)) (fmul (fmul xi_spin t1) t2)).

(** spin.py lines 95-124 (default mu_spin = 1, line 95) *)
Definition iid_spin_orientation_gaussian_isotropic (bk : backend)
    (cos_tilt_1 cos_tilt_2 xi_spin sigma_spin mu_spin : xf) : result xf :=
  independent_spin_orientation_gaussian_isotropic bk cos_tilt_1 cos_tilt_2 xi_spin
    sigma_spin sigma_spin mu_spin mu_spin.

(** spin.py lines 24-47 *)
Definition iid_spin (bk : backend)
    (a_1 a_2 cos_tilt_1 cos_tilt_2 xi_spin sigma_spin amax alpha_chi beta_chi : xf) : result xf :=
  o <- iid_spin_orientation_gaussian_isotropic bk cos_tilt_1 cos_tilt_2 xi_spin sigma_spin (Fin 1) ;;
  m <- iid_spin_magnitude_beta bk a_1 a_2 amax alpha_chi beta_chi ;;
  Ok (fmul o m).

(** spin.py lines 169-197 *)
Definition gaussian_chi_eff (bk : backend) (chi_eff mu_chi_eff sigma_chi_eff : xf) : result xf :=
  truncnorm bk ["mu"; "sigma"; "low"; "high"] chi_eff mu_chi_eff sigma_chi_eff (Fin 1) (Fin (-1)).

(** spin.py lines 200-224 *)
Definition gaussian_chi_p (bk : backend) (chi_p mu_chi_p sigma_chi_p : xf) : result xf :=
  truncnorm bk ["mu"; "sigma"; "low"; "high"] chi_p mu_chi_p sigma_chi_p (Fin 1) (Fin 0).

(** spin.py lines 264-267: the instance holds the two one-dimensional grids (the meshgrid of
    line 267 is their product). *)
Record chi_grids := { cg_eff : list xf; cg_p : list xf }.
Definition chi_init : chi_grids := {| cg_eff := xlinspace (-1) 1 500; cg_p := xlinspace 0 1 250 |}.

(** spin.py lines 294-330: [meshgrid] rows are indexed by chi_p, columns by chi_eff; the inner
    trapezoid runs over the last axis (chi_eff), the outer one over chi_p. *)
Definition chi_normalization (g : chi_grids)
    (mu_chi_eff sigma_chi_eff mu_chi_p sigma_chi_p spin_covariance : xf) : xf :=
  trapezoid
    (map (fun p => trapezoid
        (map (fun e => unnormalized_2d_gaussian e p mu_chi_eff mu_chi_p sigma_chi_eff sigma_chi_p spin_covariance)
             (cg_eff g)) (cg_eff g)) (cg_p g)) (cg_p g).

(** spin.py lines 269-292 *)
Definition chi_call (g : chi_grids) (chi_eff chi_p : xf)
    (mu_chi_eff sigma_chi_eff mu_chi_p sigma_chi_p spin_covariance : xf) : xf :=
  let prob := unnormalized_2d_gaussian chi_eff chi_p mu_chi_eff mu_chi_p sigma_chi_eff sigma_chi_p spin_covariance in
  let normalization := chi_normalization g mu_chi_eff sigma_chi_eff mu_chi_p sigma_chi_p spin_covariance in
  let prob := fdiv prob normalization in
  let prob := fmul prob (of_bool (fle (fabs chi_eff) (Fin 1))) in
  fmul prob (fmul (of_bool (fle chi_p (Fin 1))) (of_bool (fge chi_p (Fin 0)))).
