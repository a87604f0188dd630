(** * Model of the analytic mass densities (gwpopulation/models/mass.py 38-527) and spin densities (gwpopulation/models/spin.py 24-224) for datasets
    whose columns are arrays. Definitions only.

    What is computed at one element is in [Mass_model] and [Spin_model]; here are the shapes, the dtypes, the Python numbers among the parameters and the
    checks of the keyword arguments. Binary operations are evaluated in the order of the source. A value is as in [Nd_model]. *)
From Coq Require Import Reals String List Bool Arith.
From Verif Require Import Xf Py Np Special Utils_model Mass_model Nd_model.
Import ListNotations.
Local Open Scope list_scope.

(** utils.py 38-55: the conditions are tested with [xp.all], on all elements of a keyword argument. *)
Definition elements {A} (a : nd A) : list A := map (nd_at a) (indices (nd_shape a)).
Definition kwargs_nd (kw : list string) (args : dict (nd xf)) : dict (list xf) :=
  map (fun a => (fst a, elements (snd a))) (filter (fun a => existsb (String.eqb (fst a)) kw) args).
(** utils.py 97-130 *)
Definition powerlaw_call (bk : backend) (kw : list string) (xx alpha high low : nd xf) : result (nd xf) :=
  apply_conditions bk powerlaw_conds (kwargs_nd kw [("xx"%string, xx); ("alpha"%string, alpha); ("high"%string, high); ("low"%string, low)])
    (powerlaw_nd bk xx alpha high low).
(** utils.py 133-183 *)
Definition truncnorm_call (bk : backend) (kw : list string) (xx mu sigma high low : nd xf) : result (nd xf) :=
  apply_conditions bk truncnorm_conds
    (kwargs_nd kw [("xx"%string, xx); ("mu"%string, mu); ("sigma"%string, sigma); ("high"%string, high); ("low"%string, low)])
    (truncnorm_nd bk xx mu sigma high low).
(** utils.py 63-94 *)
Definition beta_call (bk : backend) (kw : list string) (xx alpha beta scale : nd xf) : result (nd xf) :=
  apply_conditions bk beta_dist_conds (kwargs_nd kw [("xx"%string, xx); ("alpha"%string, alpha); ("beta"%string, beta); ("scale"%string, scale)])
    (beta_dist_nd bk xx alpha beta scale).

(** [-a]. *)
Definition nneg (a : nd xf) : nd xf := {| nd_py := nd_py a; nd_int := nd_int a; nd_shape := nd_shape a; nd_at := fun i => fopp (nd_at a i) |}.
(** [a * c] for an array of truth values [c]. *)
Definition nmask (bk : backend) (a : nd xf) (c : nd bool) : result (nd xf) := nmap2 bk false (nd_int a) (fun x (c : bool) => fmul x (of_bool c)) a c.
(** [a < b] and [a >= b]. *)
Definition nlt (bk : backend) (a b : nd xf) : result (nd bool) := nmap2 bk (nd_py a && nd_py b) true flt a b.
Definition nge (bk : backend) (a b : nd xf) : result (nd bool) := nmap2 bk (nd_py a && nd_py b) true fge a b.

(** mass.py 38-71 *)
Definition double_power_law_primary_mass_nd (bk : backend) (mass alpha_1 alpha_2 mmin mmax break_fraction : nd xf) : result (nd xf) :=
  range <- nop bk fsub mmax mmin ;;
  part <- nop bk fmul break_fraction range ;;
  m_break <- nop bk fadd mmin part ;;
  c_num <- powerlaw_call bk pl_kw m_break (nneg alpha_2) mmax m_break ;;
  c_den <- powerlaw_call bk pl_kw m_break (nneg alpha_1) m_break mmin ;;
  correction <- ndivide bk c_num c_den ;;
  low_part <- powerlaw_call bk pl_kw mass (nneg alpha_1) m_break mmin ;;
  high_part <- powerlaw_call bk pl_kw mass (nneg alpha_2) mmax m_break ;;
  below <- nlt bk mass m_break ;;
  low_part <- nmask bk low_part below ;;
  low_part <- nop bk fmul low_part correction ;;
  above <- nge bk mass m_break ;;
  high_part <- nmask bk high_part above ;;
  prob <- nop bk fadd low_part high_part ;;
  total <- nop bk fadd (py_int (Fin 1)) correction ;;
  ndivide bk prob total.

(** [(1 - lam) * p_pow + lam * p_norm] (mass.py 136, 331). *)
Definition two_mixture (bk : backend) (lam p_pow p_norm : nd xf) : result (nd xf) :=
  rest <- nop bk fsub (py_int (Fin 1)) lam ;;
  a <- nop bk fmul rest p_pow ;;
  b <- nop bk fmul lam p_norm ;;
  nop bk fadd a b.

(** mass.py 74-137 *)
Definition double_power_law_peak_primary_mass_nd (bk : backend)
    (mass alpha_1 alpha_2 mmin mmax break_fraction lam mpp sigpp gaussian_mass_maximum : nd xf) : result (nd xf) :=
  p_pow <- double_power_law_primary_mass_nd bk mass alpha_1 alpha_2 mmin mmax break_fraction ;;
  p_norm <- truncnorm_call bk tn_kw mass mpp sigpp gaussian_mass_maximum mmin ;;
  two_mixture bk lam p_pow p_norm.

(** mass.py 276-294 *)
Definition power_law_mass_nd (bk : backend) (mass alpha mmin mmax : nd xf) : result (nd xf) :=
  powerlaw_call bk pl_kw mass (nneg alpha) mmax mmin.

(** mass.py 297-332 *)
Definition two_component_single_nd (bk : backend) (mass alpha mmin mmax lam mpp sigpp gaussian_mass_maximum : nd xf) : result (nd xf) :=
  p_pow <- powerlaw_call bk pl_kw mass (nneg alpha) mmax mmin ;;
  p_norm <- truncnorm_call bk tn_kw mass mpp sigpp gaussian_mass_maximum mmin ;;
  two_mixture bk lam p_pow p_norm.

(** mass.py 335-394 *)
Definition three_component_single_nd (bk : backend)
    (mass alpha mmin mmax lam lam_1 mpp_1 sigpp_1 mpp_2 sigpp_2 gaussian_mass_maximum : nd xf) : result (nd xf) :=
  p_pow <- powerlaw_call bk pl_kw mass (nneg alpha) mmax mmin ;;
  p_norm1 <- truncnorm_call bk tn_kw mass mpp_1 sigpp_1 gaussian_mass_maximum mmin ;;
  p_norm2 <- truncnorm_call bk tn_kw mass mpp_2 sigpp_2 gaussian_mass_maximum mmin ;;
  rest <- nop bk fsub (py_int (Fin 1)) lam ;;
  a <- nop bk fmul rest p_pow ;;
  f1 <- nop bk fmul lam lam_1 ;;
  b <- nop bk fmul f1 p_norm1 ;;
  ab <- nop bk fadd a b ;;
  rest_1 <- nop bk fsub (py_int (Fin 1)) lam_1 ;;
  f2 <- nop bk fmul lam rest_1 ;;
  c <- nop bk fmul f2 p_norm2 ;;
  nop bk fadd ab c.

(** mass.py 182, 437 *)
Definition mass_ratio_factor_nd (bk : backend) (m1 q beta mmin : nd xf) : result (nd xf) :=
  low <- ndivide bk mmin m1 ;;
  powerlaw_call bk [] q beta (py_int (Fin 1)) low.

(** mass.py 140-184 *)
Definition double_power_law_primary_power_law_mass_ratio_nd (bk : backend)
    (m1 q alpha_1 alpha_2 beta mmin mmax break_fraction : nd xf) : result (nd xf) :=
  p_m1 <- double_power_law_primary_mass_nd bk m1 alpha_1 alpha_2 mmin mmax break_fraction ;;
  p_q <- mass_ratio_factor_nd bk m1 q beta mmin ;;
  nop bk fmul p_m1 p_q.

(** mass.py 397-439 *)
Definition two_component_primary_mass_ratio_nd (bk : backend)
    (m1 q alpha beta mmin mmax lam mpp sigpp gaussian_mass_maximum : nd xf) : result (nd xf) :=
  p_m1 <- two_component_single_nd bk m1 alpha mmin mmax lam mpp sigpp gaussian_mass_maximum ;;
  p_q <- mass_ratio_factor_nd bk m1 q beta mmin ;;
  nop bk fmul p_m1 p_q.

(** mass.py 187-214 (Python integers 0, 35, 1; default maximum 100 of line 398) *)
Definition power_law_primary_mass_ratio_nd (bk : backend) (m1 q alpha beta mmin mmax : nd xf) : result (nd xf) :=
  two_component_primary_mass_ratio_nd bk m1 q alpha beta mmin mmax (py_int (Fin 0)) (py_int (Fin 35)) (py_int (Fin 1)) (py_int (Fin 100)).

(** mass.py 217-218 *)
Definition primary_secondary_general_nd (bk : backend) (m1 m2 p_m1 p_m2 : nd xf) : result (nd xf) :=
  p <- nop bk fmul p_m1 p_m2 ;;
  ordered <- nge bk m1 m2 ;;
  p <- nmask bk p ordered ;;
  nop bk fmul p (py_int (Fin 2)).

(** mass.py 221-247 *)
Definition power_law_primary_secondary_independent_nd (bk : backend) (m1 m2 alpha beta mmin mmax : nd xf) : result (nd xf) :=
  p_m1 <- powerlaw_call bk [] m1 (nneg alpha) mmax mmin ;;
  p_m2 <- powerlaw_call bk [] m2 (nneg beta) mmax mmin ;;
  primary_secondary_general_nd bk m1 m2 p_m1 p_m2.

(** mass.py 250-273 *)
Definition power_law_primary_secondary_identical_nd (bk : backend) (m1 m2 alpha mmin mmax : nd xf) : result (nd xf) :=
  power_law_primary_secondary_independent_nd bk m1 m2 alpha alpha mmin mmax.

(** mass.py 442-485 *)
Definition two_component_primary_secondary_independent_nd (bk : backend)
    (m1 m2 alpha beta mmin mmax lam mpp sigpp gaussian_mass_maximum : nd xf) : result (nd xf) :=
  p_m1 <- two_component_single_nd bk m1 alpha mmin mmax lam mpp sigpp gaussian_mass_maximum ;;
  p_m2 <- two_component_single_nd bk m2 beta mmin mmax lam mpp sigpp gaussian_mass_maximum ;;
  primary_secondary_general_nd bk m1 m2 p_m1 p_m2.

(** mass.py 488-527 *)
Definition two_component_primary_secondary_identical_nd (bk : backend)
    (m1 m2 alpha mmin mmax lam mpp sigpp gaussian_mass_maximum : nd xf) : result (nd xf) :=
  two_component_primary_secondary_independent_nd bk m1 m2 alpha alpha mmin mmax lam mpp sigpp gaussian_mass_maximum.

(** spin.py 70-92 *)
Definition independent_spin_magnitude_beta_nd (bk : backend)
    (a_1 a_2 alpha_chi_1 alpha_chi_2 beta_chi_1 beta_chi_2 amax_1 amax_2 : nd xf) : result (nd xf) :=
  p1 <- beta_call bk ["scale"%string] a_1 alpha_chi_1 beta_chi_1 amax_1 ;;
  p2 <- beta_call bk ["scale"%string] a_2 alpha_chi_2 beta_chi_2 amax_2 ;;
  nop bk fmul p1 p2.

(** spin.py 50-67 *)
Definition iid_spin_magnitude_beta_nd (bk : backend) (a_1 a_2 amax alpha_chi beta_chi : nd xf) : result (nd xf) :=
  independent_spin_magnitude_beta_nd bk a_1 a_2 alpha_chi alpha_chi beta_chi beta_chi amax amax.

(** spin.py 127-166 *)
Definition independent_spin_orientation_gaussian_isotropic_nd (bk : backend)
    (cos_tilt_1 cos_tilt_2 xi_spin sigma_1 sigma_2 mu_1 mu_2 : nd xf) : result (nd xf) :=
  rest <- nop bk fsub (py_int (Fin 1)) xi_spin ;;
  isotropic <- ndivide bk rest (py_int (Fin 4)) ;;
  t1 <- truncnorm_call bk [] cos_tilt_1 mu_1 sigma_1 (py_int (Fin 1)) (py_int (Fin (-1))) ;;
  p <- nop bk fmul xi_spin t1 ;;
  t2 <- truncnorm_call bk [] cos_tilt_2 mu_2 sigma_2 (py_int (Fin 1)) (py_int (Fin (-1))) ;;
  p <- nop bk fmul p t2 ;;
  nop bk fadd isotropic p.

(** spin.py 95-124 *)
Definition iid_spin_orientation_gaussian_isotropic_nd (bk : backend)
    (cos_tilt_1 cos_tilt_2 xi_spin sigma_spin mu_spin : nd xf) : result (nd xf) :=
  independent_spin_orientation_gaussian_isotropic_nd bk cos_tilt_1 cos_tilt_2 xi_spin sigma_spin sigma_spin mu_spin mu_spin.

(** spin.py 24-47 (default mean 1, line 95) *)
Definition iid_spin_nd (bk : backend)
    (a_1 a_2 cos_tilt_1 cos_tilt_2 xi_spin sigma_spin amax alpha_chi beta_chi : nd xf) : result (nd xf) :=
  o <- iid_spin_orientation_gaussian_isotropic_nd bk cos_tilt_1 cos_tilt_2 xi_spin sigma_spin (py_int (Fin 1)) ;;
  m <- iid_spin_magnitude_beta_nd bk a_1 a_2 amax alpha_chi beta_chi ;;
  nop bk fmul o m.

(** spin.py 169-197 *)
Definition gaussian_chi_eff_nd (bk : backend) (chi_eff mu_chi_eff sigma_chi_eff : nd xf) : result (nd xf) :=
  truncnorm_call bk ["mu"%string; "sigma"%string; "low"%string; "high"%string] chi_eff mu_chi_eff sigma_chi_eff (py_int (Fin 1)) (py_int (Fin (-1))).

(** spin.py 200-224 *)
Definition gaussian_chi_p_nd (bk : backend) (chi_p mu_chi_p sigma_chi_p : nd xf) : result (nd xf) :=
  truncnorm_call bk ["mu"%string; "sigma"%string; "low"%string; "high"%string] chi_p mu_chi_p sigma_chi_p (py_int (Fin 1)) (py_int (Fin 0)).
