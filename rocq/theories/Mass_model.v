(** * Model of gwpopulation/models/mass.py: the analytic mass densities (lines 38-527)

    Every density is modelled at one point of the dataset (numpy broadcasts the scalar
    hyperparameters over the arrays). Keyword and positional passing are kept as in the
    code because [apply_conditions] sees keyword arguments only. A point of a dataset is
    given by its coordinates, e.g. [m1] for dataset["mass_1"]. *)
From Coq Require Import Reals String Bool.
From Coq Require Import List.
From Verif Require Import Xf Py Utils_model.
Import ListNotations.
Local Open Scope R_scope.
Local Open Scope string_scope.

(** The keyword names in the calls [powerlaw(x, alpha=.., low=.., high=..)]
    (mass.py lines 65-69, 294, 329, 386) and
    [truncnorm(x, mu=.., sigma=.., high=.., low=..)] (lines 135, 330, 387-392). *)
Definition pl_kw : list string := ["alpha"; "low"; "high"].
Definition tn_kw : list string := ["mu"; "sigma"; "high"; "low"].

(** mass.py lines 38-71 *)
Definition double_power_law_primary_mass (bk : backend)
    (mass alpha_1 alpha_2 mmin mmax break_fraction : xf) : result xf :=
  let m_break := fadd mmin (fmul break_fraction (fsub mmax mmin)) in
  c_num <- powerlaw bk pl_kw m_break (fopp alpha_2) mmax m_break ;;
  c_den <- powerlaw bk pl_kw m_break (fopp alpha_1) m_break mmin ;;
  let correction := fdiv c_num c_den in
  low_part <- powerlaw bk pl_kw mass (fopp alpha_1) m_break mmin ;;
  high_part <- powerlaw bk pl_kw mass (fopp alpha_2) mmax m_break ;;
  let prob := fadd (fmul (fmul low_part (of_bool (flt mass m_break))) correction)
                   (fmul high_part (of_bool (fge mass m_break))) in
  Ok (fdiv prob (fadd (Fin 1) correction)).

(** mass.py lines 74-137 ([gaussian_mass_maximum] defaults to 100, line 84) *)
Definition double_power_law_peak_primary_mass (bk : backend)
    (mass alpha_1 alpha_2 mmin mmax break_fraction lam mpp sigpp gaussian_mass_maximum : xf)
    : result xf :=
  p_pow <- double_power_law_primary_mass bk mass alpha_1 alpha_2 mmin mmax break_fraction ;;
  p_norm <- truncnorm bk tn_kw mass mpp sigpp gaussian_mass_maximum mmin ;;
  Ok (fadd (fmul (fsub (Fin 1) lam) p_pow) (fmul lam p_norm)).

(** mass.py lines 276-294 *)
Definition power_law_mass (bk : backend) (mass alpha mmin mmax : xf) : result xf :=
  powerlaw bk pl_kw mass (fopp alpha) mmax mmin.

(** mass.py lines 297-332 *)
Definition two_component_single (bk : backend)
    (mass alpha mmin mmax lam mpp sigpp gaussian_mass_maximum : xf) : result xf :=
  p_pow <- powerlaw bk pl_kw mass (fopp alpha) mmax mmin ;;
  p_norm <- truncnorm bk tn_kw mass mpp sigpp gaussian_mass_maximum mmin ;;
  Ok (fadd (fmul (fsub (Fin 1) lam) p_pow) (fmul lam p_norm)).

(** mass.py lines 335-394 *)
Definition three_component_single (bk : backend)
    (mass alpha mmin mmax lam lam_1 mpp_1 sigpp_1 mpp_2 sigpp_2 gaussian_mass_maximum : xf)
    : result xf :=
  p_pow <- powerlaw bk pl_kw mass (fopp alpha) mmax mmin ;;
  p_norm1 <- truncnorm bk tn_kw mass mpp_1 sigpp_1 gaussian_mass_maximum mmin ;;
  p_norm2 <- truncnorm bk tn_kw mass mpp_2 sigpp_2 gaussian_mass_maximum mmin ;;
  Ok (fadd (fadd (fmul (fsub (Fin 1) lam) p_pow) (fmul (fmul lam lam_1) p_norm1))
           (fmul (fmul lam (fsub (Fin 1) lam_1)) p_norm2)).

(** The conditional mass ratio factor [powerlaw(dataset["mass_ratio"], beta, 1, mmin / dataset["mass_1"])]
    (mass.py lines 182, 437): every argument positional. *)
Definition mass_ratio_factor (bk : backend) (m1 q beta mmin : xf) : result xf :=
  powerlaw bk [] q beta (Fin 1) (fdiv mmin m1).

(** mass.py lines 140-184 *)
Definition double_power_law_primary_power_law_mass_ratio (bk : backend)
    (m1 q alpha_1 alpha_2 beta mmin mmax break_fraction : xf) : result xf :=
  p_m1 <- double_power_law_primary_mass bk m1 alpha_1 alpha_2 mmin mmax break_fraction ;;
  p_q <- mass_ratio_factor bk m1 q beta mmin ;;
  Ok (fmul p_m1 p_q).

(** mass.py lines 397-439 *)
Definition two_component_primary_mass_ratio (bk : backend)
    (m1 q alpha beta mmin mmax lam mpp sigpp gaussian_mass_maximum : xf) : result xf :=
  p_m1 <- two_component_single bk m1 alpha mmin mmax lam mpp sigpp gaussian_mass_maximum ;;
  p_q <- mass_ratio_factor bk m1 q beta mmin ;;
  Ok (fmul p_m1 p_q).

(** mass.py lines 187-214; the default maximum 100 of line 398 applies *)
Definition power_law_primary_mass_ratio (bk : backend) (m1 q alpha beta mmin mmax : xf) : result xf :=
  two_component_primary_mass_ratio bk m1 q alpha beta mmin mmax (Fin 0) (Fin 35) (Fin 1) (Fin 100).

(** mass.py lines 217-218 *)
Definition primary_secondary_general (m1 m2 p_m1 p_m2 : xf) : xf :=
  fmul (fmul (fmul p_m1 p_m2) (of_bool (fge m1 m2))) (Fin 2).

(** mass.py lines 221-247: [powerlaw] called positionally *)
Definition power_law_primary_secondary_independent (bk : backend)
    (m1 m2 alpha beta mmin mmax : xf) : result xf :=
  p_m1 <- powerlaw bk [] m1 (fopp alpha) mmax mmin ;;
  p_m2 <- powerlaw bk [] m2 (fopp beta) mmax mmin ;;
  Ok (primary_secondary_general m1 m2 p_m1 p_m2).

(** mass.py lines 250-273 *)
Definition power_law_primary_secondary_identical (bk : backend)
    (m1 m2 alpha mmin mmax : xf) : result xf :=
  power_law_primary_secondary_independent bk m1 m2 alpha alpha mmin mmax.

(** mass.py lines 442-485 *)
Definition two_component_primary_secondary_independent (bk : backend)
    (m1 m2 alpha beta mmin mmax lam mpp sigpp gaussian_mass_maximum : xf) : result xf :=
  p_m1 <- two_component_single bk m1 alpha mmin mmax lam mpp sigpp gaussian_mass_maximum ;;
  p_m2 <- two_component_single bk m2 beta mmin mmax lam mpp sigpp gaussian_mass_maximum ;;
  Ok (primary_secondary_general m1 m2 p_m1 p_m2).

(** mass.py lines 488-527 *)
Definition two_component_primary_secondary_identical (bk : backend)
    (m1 m2 alpha mmin mmax lam mpp sigpp gaussian_mass_maximum : xf) : result xf :=
  two_component_primary_secondary_independent bk m1 m2 alpha alpha mmin mmax lam mpp sigpp
    gaussian_mass_maximum.
