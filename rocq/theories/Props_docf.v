(** Property theorems (docf). Proofs are in [docf_thms]; the vocabulary is in [Spec]. *)
From Coq Require Import Reals Lra Lia Psatz String Bool.
From Coquelicot Require Import Coquelicot.
From Coq Require Import List.
From Verif Require Import Xf Py Xf_facts Py_facts Calc Special Gauss_facts Spec SpecDoc Utils_model Powerlaw_facts Truncnorm_facts Beta_facts Utils_facts
  utils_thms Mass_model Mass_facts mass_thms Np Smoothed_model SpecSmooth smoothed_thms smooth2_thms Cosmo_model Redshift_model redshift_thms.
Import ListNotations.
Local Open Scope R_scope.
From Verif Require Import docf_thms.

(** C107: the formulas printed in the documentation against the values returned. *)

(** [beta_dist]: the returned density is [scale^2] times the documented formula, so the two agree exactly when [scale = 1]. *)
Theorem C107_beta_documented_refuted :
  forall bk kw alpha beta scale x, 0 < alpha -> 0 < beta -> 0 < scale -> 0 < x < scale ->
    exists B r, is_beta_function alpha beta B /\ 0 < B /\
      returns (beta_dist bk kw (Fin x) (Fin alpha) (Fin beta) (Fin scale)) r /\
      r = scale * scale * documented_beta B alpha beta scale x /\
      (r = documented_beta B alpha beta scale x <-> scale = 1).
Proof. exact C107_beta_documented_refuted_pf. Qed.
Print Assumptions C107_beta_documented_refuted.

Example C107_beta_example : exists B r, is_beta_function 2 3 B /\ 0 < B /\
  returns (beta_dist Numpy ["scale"%string] (Fin (1/4)) (Fin 2) (Fin 3) (Fin (1/2))) r /\
  r = 1/2 * (1/2) * documented_beta B 2 3 (1/2) (1/4) /\ (r = documented_beta B 2 3 (1/2) (1/4) <-> 1/2 = 1).
Proof. apply C107_beta_documented_refuted; lra. Qed.

(** [truncnorm]: the documented formula omits sigma in the normalisation. It is the returned value for sigma = 1; for a mean inside the bounds it is too small for
    sigma > 1 and too large for sigma < 1. *)
Theorem C107_truncnorm_documented_refuted :
  forall bk kw mu sigma high low x, 0 < sigma -> low < high -> low <= x <= high ->
    exists r, returns (truncnorm bk kw (Fin x) (Fin mu) (Fin sigma) (Fin high) (Fin low)) r /\
      (sigma = 1 -> r = documented_truncnorm mu sigma high low x) /\
      (low <= mu <= high -> 1 < sigma -> documented_truncnorm mu sigma high low x < r) /\
      (low <= mu <= high -> sigma < 1 -> r < documented_truncnorm mu sigma high low x).
Proof. exact C107_truncnorm_documented_refuted_pf. Qed.
Print Assumptions C107_truncnorm_documented_refuted.

Example C107_truncnorm_example : exists r, returns (truncnorm Numpy [] (Fin 35) (Fin 34) (Fin 5) (Fin 100) (Fin 2)) r /\ documented_truncnorm 34 5 100 2 35 < r.
Proof.
  destruct (C107_truncnorm_documented_refuted Numpy [] 34 5 100 2 35) as (r & A & _ & B & _); try lra. exists r. split; [exact A|apply B; lra].
Qed.

(** The smoothing window: the documented reciprocal lacks the exponential, and is never the returned value inside the taper. *)
Theorem C107_window_documented_refuted :
  forall bk mmin mmax delta_m m, 0 < delta_m ->
    mmin + delta_m / 1000000 <= m <= mmin + delta_m - delta_m / 1000000 -> m <= mmax ->
    exists r, smoothing bk (Fin m) (Fin mmin) (Fin mmax) (Fin delta_m) = Fin r /\ r <> documented_window delta_m (m - mmin) /\
      r = / (exp (delta_m / (m - mmin) + delta_m / (m - mmin - delta_m)) + 1).
Proof. exact C107_window_documented_refuted_pf. Qed.
Print Assumptions C107_window_documented_refuted.

Example C107_window_example : 0 < 5 /\ 2 + 5 / 1000000 <= 4 <= 2 + 5 - 5 / 1000000 /\ 4 <= 50.
Proof. lra. Qed.

(** The Madau-Dickinson rate: the returned value is the documented one times 1 + (1 + z_peak)^(-kappa), so it is always larger. *)
Theorem C107_madau_documented_refuted :
  forall gamma kappa z_peak z parameters, dget "gamma"%string parameters = Some (Fin gamma) -> dget "kappa"%string parameters = Some (Fin kappa) ->
    dget "z_peak"%string parameters = Some (Fin z_peak) -> -1 < z_peak -> -1 < z ->
    exists r, returns (madau_psi (Fin z) parameters) r /\ documented_madau gamma kappa z_peak z < r /\
      r = documented_madau gamma kappa z_peak z * (1 + Rpower (1 + z_peak) (- kappa)).
Proof. exact C107_madau_documented_refuted_pf. Qed.
Print Assumptions C107_madau_documented_refuted.

Example C107_madau_example : exists r, returns (madau_psi (Fin 1) [("gamma"%string, Fin 3); ("kappa"%string, Fin 6); ("z_peak"%string, Fin 2)]) r /\ documented_madau 3 6 2 1 < r.
Proof.
  destruct (C107_madau_documented_refuted 3 6 2 1 [("gamma"%string, Fin 3); ("kappa"%string, Fin 6); ("z_peak"%string, Fin 2)]) as (r & A & B & _); try reflexivity; try lra. now exists r.
Qed.

(** The broken power law: the two pieces have one constant, as documented, exactly when the slopes agree or the break is at mass 1; otherwise the
    constants are those that make the density continuous. *)
Theorem C107_broken_power_law_documented_refuted :
  forall bk alpha_1 alpha_2 mmin mmax delta, 0 < mmin < mmax -> 0 < delta < 1 -> (bk = Jax \/ (alpha_1 <> -1 /\ alpha_2 <> -1)) ->
    exists p : R -> R,
      (forall m, 0 < m -> returns (double_power_law_primary_mass bk (Fin m) (Fin alpha_1) (Fin alpha_2) (Fin mmin) (Fin mmax) (Fin delta)) (p m)) /\
      (documented_broken_power_law p alpha_1 alpha_2 mmin mmax delta <-> alpha_1 = alpha_2 \/ mmin + delta * (mmax - mmin) = 1) /\
      0 < p mmax.
Proof. exact C107_broken_power_law_documented_refuted_pf. Qed.
Print Assumptions C107_broken_power_law_documented_refuted.

Example C107_broken_example : 0 < 5 < 80 /\ 0 < 0.4 < 1 /\ (Numpy = Jax \/ (1.6 <> -1 /\ 5.6 <> -1)) /\ 5 + 0.4 * (80 - 5) <> 1.
Proof. repeat split; lra. Qed.

(** The mass ratio: the documented range, m_1 / m_min <= q <= 1, is empty above the minimum mass; the density is positive exactly on m_min / m_1 <= q <= 1. *)
Theorem C107_mass_ratio_documented_refuted :
  forall bk m1 q alpha beta mmin mmax, 0 < mmin < mmax -> (bk = Jax \/ alpha <> -1) -> mmin < m1 <= mmax -> 0 < q ->
    ~ (m1 / mmin <= q <= 1) /\
    exists r, returns (power_law_primary_mass_ratio bk (Fin m1) (Fin q) (Fin alpha) (Fin beta) (Fin mmin) (Fin mmax)) r /\
      0 <= r /\ (0 < r <-> mmin / m1 <= q <= 1).
Proof. exact C107_mass_ratio_documented_refuted_pf. Qed.
Print Assumptions C107_mass_ratio_documented_refuted.

Example C107_mass_ratio_example : exists r, returns (power_law_primary_mass_ratio Numpy (Fin 30) (Fin (1/2)) (Fin 2) (Fin 1) (Fin 5) (Fin 80)) r /\ 0 < r.
Proof.
  destruct (C107_mass_ratio_documented_refuted Numpy 30 (1/2) 2 1 5 80) as (_ & r & A & _ & B); try lra. exists r. split; [exact A|apply B; lra].
Qed.

