(** Property theorems (nest). Proofs are in [nest_thms]; the vocabulary is in [Spec]. *)
From Coq Require Import Reals Lra Lia Psatz String Bool.
From Coquelicot Require Import Coquelicot.
From Coq Require Import List.
From Verif Require Import Xf Py Xf_facts Py_facts Calc Spec Special Gauss_facts Utils_model Powerlaw_facts Truncnorm_facts Beta_facts Trap_facts Np Np_facts Utils_facts utils_thms Spin_model spin_thms Cosmo_model Redshift_model redshift_thms reduce_thms.
Import ListNotations.
Local Open Scope R_scope.
From Verif Require Import nest_thms.

(** C127. With kappa = 0 the Madau-Dickinson model is the power-law model with lamb = gamma: for objects that share the cosmology and the redshift grid, every method returns the same value or raises the same exception, for every data set and every z_peak (NaN and infinities included). *)
Theorem C127_madau_without_peak :
  forall r r' ds bounds parameters g zp,
  rs_rate r = powerlaw_rate -> rs_rate r' = madau_rate -> rs_mixin r' = rs_mixin r -> rs_zmax r' = rs_zmax r -> rs_zs r' = rs_zs r ->
  (dget "lamb" parameters = Some g /\ dget "gamma" parameters = Some g /\ dget "kappa" parameters = Some (Fin 0) /\ dget "z_peak" parameters = Some zp)%string ->
  differential_spacetime_volume r' ds bounds parameters = differential_spacetime_volume r ds bounds parameters /\
  normalisation r' parameters = normalisation r parameters /\ probability r' ds parameters = probability r ds parameters.
Proof. exact C127_madau_without_peak_pf. Qed.
Print Assumptions C127_madau_without_peak.

(** C127. The Madau-Dickinson evolution is two power laws joined at z_peak: below the peak it follows (1+z)^gamma, never above it (for z >= 0) and lower by at most the factor 1 + ((1+z)/(1+z_peak))^kappa, which is close to 1 for z well below the peak and at most 2 at the peak; above the peak it follows (1+z)^(gamma-kappa), never above a constant times it and lower by at most the factor 1 + ((1+z_peak)/(1+z))^kappa. *)
Theorem C127_madau_asymptotes :
  forall parameters gamma kappa z_peak z,
  (dget "gamma" parameters = Some (Fin gamma) /\ dget "kappa" parameters = Some (Fin kappa) /\ dget "z_peak" parameters = Some (Fin z_peak))%string ->
  0 <= kappa -> -1 < z_peak -> 0 <= z ->
  exists psi, returns (madau_psi (Fin z) parameters) psi /\
  Rpower (1 + z) gamma / (1 + Rpower ((1 + z) / (1 + z_peak)) kappa) <= psi <= Rpower (1 + z) gamma /\
  let c := 1 + Rpower (1 + z_peak) kappa in
  c * Rpower (1 + z) (gamma - kappa) / (1 + Rpower ((1 + z_peak) / (1 + z)) kappa) = psi /\ psi <= c * Rpower (1 + z) (gamma - kappa) /\
  (z <= z_peak -> Rpower (1 + z) gamma / 2 <= psi) /\ (z_peak <= z -> c * Rpower (1 + z) (gamma - kappa) / 2 <= psi).
Proof. exact C127_madau_asymptotes_pf. Qed.
Print Assumptions C127_madau_asymptotes.

Example C127_madau_met : exists psi, returns (madau_psi (Fin 1) [("gamma", Fin (27/10)); ("kappa", Fin (56/10)); ("z_peak", Fin (19/10))]%string) psi /\ psi <= Rpower 2 (27/10).
Proof.
  destruct (C127_madau_asymptotes [("gamma", Fin (27/10)); ("kappa", Fin (56/10)); ("z_peak", Fin (19/10))]%string (27/10) (56/10) (19/10) 1) as (psi & A & (_ & B) & _); try lra; [repeat split; reflexivity|].
  exists psi. split; [exact A|]. replace 2 with (1 + 1) by ring. exact B.
Qed.

(** C127. A truncated normal that is wide compared with its range is nearly uniform: if the range lies within d of mu, the density is 1/(high - low) up to a factor between exp(-(d/sigma)^2/2) and exp((d/sigma)^2/2). *)
Theorem C127_wide_truncnorm :
  forall bk kw mu sigma high low d x, 0 < sigma -> low < high -> mu - d <= low -> high <= mu + d -> low <= x <= high ->
  exists r, returns (truncnorm bk kw (Fin x) (Fin mu) (Fin sigma) (Fin high) (Fin low)) r /\
  exp (- (d / sigma) ^ 2 / 2) / (high - low) <= r <= exp ((d / sigma) ^ 2 / 2) / (high - low).
Proof. exact C127_wide_truncnorm_pf. Qed.
Print Assumptions C127_wide_truncnorm.

(** C127. A truncated normal that is narrow concentrates at mu: if [mu - e, mu + e] lies in the range, it holds all the probability but at most 2 exp(-(e/sigma)^2/2). *)
Theorem C127_narrow_truncnorm :
  forall bk kw mu sigma high low e, 0 < sigma -> 0 < e -> low <= mu - e -> mu + e <= high ->
  exists P, integrates_to (fun x => truncnorm bk kw (Fin x) (Fin mu) (Fin sigma) (Fin high) (Fin low)) (mu - e) (mu + e) P /\
  1 - 2 * exp (- (e / sigma) ^ 2 / 2) <= P <= 1.
Proof. exact C127_narrow_truncnorm_pf. Qed.
Print Assumptions C127_narrow_truncnorm.

Example C127_narrow_met : exists P, integrates_to (fun x => truncnorm Numpy [] (Fin x) (Fin 35) (Fin 1) (Fin 100) (Fin 5)) (35 - 10) (35 + 10) P /\ 1 - 2 * exp (- (10 / 1) ^ 2 / 2) <= P <= 1.
Proof. apply C127_narrow_truncnorm; lra. Qed.

(** C127. The tilt mixture becomes isotropic when the aligned component is widened or its fraction goes to zero: the density is 1/4, up to xi/4 times the amount by which exp(± E) differs from 1, where E collects ((1 + |mu|)/sigma)^2/2 of the two tilts. *)
Theorem C127_isotropic_limit :
  forall bk xi sigma_1 sigma_2 mu_1 mu_2 t1 t2, 0 < sigma_1 -> 0 < sigma_2 -> 0 <= xi <= 1 -> -1 <= t1 <= 1 -> -1 <= t2 <= 1 ->
  let E := ((1 + Rabs mu_1) / sigma_1) ^ 2 / 2 + ((1 + Rabs mu_2) / sigma_2) ^ 2 / 2 in
  exists p, returns (independent_spin_orientation_gaussian_isotropic bk (Fin t1) (Fin t2) (Fin xi) (Fin sigma_1) (Fin sigma_2) (Fin mu_1) (Fin mu_2)) p /\
  1 / 4 - xi / 4 * (1 - exp (- E)) <= p <= 1 / 4 + xi / 4 * (exp E - 1).
Proof. exact C127_isotropic_limit_pf. Qed.
Print Assumptions C127_isotropic_limit.

Example C127_isotropic_met : exists p, returns (iid_spin_orientation_gaussian_isotropic Numpy (Fin (1/2)) (Fin (-1/2)) (Fin 0) (Fin 1) (Fin 1)) p /\ p = 1 / 4.
Proof.
  destruct (C127_isotropic_limit Numpy 0 1 1 1 1 (1/2) (-1/2)) as (p & A & B & C); try lra. exists p. split; [exact A|]. replace (0 / 4) with 0 in B, C by field. rewrite Rmult_0_l in B, C. lra.
Qed.

(** C127. Without covariance the joint model of chi_eff and chi_p is the product of the two separate Gaussian models, up to one constant factor that does not depend on the spins. *)
Theorem C127_chi_independent :
  forall bk mu_eff sigma_eff mu_p sigma_p, 0 < sigma_eff -> 0 < sigma_p ->
  exists k, 0 < k /\ forall e p, -1 <= e <= 1 -> 0 <= p <= 1 -> exists a b,
  returns (gaussian_chi_eff bk (Fin e) (Fin mu_eff) (Fin sigma_eff)) a /\ returns (gaussian_chi_p bk (Fin p) (Fin mu_p) (Fin sigma_p)) b /\
  chi_call chi_init (Fin e) (Fin p) (Fin mu_eff) (Fin sigma_eff) (Fin mu_p) (Fin sigma_p) (Fin 0) = Fin (k * a * b).
Proof. exact C127_chi_independent_pf. Qed.
Print Assumptions C127_chi_independent.

Example C127_chi_met : exists k, 0 < k /\ exists a b, returns (gaussian_chi_eff Jax (Fin 0) (Fin (1/10)) (Fin (1/5))) a /\ returns (gaussian_chi_p Jax (Fin (1/2)) (Fin (1/5)) (Fin (1/10))) b /\
  chi_call chi_init (Fin 0) (Fin (1/2)) (Fin (1/10)) (Fin (1/5)) (Fin (1/5)) (Fin (1/10)) (Fin 0) = Fin (k * a * b).
Proof. destruct (C127_chi_independent Jax (1/10) (1/5) (1/5) (1/10)) as (k & K & H); try lra. exists k. split; [exact K|]. apply H; lra. Qed.

