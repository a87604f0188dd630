(** Property theorems (roundmix). Proofs are in [roundmix_thms]; the vocabulary is in [Spec]. *)
From Coq Require Import Reals ZArith Lra Lia Psatz Bool String.
From Coquelicot Require Import Coquelicot.
From Flocq Require Import Core BinarySingleNaN Relative.
From Coq Require Import List.
From Verif Require Import Xf Py Xf_facts Double Double_facts Rounded_model SpecRound RoundedPl_model SpecRoundPl RoundedTn_model Utils_model Mass_model Spin_model RoundedMix_model SpecRoundMix round_thms roundpl_thms roundll_thms roundwin_thms roundtn_thms.
Import ListNotations.
Local Open Scope R_scope.
From Verif Require Import roundmix_thms.

(** C153. Power law plus Gaussian in double precision: if both components are computed up to a factor exp(d), then the mixture is computed up to a factor exp(d + 6 u) (and 2^-500 for
    underflow), for every mixing fraction - also fractions next to 0 or 1, and where one or both components vanish. In particular it is a finite number and not negative. *)

Theorem C153_two_components :
  forall bk pow exp64 log64 log1p64 ndtr64 log_ndtr64 c mass alpha mmin mmax lam mpp sigpp gmax p q d,
  fraction_double lam -> density_real p -> density_real q -> 0 <= d <= / 4 ->
  powerlaw bk pl_kw (Fin (B2R mass)) (Fin (- B2R alpha)) (Fin (B2R mmax)) (Fin (B2R mmin)) = Ok (Fin p) ->
  truncnorm bk tn_kw (Fin (B2R mass)) (Fin (B2R mpp)) (Fin (B2R sigpp)) (Fin (B2R gmax)) (Fin (B2R mmin)) = Ok (Fin q) ->
  approximates d 0 p (powerlaw64 pow log64 mass (Bopp alpha) mmax mmin) ->
  approximates d 0 q (truncnorm64 exp64 log64 log1p64 ndtr64 log_ndtr64 c mass mpp sigpp gmax mmin) ->
  let exact := (1 - B2R lam) * p + B2R lam * q in
  two_component_single bk (Fin (B2R mass)) (Fin (B2R alpha)) (Fin (B2R mmin)) (Fin (B2R mmax)) (Fin (B2R lam)) (Fin (B2R mpp)) (Fin (B2R sigpp)) (Fin (B2R gmax)) = Ok (Fin exact) /\
  approximates (d + 6 * u64) (/ 2 ^ 500) exact (two_component64 pow exp64 log64 log1p64 ndtr64 log_ndtr64 c mass alpha mmin mmax lam mpp sigpp gmax).
Proof. exact C153_two_components_pf. Qed.
Print Assumptions C153_two_components.

(** C153. Power law plus two Gaussians: a factor exp(d + 8 u). *)

Theorem C153_three_components :
  forall bk pow exp64 log64 log1p64 ndtr64 log_ndtr64 c mass alpha mmin mmax lam lam_1 mpp_1 sigpp_1 mpp_2 sigpp_2 gmax p q r d,
  fraction_double lam -> fraction_double lam_1 -> density_real p -> density_real q -> density_real r -> 0 <= d <= / 4 ->
  powerlaw bk pl_kw (Fin (B2R mass)) (Fin (- B2R alpha)) (Fin (B2R mmax)) (Fin (B2R mmin)) = Ok (Fin p) ->
  truncnorm bk tn_kw (Fin (B2R mass)) (Fin (B2R mpp_1)) (Fin (B2R sigpp_1)) (Fin (B2R gmax)) (Fin (B2R mmin)) = Ok (Fin q) ->
  truncnorm bk tn_kw (Fin (B2R mass)) (Fin (B2R mpp_2)) (Fin (B2R sigpp_2)) (Fin (B2R gmax)) (Fin (B2R mmin)) = Ok (Fin r) ->
  approximates d 0 p (powerlaw64 pow log64 mass (Bopp alpha) mmax mmin) ->
  approximates d 0 q (truncnorm64 exp64 log64 log1p64 ndtr64 log_ndtr64 c mass mpp_1 sigpp_1 gmax mmin) ->
  approximates d 0 r (truncnorm64 exp64 log64 log1p64 ndtr64 log_ndtr64 c mass mpp_2 sigpp_2 gmax mmin) ->
  let exact := (1 - B2R lam) * p + B2R lam * (B2R lam_1 * q + (1 - B2R lam_1) * r) in
  three_component_single bk (Fin (B2R mass)) (Fin (B2R alpha)) (Fin (B2R mmin)) (Fin (B2R mmax)) (Fin (B2R lam)) (Fin (B2R lam_1)) (Fin (B2R mpp_1)) (Fin (B2R sigpp_1)) (Fin (B2R mpp_2)) (Fin (B2R sigpp_2)) (Fin (B2R gmax)) = Ok (Fin exact) /\
  approximates (d + 8 * u64) (/ 2 ^ 500) exact (three_component64 pow exp64 log64 log1p64 ndtr64 log_ndtr64 c mass alpha mmin mmax lam lam_1 mpp_1 sigpp_1 mpp_2 sigpp_2 gmax).
Proof. exact C153_three_components_pf. Qed.
Print Assumptions C153_three_components.

(** C153. Spin orientations: if the two Gaussians are computed up to factors exp(d1) and exp(d2), then the mixture with the isotropic component is computed up to a factor
    exp(d1 + d2 + 6 u). *)

Theorem C153_spin_orientation :
  forall bk exp64 log64 log1p64 ndtr64 log_ndtr64 c ct1 ct2 xi sigma_1 sigma_2 mu_1 mu_2 q r d1 d2,
  fraction_double xi -> density_real q -> density_real r -> 0 <= d1 -> 0 <= d2 -> d1 + d2 <= / 4 ->
  truncnorm bk [] (Fin (B2R ct1)) (Fin (B2R mu_1)) (Fin (B2R sigma_1)) (Fin 1) (Fin (-1)) = Ok (Fin q) ->
  truncnorm bk [] (Fin (B2R ct2)) (Fin (B2R mu_2)) (Fin (B2R sigma_2)) (Fin 1) (Fin (-1)) = Ok (Fin r) ->
  approximates d1 0 q (truncnorm64 exp64 log64 log1p64 ndtr64 log_ndtr64 c ct1 mu_1 sigma_1 one64 (Bopp one64)) ->
  approximates d2 0 r (truncnorm64 exp64 log64 log1p64 ndtr64 log_ndtr64 c ct2 mu_2 sigma_2 one64 (Bopp one64)) ->
  let exact := (1 - B2R xi) / 4 + B2R xi * (q * r) in
  independent_spin_orientation_gaussian_isotropic bk (Fin (B2R ct1)) (Fin (B2R ct2)) (Fin (B2R xi)) (Fin (B2R sigma_1)) (Fin (B2R sigma_2)) (Fin (B2R mu_1)) (Fin (B2R mu_2)) = Ok (Fin exact) /\
  (q * r <= 2 ^ 200 -> approximates (d1 + d2 + 6 * u64) (/ 2 ^ 500) exact (spin_orientation64 exp64 log64 log1p64 ndtr64 log_ndtr64 c ct1 ct2 xi sigma_1 sigma_2 mu_1 mu_2)).
Proof. exact C153_spin_orientation_pf. Qed.
Print Assumptions C153_spin_orientation.

From Verif Require Import Special Gauss_facts Powerlaw_facts Truncnorm_facts SpecRoundTn SpecRoundLogl Props_roundpl Props_roundtn.
Lemma logs_approx d x (y : b64) : 0 < x -> is_finite y = true -> 0 < B2R y -> Rabs (ln (B2R y) - ln x) <= d -> approximates d 0 x y.
Proof.
  intros X F Y H. apply Rabs_le_between in H. split; [exact F|]. split; [lra|]. assert (E : B2R y = exp (ln (B2R y))) by now rewrite exp_ln. rewrite E. assert (E2 : x = exp (ln x)) by now rewrite exp_ln. rewrite E2 at 1 2. rewrite <- !exp_plus.
  assert (A : exp (- d + ln x) <= exp (ln (B2R y))) by (apply exp_mono; lra). assert (B : exp (ln (B2R y)) <= exp (d + ln x)) by (apply exp_mono; lra). lra.
Qed.
(** A Gaussian of unit width at its mean, one standard deviation below its upper limit and at most one above the lower one. *)
Lemma unit_gaussian bk kw (xx high low : b64) : is_finite xx = true -> is_finite high = true -> is_finite low = true -> Rabs (B2R xx) <= 2 -> B2R high = B2R xx + 1 -> B2R xx - 1 <= B2R low <= B2R xx ->
  exists q, density_real q /\ 0 < q <= 8 /\ truncnorm bk kw (Fin (B2R xx)) (Fin (B2R xx)) (Fin (B2R one64)) (Fin (B2R high)) (Fin (B2R low)) = Ok (Fin q) /\
  approximates (13000 * u64) 0 q (truncnorm64 best_exp best_ln best_log1p best_ndtr best_log_ndtr best_half_log xx xx one64 high low).
Proof.
  intros Fx Fh Fl A Hh Hl. destruct one_val as [F1 V1]. apply Rabs_le_between in A. destruct u_small as (U0 & U1 & _).
  destruct C146_accuracy_met as ((E0 & E1 & E2 & E3 & E4) & (E5 & E6) & (_ & _ & _ & _ & E7) & _). cbv zeta in E0, E1, E2, E3, E4, E5, E6, E7.
  assert (Bx : bounded_double xx) by (apply bounded_small; [exact Fx|apply Rabs_le_between; lra]). assert (Bh : bounded_double high) by (apply bounded_small; [exact Fh|apply Rabs_le_between; lra]). assert (Bl : bounded_double low) by (apply bounded_small; [exact Fl|apply Rabs_le_between; lra]).
  assert (P900 : / 2 ^ 900 <= 1) by (rewrite <- Rinv_1; apply Rinv_le_contravar; [lra|apply pow_R1_Rle; lra]).
  set (a := B2R low - B2R xx). assert (Ha : -1 <= a <= 0) by (unfold a; lra).
  destruct (Phi_mvt a 1) as (w & Hw & E). rewrite Rmin_left, Rmax_right in Hw by lra. assert (G := gauss_low w ltac:(apply Rabs_le_between; lra)). destruct (gauss_bounds w) as (_ & G1 & _). destruct (gauss_bounds 0) as (_ & G2 & _). assert (G3 := gauss_low 0 ltac:(rewrite Rabs_R0; lra)).
  assert (PA := Phi_gt_0 a). assert (PO := Phi_lt_1 1). assert (PB : / 8 <= Phi 1 - Phi a <= 1). { split; [|lra]. rewrite E. replace (/ 8) with (/ 8 * 1) by ring. apply Rmult_le_compat; lra. }
  assert (R0 := C146_accuracy_partial (4 * u64) best_exp best_ln best_log1p best_ndtr best_log_ndtr best_half_log xx xx one64 high low E0 E1 E2 E3 E4 E5 E6 Bx Bx Bh Bl E7). cbv zeta in R0. rewrite V1 in R0. unfold exact_truncnorm in R0.
  replace ((B2R xx - B2R xx) / 1) with 0 in R0 by field. replace ((B2R high - B2R xx) / 1) with 1 in R0 by (rewrite Hh; field). replace ((B2R low - B2R xx) / 1) with a in R0 by (unfold a; field). rewrite Rabs_R0 in R0.
  set (P := Phi 1 - Phi a) in *. assert (X : / 8 <= gauss 0 / 1 / P <= 8). { split; [apply Rle_div_r; lra|apply Rle_div_l; lra]. } assert (Y : 8 <= 2 ^ 200) by (rewrite (pow_bpow 200); change 8 with (bpow radix2 3); apply bpow_le; lia). assert (Z : 8 <= 2 ^ 1000) by (rewrite (pow_bpow 1000); change 8 with (bpow radix2 3); apply bpow_le; lia). assert (W : / 2 ^ 1000 <= / 8) by (apply Rinv_le_contravar; lra).
  assert (LO : (2 * (4 * u64) + 15 * u64) / P <= 184 * u64). { apply Rle_div_l; [lra|]. assert (K : u64 * / 8 <= u64 * P) by (apply Rmult_le_compat_l; lra). lra. }
  destruct R0 as (R1 & R2 & R3 & R4); try lra.
  exists (gauss 0 / 1 / P). split; [split; lra|]. split; [lra|]. split.
  - rewrite V1, truncnorm_ok by lra. now rewrite R3.
  - apply logs_approx; [lra|exact R1|exact R2|]. lra.
Qed.
(** Library functions that return the double nearest to the exact value: a mass of 1 between 1 and 2, slope -1, Gaussian at 1, any fractions; and spins in the plane of the orbit. *)
Example C153_met :
  forall lam lam_1, fraction_double lam -> fraction_double lam_1 ->
  let one := one64 in let two := int64 2 in let d := 13000 * u64 in
  exists q r, density_real q /\ density_real r /\ 0 < q /\ 0 < r /\
  approximates (d + 6 * u64) (/ 2 ^ 500) ((1 - B2R lam) * (2 / 3) + B2R lam * q) (two_component64 best_pow best_exp best_ln best_log1p best_ndtr best_log_ndtr best_half_log one (Bopp one) one two lam one one two) /\
  approximates (d + 8 * u64) (/ 2 ^ 500) ((1 - B2R lam) * (2 / 3) + B2R lam * (B2R lam_1 * q + (1 - B2R lam_1) * q))
    (three_component64 best_pow best_exp best_ln best_log1p best_ndtr best_log_ndtr best_half_log one (Bopp one) one two lam lam_1 one one one one two) /\
  approximates (d + d + 6 * u64) (/ 2 ^ 500) ((1 - B2R lam) / 4 + B2R lam * (r * r)) (spin_orientation64 best_exp best_ln best_log1p best_ndtr best_log_ndtr best_half_log zero64 zero64 lam one one zero64 zero64).
Proof.
  intros lam lam_1 Hl Hl1. cbv zeta. destruct one_val as [F1 V1]. destruct (int64_val 2) as [F2 V2]; [lia|]. replace (INR 2) with 2 in V2 by (simpl; lra). destruct u_small as (U0 & U1 & _).
  assert (VO : B2R (Bopp one64) = - (1)) by (rewrite B2R_Bopp, V1; reflexivity). assert (FO : is_finite (Bopp one64) = true) by (rewrite is_finite_Bopp; exact F1). assert (OO : Bopp (Bopp one64) = one64) by apply Bopp_involutive.
  destruct (unit_gaussian Jax tn_kw one64 (int64 2) one64 F1 F2 F1) as (q & DQ & Q0 & RQ & AQ); [rewrite V1, Rabs_R1; lra|rewrite V1, V2; lra|lra|].
  destruct (unit_gaussian Jax [] zero64 one64 (Bopp one64) eq_refl F1 FO) as (r & DR & R0 & RR & AR); [change (B2R zero64) with 0; rewrite Rabs_R0; lra|change (B2R zero64) with 0; rewrite V1; lra|change (B2R zero64) with 0; rewrite VO; lra|].
  assert (D : 0 <= 13000 * u64 <= / 8) by lra.
  destruct (C117_error_hyps best_ln) as (y & -> & FY & PY & EY).
  assert (AP : approximates (13000 * u64) 0 (2 / 3) (powerlaw64 best_pow best_ln one64 (Bopp (Bopp one64)) (int64 2) one64)) by (rewrite OO; apply logs_approx; [lra|exact FY|exact PY|lra]).
  assert (DP : density_real (2 / 3)). { split; [lra|]. assert (1 <= 2 ^ 200) by (apply pow_R1_Rle; lra). lra. }
  assert (RP : powerlaw Jax pl_kw (Fin (B2R one64)) (Fin (- B2R (Bopp one64))) (Fin (B2R (int64 2))) (Fin (B2R one64)) = Ok (Fin (2 / 3))).
  { rewrite VO, V1, V2. replace (- - (1)) with 1 by ring. rewrite powerlaw_ok by (lra || (left; reflexivity)). rewrite powerlaw_body_in by lra. unfold plpdf, plnorm. rewrite Reqb_false by lra.
    replace (Rpower 2 (1 + 1)) with 4 by (rewrite Rpower_plus, Rpower_1 by lra; lra). assert (p1 : forall v, Rpower 1 v = 1) by (intros v; unfold Rpower; now rewrite ln_1, Rmult_0_r, exp_0). rewrite !p1. do 2 f_equal. field. }
  exists q, r. split; [exact DQ|]. split; [exact DR|]. split; [lra|]. split; [lra|]. split; [|split].
  - apply (C153_two_components Jax best_pow best_exp best_ln best_log1p best_ndtr best_log_ndtr best_half_log one64 (Bopp one64) one64 (int64 2) lam one64 one64 (int64 2) (2 / 3) q (13000 * u64)); auto; lra.
  - apply (C153_three_components Jax best_pow best_exp best_ln best_log1p best_ndtr best_log_ndtr best_half_log one64 (Bopp one64) one64 (int64 2) lam lam_1 one64 one64 one64 one64 (int64 2) (2 / 3) q q (13000 * u64)); auto; lra.
  - apply (C153_spin_orientation Jax best_exp best_ln best_log1p best_ndtr best_log_ndtr best_half_log zero64 zero64 lam one64 one64 zero64 zero64 r r (13000 * u64) (13000 * u64)); auto; try lra; rewrite ?VO, ?V1 in RR; try exact RR; try (rewrite V1; exact RR).
    assert (8 * 8 <= 2 ^ 200) by (replace (8 * 8) with (2 ^ 6) by (simpl; lra); apply Rle_pow; [lra|lia]). apply Rle_trans with (8 * 8); [apply Rmult_le_compat; lra|lra].
Qed.

