(** Property theorems (roundjoint). Proofs are in [roundjoint_thms]; the vocabulary is in [Spec]. *)
From Coq Require Import Reals ZArith Lra Lia Psatz Bool String.
From Coquelicot Require Import Coquelicot.
From Flocq Require Import Core BinarySingleNaN Relative.
From Coq Require Import List.
From Verif Require Import Xf Py Xf_facts Py_facts Double Double_facts Rounded_model SpecRound RoundedPl_model SpecRoundPl Utils_model Mass_model Spin_model RoundedBeta_model RoundedTn_model RoundedMix_model RoundedJoint_model SpecRoundMix round_thms roundpl_thms roundll_thms roundwin_thms roundtn_thms roundtrap_thms roundmix_thms roundsmooth_thms.
Import ListNotations.
Local Open Scope R_scope.
From Verif Require Import roundjoint_thms.

(** C156. Two masses: if the density of each mass is computed up to a factor exp(d1), exp(d2) and 2^-500, then so is the joint density of the primary and the secondary mass,
    up to a factor exp(d1 + d2 + 6 u) and 2^-280; it is zero when the second mass is the larger one. *)

Theorem C156_primary_secondary :
  forall m1 m2 p1 p2 y1 y2 d1 d2, is_finite m1 = true -> is_finite m2 = true -> density_real p1 -> density_real p2 -> p1 * p2 <= 2 ^ 200 -> 0 <= d1 -> 0 <= d2 -> d1 + d2 <= / 4 ->
  approximates d1 (/ 2 ^ 500) p1 y1 -> approximates d2 (/ 2 ^ 500) p2 y2 ->
  let exact := if Rle_dec (B2R m2) (B2R m1) then 2 * p1 * p2 else 0 in
  primary_secondary_general (Fin (B2R m1)) (Fin (B2R m2)) (Fin p1) (Fin p2) = Fin exact /\
  approximates (d1 + d2 + 6 * u64) (/ 2 ^ 280) exact (primary_secondary64 m1 m2 y1 y2).
Proof. exact C156_primary_secondary_pf. Qed.
Print Assumptions C156_primary_secondary.

(** C156. The two-mass models: power laws, and mixtures of a power law and a Gaussian. *)

Theorem C156_power_law_pair :
  forall bk pow log64 m1 m2 alpha beta mmin mmax p1 p2 d1 d2, is_finite m1 = true -> is_finite m2 = true -> density_real p1 -> density_real p2 -> p1 * p2 <= 2 ^ 200 -> 0 <= d1 -> 0 <= d2 -> d1 + d2 <= / 4 ->
  powerlaw bk [] (Fin (B2R m1)) (Fin (- B2R alpha)) (Fin (B2R mmax)) (Fin (B2R mmin)) = Ok (Fin p1) ->
  powerlaw bk [] (Fin (B2R m2)) (Fin (- B2R beta)) (Fin (B2R mmax)) (Fin (B2R mmin)) = Ok (Fin p2) ->
  approximates d1 (/ 2 ^ 500) p1 (powerlaw64 pow log64 m1 (Bopp alpha) mmax mmin) -> approximates d2 (/ 2 ^ 500) p2 (powerlaw64 pow log64 m2 (Bopp beta) mmax mmin) ->
  let exact := if Rle_dec (B2R m2) (B2R m1) then 2 * p1 * p2 else 0 in
  power_law_primary_secondary_independent bk (Fin (B2R m1)) (Fin (B2R m2)) (Fin (B2R alpha)) (Fin (B2R beta)) (Fin (B2R mmin)) (Fin (B2R mmax)) = Ok (Fin exact) /\
  approximates (d1 + d2 + 6 * u64) (/ 2 ^ 280) exact (power_law_pair64 pow log64 m1 m2 alpha beta mmin mmax).
Proof. exact C156_power_law_pair_pf. Qed.
Print Assumptions C156_power_law_pair.

(** C156. The same for mixtures of a power law and a Gaussian. *)

Theorem C156_two_component_pair :
  forall bk pow exp64 log64 log1p64 ndtr64 log_ndtr64 c m1 m2 alpha beta mmin mmax lam mpp sigpp gmax p1 q1 p2 q2 d,
  is_finite m1 = true -> is_finite m2 = true -> fraction_double lam -> density_real p1 -> density_real q1 -> density_real p2 -> density_real q2 -> 0 <= d <= / 16 ->
  let pl := powerlaw64 pow log64 in let tn := truncnorm64 exp64 log64 log1p64 ndtr64 log_ndtr64 c in
  powerlaw bk pl_kw (Fin (B2R m1)) (Fin (- B2R alpha)) (Fin (B2R mmax)) (Fin (B2R mmin)) = Ok (Fin p1) ->
  truncnorm bk tn_kw (Fin (B2R m1)) (Fin (B2R mpp)) (Fin (B2R sigpp)) (Fin (B2R gmax)) (Fin (B2R mmin)) = Ok (Fin q1) ->
  powerlaw bk pl_kw (Fin (B2R m2)) (Fin (- B2R beta)) (Fin (B2R mmax)) (Fin (B2R mmin)) = Ok (Fin p2) ->
  truncnorm bk tn_kw (Fin (B2R m2)) (Fin (B2R mpp)) (Fin (B2R sigpp)) (Fin (B2R gmax)) (Fin (B2R mmin)) = Ok (Fin q2) ->
  approximates d 0 p1 (pl m1 (Bopp alpha) mmax mmin) -> approximates d 0 q1 (tn m1 mpp sigpp gmax mmin) ->
  approximates d 0 p2 (pl m2 (Bopp beta) mmax mmin) -> approximates d 0 q2 (tn m2 mpp sigpp gmax mmin) ->
  let s1 := (1 - B2R lam) * p1 + B2R lam * q1 in let s2 := (1 - B2R lam) * p2 + B2R lam * q2 in
  s1 * s2 <= 2 ^ 200 ->
  let exact := if Rle_dec (B2R m2) (B2R m1) then 2 * s1 * s2 else 0 in
  two_component_primary_secondary_independent bk (Fin (B2R m1)) (Fin (B2R m2)) (Fin (B2R alpha)) (Fin (B2R beta)) (Fin (B2R mmin)) (Fin (B2R mmax)) (Fin (B2R lam)) (Fin (B2R mpp)) (Fin (B2R sigpp)) (Fin (B2R gmax)) = Ok (Fin exact) /\
  approximates (2 * d + 18 * u64) (/ 2 ^ 280) exact (two_component_pair64 pow exp64 log64 log1p64 ndtr64 log_ndtr64 c m1 m2 alpha beta mmin mmax lam mpp sigpp gmax).
Proof. exact C156_two_component_pair_pf. Qed.
Print Assumptions C156_two_component_pair.

(** C156. Two spins: the joint density of the magnitudes is computed up to a factor exp(d1 + d2 + 2 u), and the product with the orientations - the complete model of independent and identically
    distributed spins - up to a factor exp(d1 + d2 + d3 + d4 + 10 u). *)

Theorem C156_spin_magnitude :
  forall bk exp64 log64 betaln64 a1 a2 alpha1 alpha2 beta1 beta2 amax1 amax2 p1 p2 d1 d2, density_real p1 -> density_real p2 -> 0 <= d1 -> 0 <= d2 -> d1 + d2 <= / 4 ->
  beta_dist bk ["scale"%string] (Fin (B2R a1)) (Fin (B2R alpha1)) (Fin (B2R beta1)) (Fin (B2R amax1)) = Ok (Fin p1) ->
  beta_dist bk ["scale"%string] (Fin (B2R a2)) (Fin (B2R alpha2)) (Fin (B2R beta2)) (Fin (B2R amax2)) = Ok (Fin p2) ->
  approximates d1 0 p1 (beta_dist64 exp64 log64 betaln64 a1 alpha1 beta1 amax1) -> approximates d2 0 p2 (beta_dist64 exp64 log64 betaln64 a2 alpha2 beta2 amax2) ->
  independent_spin_magnitude_beta bk (Fin (B2R a1)) (Fin (B2R a2)) (Fin (B2R alpha1)) (Fin (B2R alpha2)) (Fin (B2R beta1)) (Fin (B2R beta2)) (Fin (B2R amax1)) (Fin (B2R amax2)) = Ok (Fin (p1 * p2)) /\
  approximates (d1 + d2 + 2 * u64) (/ 2 ^ 900) (p1 * p2) (spin_magnitude64 exp64 log64 betaln64 a1 a2 alpha1 alpha2 beta1 beta2 amax1 amax2).
Proof. exact C156_spin_magnitude_pf. Qed.
Print Assumptions C156_spin_magnitude.

(** C156. Independent and identically distributed spins: magnitudes and orientations. *)

Theorem C156_iid_spin :
  forall bk exp64 log64 log1p64 ndtr64 log_ndtr64 c betaln64 a1 a2 ct1 ct2 xi sigma amax alpha beta p1 p2 q1 q2 d1 d2 d3 d4,
  fraction_double xi -> density_real p1 -> density_real p2 -> density_real q1 -> density_real q2 -> p1 * p2 <= 2 ^ 200 -> q1 * q2 <= 2 ^ 200 ->
  0 <= d1 -> 0 <= d2 -> 0 <= d3 -> 0 <= d4 -> d1 + d2 + d3 + d4 <= / 4 ->
  let tn := fun x => truncnorm64 exp64 log64 log1p64 ndtr64 log_ndtr64 c x one64 sigma one64 (Bopp one64) in
  let bd := fun x => beta_dist64 exp64 log64 betaln64 x alpha beta amax in
  beta_dist bk ["scale"%string] (Fin (B2R a1)) (Fin (B2R alpha)) (Fin (B2R beta)) (Fin (B2R amax)) = Ok (Fin p1) ->
  beta_dist bk ["scale"%string] (Fin (B2R a2)) (Fin (B2R alpha)) (Fin (B2R beta)) (Fin (B2R amax)) = Ok (Fin p2) ->
  truncnorm bk [] (Fin (B2R ct1)) (Fin 1) (Fin (B2R sigma)) (Fin 1) (Fin (-1)) = Ok (Fin q1) ->
  truncnorm bk [] (Fin (B2R ct2)) (Fin 1) (Fin (B2R sigma)) (Fin 1) (Fin (-1)) = Ok (Fin q2) ->
  approximates d1 0 p1 (bd a1) -> approximates d2 0 p2 (bd a2) -> approximates d3 0 q1 (tn ct1) -> approximates d4 0 q2 (tn ct2) ->
  let exact := ((1 - B2R xi) / 4 + B2R xi * (q1 * q2)) * (p1 * p2) in
  iid_spin bk (Fin (B2R a1)) (Fin (B2R a2)) (Fin (B2R ct1)) (Fin (B2R ct2)) (Fin (B2R xi)) (Fin (B2R sigma)) (Fin (B2R amax)) (Fin (B2R alpha)) (Fin (B2R beta)) = Ok (Fin exact) /\
  approximates (d1 + d2 + d3 + d4 + 10 * u64) (/ 2 ^ 280) exact (iid_spin64 exp64 log64 log1p64 ndtr64 log_ndtr64 c betaln64 a1 a2 ct1 ct2 xi sigma amax alpha beta).
Proof. exact C156_iid_spin_pf. Qed.
Print Assumptions C156_iid_spin.

From Verif Require Import Special Gauss_facts Powerlaw_facts Truncnorm_facts Beta_facts Beta_moments SpecRoundTn SpecRoundBeta SpecRoundLogl Props_roundpl Props_roundtn Props_roundmix Props_roundbeta Props_roundsmooth.
(** Masses 2 and 1 with densities proportional to x on [1, 2], and the mixtures of that density with a Gaussian at 1 of width 1, for any fraction; correctly rounded library functions. *)
Example C156_masses_met :
  forall lam, fraction_double lam ->
  let one := one64 in let two := int64 2 in let slope := Bopp one64 in let d := 13000 * u64 in
  exists q1 q2, 0 < q1 /\ 0 < q2 /\
  power_law_primary_secondary_independent Jax (Fin (B2R two)) (Fin (B2R one)) (Fin (B2R slope)) (Fin (B2R slope)) (Fin (B2R one)) (Fin (B2R two)) = Ok (Fin (16 / 9)) /\
  approximates (d + d + 6 * u64) (/ 2 ^ 280) (16 / 9) (power_law_pair64 best_pow best_ln two one slope slope one two) /\
  approximates (2 * d + 18 * u64) (/ 2 ^ 280) (2 * ((1 - B2R lam) * (4 / 3) + B2R lam * q1) * ((1 - B2R lam) * (2 / 3) + B2R lam * q2))
    (two_component_pair64 best_pow best_exp best_ln best_log1p best_ndtr best_log_ndtr best_half_log two one slope slope one two lam one one two).
Proof.
  intros lam HL. cbv zeta. destruct one_val as [F1 V1]. destruct two_val as [F2 V2]. destruct u_small as (U0 & U1 & _).
  destruct peak_at_end as (q1 & B1 & R1 & A1). destruct (unit_gaussian Jax tn_kw one64 (int64 2) one64 F1 F2 F1) as (q2 & _ & B2 & R2 & A2); [rewrite V1, Rabs_R1; lra|rewrite V1, V2; lra|lra|].
  destruct (power_at (int64 2) 2 F2 ltac:(lra) V2) as [R3 A3]. destruct (power_at one64 1 F1 ltac:(lra) V1) as [R4 A4]. replace (2 / 3 * 2) with (4 / 3) in * by field. replace (2 / 3 * 1) with (2 / 3) in * by field.
  assert (P200 : 128 <= 2 ^ 200) by (apply Rle_trans with (2 ^ 7); [simpl; lra|apply Rle_pow; [lra|lia]]). assert (DR : forall p, 0 <= p <= 8 -> density_real p) by (intros p Hp; split; lra).
  assert (T0 := pow2_inv_pos 500). assert (W : forall d x y, approximates d 0 x y -> approximates d (/ 2 ^ 500) x y) by (intros d x y (a & b & c); split; [exact a|]; split; [exact b|]; lra).
  assert (KW : forall x p, powerlaw Jax pl_kw (Fin x) (Fin (- B2R (Bopp one64))) (Fin (B2R (int64 2))) (Fin (B2R one64)) = Ok (Fin p) -> powerlaw Jax [] (Fin x) (Fin (- B2R (Bopp one64))) (Fin (B2R (int64 2))) (Fin (B2R one64)) = Ok (Fin p)).
  { intros x p E. rewrite B2R_Bopp, V1 in *. rewrite powerlaw_ok in E by (lra || (left; reflexivity)). rewrite powerlaw_ok by (lra || (left; reflexivity)). exact E. }
  exists q1, q2. split; [lra|]. split; [lra|].
  destruct (C156_power_law_pair Jax best_pow best_ln (int64 2) one64 (Bopp one64) (Bopp one64) one64 (int64 2) (4 / 3) (2 / 3) (13000 * u64) (13000 * u64)) as [E A]; auto; try (apply DR; lra); try lra.
  destruct (Rle_dec (B2R one64) (B2R (int64 2))) as [_|N]; [|rewrite V1, V2 in N; lra]. replace (2 * (4 / 3) * (2 / 3)) with (16 / 9) in * by field.
  split; [exact E|]. split; [exact A|].
  assert (M : forall p q, 0 <= p <= 8 -> 0 <= q <= 8 -> 0 <= (1 - B2R lam) * p + B2R lam * q <= 8).
  { intros p q Hp Hq. destruct HL as [_ HL]. assert (K1 : 0 <= (1 - B2R lam) * p) by (apply Rmult_le_pos; lra). assert (K2 : 0 <= B2R lam * q) by (apply Rmult_le_pos; lra). assert (K3 : (1 - B2R lam) * p <= (1 - B2R lam) * 8) by (apply Rmult_le_compat_l; lra). assert (K4 : B2R lam * q <= B2R lam * 8) by (apply Rmult_le_compat_l; lra). lra. }
  assert (M1 := M (4 / 3) q1 ltac:(lra) ltac:(lra)). assert (M2 := M (2 / 3) q2 ltac:(lra) ltac:(lra)).
  destruct (C156_two_component_pair Jax best_pow best_exp best_ln best_log1p best_ndtr best_log_ndtr best_half_log (int64 2) one64 (Bopp one64) (Bopp one64) one64 (int64 2) lam one64 one64 (int64 2) (4 / 3) q1 (2 / 3) q2 (13000 * u64)) as [_ B]; auto; try (apply DR; lra); try lra.
  { apply Rle_trans with (8 * 8); [apply Rmult_le_compat; lra|lra]. }
  destruct (Rle_dec (B2R one64) (B2R (int64 2))) as [_|N]; [|rewrite V1, V2 in N; lra]. exact B.
Qed.
Lemma aligned : exists q, 0 < q <= 8 /\ truncnorm Jax [] (Fin (B2R one64)) (Fin 1) (Fin (B2R (int64 2))) (Fin 1) (Fin (-1)) = Ok (Fin q) /\
  approximates (300000 * u64) 0 q (truncnorm64 best_exp best_ln best_log1p best_ndtr best_log_ndtr best_half_log one64 one64 (int64 2) one64 (Bopp one64)).
Proof.
  destruct one_val as [F1 V1]. destruct two_val as [F2 V2]. destruct u_small as (U0 & U1 & _). assert (VO : B2R (Bopp one64) = -1) by (rewrite B2R_Bopp, V1; reflexivity). assert (FO : is_finite (Bopp one64) = true) by (rewrite is_finite_Bopp; exact F1).
  destruct C146_accuracy_met as ((E0 & E1 & E2 & E3 & E4) & (E5 & E6) & _). cbv zeta in E0, E1, E2, E3, E4, E5, E6.
  assert (B1 : bounded_double one64) by (apply bounded_small; [exact F1|rewrite V1; apply Rabs_le_between; lra]). assert (BO : bounded_double (Bopp one64)) by (apply bounded_small; [exact FO|rewrite VO; apply Rabs_le_between; lra]). assert (M2 : moderate (int64 2)) by (split; [auto|rewrite V2; lra]).
  destruct (Phi_mvt (-1) 0) as (w & Hw & E). rewrite Rmin_left, Rmax_right in Hw by lra. assert (G := gauss_low w ltac:(apply Rabs_le_between; lra)). destruct (gauss_bounds w) as (_ & G1 & _). destruct (gauss_bounds 0) as (_ & G2 & _). assert (G3 := gauss_low 0 ltac:(rewrite Rabs_R0; lra)).
  assert (PB : / 8 <= Phi 0 - Phi (-1) <= / 2) by (rewrite E; lra).
  assert (R0 := C146_below_mean_partial (4 * u64) best_exp best_ln best_log1p best_ndtr best_log_ndtr best_half_log one64 one64 (int64 2) one64 (Bopp one64) E0 E1 E2 C146_best_log_ndtr E5 E6 B1 B1 B1 BO M2). cbv zeta in R0. rewrite VO, V1, V2 in R0. unfold exact_truncnorm in R0.
  replace ((1 - 1) / 2) with 0 in R0 by field. replace ((-1 - 1) / 2) with (-1) in R0 by field. rewrite Phi_half in *. set (P := / 2 - Phi (-1)) in *.
  assert (X : / 8 <= gauss 0 / 2 / P <= 8). { split; [apply Rle_div_r; lra|apply Rle_div_l; lra]. } assert (Z : 8 <= 2 ^ 1000) by (rewrite (pow_bpow 1000); change 8 with (bpow radix2 3); apply bpow_le; lia). assert (W : / 2 ^ 1000 <= / 8) by (apply Rinv_le_contravar; lra).
  assert (LO : (21000 * u64 + 2700 * (4 * u64)) / (P / / 2) <= 130000 * u64). { apply Rle_div_l; [unfold Rdiv; rewrite Rinv_inv; lra|]. unfold Rdiv. rewrite Rinv_inv. assert (K : u64 * / 8 <= u64 * P) by (apply Rmult_le_compat_l; lra). lra. }
  destruct R0 as (R1 & R2 & R3 & R4); try lra.
  exists (gauss 0 / 2 / P). split; [lra|]. split.
  - rewrite V1, V2, truncnorm_ok by lra. now rewrite R3.
  - apply logs_approx; [lra|exact R1|exact R2|]. lra.
Qed.
(** Spins aligned with the orbit, of magnitude 1/2, with the density 2 x of magnitudes and orientations of width 2, for any fraction. *)
Example C156_spins_met :
  forall xi, fraction_double xi ->
  let one := one64 in let two := int64 2 in let d := 100 * u64 in let e := 300000 * u64 in
  exists q, 0 < q /\
  approximates (d + d + 2 * u64) (/ 2 ^ 900) (1 * 1) (spin_magnitude64 best_exp best_ln best_betaln half64 half64 two two one one one one) /\
  iid_spin Jax (Fin (B2R half64)) (Fin (B2R half64)) (Fin (B2R one)) (Fin (B2R one)) (Fin (B2R xi)) (Fin (B2R two)) (Fin (B2R one)) (Fin (B2R two)) (Fin (B2R one)) = Ok (Fin (((1 - B2R xi) / 4 + B2R xi * (q * q)) * (1 * 1))) /\
  approximates (d + d + e + e + 10 * u64) (/ 2 ^ 280) (((1 - B2R xi) / 4 + B2R xi * (q * q)) * (1 * 1))
    (iid_spin64 best_exp best_ln best_log1p best_ndtr best_log_ndtr best_half_log best_betaln half64 half64 one one xi two one two one).
Proof.
  intros xi HX. cbv zeta. destruct one_val as [F1 V1]. destruct two_val as [F2 V2]. destruct half_val as [Fh Vh]. destruct u_small as (U0 & U1 & _). destruct aligned as (q & Q & RQ & AQ).
  destruct C150_met as ((H0 & H1 & H2 & H3) & (H4 & H5 & H6 & H7 & H8 & H9) & (H10 & H11) & _ & H13). cbv zeta in *.
  assert (LH : ln (/ 2) = - ln 2) by (apply ln_Rinv; lra). assert (L2 := ln2_le). assert (L0 : 0 <= ln 2) by (rewrite <- ln_1; apply ln_le; lra).
  set (bound := (3 * (4 * u64) + 16 * u64) * (1 + term_sizes (B2R (int64 2)) (B2R one64) (B2R one64) (B2R half64)) + 4 * u64).
  assert (BD : bound <= 100 * u64).
  { unfold bound, term_sizes. rewrite V2, V1, Vh, Beta_21, LH, ln_1, Rabs_R0. replace (1 - / 2) with (/ 2) by field. rewrite LH. replace (2 - 1) with 1 by ring. replace (1 - 1) with 0 by ring. rewrite Rabs_R0, Rabs_R1, Rabs_Ropp, Rabs_pos_eq by exact L0.
    apply Rle_trans with ((3 * (4 * u64) + 16 * u64) * 3 + 4 * u64); [|lra]. apply Rplus_le_compat_r, Rmult_le_compat_l; lra. }
  assert (Z : 1 <= 2 ^ 1000) by (apply pow_R1_Rle; lra). assert (W : / 2 ^ 1000 <= 1) by (rewrite <- Rinv_1; apply Rinv_le_contravar; lra). assert (P200 : 64 <= 2 ^ 200) by (apply Rle_trans with (2 ^ 6); [simpl; lra|apply Rle_pow; [lra|lia]]).
  destruct (C150_accuracy (4 * u64) (4 * u64) best_exp best_ln best_betaln half64 (int64 2) one64 one64 H0 H1 H2 H4 H5 H6 H7 H8 H9 H10 H11) as (K1 & K2 & K3 & K4); [fold bound; lra|rewrite H13; lra|]. fold bound in K4. rewrite H13 in K3, K4.
  assert (AB : approximates (100 * u64) 0 1 (beta_dist64 best_exp best_ln best_betaln half64 (int64 2) one64 one64)) by (apply logs_approx; [lra|exact K1|exact K2|lra]).
  assert (RB : beta_dist Jax ["scale"%string] (Fin (B2R half64)) (Fin (B2R (int64 2))) (Fin (B2R one64)) (Fin (B2R one64)) = Ok (Fin 1)) by (rewrite beta_dist_ok by (rewrite ?V1, ?V2; lra); now rewrite K3).
  assert (DO : density_real 1) by (split; lra). assert (DQ : density_real q) by (split; lra). assert (QQ : q * q <= 2 ^ 200) by (apply Rle_trans with (8 * 8); [apply Rmult_le_compat; lra|lra]).
  exists q. split; [lra|]. split; [|].
  - apply (C156_spin_magnitude Jax best_exp best_ln best_betaln half64 half64 (int64 2) (int64 2) one64 one64 one64 one64 1 1 (100 * u64) (100 * u64)); auto; lra.
  - apply (C156_iid_spin Jax best_exp best_ln best_log1p best_ndtr best_log_ndtr best_half_log best_betaln half64 half64 one64 one64 xi (int64 2) one64 (int64 2) one64 1 1 q q (100 * u64) (100 * u64) (300000 * u64) (300000 * u64)); auto; lra.
Qed.

