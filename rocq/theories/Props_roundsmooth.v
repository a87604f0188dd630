(** Property theorems (roundsmooth). Proofs are in [roundsmooth_thms]; the vocabulary is in [Spec]. *)
From Coq Require Import Reals ZArith Lra Lia Psatz Bool String.
From Coquelicot Require Import Coquelicot.
From Flocq Require Import Core BinarySingleNaN Relative.
From Coq Require Import List.
From Verif Require Import Xf Py Xf_facts Py_facts Smoothed_facts SpecRoundWindow Double Double_facts Rounded_model SpecRound RoundedPl_model SpecRoundPl Utils_model Smoothed_model RoundedTrap_model SpecRoundTrap RoundedWindow_model RoundedSmooth_model RoundedTn_model Mass_model RoundedMix_model SpecRoundMix SpecHyper Trap_facts round_thms roundpl_thms roundll_thms roundwin_thms roundtn_thms roundtrap_thms roundmix_thms smoothed_thms.
Import ListNotations.
Local Open Scope R_scope.
From Verif Require Import roundsmooth_thms.

(** C154. The low-mass window in double precision: at every mass - below, in and above the smoothed range, also where the exact window is too small for a double - the computed window is a
    finite number, not negative, and agrees with the exact one up to a relative 2^-35 and an absolute 2^-900. *)

Theorem C154_window :
  forall bk expit m mmin mmax delta_m, nearest_expit expit -> window_arguments m mmin mmax delta_m ->
  exists w, smoothing bk (Fin (B2R m)) (Fin (B2R mmin)) (Fin (B2R mmax)) (Fin (B2R delta_m)) = Fin w /\ 0 <= w <= 1 /\
    approximates (/ 2 ^ 35) (/ 2 ^ 900) w (smoothing64 (is_jax bk) expit m mmin mmax delta_m).
Proof. exact C154_window_pf. Qed.
Print Assumptions C154_window.

(** C154. The smoothed primary mass density in double precision: if the primary model is computed up to a factor exp(d) at the sample and at the grid points, and the exact normalisation is
    at least 2^-100, then the computed density is a finite number, not negative, and agrees with the exact one up to a factor exp(2 d + 2^-34 + (n + 8) 2 u) and 2^-380, where n is the depth
    of the tree in which the terms of the integral are added. *)

Theorem C154_smoothed_primary :
  forall bk expit primary mmin mmax delta_m grid t m d f primary_model self kwargs Z,
  nearest_expit expit -> steps_within 40 grid -> INR (List.length grid) <= 2 ^ 40 ->
  leaves t = norm_terms64 (is_jax bk) expit primary mmin mmax delta_m grid ->
  sm_mmax self = Fin (B2R mmax) -> sm_m1s self = map Fin (reals grid) ->
  dget "mmin" kwargs = Some (Fin (B2R mmin)) -> dget "delta_m" kwargs = Some (Fin (B2R delta_m)) ->
  (forall x, x = m \/ In x grid ->
     window_arguments x mmin mmax delta_m /\ 0 <= f (B2R x) <= 2 ^ 100 /\
     primary_model (ddel "delta_m" kwargs) (Fin (B2R x)) = Ok (Fin (f (B2R x))) /\ approximates d (/ 2 ^ 500) (f (B2R x)) (primary x)) ->
  norm_p_m1 bk primary_model self (Fin (B2R delta_m)) (ddel "delta_m" kwargs) = Ok (Fin Z) -> / 2 ^ 100 <= Z ->
  let D := 2 * d + / 2 ^ 34 + (INR (depth t) + 8) * (2 * u64) in
  0 <= d -> D <= / 4 ->
  exists v, p_m1 bk primary_model self [("mass_1"%string, [Fin (B2R m)])] kwargs = Ok [Fin v] /\
    approximates D (/ 2 ^ 380) v (p_m1_64 (is_jax bk) expit primary mmin mmax delta_m t m).
Proof. exact C154_smoothed_primary_pf. Qed.
Print Assumptions C154_smoothed_primary.

(** C154. The smoothed power law with a Gaussian peak: if the power law and the Gaussian are computed up to factors exp(d) (C117, C146), then the computed density of the primary mass -
    mixture, window and normalisation - agrees with the exact one up to a factor exp(2 d + 2^-34 + (n + 14) 2 u) and 2^-380. *)

Theorem C154_single_peak :
  forall bk pow exp64 log64 log1p64 ndtr64 log_ndtr64 c expit alpha mmin mmax lam mpp sigpp delta_m top grid t m d p q self Z,
  let primary := fun x => two_component64 pow exp64 log64 log1p64 ndtr64 log_ndtr64 c x alpha mmin mmax lam mpp sigpp top in
  let kwargs := (single_peak_kw (B2R alpha) (B2R mmin) (B2R mmax) (B2R lam) (B2R mpp) (B2R sigpp) (B2R delta_m) ++ class_kwargs SinglePeak (sm_mmax self))%list in
  nearest_expit expit -> steps_within 40 grid -> INR (List.length grid) <= 2 ^ 40 -> fraction_double lam ->
  leaves t = norm_terms64 (is_jax bk) expit primary mmin top delta_m grid ->
  sm_mmax self = Fin (B2R top) -> sm_m1s self = map Fin (reals grid) ->
  (forall x, x = m \/ In x grid ->
     window_arguments x mmin top delta_m /\ 0 <= p (B2R x) <= 2 ^ 100 /\ 0 <= q (B2R x) <= 2 ^ 100 /\
     powerlaw bk pl_kw (Fin (B2R x)) (Fin (- B2R alpha)) (Fin (B2R mmax)) (Fin (B2R mmin)) = Ok (Fin (p (B2R x))) /\
     truncnorm bk tn_kw (Fin (B2R x)) (Fin (B2R mpp)) (Fin (B2R sigpp)) (Fin (B2R top)) (Fin (B2R mmin)) = Ok (Fin (q (B2R x))) /\
     approximates d 0 (p (B2R x)) (powerlaw64 pow log64 x (Bopp alpha) mmax mmin) /\
     approximates d 0 (q (B2R x)) (truncnorm64 exp64 log64 log1p64 ndtr64 log_ndtr64 c x mpp sigpp top mmin)) ->
  norm_p_m1 bk (class_primary SinglePeak bk) self (Fin (B2R delta_m)) (ddel "delta_m" kwargs) = Ok (Fin Z) -> / 2 ^ 100 <= Z ->
  let D := 2 * d + / 2 ^ 34 + (INR (depth t) + 14) * (2 * u64) in
  0 <= d -> D <= / 4 ->
  exists v, p_m1 bk (class_primary SinglePeak bk) self [("mass_1"%string, [Fin (B2R m)])] kwargs = Ok [Fin v] /\
    approximates D (/ 2 ^ 380) v (p_m1_64 (is_jax bk) expit primary mmin top delta_m t m).
Proof. exact C154_single_peak_pf. Qed.
Print Assumptions C154_single_peak.

Example C154_met :
  let grid := [int64 4; int64 6; int64 8] in let m := int64 5 in let primary := fun _ : b64 => one64 in let f := fun _ : R => 1 in
  exists expit t self kwargs Z, let primary_model := fun (_ : dict xf) (_ : xf) => Ok (Fin 1) : result xf in
  nearest_expit expit /\ steps_within 40 grid /\ INR (List.length grid) <= 2 ^ 40 /\
  leaves t = norm_terms64 true expit primary (int64 4) (int64 10) (int64 4) grid /\
  sm_mmax self = Fin (B2R (int64 10)) /\ sm_m1s self = map Fin (reals grid) /\
  dget "mmin" kwargs = Some (Fin (B2R (int64 4))) /\ dget "delta_m" kwargs = Some (Fin (B2R (int64 4))) /\
  (forall x, x = m \/ In x grid ->
     window_arguments x (int64 4) (int64 10) (int64 4) /\ 0 <= f (B2R x) <= 2 ^ 100 /\
     primary_model (ddel "delta_m" kwargs) (Fin (B2R x)) = Ok (Fin (f (B2R x))) /\ approximates 0 (/ 2 ^ 500) (f (B2R x)) (primary x)) /\
  norm_p_m1 Jax primary_model self (Fin (B2R (int64 4))) (ddel "delta_m" kwargs) = Ok (Fin Z) /\ / 2 ^ 100 <= Z /\
  2 * 0 + / 2 ^ 34 + (INR (depth t) + 8) * (2 * u64) <= / 4.
Proof.
  intros grid m primary f. destruct (met_args 4 ltac:(lia)) as (A4 & _). destruct (met_args 5 ltac:(lia)) as (A5 & _). destruct (met_args 6 ltac:(lia)) as (A6 & _). destruct (met_args 8 ltac:(lia)) as (A8 & _).
  destruct (int_arg 4 ltac:(lia)) as (F4 & V4 & _). destruct (int_arg 6 ltac:(lia)) as (F6 & V6 & _). destruct (int_arg 8 ltac:(lia)) as (F8 & V8 & _). destruct (int_arg 10 ltac:(lia)) as (F10 & V10 & _).
  assert (E4 : INR 4 = 4) by (simpl; lra). assert (E6 : INR 6 = 6) by (simpl; lra). assert (E8 : INR 8 = 8) by (simpl; lra). assert (E10 : INR 10 = 10) by (simpl; lra). rewrite E4 in V4. rewrite E6 in V6. rewrite E8 in V8. rewrite E10 in V10.
  set (sp := smoothed_primary64 true best_expit primary (int64 4) (int64 10) (int64 4)).
  set (te := fun a b : b64 => Bdiv mode_NE (Bmult mode_NE (Bminus mode_NE b a) (Bplus mode_NE (sp b) (sp a))) (int64 2)).
  exists best_expit, (Add (One (te (int64 4) (int64 6))) (One (te (int64 6) (int64 8)))), {| sm_mmin := Fin 4; sm_mmax := Fin (B2R (int64 10)); sm_m1s := map Fin (reals grid); sm_qs := []; sm_cache := true; sm_masses := None |},
    [("mmin"%string, Fin (B2R (int64 4))); ("delta_m"%string, Fin (B2R (int64 4)))], (m1norm f (B2R (int64 4)) (B2R (int64 10)) (B2R (int64 4)) (reals grid)).
  intros pm. assert (P40 : 4 <= 2 ^ 40) by (assert (Q : 2 ^ 2 <= 2 ^ 40) by (apply Rle_pow; [lra|lia]); simpl (2 ^ 2) in Q; lra). assert (I40 : / 2 ^ 40 <= 2). { apply Rle_trans with (/ 4); [apply Rinv_le_contravar; lra|lra]. }
  split; [apply best_expit_nearest|]. split. { split; [repeat constructor; assumption|]. intros i Hi. cbn [List.length grid] in Hi. unfold grid, reals. cbn [map]. rewrite V4, V6, V8. destruct i as [|[|i]]; cbn [nth]; [lra|lra|lia]. }
  split; [cbn [List.length grid]; simpl INR; lra|]. split; [reflexivity|]. split; [reflexivity|]. split; [reflexivity|]. split; [reflexivity|]. split; [reflexivity|]. split.
  { assert (P1 : 1 <= 2 ^ 100) by (apply pow_R1_Rle; lra). assert (P9 := pow2_inv_pos 500). intros x Hx. split. { destruct Hx as [->|[<-|[<-|[<-|[]]]]]; assumption. }
    split; [unfold f; lra|]. split; [reflexivity|]. destruct one_val as [O1 O2]. unfold primary, f, approximates. split; [exact O1|]. rewrite O2, Ropp_0, exp_0. lra. }
  split. { unfold norm_p_m1. cbn [is_jax negb andb]. cbv zeta. change (dget_default "mmin" _ (ddel "delta_m" _)) with (Fin (B2R (int64 4))). cbn [sm_m1s].
    rewrite (smoothed_primary_fin Jax pm _ _ (B2R (int64 4)) (B2R (int64 10)) (B2R (int64 4)) f (reals grid)) by (try reflexivity; rewrite V4; lra). cbn [bind]. rewrite trapezoid_fin, norm_or_one_fin by (rewrite V4; lra). reflexivity. }
  split.
  { unfold m1norm, f, grid, reals. cbn [map]. rewrite V4, V6, V8, V10. rewrite !Rtrap_cons. assert (Z0 : Rtrap [1 * sval 4 10 4 8] [8] = 0) by reflexivity. rewrite Z0.
    assert (S6 : sval 4 10 4 6 = / 2). { unfold sval. rewrite !Rleb_true by lra. cbn [andb]. unfold clp. rewrite !Rltb_false by lra. unfold swin. replace (/ ((6 - 4) / 4) - / (1 - (6 - 4) / 4)) with 0 by field. rewrite exp_0. lra. }
    assert (SR : forall x, 0 <= sval 4 10 4 x) by (intros x; unfold sval; assert (R := swin_range (clp ((x - 4) / 4))); destruct (_ && _); lra). assert (SR4 := SR 4). assert (SR8 := SR 8). rewrite S6.
    assert (I1 : / 2 ^ 100 <= 1) by (rewrite <- Rinv_1; apply Rinv_le_contravar; [lra|apply pow_R1_Rle; lra]). lra. }
  cbn [depth Nat.max]. destruct u_small as (U0 & U1 & _). assert (I34 : / 2 ^ 34 <= / 8). { replace (/ 8) with (/ 2 ^ 3) by (simpl; f_equal; ring). apply Rinv_le_contravar; [apply pow_lt; lra|apply Rle_pow; [lra|lia]]. } simpl INR. lra.
Qed.
From Verif Require Import Special Gauss_facts Powerlaw_facts Truncnorm_facts SpecRoundTn SpecRoundLogl Props_roundpl Props_roundtn Props_roundmix.
(** A power law with density proportional to x and a Gaussian at 1 of width 1, both on [1, 2], at the upper end of the range. *)
Lemma peak_at_end : exists q, / 8 <= q <= 8 /\ truncnorm Jax tn_kw (Fin (B2R (int64 2))) (Fin (B2R one64)) (Fin (B2R one64)) (Fin (B2R (int64 2))) (Fin (B2R one64)) = Ok (Fin q) /\
  approximates (13000 * u64) 0 q (truncnorm64 best_exp best_ln best_log1p best_ndtr best_log_ndtr best_half_log (int64 2) one64 one64 (int64 2) one64).
Proof.
  destruct one_val as [F1 V1]. destruct two_val as [F2 V2]. destruct u_small as (U0 & U1 & _).
  destruct C146_accuracy_met as ((E0 & E1 & E2 & E3 & E4) & (E5 & E6) & (_ & _ & _ & _ & E7) & _). cbv zeta in E0, E1, E2, E3, E4, E5, E6, E7.
  assert (B2 : bounded_double (int64 2)) by (apply bounded_small; [exact F2|rewrite V2; apply Rabs_le_between; lra]). assert (B1 : bounded_double one64) by (apply bounded_small; [exact F1|rewrite V1; apply Rabs_le_between; lra]).
  assert (P900 : / 2 ^ 900 <= 1) by (rewrite <- Rinv_1; apply Rinv_le_contravar; [lra|apply pow_R1_Rle; lra]).
  destruct (Phi_mvt 0 1) as (w & Hw & E). rewrite Rmin_left, Rmax_right in Hw by lra. assert (G := gauss_low w ltac:(apply Rabs_le_between; lra)). destruct (gauss_bounds w) as (_ & G1 & _). destruct (gauss_bounds 1) as (_ & G2 & _). assert (G3 := gauss_low 1 ltac:(rewrite Rabs_R1; lra)).
  assert (PA := Phi_gt_0 0). assert (PO := Phi_lt_1 1). assert (PB : / 8 <= Phi 1 - Phi 0 <= 1). { split; [|lra]. rewrite E. replace (/ 8) with (/ 8 * 1) by ring. apply Rmult_le_compat; lra. }
  assert (R0 := C146_accuracy_partial (4 * u64) best_exp best_ln best_log1p best_ndtr best_log_ndtr best_half_log (int64 2) one64 one64 (int64 2) one64 E0 E1 E2 E3 E4 E5 E6 B2 B1 B2 B1 E7). cbv zeta in R0. rewrite V1, V2 in R0. unfold exact_truncnorm in R0.
  replace ((2 - 1) / 1) with 1 in R0 by field. replace ((1 - 1) / 1) with 0 in R0 by field. rewrite Rabs_R1 in R0.
  set (P := Phi 1 - Phi 0) in *. assert (X : / 8 <= gauss 1 / 1 / P <= 8). { split; [apply Rle_div_r; lra|apply Rle_div_l; lra]. } assert (Z : 8 <= 2 ^ 1000) by (rewrite (pow_bpow 1000); change 8 with (bpow radix2 3); apply bpow_le; lia). assert (W : / 2 ^ 1000 <= / 8) by (apply Rinv_le_contravar; lra).
  assert (LO : (2 * (4 * u64) + 15 * u64) / P <= 184 * u64). { apply Rle_div_l; [lra|]. assert (K : u64 * / 8 <= u64 * P) by (apply Rmult_le_compat_l; lra). lra. }
  destruct R0 as (R1 & R2 & R3 & R4); try lra.
  exists (gauss 1 / 1 / P). split; [exact X|]. split.
  - rewrite V1, V2, truncnorm_ok by lra. now rewrite R3.
  - apply logs_approx; [lra|exact R1|exact R2|]. lra.
Qed.
Lemma power_at (x : b64) r : is_finite x = true -> 1 <= r <= 2 -> B2R x = r ->
  powerlaw Jax pl_kw (Fin (B2R x)) (Fin (- B2R (Bopp one64))) (Fin (B2R (int64 2))) (Fin (B2R one64)) = Ok (Fin (2 / 3 * r)) /\
  approximates (13000 * u64) 0 (2 / 3 * r) (powerlaw64 best_pow best_ln x (Bopp (Bopp one64)) (int64 2) one64).
Proof.
  intros Fx Hr Vx. destruct one_val as [O1 O2]. destruct two_val as [T1 T2]. assert (VO : B2R (Bopp one64) = - (1)) by (rewrite B2R_Bopp, O2; reflexivity). assert (OO : Bopp (Bopp one64) = one64) by apply Bopp_involutive.
  assert (bnd : / 2 ^ 400 <= 1 /\ 4 <= 2 ^ 400). { rewrite (pow_bpow_inv 400), (pow_bpow 400). split; [change 1 with (bpow radix2 0)|change 4 with (bpow radix2 2)]; apply bpow_le; lia. }
  assert (p2 : Rpower 2 (1 + 1) = 4) by (rewrite Rpower_plus, Rpower_1 by lra; lra). assert (p1 : forall y, Rpower 1 y = 1) by (intros y; unfold Rpower; now rewrite ln_1, Rmult_0_r, exp_0). assert (pr : Rpower r 1 = r) by (apply Rpower_1; lra).
  split. { rewrite VO, O2, T2, Vx. replace (- - (1)) with 1 by ring. rewrite powerlaw_ok by (lra || (left; reflexivity)). rewrite powerlaw_body_in by lra. unfold plpdf, plnorm. rewrite Reqb_false by lra. rewrite p2, p1, pr. do 2 f_equal. field. }
  assert (L4 : 0 <= ln 4 <= 2). { split; [rewrite <- ln_1; apply ln_le; lra|]. assert (Q := ln2_lt). replace 4 with (2 * 2) by lra. rewrite ln_mult by lra. lra. }
  assert (V := v64_facts). assert (U := u64_pos). destruct u_small as (_ & Us & _).
  set (delta := u64 * Rmax (Rabs (ln 4)) (Rabs (ln 1)) + INR 1 * (u64 / (1 - u64))).
  assert (D : 0 <= delta <= 4 * u64). { unfold delta. fold v64. rewrite ln_1, Rabs_R0, Rabs_pos_eq, Rmax_left by lra. change (INR 1) with 1. nra. }
  assert (X : exp delta - 1 <= 8 * u64).
  { assert (E := exp_ineq1_le (- delta)). rewrite exp_Ropp in E. assert (P := exp_pos delta). assert (exp delta * (1 + - delta) <= 1) by (apply (Rmult_le_compat_l (exp delta)) in E; [rewrite Rinv_r in E by lra; lra|lra]). nra. }
  assert (A : amplification 1 2 1 = 5 / 3). { unfold amplification. rewrite p2, p1. rewrite Rabs_pos_eq by lra. lra. }
  assert (G : exact_powerlaw 1 2 1 r = 2 / 3 * r). { unfold exact_powerlaw. rewrite p2, !p1, pr. field. }
  assert (M1 : moderate one64) by (split; [auto|rewrite O2; lra]). assert (M2 : moderate (int64 2)) by (split; [auto|rewrite T2; lra]). assert (Mx : moderate x) by (split; [auto|rewrite Vx; lra]).
  assert (R := C117_error_partial 1 best_pow best_ln x one64 (int64 2) one64 (le_n 1) (correct_accurate _ best_pow_correct) M1 M2 Mx O1). cbv zeta in R. rewrite O2, T2, Vx, p2, !p1, pr in R. fold delta in R. rewrite A, G in R.
  rewrite Rabs_R1 in R. destruct R as (R1 & R2 & _ & _ & R3); try lra.
  rewrite OO. apply logs_approx; [lra|exact R1|exact R2|]. eapply Rle_trans; [exact R3|]. fold v64. change (INR 1) with 1. lra.
Qed.
(** Masses 1 and 2, any fraction, correctly rounded library functions. *)
Example C154_single_peak_met :
  forall lam, fraction_double lam ->
  let one := one64 in let two := int64 2 in let grid := [one; two] in let d := 13000 * u64 in
  let primary := fun x => two_component64 best_pow best_exp best_ln best_log1p best_ndtr best_log_ndtr best_half_log x (Bopp one) one two lam one one two in
  exists t self v,
  p_m1 Jax (class_primary SinglePeak Jax) self [("mass_1"%string, [Fin 2])]
    (single_peak_kw (-1) 1 2 (B2R lam) 1 1 1 ++ class_kwargs SinglePeak (sm_mmax self)) = Ok [Fin v] /\
  leaves t = norm_terms64 true best_expit primary one two one grid /\
  approximates (2 * d + / 2 ^ 34 + 28 * u64) (/ 2 ^ 380) v (p_m1_64 true best_expit primary one two one t two).
Proof.
  intros lam FL. cbv zeta. destruct one_val as [F1 V1]. destruct two_val as [F2 V2]. destruct u_small as (U0 & U1 & _). assert (VO : B2R (Bopp one64) = -1) by (rewrite B2R_Bopp, V1; reflexivity).
  destruct (unit_gaussian Jax tn_kw one64 (int64 2) one64 F1 F2 F1) as (q1 & _ & Q1 & RQ1 & AQ1); [rewrite V1, Rabs_R1; lra|rewrite V1, V2; lra|lra|].
  destruct peak_at_end as (q2 & Q2 & RQ2 & AQ2).
  destruct (power_at one64 1 F1 ltac:(lra) V1) as [RP1 AP1]. destruct (power_at (int64 2) 2 F2 ltac:(lra) V2) as [RP2 AP2].
  set (p := fun r : R => 2 / 3 * r). set (q := fun r : R => if Rle_dec r 1 then q1 else q2). assert (q_1 : q 1 = q1) by (unfold q; destruct (Rle_dec 1 1); lra). assert (q_2 : q 2 = q2) by (unfold q; destruct (Rle_dec 2 1); lra).
  set (primary := fun x => two_component64 best_pow best_exp best_ln best_log1p best_ndtr best_log_ndtr best_half_log x (Bopp one64) one64 (int64 2) lam one64 one64 (int64 2)).
  set (sp := smoothed_primary64 true best_expit primary one64 (int64 2) one64).
  set (z := Bdiv mode_NE (Bmult mode_NE (Bminus mode_NE (int64 2) one64) (Bplus mode_NE (sp (int64 2)) (sp one64))) (int64 2)).
  set (self := {| sm_mmin := Fin 1; sm_mmax := Fin (B2R (int64 2)); sm_m1s := map Fin (reals [one64; int64 2]); sm_qs := []; sm_cache := true; sm_masses := None |}).
  set (f := fun x => (1 - B2R lam) * p x + B2R lam * q x). destruct FL as (Fl & Bl).
  set (kw := (single_peak_kw (B2R (Bopp one64)) (B2R one64) (B2R (int64 2)) (B2R lam) (B2R one64) (B2R one64) (B2R one64) ++ class_kwargs SinglePeak (sm_mmax self))%list).
  assert (P4 : 4 <= 2 ^ 400) by (rewrite (pow_bpow 400); change 4 with (bpow radix2 2); apply bpow_le; lia). assert (I4 : / 2 ^ 400 <= / 4) by (apply Rinv_le_contravar; lra).
  assert (W : forall x, x = int64 2 \/ In x [one64; int64 2] -> window_arguments x one64 (int64 2) one64).
  { intros x Hx. assert (M : moderate one64) by (split; [exact F1|rewrite V1; lra]). assert (BX : is_finite x = true /\ Rabs (B2R x) <= 2 ^ 400). { destruct Hx as [->|[<-|[<-|[]]]]; (split; [assumption|]); rewrite ?V1, ?V2; rewrite Rabs_pos_eq; lra. }
    destruct BX as [FX BX]. split; [exact FX|]. split; [exact F1|]. split; [exact F2|]. split; [exact BX|]. split; [rewrite V1, Rabs_R1; lra|exact M]. }
  assert (HP : forall r, In r (reals [one64; int64 2]) -> class_primary SinglePeak Jax (ddel "delta_m" kw) (Fin r) = Ok (Fin (f r))).
  { intros r Hr. assert (T : forall x pv qv, powerlaw Jax pl_kw (Fin x) (Fin (- B2R (Bopp one64))) (Fin (B2R (int64 2))) (Fin (B2R one64)) = Ok (Fin pv) -> truncnorm Jax tn_kw (Fin x) (Fin (B2R one64)) (Fin (B2R one64)) (Fin (B2R (int64 2))) (Fin (B2R one64)) = Ok (Fin qv) -> class_primary SinglePeak Jax (ddel "delta_m" kw) (Fin x) = Ok (Fin ((1 - B2R lam) * pv + B2R lam * qv))).
    { intros x pv qv A B. change (class_primary SinglePeak Jax (ddel "delta_m" kw) (Fin x)) with (two_component_single Jax (Fin x) (Fin (B2R (Bopp one64))) (Fin (B2R one64)) (Fin (B2R (int64 2))) (Fin (B2R lam)) (Fin (B2R one64)) (Fin (B2R one64)) (Fin (B2R (int64 2)))). unfold two_component_single. rewrite fopp_fin, A. cbn [bind]. rewrite B. cbn [bind]. autorewrite with xf. reflexivity. }
    unfold f. unfold reals in Hr. cbn [map In] in Hr. destruct Hr as [<-|[<-|[]]].
    - rewrite V1 at 2 3. rewrite q_1. apply T; assumption.
    - rewrite V2 at 2 3. rewrite q_2. apply T; assumption. }
  assert (S2 : / 2 <= sval 1 2 1 2 /\ sval 1 2 1 2 <= 1). { unfold sval. rewrite !Rleb_true by lra. cbn [andb]. rewrite clp_hi by lra. assert (R := swin_range (1 - 1 / 1000000)). assert (M := swin_mono (/ 2) (1 - 1 / 1000000) ltac:(lra) ltac:(lra) ltac:(lra)). assert (H2 : swin (/ 2) = / 2). { unfold swin. replace (/ / 2 - / (1 - / 2)) with 0 by field. rewrite exp_0. lra. } lra. }
  assert (S1 : 0 <= sval 1 2 1 1). { unfold sval. assert (R := swin_range (clp ((1 - 1) / 1))). destruct (_ && _); lra. }
  destruct (C154_single_peak_pf Jax best_pow best_exp best_ln best_log1p best_ndtr best_log_ndtr best_half_log best_expit (Bopp one64) one64 (int64 2) lam one64 one64 one64 (int64 2) [one64; int64 2] (One z) (int64 2) (13000 * u64) p q self
    (m1norm f (B2R one64) (B2R (int64 2)) (B2R one64) (reals [one64; int64 2]))) as (v & RV & AV); try reflexivity.
  - apply best_expit_nearest.
  - split; [repeat constructor; assumption|]. intros i Hi. cbn [List.length] in Hi. unfold reals. cbn [map]. rewrite V1, V2. assert (P40 : 1 <= 2 ^ 40) by (apply pow_R1_Rle; lra). assert (J40 : / 2 ^ 40 <= 1) by (rewrite <- Rinv_1; apply Rinv_le_contravar; lra). destruct i as [|i]; cbn [nth]; [lra|lia].
  - cbn [List.length]. assert (P40 : 2 ^ 1 <= 2 ^ 40) by (apply Rle_pow; [lra|lia]). simpl INR. lra.
  - now split.
  - assert (P8 : 8 <= 2 ^ 100) by (rewrite (pow_bpow 100); change 8 with (bpow radix2 3); apply bpow_le; lia). intros x Hx. split; [now apply W|]. assert (HX : x = one64 \/ x = int64 2) by (destruct Hx as [->|[<-|[<-|[]]]]; auto). clear Hx.
    destruct HX as [->| ->].
    + split; [unfold p; rewrite V1; lra|]. split; [rewrite V1, q_1; lra|]. split; [rewrite RP1; unfold p; rewrite V1; reflexivity|]. split; [rewrite RQ1; rewrite V1, q_1; reflexivity|]. unfold p. rewrite V1, q_1. split; assumption.
    + split; [unfold p; rewrite V2; lra|]. split; [rewrite V2, q_2; lra|]. split; [rewrite RP2; unfold p; rewrite V2; reflexivity|]. split; [rewrite RQ2; rewrite V2, q_2; reflexivity|]. unfold p. rewrite V2, q_2. split; assumption.
  - fold kw. unfold norm_p_m1. cbn [is_jax negb andb]. cbv zeta. change (dget_default "mmin" _ (ddel "delta_m" kw)) with (Fin (B2R one64)). change (sm_m1s self) with (map Fin (reals [one64; int64 2])).
    rewrite (smoothed_primary_fin Jax _ _ _ (B2R one64) (B2R (int64 2)) (B2R one64) f (reals [one64; int64 2])) by (try reflexivity; try exact HP; rewrite V1; lra). cbn [bind]. rewrite trapezoid_fin, norm_or_one_fin by (rewrite V1; lra). reflexivity.
  - unfold m1norm, reals. cbn [map]. rewrite V1, V2. rewrite Rtrap_cons. change (Rtrap [f 2 * sval 1 2 1 2] [2]) with 0.
    assert (F2' : / 8 <= f 2). { unfold f. rewrite q_2. unfold p. assert (K1 : (1 - B2R lam) * / 8 <= (1 - B2R lam) * (2 / 3 * 2)) by (apply Rmult_le_compat_l; lra). assert (K2 : B2R lam * / 8 <= B2R lam * q2) by (apply Rmult_le_compat_l; lra). lra. }
    assert (F1' : 0 <= f 1). { unfold f. rewrite q_1. unfold p. assert (K1 : 0 <= (1 - B2R lam) * (2 / 3 * 1)) by (apply Rmult_le_pos; lra). assert (K2 : 0 <= B2R lam * q1) by (apply Rmult_le_pos; lra). lra. }
    assert (G1 : 0 <= f 1 * sval 1 2 1 1) by (apply Rmult_le_pos; lra). assert (G2 : / 8 * / 2 <= f 2 * sval 1 2 1 2) by (apply Rmult_le_compat; lra).
    assert (I1 : / 2 ^ 100 <= / 2 ^ 5) by (apply Rinv_le_contravar; [apply pow_lt; lra|apply Rle_pow; [lra|lia]]). simpl (2 ^ 5) in I1. lra.
  - lra.
  - cbn [depth]. assert (I34 : / 2 ^ 34 <= / 8). { replace (/ 8) with (/ 2 ^ 3) by (simpl; f_equal; ring). apply Rinv_le_contravar; [apply pow_lt; lra|apply Rle_pow; [lra|lia]]. } simpl INR. lra.
  - exists (One z), self, v. rewrite V2 in RV. rewrite VO, V1 in RV. split; [exact RV|]. split; [reflexivity|]. replace (2 * (13000 * u64) + / 2 ^ 34 + 28 * u64) with (2 * (13000 * u64) + / 2 ^ 34 + (INR (depth (One z)) + 14) * (2 * u64)) by (cbn [depth]; simpl INR; ring). exact AV.
Qed.

