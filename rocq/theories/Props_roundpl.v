(** Property theorems (roundpl). Proofs are in [roundpl_thms]; the vocabulary is in [Spec]. *)
From Coq Require Import Reals Lra Lia Psatz ZArith Bool.
From Coquelicot Require Import Rcomplements.
From Flocq Require Import Core BinarySingleNaN Relative Plus_error Sterbenz.
From Coq Require Import List.
From Verif Require Import Xf Py Xf_facts Double Double_facts Utils_model Powerlaw_facts Rounded_model SpecRound round_thms RoundedPl_model SpecRoundPl.
Import ListNotations.
Local Open Scope R_scope.
From Verif Require Import roundpl_thms.

(** C117, refuted: with a correctly rounded power function, a slope so close to -1 that both end points raised to 1 + alpha round to one gives an infinite "density" at every
    point of the support, negative for slopes below -1, and NaN instead of zero outside. *)
Theorem C117_slope_near_minus_one_refuted :
  forall (pow : b64 -> b64 -> b64) (log : b64 -> b64) (xx alpha high low : b64), correctly_rounded pow ->
  is_finite xx = true -> is_finite alpha = true -> is_finite high = true -> is_finite low = true ->
  0 < B2R low < B2R high -> 0 < B2R xx -> B2R alpha <> -1 -> Rabs (1 + B2R alpha) <= / 2 ->
  Rabs ((1 + B2R alpha) * ln (B2R high)) <= / 2 ^ 55 -> Rabs ((1 + B2R alpha) * ln (B2R low)) <= / 2 ^ 55 ->
  / 2 ^ 1000 <= Rpower (B2R xx) (B2R alpha) <= 2 ^ 1000 ->
  (B2R low <= B2R xx <= B2R high -> powerlaw64 pow log xx alpha high low = B754_infinity (if Rlt_dec (1 + B2R alpha) 0 then true else false)) /\
  (B2R xx < B2R low \/ B2R high < B2R xx -> powerlaw64 pow log xx alpha high low = B754_nan).
Proof. exact C117_slope_near_minus_one_refuted_pf. Qed.
Print Assumptions C117_slope_near_minus_one_refuted.

(** C117, the error of the normalised power law in double precision: with a power function of [n] rounding errors, away from under- and overflow, and while the
    cancellation in the normalisation does not destroy the difference, the logarithm of the computed density is within (n + 4) rounding errors plus twice the amplified error of the powers
    of the logarithm of the exact one; in particular the computed density is finite and positive. *)
Theorem C117_error_partial :
  forall (n : nat) (pow : b64 -> b64 -> b64) (log : b64 -> b64) (xx alpha high low : b64), (1 <= n)%nat -> accurate n pow ->
  moderate low -> moderate high -> moderate xx -> is_finite alpha = true -> B2R low < B2R high -> B2R low <= B2R xx <= B2R high -> B2R alpha <> -1 -> Rabs (B2R alpha) <= 1000 ->
  let H := Rpower (B2R high) (1 + B2R alpha) in let L := Rpower (B2R low) (1 + B2R alpha) in
  / 2 ^ 400 <= H <= 2 ^ 400 -> / 2 ^ 400 <= L <= 2 ^ 400 -> / 2 ^ 400 <= Rpower (B2R xx) (B2R alpha) <= 2 ^ 400 ->
  let delta := u64 * Rmax (Rabs (ln H)) (Rabs (ln L)) + INR n * (u64 / (1 - u64)) in
  let lost := amplification (B2R alpha) (B2R high) (B2R low) * (exp delta - 1) in
  lost <= / 4 ->
  let exact := exact_powerlaw (B2R alpha) (B2R high) (B2R low) (B2R xx) in
  let computed := powerlaw64 pow log xx alpha high low in
  is_finite computed = true /\ 0 < B2R computed /\ 0 < exact /\
  powerlaw_body (Fin (B2R xx)) (Fin (B2R alpha)) (Fin (B2R high)) (Fin (B2R low)) = Fin exact /\
  Rabs (ln (B2R computed) - ln exact) <= (INR n + 4) * (u64 / (1 - u64)) + 2 * lost.
Proof. exact C117_error_partial_pf. Qed.
Print Assumptions C117_error_partial.

(** C117, slope exactly -1: the error of the branch with the logarithm; the cancellation is that of a quotient of limits close to one. *)
Theorem C117_log_slope_error_partial :
  forall (n : nat) (pow : b64 -> b64 -> b64) (log : b64 -> b64) (xx alpha high low : b64), (INR n <= 2 ^ 40) -> accurate n pow -> accurate_log n log ->
  moderate low -> moderate high -> moderate xx -> is_finite alpha = true -> B2R low < B2R high -> B2R low <= B2R xx <= B2R high -> B2R alpha = -1 ->
  let lost := (u64 / (1 - u64)) / ln (B2R high / B2R low) in lost <= / 4 ->
  let exact := exact_log_uniform (B2R high) (B2R low) (B2R xx) in
  let computed := powerlaw64 pow log xx alpha high low in
  is_finite computed = true /\ 0 < B2R computed /\ 0 < exact /\
  powerlaw_body (Fin (B2R xx)) (Fin (B2R alpha)) (Fin (B2R high)) (Fin (B2R low)) = Fin exact /\
  Rabs (ln (B2R computed) - ln exact) <= (2 * INR n + 2) * (u64 / (1 - u64)) + 2 * lost.
Proof. exact C117_log_slope_error_partial_pf. Qed.
Print Assumptions C117_log_slope_error_partial.

(** The hypotheses of the refutation hold on [1, 5/4] for the double just above -1, with a correctly rounded power function: the density is infinite at the lower end. *)
Example C117_refuted_hyps : correctly_rounded best_pow /\ forall log, powerlaw64 best_pow log one64 alpha_near five_quarters one64 = B754_infinity false.
Proof.
  split; [exact best_pow_correct|]. intros log. destruct one_val as [O1 O2]. destruct five_quarters_val as [F1 F2]. assert (V := alpha_near_val).
  assert (P : 0 < bpow radix2 (-53)) by apply bpow_gt_0. assert (Q : bpow radix2 (-53) <= / 2) by (change (/ 2) with (bpow radix2 (-1)); apply bpow_le; lia).
  assert (V1 : 1 + B2R alpha_near = bpow radix2 (-53)) by lra.
  assert (L : 0 <= ln (5 / 4) <= / 4). { split; [rewrite <- ln_1; apply ln_le; lra|]. rewrite <- (ln_exp (/ 4)). apply ln_le; [lra|]. assert (E := exp_ineq1_le (/ 4)). lra. }
  destruct (C117_slope_near_minus_one_refuted best_pow log one64 alpha_near five_quarters one64 best_pow_correct O1 eq_refl F1 O1) as [A _]; rewrite ?O2, ?F2, ?V1; try lra.
  - rewrite Rabs_pos_eq by lra. lra.
  - rewrite Rabs_pos_eq by nra. rewrite bp55. change (-55)%Z with (-53 + -2)%Z. rewrite bpow_plus. change (bpow radix2 (-2)) with (/ 4). nra.
  - rewrite ln_1, Rmult_0_r, Rabs_R0, bp55. apply bpow_ge_0.
  - unfold Rpower. rewrite ln_1, Rmult_0_r, exp_0. apply range_one. assert (0 < bpow radix2 (-55)) by apply bpow_gt_0. assert (0 < bpow radix2 (-54)) by apply bpow_gt_0. lra.
  - rewrite A by (rewrite O2, F2; lra). rewrite V1. destruct (Rlt_dec (bpow radix2 (-53)) 0); [lra|reflexivity].
Qed.
(** The hypotheses of the bound hold for the density proportional to x on [1, 2], with a correctly rounded power function. *)
Example C117_error_hyps : forall log, exists computed, computed = powerlaw64 best_pow log one64 one64 (int64 2) one64 /\ is_finite computed = true /\ 0 < B2R computed /\
  Rabs (ln (B2R computed) - ln (2 / 3)) <= 40 * u64.
Proof.
  intros log. eexists; split; [reflexivity|]. destruct one_val as [O1 O2]. destruct (int64_val 2) as [T1 T2]; [lia|]. change (INR 2) with 2 in T2.
  assert (bnd : / 2 ^ 400 <= 1 /\ 4 <= 2 ^ 400). { rewrite (pow_bpow_inv 400), (pow_bpow 400). split; [change 1 with (bpow radix2 0)|change 4 with (bpow radix2 2)]; apply bpow_le; lia. }
  assert (p2 : Rpower 2 (1 + 1) = 4) by (rewrite Rpower_plus, Rpower_1 by lra; lra).
  assert (p1 : forall y, Rpower 1 y = 1) by (intros y; unfold Rpower; now rewrite ln_1, Rmult_0_r, exp_0).
  assert (L4 : 0 <= ln 4 <= 2). { split; [rewrite <- ln_1; apply ln_le; lra|]. assert (Q := ln2_lt). replace 4 with (2 * 2) by lra. rewrite ln_mult by lra. lra. }
  assert (V := v64_facts). assert (U := u64_pos).
  assert (Us : u64 <= / 1024). { unfold u64. rewrite (pow_bpow_inv 53). change (/ 1024) with (bpow radix2 (-10)). apply bpow_le. lia. }
  set (delta := u64 * Rmax (Rabs (ln 4)) (Rabs (ln 1)) + INR 1 * (u64 / (1 - u64))).
  assert (D : 0 <= delta <= 4 * u64). { unfold delta. fold v64. rewrite ln_1, Rabs_R0, Rabs_pos_eq, Rmax_left by lra. change (INR 1) with 1. nra. }
  assert (X : exp delta - 1 <= 8 * u64).
  { assert (E := exp_ineq1_le (- delta)). rewrite exp_Ropp in E. assert (P := exp_pos delta). assert (exp delta * (1 + - delta) <= 1) by (apply (Rmult_le_compat_l (exp delta)) in E; [rewrite Rinv_r in E by lra; lra|lra]). nra. }
  assert (A : amplification 1 2 1 = 5 / 3). { unfold amplification. rewrite p2, p1. rewrite Rabs_pos_eq by lra. lra. }
  assert (G : exact_powerlaw 1 2 1 1 = 2 / 3). { unfold exact_powerlaw. rewrite p2, !p1. lra. }
  assert (M1 : moderate one64) by (split; [auto|rewrite O2; lra]). assert (M2 : moderate (int64 2)) by (split; [auto|rewrite T2; lra]).
  assert (R := C117_error_partial 1 best_pow log one64 one64 (int64 2) one64 (le_n 1) (correct_accurate _ best_pow_correct) M1 M2 M1 O1). cbv zeta in R. rewrite O2, T2, p2, !p1 in R. fold delta in R. rewrite A, G in R.
  rewrite Rabs_R1 in R. destruct R as (R1 & R2 & _ & _ & R3); try lra.
  split; [exact R1|]. split; [exact R2|]. eapply Rle_trans; [exact R3|]. fold v64. change (INR 1) with 1. lra.
Qed.
(** The logarithmic branch: [1, 2] with the library functions of the hypotheses; a logarithm rounded to the nearest double exists. *)
Example C117_log_slope_hyps : exists log, accurate_log 1 log /\
  let computed := powerlaw64 best_pow log one64 (Bopp one64) (int64 2) one64 in is_finite computed = true /\ Rabs (ln (B2R computed) - ln (/ ln 2)) <= 20 * u64.
Proof.
  exists (fun x => of_double (rnd64 (ln (B2R x)))). destruct one_val as [O1 O2]. destruct (int64_val 2) as [T1 T2]; [lia|]. change (INR 2) with 2 in T2.
  assert (AL : accurate_log 1 (fun x => of_double (rnd64 (ln (B2R x))))).
  { intros x F X. assert (B := B2R_double x).
    assert (LB : bpow radix2 (-1022) <= ln (B2R x) <= bpow radix2 1000).
    { assert (S : Ulp.succ radix2 format64 1 <= B2R x). { apply succ_le_lt; [apply valid64|apply one_double|apply B|exact X]. }
      rewrite succ_eq_pos in S by lra. change (ulp radix2 format64 1) with (ulp radix2 format64 (bpow radix2 0)) in S. rewrite ulp_bpow in S. change (format64 (0 + 1)) with (-52)%Z in S.
      assert (P52 : 0 < bpow radix2 (-52) <= / 2) by (split; [apply bpow_gt_0|change (/ 2) with (bpow radix2 (-1)); apply bpow_le; lia]).
      split.
      - apply Rle_trans with (bpow radix2 (-53)); [apply bpow_le; lia|]. change (-53)%Z with (-52 + -1)%Z. rewrite bpow_plus. change (bpow radix2 (-1)) with (/ 2).
        apply Rle_trans with (ln (1 + bpow radix2 (-52))); [|apply ln_le; lra].
        assert (K := ln_le_sub (/ (1 + bpow radix2 (-52))) ltac:(apply Rinv_0_lt_compat; lra)). rewrite ln_Rinv in K by lra. assert (/ (1 + bpow radix2 (-52)) <= 1 - bpow radix2 (-52) * / 2). { apply Rmult_le_reg_l with (1 + bpow radix2 (-52)); [lra|]. rewrite Rinv_r by lra. nra. }
        assert (0 < / (1 + bpow radix2 (-52))) by (apply Rinv_0_lt_compat; lra). lra.
      - assert (BX : B2R x <= bpow radix2 1024) by (destruct B as [_ B]; apply Rabs_lt_between in B; lra).
        apply Rle_trans with (ln (bpow radix2 1024)); [apply ln_le; lra|]. rewrite bpow_powerRZ. change (IZR radix2) with 2. rewrite powerRZ_Rpower by lra. unfold Rpower. rewrite ln_exp. assert (Q := ln2_lt).
        apply Rle_trans with (bpow radix2 10); [change (bpow radix2 10) with 1024; lra|apply bpow_le; lia]. }
    assert (D : is_double (rnd64 (ln (B2R x)))). { split; [apply generic_format_round; [apply valid64|apply valid_rnd_N]|]. apply small_lt; [|apply LB]. assert (0 < bpow radix2 (-1022)) by apply bpow_gt_0. lra. }
    destruct (of_double_val _ D) as [D1 D2]. split; [exact D1|]. rewrite D2. apply rnd_near_normal. apply LB. }
  split; [exact AL|]. intros computed.
  assert (bnd : / 2 ^ 400 <= 1 /\ 4 <= 2 ^ 400). { rewrite (pow_bpow_inv 400), (pow_bpow 400). split; [change 1 with (bpow radix2 0)|change 4 with (bpow radix2 2)]; apply bpow_le; lia. }
  assert (M1 : moderate one64) by (split; [auto|rewrite O2; lra]). assert (M2 : moderate (int64 2)) by (split; [auto|rewrite T2; lra]).
  assert (V := v64_facts). assert (U := u64_pos). assert (Us : u64 <= / 1024). { unfold u64. rewrite (pow_bpow_inv 53). change (/ 1024) with (bpow radix2 (-10)). apply bpow_le. lia. }
  assert (L2 : / 2 <= ln 2). { rewrite <- (ln_exp (/ 2)). apply ln_le; [apply exp_pos|]. assert (E3 := exp_le_3). replace 1 with (/ 2 + / 2) in E3 by field. rewrite exp_plus in E3. assert (P := exp_pos (/ 2)). nra. }
  assert (H := C117_log_slope_error_partial 1 best_pow _ one64 (Bopp one64) (int64 2) one64 ltac:(change (INR 1) with 1; change 1 with (2 ^ 0); apply Rle_pow; [lra|lia]) (correct_accurate _ best_pow_correct) AL M1 M2 M1).
  rewrite is_finite_Bopp, B2R_Bopp, O2, T2 in H. cbv zeta in H. unfold exact_log_uniform in H. replace (2 / 1) with 2 in H by lra. fold v64 in H.
  assert (Lo : v64 / ln 2 <= 4 * u64) by (apply Rle_div_l; nra).
  destruct H as (H1 & _ & _ & _ & H2); try lra; [exact O1|]. rewrite Rinv_1, Rmult_1_r in H2. change (INR 1) with 1 in H2. split; [exact H1|]. eapply Rle_trans; [exact H2|]. lra.
Qed.

