(** Property theorems (roundll). Proofs are in [roundll_thms]; the vocabulary is in [Spec]. *)
From Coq Require Import Reals Lra Lia Psatz ZArith Bool.
From Coquelicot Require Import Rcomplements.
From Flocq Require Import Core BinarySingleNaN Relative Plus_error.
From Coq Require Import List.
From Verif Require Import Xf Py Xf_facts Double Double_facts Rounded_model SpecRound SpecHyper Hyperpe_model hypera_thms round_thms RoundedLogl_model SpecRoundLogl.
Import ListNotations.
Local Open Scope R_scope.
From Verif Require Import roundll_thms.

(** C138. The log-likelihood computed in double precision, from the weights to the number returned: the means, the logarithms (accurate to a relative error eta), the sum over
    the events in any order, the selection term and the last addition. The result is finite, it is what log_likelihood_ratio returns when the uncertainty cut does not reject it,
    and it differs from the exact value by at most [steps] roundings in the means plus the relative error of the logarithms and of depth + 2 roundings, applied to the sum of the absolute values of the terms. *)
Theorem C138_log_likelihood :
  forall eta log64 K N events injections t,
  log_accuracy log64 eta -> 0 <= eta <= 1 ->
  Forall (fun e => List.length (leaves e) = K /\ Forall moderate (leaves e)) events -> (Z.of_nat K <= 2 ^ 50)%Z -> (Z.of_nat (List.length events) <= 2 ^ 50)%Z ->
  (List.length (leaves injections) <= N)%nat -> (Z.of_nat N <= 2 ^ 50)%Z -> Forall moderate (leaves injections) ->
  leaves t = ln_bfs64 log64 K events ->
  let n := List.length events in
  let computed := ln_l64 log64 t n N injections in
  let efficiency := Rsum (values injections) / INR N in
  let exact := Rsum (map (fun e => ln (mean (values e))) events) - INR n * ln efficiency in
  let size := Rsum (map (fun e => Rabs (ln (mean (values e)))) events) + INR n * Rabs (ln efficiency) in
  let drift := (Rsum (map (fun e => INR (depth e + 1)) events) + INR n * INR (depth injections + 1)) * (u64 / (1 - u64)) in
  is_finite computed = true /\
  (forall maximum_uncertainty variance, flt maximum_uncertainty variance = false -> cut maximum_uncertainty (B2X computed) variance = Fin (B2R computed)) /\
  Rabs (B2R computed - exact) <= drift + ((1 + eta) * (1 + u64) ^ (depth t + 2) - 1) * (size + drift).
Proof. exact C138_log_likelihood_pf. Qed.
Print Assumptions C138_log_likelihood.

(** C138. A logarithm that returns the double nearest to the exact value is accurate to one unit roundoff, at every positive double: no logarithm of a double other than 1 is near zero. *)
Theorem C138_correctly_rounded :
  forall log64, correctly_rounded_log log64 -> log_accuracy log64 u64.
Proof. exact C138_correctly_rounded_pf. Qed.
Print Assumptions C138_correctly_rounded.

(** The correctly rounded logarithm, as a function of doubles. *)
Definition near64 (r : R) : b64 := binary_normalize 53 1024 _ _ mode_NE (Ztrunc (scaled_mantissa radix2 format64 (rnd64 r))) (cexp radix2 format64 (rnd64 r)) false.
Definition best_log (x : b64) : b64 := near64 (ln (B2R x)).
Example C138_best_log : correctly_rounded_log best_log.
Proof.
  intros x [F P]. unfold best_log, near64. set (r := ln (B2R x)).
  assert (L2 : 0 < ln 2 <= 1). { split; [rewrite <- ln_1; apply ln_increasing; lra|]. assert (Q := exp_ineq1_le (ln 2)). rewrite exp_ln in Q by lra. lra. }
  assert (B : Rabs r <= 2 ^ 1000).
  { assert (HS : is_finite_strict x = true) by (destruct x; try reflexivity; try discriminate F; cbn in P; lra).
    assert (G := abs_B2R_ge_emin 53 1024 x HS). assert (U := abs_B2R_lt_emax 53 1024 x). rewrite Rabs_pos_eq in G, U by lra.
    change (SpecFloat.emin 53 1024) with (- Z.of_nat 1074)%Z in G. rewrite <- pow_bpow_inv in G. change (bpow radix2 1024) with (bpow radix2 (Z.of_nat 1024)) in U. rewrite <- pow_bpow in U.
    assert (P1074 := pow2_pos 1074).
    assert (G' : - (INR 1074 * ln 2) <= r). { unfold r. rewrite <- ln_pow by lra. rewrite <- ln_Rinv by apply pow2_pos. destruct G as [G|<-]; [left; apply ln_increasing; [apply pow2_inv_pos|exact G]|right; reflexivity]. }
    assert (U' : r < INR 1024 * ln 2). { unfold r. rewrite <- ln_pow by lra. apply ln_increasing; [exact P|exact U]. }
    assert (K : INR 1074 <= 2 ^ 1000 /\ INR 1024 <= 2 ^ 1000).
    { replace (2 ^ 1000) with (2 ^ 11 * 2 ^ 989) by (rewrite <- pow_add; reflexivity). assert (1 <= 2 ^ 989) by (apply pow_R1_Rle; lra). rewrite !INR_IZR_INZ. simpl (2 ^ 11). split; [change (Z.of_nat 1074) with 1074%Z|change (Z.of_nat 1024) with 1024%Z]; lra. }
    assert (0 <= INR 1074) by apply pos_INR. assert (0 <= INR 1024) by apply pos_INR. apply Rabs_le_between. nra. }
  assert (S : Rabs (rnd64 r) < bpow radix2 1024).
  { apply Rle_lt_trans with (rnd64 (2 ^ 1000)).
    - unfold rnd64. rewrite <- round_NE_abs by apply valid64. apply rnd_le. exact B.
    - rewrite rnd_double; [rewrite pow_bpow; apply bpow_lt; lia|]. rewrite pow_bpow. split; [apply generic_format_bpow; unfold format64, FLT_exp; lia|]. rewrite Rabs_pos_eq by apply bpow_ge_0. apply bpow_lt. lia. }
  assert (G : generic_format radix2 format64 (rnd64 r)) by (apply generic_format_round; [apply valid64|apply valid_rnd_N]).
  assert (C := binary_normalize_correct 53 1024 _ _ mode_NE (Ztrunc (scaled_mantissa radix2 format64 (rnd64 r))) (cexp radix2 format64 (rnd64 r)) false). cbv zeta in C.
  unfold generic_format in G. rewrite <- G in C. change (round radix2 (SpecFloat.fexp 53 1024) (round_mode mode_NE) (rnd64 r)) with (rnd64 (rnd64 r)) in C.
  assert (D : is_double (rnd64 r)) by (split; [exact G|exact S]). rewrite (rnd_double _ D) in C. rewrite Rlt_bool_true in C by exact S. tauto.
Qed.
Example C138_met : let t := Add (One (int64 3)) (One (int64 5)) in let T := Add (One (best_log (mean64 2 t))) (One (best_log (mean64 2 t))) in
  log_accuracy best_log u64 /\ leaves T = ln_bfs64 best_log 2 [t; t] /\ Forall (fun e => List.length (leaves e) = 2%nat /\ Forall moderate (leaves e)) [t; t].
Proof.
  assert (Q : forall n, (1 <= n <= 8)%nat -> moderate (int64 n)).
  { intros n H. destruct (int64_val n) as [F V]; [simpl; lia|]. split; [exact F|]. rewrite V. assert (1 <= INR n) by (change 1 with (INR 1); apply le_INR; lia). assert (INR n <= INR 8) by (apply le_INR; lia). simpl (INR 8) in *.
    assert (8 <= 2 ^ 400) by (replace 400%nat with (3 + 397)%nat by lia; rewrite pow_add; assert (1 <= 2 ^ 397) by (apply pow_R1_Rle; lra); simpl (2 ^ 3); lra).
    split; [|lra]. apply Rle_trans with (/ 1); [|lra]. apply Rinv_le_contravar; lra. }
  cbv zeta. split; [apply C138_correctly_rounded, C138_best_log|]. split; [reflexivity|].
  assert (M : Forall moderate (leaves (Add (One (int64 3)) (One (int64 5))))) by (cbn [leaves app]; repeat (apply Forall_cons; [apply Q; lia|]); apply Forall_nil).
  repeat (apply Forall_cons; [split; [reflexivity|exact M]|]). apply Forall_nil.
Qed.

