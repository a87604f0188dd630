(** Property theorems (roundtn). Proofs are in [roundtn_thms]; the vocabulary is in [Spec]. *)
From Coq Require Import Reals ZArith Lra Lia Psatz Bool.
From Coquelicot Require Import Coquelicot.
From Flocq Require Import Core BinarySingleNaN Relative.
From Coq Require Import List.
From Verif Require Import Xf Py Xf_facts Special Gauss_facts Utils_model Truncnorm_facts Double Double_facts Rounded_model SpecRound SpecHyper RoundedPl_model RoundedTn_model SpecRoundLogl SpecRoundTn hyperb_thms round_thms roundpl_thms roundwin_thms roundll_thms.
Import ListNotations.
Local Open Scope R_scope.
From Verif Require Import roundtn_thms.

(** C146. Whatever doubles are passed, infinities and NaN included, the computed density is a finite non-negative number: overflows and invalid operations are
    turned into finite numbers. Outside the limits it is 0. *)
Theorem C146_always_a_number :
  forall exp64 log64 log1p64 ndtr64 log_ndtr64 c xx mu sigma high low, never_negative exp64 ->
  let computed := truncnorm64 exp64 log64 log1p64 ndtr64 log_ndtr64 c xx mu sigma high low in
  is_finite computed = true /\ 0 <= B2R computed /\
  (is_finite xx = true -> is_finite low = true -> is_finite high = true -> B2R xx < B2R low \/ B2R high < B2R xx -> B2R computed = 0).
Proof. exact C146_always_a_number_pf. Qed.
Print Assumptions C146_always_a_number.

(** C146 (claim: between its limits the density is computed accurately) is false, also with correctly rounded elementary functions. If the limits enclose the mean
    and are both closer to it than 2^-60 standard deviations - so closer than the probabilities near 1/2 resolve - then the computed normalisation is 0, and
    the function returns the largest double at every point between the limits, although the exact density, which the model on real numbers returns, is at most 4 / (high - low). *)
Theorem C146_narrow_refuted :
  forall eta exp64 log64 log1p64 ndtr64 log_ndtr64 c xx mu sigma high low,
  0 <= eta <= / 2 ^ 20 -> log_accuracy log64 eta -> is_finite c = true -> Rabs (B2R c - ln (2 * PI) / 2) <= eta ->
  correctly_rounded_ndtr ndtr64 -> limits exp64 log1p64 ->
  bounded_double xx -> bounded_double mu -> bounded_double high -> bounded_double low -> moderate sigma ->
  B2R low <= B2R xx <= B2R high ->
  - / 2 ^ 60 <= (B2R low - B2R mu) / B2R sigma <= 0 -> / 2 ^ 900 <= (B2R high - B2R mu) / B2R sigma <= / 2 ^ 60 ->
  let exact := exact_truncnorm (B2R mu) (B2R sigma) (B2R high) (B2R low) (B2R xx) in
  B2R (truncnorm64 exp64 log64 log1p64 ndtr64 log_ndtr64 c xx mu sigma high low) = MAXF /\
  truncnorm_body (Fin (B2R xx)) (Fin (B2R mu)) (Fin (B2R sigma)) (Fin (B2R high)) (Fin (B2R low)) = Fin exact /\
  0 < exact <= 4 / (B2R high - B2R low).
Proof. exact C146_narrow_refuted_pf. Qed.
Print Assumptions C146_narrow_refuted.

(** C146. With the mean between the limits, elementary functions of relative accuracy eta, and a point within 36 standard deviations of the mean, the computed density is a
    positive number whose logarithm differs from that of the exact density - which the model on real numbers returns - by at most 10000 u + 500 eta + 2 lost (u = 2^-53), where
    lost = (2 eta + 15 u) / P is what the cancellation in the normalisation loses: P is the probability of the untruncated normal between the limits. Partial: not true
    if lost is not small ([C146_narrow_refuted]). *)
Theorem C146_accuracy_partial :
  forall eta exp64 log64 log1p64 ndtr64 log_ndtr64 c xx mu sigma high low,
  0 <= eta <= / 2 ^ 20 -> exp_accuracy exp64 eta -> log_accuracy log64 eta -> log1p_accuracy log1p64 eta -> ndtr_accuracy ndtr64 eta ->
  is_finite c = true -> Rabs (B2R c - ln (2 * PI) / 2) <= eta ->
  bounded_double xx -> bounded_double mu -> bounded_double high -> bounded_double low -> moderate sigma ->
  B2R low <= B2R xx <= B2R high -> Rabs ((B2R xx - B2R mu) / B2R sigma) <= 36 ->
  B2R low <= B2R mu -> / 2 ^ 900 <= (B2R high - B2R mu) / B2R sigma ->
  let exact := exact_truncnorm (B2R mu) (B2R sigma) (B2R high) (B2R low) (B2R xx) in
  let computed := truncnorm64 exp64 log64 log1p64 ndtr64 log_ndtr64 c xx mu sigma high low in
  let P := Phi ((B2R high - B2R mu) / B2R sigma) - Phi ((B2R low - B2R mu) / B2R sigma) in
  let lost := (2 * eta + 15 * u64) / P in
  lost <= / 4 -> / 2 ^ 1000 <= exact <= 2 ^ 1000 ->
  is_finite computed = true /\ 0 < B2R computed /\
  truncnorm_body (Fin (B2R xx)) (Fin (B2R mu)) (Fin (B2R sigma)) (Fin (B2R high)) (Fin (B2R low)) = Fin exact /\
  Rabs (ln (B2R computed) - ln exact) <= 10000 * u64 + 500 * eta + 2 * lost.
Proof. exact C146_accuracy_partial_pf. Qed.
Print Assumptions C146_accuracy_partial.

(** C146. The mean above the upper limit: the same with lost = (2700 eta + 21000 u) / f, where f is the share of the probability below the upper limit that lies above the lower one,
    if both limits are within 36 standard deviations of the mean. Partial as before: f must not be so small that this is useless. *)
Theorem C146_below_mean_partial :
  forall eta exp64 log64 log1p64 ndtr64 log_ndtr64 c xx mu sigma high low,
  0 <= eta <= / 2 ^ 20 -> exp_accuracy exp64 eta -> log_accuracy log64 eta -> log_ndtr_accuracy log_ndtr64 eta ->
  is_finite c = true -> Rabs (B2R c - ln (2 * PI) / 2) <= eta ->
  bounded_double xx -> bounded_double mu -> bounded_double high -> bounded_double low -> moderate sigma ->
  B2R low <= B2R xx <= B2R high -> B2R low < B2R high ->
  -36 <= (B2R low - B2R mu) / B2R sigma -> B2R high <= B2R mu ->
  let exact := exact_truncnorm (B2R mu) (B2R sigma) (B2R high) (B2R low) (B2R xx) in
  let computed := truncnorm64 exp64 log64 log1p64 ndtr64 log_ndtr64 c xx mu sigma high low in
  let P x := Phi ((x - B2R mu) / B2R sigma) in
  let lost := (21000 * u64 + 2700 * eta) / ((P (B2R high) - P (B2R low)) / P (B2R high)) in
  lost <= / 4 -> / 2 ^ 1000 <= exact <= 2 ^ 1000 ->
  is_finite computed = true /\ 0 < B2R computed /\
  truncnorm_body (Fin (B2R xx)) (Fin (B2R mu)) (Fin (B2R sigma)) (Fin (B2R high)) (Fin (B2R low)) = Fin exact /\
  Rabs (ln (B2R computed) - ln exact) <= 15000 * u64 + 1200 * eta + 2 * lost.
Proof. exact C146_below_mean_partial_pf. Qed.
Print Assumptions C146_below_mean_partial.

(** C146. The mean below the lower limit: the same, f being the share of the probability above the lower limit that lies below the upper one. *)
Theorem C146_above_mean_partial :
  forall eta exp64 log64 log1p64 ndtr64 log_ndtr64 c xx mu sigma high low,
  0 <= eta <= / 2 ^ 20 -> exp_accuracy exp64 eta -> log_accuracy log64 eta -> log_ndtr_accuracy log_ndtr64 eta ->
  is_finite c = true -> Rabs (B2R c - ln (2 * PI) / 2) <= eta ->
  bounded_double xx -> bounded_double mu -> bounded_double high -> bounded_double low -> moderate sigma ->
  B2R low <= B2R xx <= B2R high -> B2R low < B2R high ->
  / 2 ^ 900 <= (B2R low - B2R mu) / B2R sigma -> (B2R high - B2R mu) / B2R sigma <= 36 ->
  let exact := exact_truncnorm (B2R mu) (B2R sigma) (B2R high) (B2R low) (B2R xx) in
  let computed := truncnorm64 exp64 log64 log1p64 ndtr64 log_ndtr64 c xx mu sigma high low in
  let Q x := 1 - Phi ((x - B2R mu) / B2R sigma) in
  let lost := (21000 * u64 + 2700 * eta) / ((Q (B2R low) - Q (B2R high)) / Q (B2R low)) in
  lost <= / 4 -> / 2 ^ 1000 <= exact <= 2 ^ 1000 ->
  is_finite computed = true /\ 0 < B2R computed /\
  truncnorm_body (Fin (B2R xx)) (Fin (B2R mu)) (Fin (B2R sigma)) (Fin (B2R high)) (Fin (B2R low)) = Fin exact /\
  Rabs (ln (B2R computed) - ln exact) <= 15000 * u64 + 1200 * eta + 2 * lost.
Proof. exact C146_above_mean_partial_pf. Qed.
Print Assumptions C146_above_mean_partial.

(** Such functions exist: those that return the double nearest to the exact value. *)
Definition nearest (r : R) : b64 := of_double (rnd64 r).
Lemma nearest_val r : Rabs r <= bpow radix2 1020 -> is_finite (nearest r) = true /\ B2R (nearest r) = rnd64 r.
Proof.
  intros H. apply of_double_val. split; [apply generic_format_round; [apply valid64|apply valid_rnd_N]|].
  assert (D : is_double (bpow radix2 1020)) by (split; [apply generic_format_bpow; unfold format64, FLT_exp; lia|]; rewrite Rabs_pos_eq by apply bpow_ge_0; apply bpow_lt; lia).
  apply Rabs_le_between in H. apply Rle_lt_trans with (bpow radix2 1020); [|apply bpow_lt; lia]. apply Rabs_le_between. split; [apply rnd_lower; [apply opp_double, D|lra]|apply rnd_upper; [exact D|lra]].
Qed.
Definition best_exp (x : b64) : b64 :=
  match x with
  | B754_infinity s => if s then zero64 else B754_infinity false
  | B754_nan => B754_nan
  | _ => if Rle_dec (/ 2 ^ 1010) (exp (B2R x)) then if Rle_dec (exp (B2R x)) (2 ^ 1010) then nearest (exp (B2R x)) else B754_infinity false else zero64
  end.
Definition best_ln (x : b64) : b64 := nearest (ln (B2R x)).
Definition best_log1p (x : b64) : b64 := if Req_EM_T (B2R x) (-1) then B754_infinity true else nearest (ln (1 + B2R x)).
Definition best_ndtr (x : b64) : b64 := nearest (Phi (B2R x)).
Definition best_half_log : b64 := nearest (ln (2 * PI) / 2).
Lemma small_1020 r : Rabs r <= 10000 -> Rabs r <= bpow radix2 1020.
Proof. intros H. eapply Rle_trans; [exact H|]. apply Rle_trans with (bpow radix2 14); [change (bpow radix2 14) with 16384; lra|apply bpow_le; lia]. Qed.
Lemma inv1010 : / 2 ^ 1010 = bpow radix2 (-1010). Proof. apply (pow_bpow_inv 1010). Qed.
Lemma best_exp_val x : is_finite x = true -> / 2 ^ 1010 <= exp (B2R x) <= 2 ^ 1010 -> best_exp x = nearest (exp (B2R x)).
Proof. intros F [A B]. destruct x; try discriminate F; unfold best_exp; destruct (Rle_dec (/ 2 ^ 1010) _); try contradiction; destruct (Rle_dec _ (2 ^ 1010)); try contradiction; reflexivity. Qed.
Lemma nearest_exp r : / 2 ^ 1010 <= r <= 2 ^ 1010 -> is_finite (nearest r) = true /\ 0 < B2R (nearest r) /\ Rabs (B2R (nearest r) - r) <= 2 * u64 * r.
Proof.
  intros [A B]. assert (Q := bpow_gt_0 radix2 (-1010)). rewrite inv1010 in A. rewrite (pow_bpow 1010) in B. destruct (nearest_val r) as [F V]. { rewrite Rabs_pos_eq by lra. eapply Rle_trans; [exact B|]. apply bpow_le. lia. }
  split; [exact F|]. rewrite V. assert (E := rnd_err r). rewrite (Rabs_pos_eq r) in E by lra. destruct u_small as (U0 & U1 & _).
  assert (T : bpow radix2 (-1075) <= u64 * r). { apply Rle_trans with (u64 * bpow radix2 (-1010)); [|apply Rmult_le_compat_l; lra]. unfold u64. rewrite (pow_bpow_inv 53), <- bpow_plus. apply bpow_le. lia. }
  split; [|lra]. apply Rabs_le_between in E. nra.
Qed.
Example C146_best_exp : exp_accuracy best_exp (2 * u64) /\ never_negative best_exp.
Proof.
  split.
  - intros x F H. rewrite (best_exp_val x F H). destruct (nearest_exp _ H) as (A & _ & B). split; [exact A|exact B].
  - intros x. assert (G : is_finite x = true -> BinarySingleNaN.is_nan (best_exp x) = true \/ Bsign (best_exp x) = false /\ BinarySingleNaN.is_nan (best_exp x) = false).
    { intros F. destruct (Rle_dec (/ 2 ^ 1010) (exp (B2R x))) as [L|L]; [destruct (Rle_dec (exp (B2R x)) (2 ^ 1010)) as [H|H]|].
      - rewrite (best_exp_val x F (conj L H)). destruct (nearest_exp _ (conj L H)) as (A & P & _). right. split; [now apply pos_sign|]. destruct (nearest (exp (B2R x))); try discriminate A; reflexivity.
      - right. destruct x; try discriminate F; unfold best_exp; destruct (Rle_dec (/ 2 ^ 1010) _); try contradiction; destruct (Rle_dec _ (2 ^ 1010)); try contradiction; split; reflexivity.
      - right. destruct x; try discriminate F; unfold best_exp; destruct (Rle_dec (/ 2 ^ 1010) _); try contradiction; split; reflexivity. }
    destruct x as [s|s| |s m e B]; try (apply G; reflexivity); [right; destruct s; split; reflexivity|left; reflexivity].
Qed.
Example C146_best_log : log_accuracy best_ln (2 * u64).
Proof.
  assert (C : correctly_rounded_log best_ln).
  { intros x [F P]. apply nearest_val, small_1020. apply Rle_trans with (INR 1074); [apply ln_pow_abs|rewrite INR_IZR_INZ; change (Z.of_nat 1074) with 1074%Z; lra].
    assert (HS : is_finite_strict x = true) by (destruct x; try reflexivity; try discriminate F; cbn in P; lra).
    assert (G := abs_B2R_ge_emin 53 1024 x HS). assert (U := abs_B2R_lt_emax 53 1024 x). rewrite Rabs_pos_eq in G, U by lra. rewrite (pow_bpow_inv 1074), (pow_bpow 1074).
    change (SpecFloat.emin 53 1024) with (- Z.of_nat 1074)%Z in G. split; [exact G|]. left. eapply Rlt_le_trans; [exact U|]. apply bpow_le. lia. }
  intros x P. destruct (C138_correctly_rounded_pf best_ln C x P) as [F E]. split; [exact F|]. eapply Rle_trans; [exact E|]. assert (Q := Rabs_pos (ln (B2R x))). destruct u_small as (U0 & _). nra.
Qed.
Lemma above_minus_one (x : b64) : -1 < B2R x -> - (1) + bpow radix2 (-53) <= B2R x.
Proof.
  intros H. assert (V := valid64). destruct (B2R_double x) as [Fx _]. destruct (opp_double _ one_double) as [F1 _].
  assert (S := succ_le_lt radix2 format64 (- (1)) (B2R x) F1 Fx ltac:(lra)). rewrite succ_opp in S. change 1 with (bpow radix2 0) in S at 1. rewrite pred_bpow in S. change (bpow radix2 0) with 1 in S. change (format64 0) with (-53)%Z in S. lra.
Qed.
Lemma abs_small (u e p L r : R) : Rabs (p - r) <= u * Rabs r + e -> 0 < u -> e <= L -> Rabs (p - r) <= 2 * u * Rabs r + L.
Proof. intros. assert (Q := Rabs_pos r). nra. Qed.
Lemma t1000 : bpow radix2 (-1075) <= / 2 ^ 1000. Proof. rewrite (pow_bpow_inv 1000). apply bpow_le. lia. Qed.
Example C146_best_log1p : log1p_accuracy best_log1p (2 * u64).
Proof.
  intros x F [H1 H2]. unfold best_log1p. destruct (Req_EM_T (B2R x) (-1)) as [E|_]; [lra|]. assert (A := above_minus_one x H1).
  destruct (nearest_val (ln (1 + B2R x))) as [G V].
  { apply small_1020. apply Rle_trans with (INR 53); [apply ln_pow_abs|simpl; lra]. rewrite (pow_bpow_inv 53). change (- Z.of_nat 53)%Z with (-53)%Z. assert (1 <= 2 ^ 53) by (apply pow_R1_Rle; lra). lra. }
  split; [exact G|]. rewrite V. apply (abs_small u64 (bpow radix2 (-1075))); [apply rnd_err|apply u64_pos|apply t1000].
Qed.
Example C146_best_ndtr : ndtr_accuracy best_ndtr (2 * u64) /\ correctly_rounded_ndtr best_ndtr.
Proof.
  assert (C : correctly_rounded_ndtr best_ndtr). { intros x F. apply nearest_val, small_1020. assert (A := Phi_gt_0 (B2R x)). assert (B := Phi_lt_1 (B2R x)). rewrite Rabs_pos_eq; lra. }
  split; [|exact C]. intros x F. destruct (C x F) as [G V]. split; [exact G|]. assert (A := Phi_gt_0 (B2R x)). split; [rewrite V; apply rnd_lower; [apply zero_double|lra]|]. rewrite V.
  assert (E := abs_small u64 (bpow radix2 (-1075)) _ (/ 2 ^ 1000) _ (rnd_err (Phi (B2R x))) ltac:(apply u64_pos) t1000). rewrite (Rabs_pos_eq (Phi _)) in E by lra. exact E.
Qed.
Example C146_best_limits : limits best_exp best_log1p.
Proof. split; [reflexivity|]. intros x F E. unfold best_log1p. destruct (Req_EM_T (B2R x) (-1)); [reflexivity|contradiction]. Qed.
Example C146_best_constant : is_finite best_half_log = true /\ Rabs (B2R best_half_log - ln (2 * PI) / 2) <= 2 * u64 * 2.
Proof.
  assert (H := half_log_bound). destruct (nearest_val (ln (2 * PI) / 2)) as [F V]; [apply small_1020; rewrite Rabs_pos_eq; lra|]. split; [exact F|]. unfold best_half_log. rewrite V. assert (E := rnd_err (ln (2 * PI) / 2)).
  destruct u_small as (U0 & U1 & U2 & _). rewrite (Rabs_pos_eq (ln _ / 2)) in E by lra. nra.
Qed.
Lemma bounded_small (x : b64) : is_finite x = true -> Rabs (B2R x) <= 8 -> bounded_double x.
Proof. intros F H. split; [exact F|]. rewrite (pow_bpow 400). eapply Rle_trans; [exact H|]. change 8 with (bpow radix2 3). apply bpow_le. lia. Qed.
Lemma moderate_one : moderate one64.
Proof. destruct one_val as [F V]. split; [exact F|]. rewrite V. assert (1 <= 2 ^ 400) by (apply pow_R1_Rle; lra). split; [|lra]. rewrite <- Rinv_1. apply Rinv_le_contravar; lra. Qed.
Lemma met_eta : 0 <= 4 * u64 <= / 2 ^ 20.
Proof. destruct u_small as (U0 & U1 & _). split; [lra|]. replace (/ 2 ^ 20) with (/ 1048576) by (f_equal; simpl; lra). lra. Qed.
Lemma weaken_log log64 : log_accuracy log64 (2 * u64) -> log_accuracy log64 (4 * u64).
Proof. intros H x P. destruct (H x P) as [F E]. split; [exact F|]. assert (Q := Rabs_pos (ln (B2R x))). assert (U := u64_pos). nra. Qed.
(** The hypotheses of the accuracy theorem: a standard normal between -1 and 1, at 0. *)
Example C146_accuracy_met :
  let eta := 4 * u64 in let low := Bopp one64 in let high := one64 in let mu := zero64 in let sigma := one64 in let xx := zero64 in
  (0 <= eta <= / 2 ^ 20 /\ exp_accuracy best_exp eta /\ log_accuracy best_ln eta /\ log1p_accuracy best_log1p eta /\ ndtr_accuracy best_ndtr eta) /\
  (is_finite best_half_log = true /\ Rabs (B2R best_half_log - ln (2 * PI) / 2) <= eta) /\
  (bounded_double xx /\ bounded_double mu /\ bounded_double high /\ bounded_double low /\ moderate sigma) /\
  (B2R low <= B2R xx <= B2R high /\ Rabs ((B2R xx - B2R mu) / B2R sigma) <= 36 /\ B2R low <= B2R mu /\ / 2 ^ 900 <= (B2R high - B2R mu) / B2R sigma) /\
  (2 * eta + 15 * u64) / (Phi ((B2R high - B2R mu) / B2R sigma) - Phi ((B2R low - B2R mu) / B2R sigma)) <= / 4 /\
  / 2 ^ 1000 <= exact_truncnorm (B2R mu) (B2R sigma) (B2R high) (B2R low) (B2R xx) <= 2 ^ 1000.
Proof.
  cbv zeta. destruct one_val as [F1 V1]. assert (VO : B2R (Bopp one64) = - (1)) by (rewrite B2R_Bopp, V1; reflexivity). assert (FO : is_finite (Bopp one64) = true) by (rewrite is_finite_Bopp; exact F1). assert (VZ : B2R zero64 = 0) by reflexivity.
  destruct u_small as (U0 & U1 & U2 & U3 & _). rewrite VO, V1, VZ.
  split; [split; [apply met_eta|]; split; [|split; [|split]]|].
  - intros x F H. destruct (proj1 C146_best_exp x F H) as [A B]. split; [exact A|]. assert (Q := exp_pos (B2R x)). nra.
  - apply weaken_log, C146_best_log.
  - intros x F H. destruct (C146_best_log1p x F H) as [A B]. split; [exact A|]. assert (Q := Rabs_pos (ln (1 + B2R x))). clear U3. nra.
  - intros x F. destruct (proj1 C146_best_ndtr x F) as (A & N & B). split; [exact A|]. split; [exact N|]. assert (Q := Phi_gt_0 (B2R x)). clear U3. nra.
  - split; [destruct C146_best_constant as [A B]; split; [exact A|lra]|].
    split; [split; [|split; [|split; [|split; [|apply moderate_one]]]]; apply bounded_small; auto; rewrite ?VO, ?V1, ?VZ, ?Rabs_R0, ?Rabs_Ropp, ?Rabs_R1; lra|].
    assert (P900 : / 2 ^ 900 <= 1) by (rewrite <- Rinv_1; apply Rinv_le_contravar; [lra|apply pow_R1_Rle; lra]).
    replace ((0 - 0) / 1) with 0 by field. replace ((1 - 0) / 1) with 1 by field. replace ((- (1) - 0) / 1) with (- (1)) by field. rewrite Rabs_R0. split; [lra|].
    destruct (Phi_mvt (- (1)) 1) as (w & Hw & E). rewrite Rmin_left, Rmax_right in Hw by lra. assert (G := gauss_low w ltac:(apply Rabs_le_between; lra)). destruct (gauss_bounds w) as (_ & G1 & _). destruct (gauss_bounds 0) as (_ & G2 & _). assert (G3 := gauss_low 0 ltac:(rewrite Rabs_R0; lra)).
    assert (PB : / 4 <= Phi 1 - Phi (- (1)) <= 1) by (rewrite E; lra). split; [apply Rle_div_l; lra|].
    unfold exact_truncnorm. replace ((0 - 0) / 1) with 0 by field. replace ((1 - 0) / 1) with 1 by field. replace ((- (1) - 0) / 1) with (- (1)) by field. set (P := Phi 1 - Phi (- (1))) in *.
    assert (X : / 8 <= gauss 0 / 1 / P <= 2). { split; [apply Rle_div_r; lra|apply Rle_div_l; lra]. } assert (8 <= 2 ^ 1000) by (rewrite (pow_bpow 1000); change 8 with (bpow radix2 3); apply bpow_le; lia). assert (/ 2 ^ 1000 <= / 8) by (apply Rinv_le_contravar; lra). lra.
Qed.
(** Those of the refutation: limits at plus and minus 2^-61, at 0. *)
Example C146_narrow_met :
  let high := nearest (bpow radix2 (-61)) in let low := Bopp high in
  bounded_double high /\ bounded_double low /\ bounded_double zero64 /\ moderate one64 /\ log_accuracy best_ln (4 * u64) /\ limits best_exp best_log1p /\ correctly_rounded_ndtr best_ndtr /\
  B2R low <= B2R zero64 <= B2R high /\
  - / 2 ^ 60 <= (B2R low - B2R zero64) / B2R one64 <= 0 /\ / 2 ^ 900 <= (B2R high - B2R zero64) / B2R one64 <= / 2 ^ 60.
Proof.
  cbv zeta. set (high := nearest (bpow radix2 (-61))). assert (K := bpow_gt_0 radix2 (-61)). assert (K1 : bpow radix2 (-61) <= 1) by (change 1 with (bpow radix2 0); apply bpow_le; lia).
  destruct (nearest_val (bpow radix2 (-61))) as [F V]; [apply small_1020; rewrite Rabs_pos_eq; lra|]. fold high in F, V. rewrite rnd_double in V by (apply bd; lia).
  assert (FO : is_finite (Bopp high) = true) by (rewrite is_finite_Bopp; exact F). assert (VO : B2R (Bopp high) = - bpow radix2 (-61)) by (rewrite B2R_Bopp, V; reflexivity). destruct one_val as [F1 V1]. assert (VZ : B2R zero64 = 0) by reflexivity.
  split; [apply bounded_small; [exact F|rewrite V, Rabs_pos_eq; lra]|]. split; [apply bounded_small; [exact FO|rewrite VO, Rabs_Ropp, Rabs_pos_eq; lra]|]. split; [apply bounded_small; [reflexivity|rewrite VZ, Rabs_R0; lra]|]. split; [apply moderate_one|].
  split; [apply weaken_log, C146_best_log|]. split; [apply C146_best_limits|]. split; [apply C146_best_ndtr|]. rewrite VO, V, V1, VZ. rewrite (pow_bpow_inv 60), (pow_bpow_inv 900). change (- Z.of_nat 60)%Z with (-60)%Z. change (- Z.of_nat 900)%Z with (-900)%Z.
  replace ((- bpow radix2 (-61) - 0) / 1) with (- bpow radix2 (-61)) by field. replace ((bpow radix2 (-61) - 0) / 1) with (bpow radix2 (-61)) by field.
  assert (bpow radix2 (-61) <= bpow radix2 (-60)) by (apply bpow_le; lia). assert (bpow radix2 (-900) <= bpow radix2 (-61)) by (apply bpow_le; lia). lra.
Qed.
Definition best_log_ndtr (x : b64) : b64 := nearest (ln (Phi (B2R x))).
Lemma Phi_lower x : -40 <= x -> - 900 <= ln (Phi x) <= 0.
Proof.
  intros X. assert (P1 := Phi_lt_1 x). assert (P0 := Phi_gt_0 x). split; [|rewrite <- ln_1; apply ln_le; lra].
  assert (L : ln (Phi (-40)) <= ln (Phi x)). { apply ln_le; [apply Phi_gt_0|]. destruct X as [X|<-]; [|lra]. left. now apply Phi_incr. }
  assert (M := mills (-40) ltac:(lra)). assert (G0 := gauss_pos (-40)). assert (P40 := Phi_gt_0 (-40)). assert (LG : ln (gauss (-40)) <= ln (44 * Phi (-40))) by (apply ln_le; lra). rewrite ln_mult in LG by lra.
  assert (L44 : ln 44 <= 6). { apply Rle_trans with (ln (2 ^ 6)); [apply ln_le; simpl; lra|]. rewrite ln_pow by lra. assert (Q := ln2_le). simpl (INR 6). lra. }
  assert (LL : -802 <= ln (gauss (-40))).
  { unfold gauss. rewrite (ln_div _ _ (exp_pos _) s2pi_pos), ln_exp. assert (S := s2pi_ge). assert (ln (sqrt (2 * PI)) <= 2). { apply Rle_trans with (ln (2 ^ 2)); [apply ln_le; simpl; lra|]. rewrite ln_pow by lra. assert (Q := ln2_le). simpl (INR 2). lra. } lra. }
  lra.
Qed.
Example C146_best_log_ndtr : log_ndtr_accuracy best_log_ndtr (4 * u64).
Proof.
  intros x F A. apply Rabs_le_between in A. assert (B := Phi_lower (B2R x) ltac:(lra)). destruct (nearest_val (ln (Phi (B2R x)))) as [G V]; [apply small_1020; apply Rabs_le_between; lra|]. split; [exact G|]. unfold best_log_ndtr. rewrite V.
  assert (E := abs_small u64 (bpow radix2 (-1075)) _ (/ 2 ^ 1000) _ (rnd_err (ln (Phi (B2R x)))) ltac:(apply u64_pos) t1000). assert (Q := Rabs_pos (ln (Phi (B2R x)))). assert (U := u64_pos). assert (QQ : 0 <= u64 * Rabs (ln (Phi (B2R x)))) by nra. lra.
Qed.
(** The hypotheses of the two theorems on tails that are not in the examples above: a standard normal between -2 and -1, and between 1 and 2. *)
Lemma share_bound : / 16 <= (Phi (-1) - Phi (-2)) / Phi (-1).
Proof.
  destruct (Phi_mvt (-2) (-1)) as (w & Hw & E). rewrite Rmin_left, Rmax_right in Hw by lra. assert (P0 := Phi_gt_0 (-1)). apply Rle_div_r; [lra|].
  assert (PH : Phi (-1) < / 2) by (rewrite <- Phi_half; apply Phi_incr; lra). rewrite E. assert (G : / 32 <= gauss w).
  { unfold gauss. assert (S := s2pi_ge). assert (SP := s2pi_pos). assert (EE : / 8 <= exp (- (w * w) / 2)). { apply Rle_trans with (exp (- (2))); [|apply exp_le_; nra]. rewrite exp_Ropp. apply Rinv_le_contravar; [apply exp_pos|]. assert (Q := ln2_ge). replace 8 with (exp (ln 8)) by (apply exp_ln; lra). apply exp_le_. replace 8 with (2 ^ 3) by (simpl; lra). rewrite ln_pow by lra. simpl (INR 3). lra. }
    assert (/ 4 <= / sqrt (2 * PI)) by (apply Rinv_le_contravar; lra). unfold Rdiv at 1. replace (/ 32) with (/ 8 * / 4) by field. apply Rmult_le_compat; lra. }
  lra.
Qed.
Example C146_tails_met :
  let eta := 4 * u64 in let mu := zero64 in let sigma := one64 in let one := one64 in let two := int64 2 in
  log_ndtr_accuracy best_log_ndtr eta /\ bounded_double one /\ bounded_double two /\ bounded_double (Bopp one) /\ bounded_double (Bopp two) /\
  -36 <= (B2R (Bopp two) - B2R mu) / B2R sigma /\ B2R (Bopp one) <= B2R mu /\ / 2 ^ 900 <= (B2R one - B2R mu) / B2R sigma /\ (B2R two - B2R mu) / B2R sigma <= 36 /\
  (let P x := Phi ((x - B2R mu) / B2R sigma) in (21000 * u64 + 2700 * eta) / ((P (B2R (Bopp one)) - P (B2R (Bopp two))) / P (B2R (Bopp one))) <= / 4) /\
  (let Q x := 1 - Phi ((x - B2R mu) / B2R sigma) in (21000 * u64 + 2700 * eta) / ((Q (B2R one) - Q (B2R two)) / Q (B2R one)) <= / 4).
Proof.
  cbv zeta. destruct one_val as [F1 V1]. destruct (int64_val 2) as [F2 V2]; [lia|]. replace (INR 2) with 2 in V2 by (simpl; lra). rewrite !B2R_Bopp, V1, V2. change (B2R zero64) with 0.
  assert (S := share_bound). destruct u_small as (U0 & U1 & _). assert (P900 : / 2 ^ 900 <= 1) by (rewrite <- Rinv_1; apply Rinv_le_contravar; [lra|apply pow_R1_Rle; lra]).
  assert (B1 : bounded_double one64) by (apply bounded_small; [exact F1|rewrite V1, Rabs_pos_eq; lra]). assert (B2 : bounded_double (int64 2)) by (apply bounded_small; [exact F2|rewrite V2, Rabs_pos_eq; lra]).
  assert (B3 : bounded_double (Bopp one64)) by (apply bounded_small; [rewrite is_finite_Bopp; exact F1|rewrite B2R_Bopp, V1, Rabs_Ropp, Rabs_pos_eq; lra]). assert (B4 : bounded_double (Bopp (int64 2))) by (apply bounded_small; [rewrite is_finite_Bopp; exact F2|rewrite B2R_Bopp, V2, Rabs_Ropp, Rabs_pos_eq; lra]).
  replace ((-2 - 0) / 1) with (-2) by field. replace ((- (2) - 0) / 1) with (-2) by field. replace ((- (1) - 0) / 1) with (-1) by field. replace ((1 - 0) / 1) with 1 by field. replace ((2 - 0) / 1) with 2 by field.
  assert (L : (21000 * u64 + 2700 * (4 * u64)) / ((Phi (-1) - Phi (-2)) / Phi (-1)) <= / 4) by (apply Rle_div_l; lra).
  split; [apply C146_best_log_ndtr|]. repeat (split; [first [assumption|lra]|]). 
  replace (1 - Phi 1) with (Phi (-1)) by (replace (-1) with (- (1)) by ring; rewrite Phi_sym; ring). replace (1 - Phi 2) with (Phi (-2)) by (replace (-2) with (- (2)) by ring; rewrite Phi_sym; ring). exact L.
Qed.

