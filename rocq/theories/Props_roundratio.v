(** Property theorems (roundratio). Proofs are in [roundratio_thms]; the vocabulary is in [Spec]. *)
From Coq Require Import Reals ZArith Lra Lia Psatz Bool String.
From Coquelicot Require Import Coquelicot.
From Flocq Require Import Core BinarySingleNaN Relative.
From Coq Require Import List.
From Verif Require Import Xf Py Xf_facts Py_facts Double Double_facts Rounded_model SpecRound RoundedPl_model SpecRoundPl Utils_model Powerlaw_facts Mass_model RoundedTn_model RoundedMix_model RoundedRatio_model SpecRoundMix round_thms roundpl_thms roundll_thms roundwin_thms roundtn_thms roundtrap_thms roundrate_thms roundmix_thms roundsmooth_thms roundjoint_thms.
Import ListNotations.
Local Open Scope R_scope.
From Verif Require Import roundratio_thms.

(** C157. Outside the support: a mass ratio above 1, or below mmin / m1 and not the double nearest to mmin / m1, gets no density, whatever the library functions return. (Not-a-number arises when the power
    or the normalisation is not finite; C157_accuracy says when they are.) *)

Theorem C157_outside :
  forall pow log64 m1 q beta mmin, moderate mmin -> moderate m1 -> is_finite q = true ->
  let ratio := B2R mmin / B2R m1 in
  let computed := mass_ratio64 pow log64 m1 q beta mmin in
  1 < B2R q \/ (B2R q < ratio /\ B2R q <> rnd64 ratio) -> (exists s, computed = B754_zero s) \/ computed = B754_nan.
Proof. exact C157_outside_pf. Qed.
Print Assumptions C157_outside.

(** C157. Inside the exact support the computed density is finite and positive, and its logarithm differs from that of the exact density by the error of the power law with the rounded limit (C117)
    plus twice the effect of rounding that limit, |1 + beta| u / (1 - u) times the amplification, as long as these amplified errors are at most 1/4. *)

Theorem C157_accuracy :
  forall (n : nat) bk pow log64 m1 q beta mmin, (1 <= n)%nat -> accurate n pow -> moderate mmin -> moderate m1 -> moderate q -> is_finite beta = true -> B2R beta <> -1 -> Rabs (B2R beta) <= 1000 ->
  let ratio := B2R mmin / B2R m1 in let low := B2R (Bdiv mode_NE mmin m1) in
  / 2 ^ 400 <= low < 1 -> ratio < 1 -> ratio <= B2R q <= 1 ->
  let e := 1 + B2R beta in let L := Rpower low e in
  / 2 ^ 400 <= L <= 2 ^ 400 -> / 2 ^ 400 <= Rpower (B2R q) (B2R beta) <= 2 ^ 400 ->
  let delta := u64 * Rabs (ln L) + INR n * (u64 / (1 - u64)) in
  let lost := amplification (B2R beta) 1 low * (exp delta - 1) in
  let shift := Rabs e * (u64 / (1 - u64)) * ((Rpower ratio e + L) / Rabs (1 - L)) in
  lost <= / 4 -> shift <= / 4 ->
  let exact := exact_powerlaw (B2R beta) 1 ratio (B2R q) in
  let computed := mass_ratio64 pow log64 m1 q beta mmin in
  mass_ratio_factor bk (Fin (B2R m1)) (Fin (B2R q)) (Fin (B2R beta)) (Fin (B2R mmin)) = Ok (Fin exact) /\
  is_finite computed = true /\ 0 < B2R computed /\ 0 < exact /\
  Rabs (ln (B2R computed) - ln exact) <= (INR n + 4) * (u64 / (1 - u64)) + 2 * lost + 2 * shift.
Proof. exact C157_accuracy_pf. Qed.
Print Assumptions C157_accuracy.

(** C157, slope exactly -1: the branch with the logarithm. Rounding the lower limit costs as much as rounding the quotient of the limits. *)

Theorem C157_log_slope :
  forall (n : nat) bk pow log64 m1 q beta mmin, INR n <= 2 ^ 40 -> accurate n pow -> accurate_log n log64 -> moderate mmin -> moderate m1 -> moderate q -> is_finite beta = true -> B2R beta = -1 ->
  let ratio := B2R mmin / B2R m1 in let low := B2R (Bdiv mode_NE mmin m1) in
  / 2 ^ 400 <= low < 1 -> ratio < 1 -> ratio <= B2R q <= 1 ->
  let lost := (u64 / (1 - u64)) / ln (1 / low) in lost <= / 4 ->
  let exact := exact_log_uniform 1 ratio (B2R q) in
  let computed := mass_ratio64 pow log64 m1 q beta mmin in
  mass_ratio_factor bk (Fin (B2R m1)) (Fin (B2R q)) (Fin (B2R beta)) (Fin (B2R mmin)) = Ok (Fin exact) /\
  is_finite computed = true /\ 0 < B2R computed /\ 0 < exact /\
  Rabs (ln (B2R computed) - ln exact) <= (2 * INR n + 2) * (u64 / (1 - u64)) + 4 * lost.
Proof. exact C157_log_slope_pf. Qed.
Print Assumptions C157_log_slope.

(** C157. The exception does occur: for a correctly rounded power function, mmin = 1, m1 = 3 and the double nearest to 1/3, which is smaller than 1/3, the
    computed density is positive; in exact arithmetic it is zero. *)

Theorem C157_exception_occurs :
  forall pow log64, accurate 1 pow ->
  let mmin := one64 in let m1 := int64 3 in let q := Bdiv mode_NE one64 (int64 3) in let beta := one64 in
  B2R q * B2R m1 < B2R mmin /\ mass_ratio_factor Jax (Fin (B2R m1)) (Fin (B2R q)) (Fin (B2R beta)) (Fin (B2R mmin)) = Ok (Fin 0) /\
  is_finite (mass_ratio64 pow log64 m1 q beta mmin) = true /\ 0 < B2R (mass_ratio64 pow log64 m1 q beta mmin).
Proof. exact C157_exception_occurs_pf. Qed.
Print Assumptions C157_exception_occurs.

(** C157. Primary mass and mass ratio together: the errors of the two factors and one more rounding. *)

Theorem C157_mass_and_ratio :
  forall bk pow exp64 log64 log1p64 ndtr64 log_ndtr64 c m1 q alpha beta mmin mmax lam mpp sigpp gmax p g r d e,
  fraction_double lam -> density_real p -> density_real g -> density_real r -> 0 <= d -> 0 <= e -> d + e <= / 8 ->
  powerlaw bk pl_kw (Fin (B2R m1)) (Fin (- B2R alpha)) (Fin (B2R mmax)) (Fin (B2R mmin)) = Ok (Fin p) ->
  truncnorm bk tn_kw (Fin (B2R m1)) (Fin (B2R mpp)) (Fin (B2R sigpp)) (Fin (B2R gmax)) (Fin (B2R mmin)) = Ok (Fin g) ->
  mass_ratio_factor bk (Fin (B2R m1)) (Fin (B2R q)) (Fin (B2R beta)) (Fin (B2R mmin)) = Ok (Fin r) ->
  approximates d 0 p (powerlaw64 pow log64 m1 (Bopp alpha) mmax mmin) -> approximates d 0 g (truncnorm64 exp64 log64 log1p64 ndtr64 log_ndtr64 c m1 mpp sigpp gmax mmin) ->
  approximates e 0 r (mass_ratio64 pow log64 m1 q beta mmin) ->
  let exact := ((1 - B2R lam) * p + B2R lam * g) * r in
  two_component_primary_mass_ratio bk (Fin (B2R m1)) (Fin (B2R q)) (Fin (B2R alpha)) (Fin (B2R beta)) (Fin (B2R mmin)) (Fin (B2R mmax)) (Fin (B2R lam)) (Fin (B2R mpp)) (Fin (B2R sigpp)) (Fin (B2R gmax)) = Ok (Fin exact) /\
  approximates (d + e + 8 * u64) (/ 2 ^ 280) exact (two_component_ratio64 pow exp64 log64 log1p64 ndtr64 log_ndtr64 c m1 q alpha beta mmin mmax lam mpp sigpp gmax).
Proof. exact C157_mass_and_ratio_pf. Qed.
Print Assumptions C157_mass_and_ratio.

From Verif Require Import Props_roundpl Props_roundtn Props_roundmix Props_roundsmooth.
Lemma half_limit : B2R (Bdiv mode_NE one64 (int64 2)) = / 2 /\ moderate one64 /\ moderate (int64 2).
Proof.
  destruct one_val as [O1 O2]. destruct two_val as [T1 T2]. assert (P400 := pow2_inv_pos 400). assert (E4 : 4 <= 2 ^ 400) by (apply Rle_trans with (2 ^ 2); [simpl; lra|apply Rle_pow; [lra|lia]]). assert (I4 : / 2 ^ 400 <= / 4) by (apply Rinv_le_contravar; lra).
  assert (M1 : moderate one64) by (split; [exact O1|rewrite O2; lra]). assert (M2 : moderate (int64 2)) by (split; [exact T1|rewrite T2; lra]). split; [|split; assumption]. destruct (ratio_val _ _ M1 M2) as (_ & _ & V). rewrite V, O2, T2.
  replace (1 / 2) with (bpow radix2 (-1)) by (simpl; lra). rewrite rnd_double by (apply bd; lia). simpl; lra.
Qed.
(** A primary of two minimal masses: with slope one the density at equal masses is 8/3, and the computed one is accurate. *)
Lemma ratio_at : mass_ratio_factor Jax (Fin (B2R (int64 2))) (Fin (B2R one64)) (Fin (B2R one64)) (Fin (B2R one64)) = Ok (Fin (8 / 3)) /\
  approximates (1000 * u64) 0 (8 / 3) (mass_ratio64 best_pow best_ln (int64 2) one64 one64 one64).
Proof.
  destruct half_limit as (HL & M1 & M2). destruct one_val as [O1 O2]. destruct two_val as [T1 T2]. destruct u_small as (U0 & U1 & _). assert (V := v64_facts). assert (P400 := pow2_inv_pos 400). assert (E4 : 4 <= 2 ^ 400) by (apply Rle_trans with (2 ^ 2); [simpl; lra|apply Rle_pow; [lra|lia]]). assert (I4 : / 2 ^ 400 <= / 4) by (apply Rinv_le_contravar; lra).
  assert (RP : Rpower (/ 2) (1 + 1) = / 4) by (rewrite Rpower_plus, Rpower_1 by lra; field).
  assert (K := C157_accuracy 1 Jax best_pow best_ln (int64 2) one64 one64 one64 (le_n 1) (correct_accurate _ best_pow_correct) M1 M2 M1 O1). cbv zeta in K. rewrite HL, O2, T2 in K. replace (1 / 2) with (/ 2) in K by field. rewrite RP, Rpower_1, Rabs_R1 in K by lra. fold v64 in K. change (INR 1) with 1 in K.
  assert (LX : Rabs (ln (/ 4)) <= 16) by (apply ln_abs_le; lra). set (delta := u64 * Rabs (ln (/ 4)) + 1 * v64) in *. assert (DB : 0 <= delta <= 18 * u64). { unfold delta. assert (Q := Rabs_pos (ln (/ 4))). assert (0 <= u64 * Rabs (ln (/ 4)) <= u64 * 16) by (split; [apply Rmult_le_pos; lra|apply Rmult_le_compat_l; lra]). lra. }
  assert (EX : 0 <= exp delta - 1 <= 36 * u64). { split; [assert (E := exp_ineq1_le delta); lra|]. assert (E := exp_ineq1_le (- delta)). rewrite exp_Ropp in E. assert (P := exp_pos delta). assert (exp delta * (1 + - delta) <= 1) by (apply (Rmult_le_compat_l (exp delta)) in E; [rewrite Rinv_r in E by lra; lra|lra]). assert (exp delta * delta <= exp delta * / 2) by (apply Rmult_le_compat_l; lra). assert (exp delta * delta <= 2 * delta) by (apply Rmult_le_compat_r; lra). lra. }
  assert (AM : amplification 1 1 (/ 2) = 5 / 3). { unfold amplification. rewrite RP, Rpower_one_base, Rabs_pos_eq by lra. field. }
  rewrite AM in K. assert (EE : exact_powerlaw 1 1 (/ 2) 1 = 8 / 3). { unfold exact_powerlaw. rewrite RP, !Rpower_one_base. field. } rewrite EE in K.
  rewrite (Rabs_pos_eq (1 + 1)), (Rabs_pos_eq (1 - / 4)) in K by lra. assert (VB : 0 < v64 <= 2 * u64) by lra. 
  destruct K as (K1 & K2 & K3 & _ & K5); try lra. rewrite O2, T2. split; [exact K1|]. apply logs_approx; [lra|exact K2|exact K3|]. lra.
Qed.
(** The same primary: a mass ratio above one and one below the limit get no density; and the joint density with the two-component primary. *)
Example C157_met : forall lam, fraction_double lam ->
  (B2R (int64 2) > 1 /\ B2R (Bdiv mode_NE (Bdiv mode_NE one64 (int64 2)) (int64 2)) < B2R one64 / B2R (int64 2) /\ B2R (Bdiv mode_NE (Bdiv mode_NE one64 (int64 2)) (int64 2)) <> rnd64 (B2R one64 / B2R (int64 2))) /\
  exists g, 0 < g /\
  approximates (14000 * u64 + 8 * u64) (/ 2 ^ 280) (((1 - B2R lam) * (4 / 3) + B2R lam * g) * (8 / 3))
    (two_component_ratio64 best_pow best_exp best_ln best_log1p best_ndtr best_log_ndtr best_half_log (int64 2) one64 (Bopp one64) one64 one64 (int64 2) lam one64 one64 (int64 2)).
Proof.
  intros lam HF. destruct half_limit as (HL & M1 & M2). destruct one_val as [O1 O2]. destruct two_val as [T1 T2]. destruct u_small as (U0 & U1 & _). split.
  - assert (MH : moderate (Bdiv mode_NE one64 (int64 2))). { destruct (ratio_val _ _ M1 M2) as (F & _ & _). split; [exact F|]. destruct M1 as [_ M1]. destruct M2 as [_ M2]. rewrite O2 in M1. rewrite T2 in M2. rewrite HL. assert (I4 : / 2 ^ 400 <= / 4). { apply Rinv_le_contravar; [lra|]. apply Rle_trans with (2 ^ 2); [simpl; lra|apply Rle_pow; [lra|lia]]. } lra. }
    destruct (ratio_val _ _ MH M2) as (_ & _ & V). destruct (ratio_val _ _ M1 M2) as (_ & _ & W). rewrite <- W, V, HL, O2, T2. replace (/ 2 / 2) with (bpow radix2 (-2)) by (simpl; lra). rewrite rnd_double by (apply bd; lia). simpl. lra.
  - destruct peak_at_end as (g & B1 & R1 & A1). destruct (power_at (int64 2) 2 T1 ltac:(lra) T2) as [R3 A3]. replace (2 / 3 * 2) with (4 / 3) in * by field. destruct ratio_at as [R4 A4].
    assert (P200 : 128 <= 2 ^ 200) by (apply Rle_trans with (2 ^ 7); [simpl; lra|apply Rle_pow; [lra|lia]]). assert (DR : forall p, 0 <= p <= 8 -> density_real p) by (intros p Hp; split; lra).
    exists g. split; [lra|]. replace (14000 * u64 + 8 * u64) with (13000 * u64 + 1000 * u64 + 8 * u64) by ring.
    apply (C157_mass_and_ratio Jax best_pow best_exp best_ln best_log1p best_ndtr best_log_ndtr best_half_log (int64 2) one64 (Bopp one64) one64 one64 (int64 2) lam one64 one64 (int64 2) (4 / 3) g (8 / 3)); auto; try (apply DR; lra); lra.
Qed.
(** Slope -1 at the same primary mass: the density at equal masses is 1 / ln 2. *)
Example C157_log_slope_met : exists log, accurate_log 1 log /\
  let computed := mass_ratio64 best_pow log (int64 2) one64 (Bopp one64) one64 in
  is_finite computed = true /\ 0 < B2R computed /\ Rabs (ln (B2R computed) - ln (/ ln 2)) <= 40 * u64.
Proof.
  destruct C117_log_slope_hyps as (log & AL & _). exists log. split; [exact AL|]. intros computed. destruct half_limit as (HL & M1 & M2). destruct one_val as [O1 O2]. destruct two_val as [T1 T2]. destruct u_small as (U0 & U1 & _). assert (V := v64_facts).
  assert (P400 := pow2_inv_pos 400). assert (E4 : 4 <= 2 ^ 400) by (apply Rle_trans with (2 ^ 2); [simpl; lra|apply Rle_pow; [lra|lia]]). assert (I4 : / 2 ^ 400 <= / 4) by (apply Rinv_le_contravar; lra).
  assert (L2 : / 2 <= ln 2). { rewrite <- (ln_exp (/ 2)). apply ln_le; [apply exp_pos|]. assert (E3 := exp_le_3). replace 1 with (/ 2 + / 2) in E3 by field. rewrite exp_plus in E3. assert (P := exp_pos (/ 2)). nra. }
  assert (N1 : INR 1 <= 2 ^ 40) by (change (INR 1) with 1; apply pow_R1_Rle; lra). assert (FB : is_finite (Bopp one64) = true) by (rewrite is_finite_Bopp; exact O1). assert (VB : B2R (Bopp one64) = -1) by (rewrite B2R_Bopp, O2; lra).
  assert (K := C157_log_slope 1 Jax best_pow log (int64 2) one64 (Bopp one64) one64 N1 (correct_accurate _ best_pow_correct) AL M1 M2 M1 FB VB). cbv zeta in K. fold computed in K. rewrite HL, O2, T2 in K. unfold exact_log_uniform in K. replace (1 / (1 / 2)) with 2 in K by field. replace (1 / / 2) with 2 in K by field. rewrite Rinv_1, Rmult_1_r in K. fold v64 in K. change (INR 1) with 1 in K.
  assert (LO : v64 / ln 2 <= 4 * u64) by (apply Rle_div_l; nra). destruct K as (_ & K1 & K2 & _ & K3); try lra. split; [exact K1|]. split; [exact K2|]. lra.
Qed.

