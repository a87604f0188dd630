(** Property theorems (roundconv). Proofs are in [roundconv_thms]; the vocabulary is in [Spec]. *)
From Coq Require Import Reals ZArith Lra Lia Psatz Bool.
From Coquelicot Require Import Coquelicot.
From Flocq Require Import Core BinarySingleNaN Relative.
From Coq Require Import List.
From Verif Require Import Xf Py Xf_facts Conversions_model Double Double_facts Rounded_model SpecRound RoundedPl_model RoundedConv_model SpecConv Conversions_facts SpecRoundConv round_thms roundpl_thms roundwin_thms roundtn_thms conv_thms.
Import ListNotations.
Local Open Scope R_scope.
From Verif Require Import roundconv_thms.

(** C147: in double precision, whatever alpha, beta and amax between 2^-100 and 2^100, the mean is off by a factor of at most 3 and the variance by one of at most 10 roundings.
    The exact values are the ones the model on real numbers returns. *)

Theorem C147_mean_variance :
  forall alpha beta amax pa pb pm, between 100 alpha -> between 100 beta -> between 100 amax ->
  let mean := beta_mean (B2R alpha) (B2R beta) (B2R amax) in let variance := beta_variance (B2R alpha) (B2R beta) (B2R amax) in
  (exists vmu vvar, alpha_beta_max_to_mu_var_max (Sc (Fin (B2R alpha)) pa) (Sc (Fin (B2R beta)) pb) (Sc (Fin (B2R amax)) pm) = Ok (vmu, vvar, Sc (Fin (B2R amax)) pm) /\
                    is_num vmu mean /\ is_num vvar variance) /\
  0 < mean /\ 0 < variance /\
  positive_double (mu_of64 alpha beta amax) /\ positive_double (var_of64 alpha beta amax) /\
  Rabs (ln (B2R (mu_of64 alpha beta amax)) - ln mean) <= 3 * (u64 / (1 - u64)) /\
  Rabs (ln (B2R (var_of64 alpha beta amax)) - ln variance) <= 10 * (u64 / (1 - u64)).
Proof. exact C147_mean_variance_pf. Qed.
Print Assumptions C147_mean_variance.

(** C147: in double precision, the other way round, whatever 0 < mu < amax and var. [m] and [v] are the mean and variance on the unit interval. The errors are absolute ones: alpha and beta are
    differences, which may cancel. Away from the edge of the feasible region (where one of the exact parameters vanishes) the signs are right. *)

Theorem C147_alpha_beta :
  forall mu var amax qm qv qa s, between 150 mu -> between 150 var -> between 150 amax -> B2R mu < B2R amax ->
  let alpha := beta_alpha (B2R mu) (B2R var) (B2R amax) in let beta := beta_beta (B2R mu) (B2R var) (B2R amax) in
  let m := B2R mu / B2R amax in let v := B2R var / B2R amax ^ 2 in
  let err_alpha := 24 * u64 * (m ^ 2 / v + m) in let err_beta := 24 * u64 * (m / v + 1) in
  let alpha' := B2R (alpha_of64 mu var amax) in let beta' := B2R (beta_of64 mu var amax) in
  (exists va vb, mu_var_max_to_alpha_beta_max (VNum (Fin (B2R mu)) qm) (VNum (Fin (B2R var)) qv) (VNum (Fin (B2R amax)) qa) s = (s, Ok (va, vb)) /\ is_num va alpha /\ is_num vb beta) /\
  is_finite (alpha_of64 mu var amax) = true /\ is_finite (beta_of64 mu var amax) = true /\
  Rabs (alpha' - alpha) <= err_alpha /\ Rabs (beta' - beta) <= err_beta /\
  (err_alpha < alpha -> err_beta < beta -> 0 < alpha' /\ 0 < beta') /\
  (alpha < - err_alpha -> alpha' < 0) /\ (beta < - err_beta -> beta' < 0).
Proof. exact C147_alpha_beta_pf. Qed.
Print Assumptions C147_alpha_beta.

(** C147: the round trip from alpha and beta in double precision. *)

Theorem C147_round_trip :
  forall alpha beta amax, between 20 alpha -> between 20 beta -> between 20 amax ->
  let mu := mu_of64 alpha beta amax in let var := var_of64 alpha beta amax in
  let a := B2R alpha in let b := B2R beta in
  is_finite (alpha_of64 mu var amax) = true /\ is_finite (beta_of64 mu var amax) = true /\
  Rabs (B2R (alpha_of64 mu var amax) - a) <= 80 * u64 * (a * (a + b + 1) / b) /\
  Rabs (B2R (beta_of64 mu var amax) - b) <= 80 * u64 * ((a + b) * (a + b + 1) / b).
Proof. exact C147_round_trip_pf. Qed.
Print Assumptions C147_round_trip.

(** C147: at the edge of the feasible region the signs can go wrong in both directions (amax = 1): mean and variance that no beta distribution has give two positive parameters, and ones that a beta
    distribution has give alpha = 0 and a negative beta. *)

Theorem C147_admissible_refuted :
  (exists mu var, between 150 mu /\ between 150 var /\ B2R mu < 1 /\ beta_alpha (B2R mu) (B2R var) 1 < 0 /\ beta_beta (B2R mu) (B2R var) 1 < 0 /\
                  0 < B2R (alpha_of64 mu var one64) /\ 0 < B2R (beta_of64 mu var one64)) /\
  (exists mu var, between 150 mu /\ between 150 var /\ B2R mu < 1 /\ 0 < beta_alpha (B2R mu) (B2R var) 1 /\ 0 < beta_beta (B2R mu) (B2R var) 1 /\
                  B2R (alpha_of64 mu var one64) = 0 /\ B2R (beta_of64 mu var one64) < 0).
Proof. exact C147_admissible_refuted_pf. Qed.
Print Assumptions C147_admissible_refuted.

(** Non-vacuity: all parameters 1; mean 1/2 and variance 1/16 on (0, 1), where both exact parameters are 3/2, far above the error bounds. *)
Definition half_64 : b64 := @B754_finite 53 1024 false 4503599627370496 (-53) eq_refl.
Definition sixteenth_64 : b64 := @B754_finite 53 1024 false 4503599627370496 (-56) eq_refl.
Example C147_one : forall B, between B one64.
Proof. intros B. destruct one_val as [F V]. split; [exact F|]. rewrite V. assert (1 <= 2 ^ B) by (apply pow_R1_Rle; lra). split; [|lra]. rewrite <- Rinv_1. apply Rinv_le_contravar; lra. Qed.
Example C147_alpha_beta_met :
  between 150 half_64 /\ between 150 sixteenth_64 /\ between 150 one64 /\ B2R half_64 < B2R one64 /\
  let m := B2R half_64 / B2R one64 in let v := B2R sixteenth_64 / B2R one64 ^ 2 in
  24 * u64 * (m ^ 2 / v + m) < beta_alpha (B2R half_64) (B2R sixteenth_64) (B2R one64) /\ 24 * u64 * (m / v + 1) < beta_beta (B2R half_64) (B2R sixteenth_64) (B2R one64).
Proof.
  assert (P := pow_up 5 150 ltac:(lia)). replace (2 ^ 5) with 32 in P by (simpl; lra). destruct P as [P1 P2]. destruct u_small as (U0 & U1 & _).
  assert (Vm : B2R half_64 = / 2). { change (B2R half_64) with (4503599627370496 * / 9007199254740992). lra. }
  assert (Vv : B2R sixteenth_64 = / 16). { change (B2R sixteenth_64) with (4503599627370496 * / 72057594037927936). lra. }
  destruct one_val as [F V]. rewrite V, Vm, Vv. split; [split; [reflexivity|rewrite Vm; lra]|]. split; [split; [reflexivity|rewrite Vv; lra]|]. split; [apply C147_one|]. split; [lra|].
  cbv zeta. unfold beta_alpha, beta_beta. cbv zeta. lra.
Qed.

