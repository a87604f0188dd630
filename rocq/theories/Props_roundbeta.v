(** Property theorems (roundbeta). Proofs are in [roundbeta_thms]; the vocabulary is in [Spec]. *)
From Coq Require Import Reals ZArith Lra Lia Psatz Bool.
From Coquelicot Require Import Coquelicot.
From Flocq Require Import Core BinarySingleNaN Relative.
From Coq Require Import List.
From Verif Require Import Xf Py Xf_facts Special Gauss_facts Utils_model Beta_facts Double Double_facts Rounded_model SpecRound SpecHyper RoundedPl_model RoundedBeta_model SpecRoundLogl SpecRoundTn SpecRoundBeta hyperb_thms round_thms roundpl_thms roundwin_thms roundll_thms roundtn_thms.
Import ListNotations.
Local Open Scope R_scope.
From Verif Require Import roundbeta_thms.

(** C150. Whatever doubles are passed, infinities and NaN included, the computed Beta density is a finite non-negative number: overflows and invalid operations are
    turned into finite numbers. Outside the limits it is 0. *)

Theorem C150_always_a_number :
  forall exp64 log64 betaln64 xx alpha beta scale, never_negative exp64 ->
  let computed := beta_dist64 exp64 log64 betaln64 xx alpha beta scale in
  is_finite computed = true /\ 0 <= B2R computed /\
  (is_finite xx = true -> is_finite scale = true -> B2R xx < 0 \/ B2R scale < B2R xx -> B2R computed = 0).
Proof. exact C150_always_a_number_pf. Qed.
Print Assumptions C150_always_a_number.

(** C150. Strictly between the limits, with a logarithm and an exponential of relative accuracy eta and a [betaln] that is off by at most e, the logarithm of the computed density differs
    from that of the exact density - which the model on real numbers returns - by at most (3 eta + 16 u) (1 + W) + e (u = 2^-53), where W adds up the sizes of the terms: nothing is lost to
    the point being close to a limit, other than through the size of the logarithms. *)

Theorem C150_accuracy :
  forall eta e exp64 log64 betaln64 xx alpha beta scale,
  0 <= eta <= / 2 ^ 20 -> exp_accuracy exp64 eta -> log_accuracy log64 eta ->
  positive_double alpha -> positive_double beta -> positive_double xx -> is_finite scale = true -> B2R xx < B2R scale -> B2R alpha + B2R beta <= 2 ^ 48 ->
  is_finite (betaln64 alpha beta) = true -> Rabs (B2R (betaln64 alpha beta) - ln (Beta_fun (B2R alpha) (B2R beta))) <= e ->
  let exact := exact_beta (B2R alpha) (B2R beta) (B2R scale) (B2R xx) in
  let computed := beta_dist64 exp64 log64 betaln64 xx alpha beta scale in
  let bound := (3 * eta + 16 * u64) * (1 + term_sizes (B2R alpha) (B2R beta) (B2R scale) (B2R xx)) + e in
  bound <= / 2 -> / 2 ^ 1000 <= exact <= 2 ^ 1000 ->
  is_finite computed = true /\ 0 < B2R computed /\
  beta_dist_body (Fin (B2R xx)) (Fin (B2R alpha)) (Fin (B2R beta)) (Fin (B2R scale)) = Fin exact /\
  Rabs (ln (B2R computed) - ln exact) <= bound.
Proof. exact C150_accuracy_pf. Qed.
Print Assumptions C150_accuracy.

(** C150 (claim: the computed density is accurate up to the limits of the interval) is false at the limits themselves: with alpha = 1 the density at 0 is 1 / (B(alpha, beta) scale), but 0 is returned, because 0 times
    the infinite logarithm is not a number, which [nan_to_num] replaces by 0. The same happens at the upper limit if beta = 1. *)

Theorem C150_limits_refuted :
  forall exp64 log64 betaln64 xx alpha beta scale, log_of_zero log64 -> exp_of_nan exp64 ->
  is_finite xx = true -> is_finite scale = true -> 0 < B2R scale -> positive_double alpha -> positive_double beta ->
  (B2R alpha = 1 /\ B2R xx = 0) \/ (B2R beta = 1 /\ B2R xx = B2R scale) ->
  let exact := exact_beta (B2R alpha) (B2R beta) (B2R scale) (B2R xx) in
  B2R (beta_dist64 exp64 log64 betaln64 xx alpha beta scale) = 0 /\ exact = / (Beta_fun (B2R alpha) (B2R beta) * B2R scale) /\ 0 < exact.
Proof. exact C150_limits_refuted_pf. Qed.
Print Assumptions C150_limits_refuted.

From Verif Require Import Beta_moments reduce_thms Props_roundtn.
(** With the functions that return the double nearest to the exact value, the hypotheses hold: alpha = 2, beta = 1 on [0, 1], at 1/2. *)
Definition best_betaln (a b : b64) : b64 := nearest (ln (Beta_fun (B2R a) (B2R b))).
Definition half64 : b64 := nearest (/ 2).
Lemma half_val : is_finite half64 = true /\ B2R half64 = / 2.
Proof.
  destruct (nearest_val (/ 2)) as [F V]; [apply small_1020; rewrite Rabs_pos_eq; lra|]. split; [exact F|]. unfold half64. rewrite V. apply rnd_double. change (/ 2) with (bpow radix2 (-1)). apply bd. lia.
Qed.
Lemma Beta_21 : Beta_fun 2 1 = / 2.
Proof. replace 2 with (1 + 1) at 1 by ring. rewrite Beta_rec by lra. rewrite Beta_11. field. Qed.
Example C150_met :
  let eta := 4 * u64 in let e := 4 * u64 in let alpha := int64 2 in let beta := one64 in let scale := one64 in let xx := half64 in
  (0 <= eta <= / 2 ^ 20 /\ exp_accuracy best_exp eta /\ log_accuracy best_ln eta /\ never_negative best_exp) /\
  (positive_double alpha /\ positive_double beta /\ positive_double xx /\ is_finite scale = true /\ B2R xx < B2R scale /\ B2R alpha + B2R beta <= 2 ^ 48) /\
  (is_finite (best_betaln alpha beta) = true /\ Rabs (B2R (best_betaln alpha beta) - ln (Beta_fun (B2R alpha) (B2R beta))) <= e) /\
  (3 * eta + 16 * u64) * (1 + term_sizes (B2R alpha) (B2R beta) (B2R scale) (B2R xx)) + e <= / 2 /\
  exact_beta (B2R alpha) (B2R beta) (B2R scale) (B2R xx) = 1.
Proof.
  cbv zeta. destruct one_val as [F1 V1]. destruct (int64_val 2) as [F2 V2]; [lia|]. replace (INR 2) with 2 in V2 by (simpl; lra). destruct half_val as [Fh Vh]. destruct u_small as (U0 & U1 & U2 & _).
  assert (LH : ln (/ 2) = - ln 2) by (apply ln_Rinv; lra). assert (L2 := ln2_le). assert (AH : Rabs (- ln 2) <= 1) by (rewrite Rabs_Ropp, Rabs_pos_eq; lra).
  split; [split; [apply met_eta|]; split; [|split; [apply weaken_log, C146_best_log|apply C146_best_exp]]|].
  { intros x F H. destruct (proj1 C146_best_exp x F H) as [A B]. split; [exact A|]. assert (Q := exp_pos (B2R x)). assert (QQ : 0 <= u64 * exp (B2R x)) by (apply Rmult_le_pos; lra). lra. }
  assert (P48 : 2 + 1 <= 2 ^ 48) by (apply Rle_trans with (2 ^ 2); [simpl; lra|apply Rle_pow; [lra|lia]]).
  split; [unfold positive_double; rewrite V2, V1, Vh; repeat split; auto; lra|].
  split.
  { unfold best_betaln. rewrite V2, V1, Beta_21, LH. destruct (nearest_val (- ln 2)) as [F V]; [apply small_1020; lra|]. split; [exact F|]. rewrite V. assert (E := rnd_err (- ln 2)). assert (Q := u_le_const 1 _ AH). lra. }
  split.
  { unfold term_sizes. rewrite V2, V1, Vh, Beta_21, LH, ln_1, Rabs_R0. replace (1 - / 2) with (/ 2) by field. rewrite LH. replace (2 - 1) with 1 by ring. replace (1 - 1) with 0 by ring. rewrite Rabs_R0, Rabs_R1. set (A := Rabs (- ln 2)) in *. assert (A0 : 0 <= A) by apply Rabs_pos.
    apply Rle_trans with ((3 * (4 * u64) + 16 * u64) * 3 + 4 * u64); [|lra]. apply Rplus_le_compat_r, Rmult_le_compat_l; lra. }
  unfold exact_beta. rewrite V2, V1, Vh, Beta_21. replace (2 - 1) with 1 by ring. replace (1 - 1) with 0 by ring. rewrite Rpower_1 by lra. unfold Rpower. rewrite ln_1, !Rmult_0_l, Rmult_0_r, exp_0. field.
Qed.
(** And those of the refutation: the uniform density at 0. *)
Definition best_ln0 (x : b64) : b64 := if Req_EM_T (B2R x) 0 then B754_infinity true else best_ln x.
Example C150_limits_met : log_of_zero best_ln0 /\ exp_of_nan best_exp /\ is_finite zero64 = true /\ is_finite one64 = true /\ 0 < B2R one64 /\ positive_double one64 /\ B2R one64 = 1 /\ B2R zero64 = 0.
Proof.
  destruct one_val as [F1 V1]. split; [intros x F E; unfold best_ln0; destruct (Req_EM_T (B2R x) 0); [reflexivity|contradiction]|]. unfold positive_double. rewrite V1. repeat split; auto; lra.
Qed.

