(** Property theorems (hyperb). Proofs are in [hyperb_thms]; the vocabulary is in [Spec]. *)
From Coq Require Import Reals ZArith Lra Lia Psatz String Bool.
From Coquelicot Require Import Coquelicot.
From Flocq Require Import Core BinarySingleNaN.
From Coq Require Import List.
From Verif Require Import Xf Py Xf_facts Py_facts Np Vt_model vt_thms Hyperpe_model SpecHyper Double Double_facts hypera_thms.
Import ListNotations.
Local Open Scope R_scope.
From Verif Require Import hyperb_thms.

(** C60. The exact condition: above the threshold a finite (double) estimator gives the most negative double if and only if it is smaller than 2^970. *)
Theorem C60_exact :
  forall bk prob sel conv L parameters x variance, ln_likelihood_and_variance bk prob sel conv L parameters = Ok (Fin x, variance) ->
  flt (li_maxu L) variance = true -> is_double x ->
  (log_likelihood_ratio bk prob sel conv L parameters = Ok (Fin (- MAXF)) <-> x < 2 ^ 970).
Proof. exact C60_exact_pf. Qed.
Print Assumptions C60_exact.

(** C60 (refuted for an infinite estimator). A vanishing detection probability with a positive variance has an infinite variance, which exceeds every finite
    threshold; yet the sample is not rejected: MAX - MAX = 0 is returned, whatever the data. *)
Theorem C60_infinite_estimator_refuted :
  forall bk prob sel conv L parameters converted W v u, li_kind L = Hyper -> (0 < li_n L)%nat -> conv parameters = Ok converted ->
  weights_are prob L converted W -> positive_weights L W -> sel converted = Ok (ValueAndVariance (Fin 0) (Fin v)) -> 0 < v -> li_maxu L = Fin u ->
  ln_likelihood_and_variance bk prob sel conv L parameters = Ok (PInf, PInf) /\ flt (li_maxu L) PInf = true /\
  log_likelihood_ratio bk prob sel conv L parameters = Ok (Fin 0).
Proof. exact C60_infinite_estimator_refuted_pf. Qed.
Print Assumptions C60_infinite_estimator_refuted.

Definition ex_Lb (k : kind) (u : xf) : likelihood := {| li_kind := k; li_data := [("x"%string, [[Fin 1; Fin 2]; [Fin 3; Fin 4]])]; li_prior := None;
  li_noise := NaN; li_n := 2; li_samples := 2; li_maxu := u; li_max_variance := fsq u |}.
Definition ex_probb (d : dict matrix) (p : dict xf) : result matrix := dlookup "x" d.
Example C60_hyps : weights_are ex_probb (ex_Lb Hyper (Fin 1)) [] [[1; 2]; [3; 4]] /\ positive_weights (ex_Lb Hyper (Fin 1)) [[1; 2]; [3; 4]].
Proof. split; [exists [[1; 2]; [3; 4]]; split; reflexivity|]. split; [simpl; lia|]. repeat constructor; lra. Qed.

(** C61 (refuted). With threshold u (positive, not 1) and uncertainty sqrt(variance): for u < 1 a sample of uncertainty sqrt u > u is accepted (its estimator is returned); for u > 1
    a sample of uncertainty exactly u is rejected. *)
Theorem C61_standard_deviation_refuted :
  forall bk prob sel conv L parameters x u, li_maxu L = Fin u -> 0 < u -> is_double x -> x < 2 ^ 970 ->
  (u < 1 -> ln_likelihood_and_variance bk prob sel conv L parameters = Ok (Fin x, Fin u) ->
     u < sqrt u /\ log_likelihood_ratio bk prob sel conv L parameters = Ok (Fin x)) /\
  (1 < u -> ln_likelihood_and_variance bk prob sel conv L parameters = Ok (Fin x, Fin (u ^ 2)) ->
     sqrt (u ^ 2) = u /\ log_likelihood_ratio bk prob sel conv L parameters = Ok (Fin (- MAXF))).
Proof. exact C61_standard_deviation_refuted_pf. Qed.
Print Assumptions C61_standard_deviation_refuted.

(** C61. The comparison of the code (threshold < variance) agrees with comparing the standard deviation for every variance exactly when the threshold is 0, 1 or infinite. *)
Theorem C61_agreement_partial :
  forall u, (forall r, u = Fin r -> 0 <= r) -> u <> NInf -> u <> NaN ->
  ((forall s, 0 <= s -> flt u (Fin s) = flt u (Fin (sqrt s))) <-> u = Fin 0 \/ u = Fin 1 \/ u = PInf).
Proof. exact C61_agreement_partial_pf. Qed.
Print Assumptions C61_agreement_partial.

Example C61_hyps : exists u : R, 0 < u < 1. Proof. exists (1/2). lra. Qed.

(** C62 (refuted). A vanishing detection probability reported with variance 0 gives a NaN variance, which no threshold rejects: the best possible likelihood, the largest double, is
    returned. *)
Theorem C62_nan_variance_refuted :
  forall bk prob sel conv L parameters converted W, li_kind L = Hyper -> (0 < li_n L)%nat -> conv parameters = Ok converted ->
  weights_are prob L converted W -> positive_weights L W ->
  (sel converted = Ok (ValueAndVariance (Fin 0) (Fin 0)) \/ sel converted = Ok (Value (Fin 0))) ->
  ln_likelihood_and_variance bk prob sel conv L parameters = Ok (PInf, NaN) /\
  log_likelihood_ratio bk prob sel conv L parameters = Ok (Fin MAXF).
Proof. exact C62_nan_variance_refuted_pf. Qed.
Print Assumptions C62_nan_variance_refuted.

(** C62. In general a NaN variance is never a reason for rejection: with it the result is that of an infinite threshold. *)
Theorem C62_nan_variance_ignored_refuted :
  forall bk prob sel conv L parameters x, ln_likelihood_and_variance bk prob sel conv L parameters = Ok (Fin x, NaN) -> is_double x ->
  log_likelihood_ratio bk prob sel conv L parameters = Ok (Fin x).
Proof. exact C62_nan_variance_ignored_refuted_pf. Qed.
Print Assumptions C62_nan_variance_ignored_refuted.

(** C63. The null likelihood: 0 when the variance (that of the ordinary likelihood) does not exceed the threshold, the most negative double when it does. *)
Theorem C63_null :
  forall bk prob sel conv L L0 parameters ln_l variance, li_kind L = Null ->
  L0 = {| li_kind := Hyper; li_data := li_data L; li_prior := li_prior L; li_noise := li_noise L; li_n := li_n L; li_samples := li_samples L; li_maxu := li_maxu L; li_max_variance := li_max_variance L |} ->
  ln_likelihood_and_variance bk prob sel conv L0 parameters = Ok (ln_l, variance) ->
  log_likelihood_ratio bk prob sel conv L parameters = Ok (Fin (if flt (li_maxu L) variance then - MAXF else 0)).
Proof. exact C63_null_pf. Qed.
Print Assumptions C63_null.

(** C63. Violations of what the cut is for: the null likelihood accepts (returns 0 for) a selection estimate that has not converged (detection value +inf, any finite variance) whenever the
    events alone pass, and an event in which all weights are zero. *)
Theorem C63_accepts_unusable_refuted :
  forall bk prob sel conv L parameters converted, li_kind L = Null -> conv parameters = Ok converted ->
  (forall W v, weights_are prob L converted W -> positive_weights L W -> sel converted = Ok (ValueAndVariance PInf (Fin v)) ->
     flt (li_maxu L) (Fin (Rsum (map (mc_variance (li_samples L)) W))) = false ->
     log_likelihood_ratio bk prob sel conv L parameters = Ok (Fin 0)) /\
  (forall w k s, event_weights bk prob L converted = Ok w -> In (repeat (Fin 0) k) w -> sel converted = Ok s ->
     log_likelihood_ratio bk prob sel conv L parameters = Ok (Fin 0)).
Proof. exact C63_accepts_unusable_refuted_pf. Qed.
Print Assumptions C63_accepts_unusable_refuted.

Example C63_hyps : event_weights Numpy (fun _ _ => Ok [repeat (Fin 0) 2; [Fin 1; Fin 2]]) (ex_Lb Null (Fin 1)) [] = Ok (map (map (fun x => fdiv x (Fin 1))) [repeat (Fin 0) 2; [Fin 1; Fin 2]]).
Proof. reflexivity. Qed.

(** C54. A ResamplingVT estimate that has not converged (by check_convergence, for any estimate and variance, special values included) makes both the ordinary and the rate likelihood return
    the most negative double, whatever the values of the events: with the convergence enforced, and with the marginalised factor (when that raises no exception). *)
Theorem C54_unconverged_rejected :
  forall bk prob vt_prob V conv L parameters converted ln_bfs variances mu var s,
  li_kind L <> Null -> (0 < li_n L)%nat -> conv parameters = Ok converted ->
  per_event bk prob L converted = Ok (ln_bfs, variances) ->
  (li_kind L = Rate -> exists r, dget "rate" converted = Some (Fin r)) ->
  detection_efficiency bk vt_prob V converted = Ok (mu, var) -> fst (check_convergence V mu var) = false ->
  (rv_enforce V = true \/ rv_marginalize V = true) -> resampling_call bk vt_prob V converted = Ok s ->
  log_likelihood_ratio bk prob (resampling_call bk vt_prob V) conv L parameters = Ok (Fin (- MAXF)).
Proof. exact C54_unconverged_rejected_pf. Qed.
Print Assumptions C54_unconverged_rejected.

Definition ex_V : resampling := {| rv_data := [("prior"%string, [Fin 1; Fin 1])]; rv_n_events := Fin 2; rv_total := Fin 2; rv_time := Fin 1; rv_redshift := None; rv_marginalize := false;
  rv_enforce := true; rv_volume := Some (Fin 1) |}.
Example C54_hyps : detection_efficiency Numpy (fun _ _ => Ok [Fin 1; Fin 0]) ex_V [] = Ok (Fin (1/2), Fin (1/8)) /\ fst (check_convergence ex_V (Fin (1/2)) (Fin (1/8))) = false.
Proof.
  split.
  - unfold detection_efficiency. cbn [bind rv_data ex_V dlookup dget String.eqb Ascii.eqb Bool.eqb bcast bcast2 List.length Nat.eqb zipWith combine map fst snd rv_total to_number fsum fold_right].
    rewrite !fdiv_fin by lra. rewrite !fsq_fin, !fadd_fin, !fdiv_fin by lra. unfold to_number. rewrite !fsq_fin, !fdiv_fin, fsub_fin by lra. do 3 f_equal; field.
  - unfold check_convergence. cbn [fst rv_n_events ex_V]. rewrite !fmul_fin, fsq_fin, fgt_fin. apply Rltb_false. lra.
Qed.

(** C63, for the package's own selection function: an unconverged ResamplingVT (enforced, finite estimate and variance) makes the null likelihood return 0 whenever the events alone pass. *)
Theorem C63_unconverged_resampling_accepted_refuted :
  forall bk prob vt_prob V conv L parameters converted W mu var n, li_kind L = Null -> conv parameters = Ok converted ->
  weights_are prob L converted W -> positive_weights L W -> detection_efficiency bk vt_prob V converted = Ok (Fin mu, Fin var) ->
  rv_marginalize V = false -> rv_enforce V = true -> rv_n_events V = Fin n -> mu ^ 2 <= 4 * n * var ->
  flt (li_maxu L) (Fin (Rsum (map (mc_variance (li_samples L)) W))) = false ->
  log_likelihood_ratio bk prob (resampling_call bk vt_prob V) conv L parameters = Ok (Fin 0).
Proof. exact C63_unconverged_resampling_accepted_refuted_pf. Qed.
Print Assumptions C63_unconverged_resampling_accepted_refuted.

(** C59, C60. The final operations of log_likelihood_ratio in the model coincide with the same operations on IEEE-754 binary64 numbers as formalised by Flocq (signed zeros, subnormals, rounding and
    overflow included), for all doubles. *)
Theorem C60_ieee754 :
  forall u l v : b64, B2X (cut_b u l v) = cut (B2X u) (B2X l) (B2X v).
Proof. exact C60_ieee754_pf. Qed.
Print Assumptions C60_ieee754.

