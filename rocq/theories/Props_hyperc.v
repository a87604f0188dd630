(** Property theorems (hyperc). Proofs are in [hyperc_thms]; the vocabulary is in [Spec]. *)
From Coq Require Import Reals ZArith Lra Lia Psatz String Bool.
From Coquelicot Require Import Coquelicot.
From Coq Require Import List.
From Verif Require Import Xf Py Xf_facts Py_facts Calc Np Interp_model Interp_facts Vt_model Hyperpe_model SpecHyper hypera_thms.
Import ListNotations.
Local Open Scope R_scope.
From Verif Require Import hyperc_thms.

(** C64. The rate likelihood for positive finite weights and rate: the log Bayes factors, minus the expected number of detections, plus N ln R. *)
Theorem C64_formula :
  forall bk prob sel conv L parameters converted W s v r, li_kind L = Rate -> conv parameters = Ok converted ->
  weights_are prob L converted W -> positive_weights L W ->
  (sel converted = Ok (ValueAndVariance (Fin s) (Fin v)) \/ sel converted = Ok (Value (Fin s)) /\ v = 0) -> s <> 0 ->
  dget "rate"%string converted = Some (Fin r) -> 0 < r ->
  ln_likelihood_and_variance bk prob sel conv L parameters =
    Ok (Fin (Rsum (map (fun w => ln (mean w)) W) - r * s + INR (li_n L) * ln r),
        Fin (Rsum (map (mc_variance (li_samples L)) W) + r * s * v / s ^ 2)).
Proof. exact C64_formula_pf. Qed.
Print Assumptions C64_formula.

Definition ex_Lc (k : kind) : likelihood := {| li_kind := k; li_data := [("x"%string, [[Fin 1; Fin 2]; [Fin 3; Fin 4]])]; li_prior := None;
  li_noise := NaN; li_n := 2; li_samples := 2; li_maxu := PInf; li_max_variance := PInf |}.
Definition ex_probc (d : dict matrix) (p : dict xf) : result matrix := dlookup "x" d.
Example C64_hyps : weights_are ex_probc (ex_Lc Rate) [("rate"%string, Fin 5)] [[1; 2]; [3; 4]] /\ positive_weights (ex_Lc Rate) [[1; 2]; [3; 4]] /\
  dget "rate"%string [("rate"%string, Fin 5)] = Some (Fin 5).
Proof. split; [exists [[1; 2]; [3; 4]]; split; reflexivity|]. split; [|reflexivity]. split; [simpl; lia|]. repeat constructor; lra. Qed.

(** C64. For fixed population parameters (everything but the rate), as a function [f] of the rate, with [h] the ordinary likelihood on the same data: [f] is maximal exactly
    at R = N / P_det with maximum h + N ln N - N, and exp f integrated over all rates with a 1/R prior is (N - 1)! exp h. *)
Theorem C64_relation :
  forall bk prob sel conv L L0 (parameters converted : R -> dict xf) W s v, li_kind L = Rate ->
  L0 = {| li_kind := Hyper; li_data := li_data L; li_prior := li_prior L; li_noise := li_noise L; li_n := li_n L; li_samples := li_samples L; li_maxu := li_maxu L; li_max_variance := li_max_variance L |} ->
  (0 < li_n L)%nat -> positive_weights L W -> 0 < s ->
  (forall r, 0 < r -> conv (parameters r) = Ok (converted r) /\ dget "rate"%string (converted r) = Some (Fin r) /\ weights_are prob L (converted r) W /\
                      sel (converted r) = Ok (ValueAndVariance (Fin s) (Fin v))) ->
  exists (f : R -> R) (h : R),
    (forall r, 0 < r -> exists var, ln_likelihood_and_variance bk prob sel conv L (parameters r) = Ok (Fin (f r), var)) /\
    (forall r, 0 < r -> exists var, ln_likelihood_and_variance bk prob sel conv L0 (parameters r) = Ok (Fin h, var)) /\
    (forall r, 0 < r -> f r <= h + INR (li_n L) * ln (INR (li_n L)) - INR (li_n L) /\
                        (f r = h + INR (li_n L) * ln (INR (li_n L)) - INR (li_n L) <-> r = INR (li_n L) / s)) /\
    is_RInt_gen (fun r => exp (f r) / r) (at_right 0) (Rbar_locally p_infty) (INR (fact (li_n L - 1)) * exp h).
Proof. exact C64_relation_pf. Qed.
Print Assumptions C64_relation.

(** C65. With everything else evaluable, the rate likelihood raises KeyError (for 'rate') exactly when the converted parameters have no rate; with a rate it never does, and its value is
    used unless the division by a vanishing selection value raises. The rate posterior sample is the parameter itself. *)
Theorem C65_rate_required :
  forall bk prob sel conv L parameters converted per s v, li_kind L = Rate -> conv parameters = Ok converted ->
  per_event bk prob L converted = Ok per ->
  (sel converted = Ok (ValueAndVariance s v) \/ sel converted = Ok (Value s) /\ v = Fin 0) ->
  (ln_likelihood_and_variance bk prob sel conv L parameters = Err (KeyError "rate"%string) <-> dget "rate"%string converted = None) /\
  ((forall x, s = Fin x -> x <> 0) -> dget "rate"%string converted <> None -> exists out, ln_likelihood_and_variance bk prob sel conv L parameters = Ok out) /\
  (forall volume draw r, dget "rate"%string parameters = Some r -> generate_rate_posterior_sample sel volume draw L parameters = Ok r) /\
  (forall volume draw, dget "rate"%string parameters = None -> generate_rate_posterior_sample sel volume draw L parameters = Err (KeyError "rate"%string)).
Proof. exact C65_rate_required_pf. Qed.
Print Assumptions C65_rate_required.

(** C66. The statistics added to a sample (any values, special ones included; N events; the division by the squared selection value does not raise): all other keys keep their
    values, [ln_bf_i] and [var_i] are those of the events, [selection] is the selection value, and together they reproduce the ordinary likelihood's estimator and variance. *)
Theorem C66_extra_statistics :
  forall bk prob sel conv L L0 sample converted ln_bfs variances s v, conv sample = Ok converted ->
  per_event bk prob L converted = Ok (ln_bfs, variances) -> List.length ln_bfs = li_n L ->
  (sel converted = Ok (ValueAndVariance s v) \/ sel converted = Ok (Value s) /\ v = Fin 0) -> (is_jax bk = true \/ feq (fsq s) (Fin 0) = false) ->
  L0 = {| li_kind := Hyper; li_data := li_data L; li_prior := li_prior L; li_noise := li_noise L; li_n := li_n L; li_samples := li_samples L; li_maxu := li_maxu L; li_max_variance := li_max_variance L |} ->
  exists d ln_l variance, generate_extra_statistics bk prob sel conv L sample = Ok d /\
    ln_likelihood_and_variance bk prob sel conv L0 sample = Ok (ln_l, variance) /\
    (forall i, (i < li_n L)%nat -> dget ("ln_bf_" ++ str_nat i)%string d = Some (nth i ln_bfs NaN) /\ dget ("var_" ++ str_nat i)%string d = Some (nth i variances NaN)) /\
    dget "selection"%string d = Some s /\ dget "variance"%string d = Some variance /\
    ln_l = fadd (fsum ln_bfs) (fmul (fopp (of_nat (li_n L))) (flog s)) /\
    (forall k, k <> "selection"%string -> k <> "selection_variance"%string -> k <> "variance"%string ->
       (forall i, (i < li_n L)%nat -> k <> ("ln_bf_" ++ str_nat i)%string /\ k <> ("var_" ++ str_nat i)%string) -> dget k d = dget k sample).
Proof. exact C66_extra_statistics_pf. Qed.
Print Assumptions C66_extra_statistics.

Example C66_hyps : exists ln_bfs variances, per_event Numpy ex_probc (ex_Lc Hyper) [] = Ok (ln_bfs, variances) /\ List.length ln_bfs = li_n (ex_Lc Hyper).
Proof. do 2 eexists. split; reflexivity. Qed.

(** C66 (refuted clauses). The stored [selection_variance] is not the variance of P_det (the documentation says it is) unless P_det is 1 or -1 or the variance is 0; the documented key
    [total_variance] is not added; and for the rate likelihood the stored [variance] differs from the one the likelihood uses, unless R P_det = N^2 or the variance is 0. *)
Theorem C66_selection_variance_refuted :
  forall bk prob sel conv L sample converted W s v r, conv sample = Ok converted -> weights_are prob L converted W -> positive_weights L W ->
  sel converted = Ok (ValueAndVariance (Fin s) (Fin v)) -> 0 < s -> v <> 0 ->
  exists d, generate_extra_statistics bk prob sel conv L sample = Ok d /\
    dget "selection_variance"%string d = Some (Fin (v / s ^ 2)) /\ (v / s ^ 2 = v <-> s = 1) /\
    dget "total_variance"%string d = dget "total_variance"%string sample /\
    (li_kind L = Rate -> dget "rate"%string converted = Some (Fin r) -> 0 < r ->
      exists stored used ln_l, dget "variance"%string d = Some (Fin stored) /\ ln_likelihood_and_variance bk prob sel conv L sample = Ok (ln_l, Fin used) /\
        (stored = used <-> r * s = INR (li_n L) ^ 2)).
Proof. exact C66_selection_variance_refuted_pf. Qed.
Print Assumptions C66_selection_variance_refuted.

(** C88 (refuted). The Monte Carlo variance of the term -R P_det of the rate likelihood is R^2 var(P_det); the code adds R var(P_det) / P_det, which is the same only if R P_det = 1
    (or the variance is 0). *)
Theorem C88_rate_variance_refuted :
  forall bk prob sel conv L parameters converted W s v r, li_kind L = Rate -> conv parameters = Ok converted ->
  weights_are prob L converted W -> positive_weights L W -> sel converted = Ok (ValueAndVariance (Fin s) (Fin v)) -> 0 < s -> v <> 0 ->
  dget "rate"%string converted = Some (Fin r) -> 0 < r ->
  exists ln_l variance, ln_likelihood_and_variance bk prob sel conv L parameters = Ok (ln_l, Fin variance) /\
    (variance = Rsum (map (mc_variance (li_samples L)) W) + r ^ 2 * v <-> r * s = 1).
Proof. exact C88_rate_variance_refuted_pf. Qed.
Print Assumptions C88_rate_variance_refuted.

(** C70. The noise evidence is the sum of the given log evidences and is added to the ratio. *)
Theorem C70_noise :
  forall bk prob sel conv c rows posteriors hp evidences max_samples u L parameters ratio,
  likelihood_init c rows posteriors hp (Some (map Fin evidences)) max_samples u = Ok L ->
  log_likelihood_ratio bk prob sel conv L parameters = Ok (Fin ratio) ->
  noise_log_likelihood L = Fin (Rsum evidences) /\ log_likelihood bk prob sel conv L parameters = Ok (Fin (Rsum evidences + ratio)).
Proof. exact C70_noise_pf. Qed.
Print Assumptions C70_noise.

(** C70 (refuted default). Without evidences the noise evidence is NaN, not 0, and log_likelihood is NaN wherever the ratio can be evaluated. *)
Theorem C70_default_refuted :
  forall bk prob sel conv c rows posteriors hp max_samples u L, likelihood_init c rows posteriors hp None max_samples u = Ok L ->
  noise_log_likelihood L = NaN /\
  forall parameters ratio, log_likelihood_ratio bk prob sel conv L parameters = Ok ratio -> log_likelihood bk prob sel conv L parameters = Ok NaN.
Proof. exact C70_default_refuted_pf. Qed.
Print Assumptions C70_default_refuted.

Definition ex_frame (l : list R) : frame := {| fr_len := List.length l; fr_cols := [("x"%string, map Fin l)] |}.
Example C70_hyps : exists L, likelihood_init Hyper (fun _ n k => seq 0 k) [ex_frame [1; 2; 3]; ex_frame [4; 5]] ModelLike None None PInf = Ok L /\ li_samples L = 2%nat /\
  li_data L = [("x"%string, [[Fin 1; Fin 2]; [Fin 4; Fin 5]])].
Proof. eexists. split; [reflexivity|split; reflexivity]. Qed.

(** C71. The rate sample is the Gamma draw over the surveyed volume: efficiency times hypervolume if the selection function has both methods (the variance is ignored), the selection value
    otherwise; positive for a positive draw and volume. *)
Theorem C71_rate_sample :
  forall sel L parameters draw, li_kind L <> Rate ->
  (forall methods e var h, vm_efficiency methods parameters = Ok (Fin e, var) -> vm_hypervolume methods parameters = Ok (Fin h) -> e * h <> 0 ->
     generate_rate_posterior_sample sel (Some methods) (Fin draw) L parameters = Ok (Fin (draw / (e * h))) /\ (0 < draw -> 0 < e * h -> 0 < draw / (e * h))) /\
  (forall s, sel parameters = Ok (Value (Fin s)) -> s <> 0 ->
     generate_rate_posterior_sample sel None (Fin draw) L parameters = Ok (Fin (draw / s)) /\ (0 < draw -> 0 < s -> 0 < draw / s)).
Proof. exact C71_rate_sample_pf. Qed.
Print Assumptions C71_rate_sample.

(** C71. A selection function without those methods that returns a value and a variance (as the likelihood allows) makes the rate sample fail with TypeError. *)
Theorem C71_variance_refuted :
  forall bk prob sel conv L parameters s v draw, li_kind L = Hyper -> conv parameters = Ok parameters -> sel parameters = Ok (ValueAndVariance s v) ->
  (forall per, per_event bk prob L parameters = Ok per -> exists out, ln_likelihood_and_variance bk prob sel conv L parameters = Ok out) /\
  generate_rate_posterior_sample sel None draw L parameters = Err TypeError.
Proof. exact C71_variance_refuted_pf. Qed.
Print Assumptions C71_variance_refuted.

(** C85 (refuted). The rate sample uses the parameters as given, not the converted ones: for any conversion function, if the selection function needs a parameter that only the conversion
    provides, the likelihood can be evaluated but the rate sample raises that KeyError. *)
Theorem C85_conversion_refuted :
  forall bk prob sel conv L parameters converted k s v per draw, li_kind L = Hyper -> conv parameters = Ok converted ->
  per_event bk prob L converted = Ok per -> sel converted = Ok (ValueAndVariance s v) \/ sel converted = Ok (Value s) /\ v = Fin 0 -> sel parameters = Err (KeyError k) ->
  (exists out, ln_likelihood_and_variance bk prob sel conv L parameters = Ok out) /\
  generate_rate_posterior_sample sel None draw L parameters = Err (KeyError k).
Proof. exact C85_conversion_refuted_pf. Qed.
Print Assumptions C85_conversion_refuted.

(** A conversion from a log-parameter and a selection function of the converted parameter. *)
Example C85_hyps : let conv (p : dict xf) := x <- dlookup "log_mu" p ;; Ok (dset "mu" (fexp x) p) in let sel (p : dict xf) := x <- dlookup "mu" p ;; Ok (Value x) in
  conv [("log_mu"%string, Fin 0)] = Ok [("log_mu"%string, Fin 0); ("mu"%string, fexp (Fin 0))] /\
  sel [("log_mu"%string, Fin 0); ("mu"%string, fexp (Fin 0))] = Ok (Value (fexp (Fin 0))) /\ sel [("log_mu"%string, Fin 0)] = Err (KeyError "mu").
Proof. repeat split. Qed.

