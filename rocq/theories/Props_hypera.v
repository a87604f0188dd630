(** Property theorems (hypera). Proofs are in [hypera_thms]; the vocabulary is in [Spec]. *)
From Coq Require Import Reals Lra Lia Psatz String Bool Permutation.
From Coquelicot Require Import Coquelicot.
From Flocq Require Import Core.
From Coq Require Import List.
From Verif Require Import Xf Py Xf_facts Py_facts Calc Np Vt_model vt_thms Hyperpe_model SpecHyper Double Double_facts.
Import ListNotations.
Local Open Scope R_scope.
From Verif Require Import hypera_thms.

(** C57. For positive finite weights the two numbers of every event are ln <w> and (<w^2> - <w>^2) / (K <w>^2); the variance lies between 0 and 1 - 1/K and
    vanishes exactly when all weights of the event are equal. *)
Theorem C57_per_event :
  forall bk prob L parameters W, weights_are prob L parameters W -> positive_weights L W ->
  exists ln_bfs variances, per_event bk prob L parameters = Ok (map Fin ln_bfs, map Fin variances) /\
    ln_bfs = map (fun w => ln (mean w)) W /\
    variances = map (fun w => (mean (squares w) - mean w ^ 2) / (INR (li_samples L) * mean w ^ 2)) W /\
    Forall (fun v => 0 <= v <= 1 - / INR (li_samples L)) variances /\
    forall i, (i < List.length W)%nat -> (nth i variances 0 = 0 <-> forall x y, In x (nth i W []) -> In y (nth i W []) -> x = y).
Proof. exact C57_per_event_pf. Qed.
Print Assumptions C57_per_event.

Definition ex_L : likelihood := {| li_kind := Hyper; li_data := [("x"%string, [[Fin 1; Fin 2]; [Fin 3; Fin 4]])]; li_prior := Some [[Fin 2; Fin 2]; [Fin 1; Fin 1]];
  li_noise := NaN; li_n := 2; li_samples := 2; li_maxu := PInf; li_max_variance := PInf |}.
Definition ex_prob (d : dict matrix) (p : dict xf) : result matrix := dlookup "x" d.
Example C57_hyps : weights_are ex_prob ex_L [] [[1/2; 2/2]; [3/1; 4/1]] /\ positive_weights ex_L [[1/2; 2/2]; [3/1; 4/1]].
Proof.
  split.
  - exists [[1; 2]; [3; 4]]. split; [reflexivity|]. exists [[2; 2]; [1; 1]]. split; [reflexivity|]. split; [repeat constructor; lra|]. split; reflexivity.
  - split; [simpl; lia|]. repeat constructor; lra.
Qed.

(** C57. The numbers of an event do not depend on the order of its samples (all special values included). *)
Theorem C57_sample_permutation :
  forall bk prob prob' L L' parameters w w', li_samples L = li_samples L' ->
  event_weights bk prob L parameters = Ok w -> event_weights bk prob' L' parameters = Ok w' -> Forall2 (@Permutation xf) w w' ->
  per_event bk prob L parameters = per_event bk prob' L' parameters.
Proof. exact C57_sample_permutation_pf. Qed.
Print Assumptions C57_sample_permutation.

(** C57. Multiplying all weights by c > 0 shifts every log Bayes factor by ln c and changes no variance. *)
Theorem C57_scaling :
  forall bk prob prob' L L' parameters W c, 0 < c -> li_samples L = li_samples L' ->
  weights_are prob L parameters W -> positive_weights L W -> weights_are prob' L' parameters (map (map (Rmult c)) W) ->
  exists ln_bfs variances, per_event bk prob L parameters = Ok (map Fin ln_bfs, map Fin variances) /\
    per_event bk prob' L' parameters = Ok (map Fin (map (fun l => l + ln c) ln_bfs), map Fin variances).
Proof. exact C57_scaling_pf. Qed.
Print Assumptions C57_scaling.

(** C58. The estimator and its variance, for positive finite weights and a positive selection value. *)
Theorem C58_formula :
  forall bk prob sel conv L parameters converted W s v result_of_selection, li_kind L = Hyper -> conv parameters = Ok converted ->
  weights_are prob L converted W -> positive_weights L W -> 0 < s ->
  sel converted = Ok result_of_selection ->
  (result_of_selection = ValueAndVariance (Fin s) (Fin v) \/ result_of_selection = Value (Fin s) /\ v = 0) ->
  ln_likelihood_and_variance bk prob sel conv L parameters =
    Ok (Fin (Rsum (map (fun w => ln (mean w)) W) - INR (li_n L) * ln s),
        Fin (Rsum (map (mc_variance (li_samples L)) W) + INR (li_n L) ^ 2 * (v / s ^ 2))).
Proof. exact C58_formula_pf. Qed.
Print Assumptions C58_formula.

Example C58_hyps : exists W s, weights_are ex_prob ex_L [] W /\ positive_weights ex_L W /\ 0 < s /\ li_kind ex_L = Hyper.
Proof. exists [[1/2; 2/2]; [3/1; 4/1]], (1/2). destruct C57_hyps. repeat split; auto; try apply H0; lra. Qed.

(** C58. Neither number depends on the order of the events, for all three likelihoods and all special values. *)
Theorem C58_event_permutation :
  forall bk prob prob' sel conv L L' parameters converted w w', conv parameters = Ok converted ->
  li_kind L = li_kind L' -> li_samples L = li_samples L' -> li_n L = li_n L' ->
  event_weights bk prob L converted = Ok w -> event_weights bk prob' L' converted = Ok w' -> Permutation w w' ->
  ln_likelihood_and_variance bk prob sel conv L parameters = ln_likelihood_and_variance bk prob' sel conv L' parameters.
Proof. exact C58_event_permutation_pf. Qed.
Print Assumptions C58_event_permutation.

(** C59. Whenever the estimator can be evaluated (to any finite, infinite or NaN value, with any variance and threshold), log_likelihood_ratio returns a finite double: the
    estimator itself if that is a double and the variance does not exceed the threshold, the most negative double if the estimator is NaN or -inf. *)
Theorem C59_finite_double :
  forall bk prob sel conv L parameters ln_l variance, ln_likelihood_and_variance bk prob sel conv L parameters = Ok (ln_l, variance) ->
  exists r, log_likelihood_ratio bk prob sel conv L parameters = Ok (Fin r) /\ is_double r /\ - MAXF <= r <= MAXF /\
    (forall x, ln_l = Fin x -> is_double x -> flt (li_maxu L) variance = false -> r = x) /\
    (ln_l = NaN \/ ln_l = NInf -> r = - MAXF).
Proof. exact C59_finite_double_pf. Qed.
Print Assumptions C59_finite_double.

Example C59_hyps : is_double 0 /\ flt (Fin 1) (Fin (1/2)) = false /\ flt (Fin 1) (Fin 2) = true.
Proof. split; [apply zero_double|]. rewrite !flt_fin. split; [apply Rltb_false; lra|apply Rltb_true; lra]. Qed.

(** C60. Above the threshold the most negative double is returned for a NaN or -inf estimator and for every finite estimator below 2^970
    (with IEEE rounding and overflow); *)
Theorem C60_rejected_partial :
  forall bk prob sel conv L parameters ln_l variance, ln_likelihood_and_variance bk prob sel conv L parameters = Ok (ln_l, variance) ->
  flt (li_maxu L) variance = true ->
  (ln_l = NaN \/ ln_l = NInf \/ exists x, ln_l = Fin x /\ is_double x /\ x < 2 ^ 970) ->
  log_likelihood_ratio bk prob sel conv L parameters = Ok (Fin (- MAXF)).
Proof. exact C60_rejected_partial_pf. Qed.
Print Assumptions C60_rejected_partial.

