(** Property theorems (deriv). Proofs are in [deriv_thms]; the vocabulary is in [Spec]. *)
From Coq Require Import Reals Lra Lia Psatz String Bool.
From Coquelicot Require Import Coquelicot.
From Coq Require Import List.
From Verif Require Import Xf Py Xf_facts Py_facts Calc Spec Special Gauss_facts Utils_model Powerlaw_facts Truncnorm_facts Trap_facts Np Np_facts Utils_facts
  Vt_model vt_thms Hyperpe_model SpecHyper hypera_thms SpecInvar invar_thms SpecCont cont_thms contl_thms SpecDeriv.
Import ListNotations.
Local Open Scope R_scope.
From Verif Require Import deriv_thms.

(** C142. The power law can be differentiated with respect to its slope at every slope (-1, where the code changes formula, included): the derivative
    of the log-density is log x minus the mean of log x under the density. *)
Theorem C142_powerlaw :
  forall bk kw alpha high low x, 0 < low < high -> low <= x <= high -> bk = Jax \/ ~ In "alpha"%string kw \/ alpha <> 1 ->
  let density := fun a y => powerlaw bk kw (Fin y) (Fin a) (Fin high) (Fin low) in
  exists p score, returns (density alpha x) p /\ centred_score (density alpha) ln low high x score /\ derivative_of_call (fun a => density a x) alpha (p * score).
Proof. exact C142_powerlaw_pf. Qed.
Print Assumptions C142_powerlaw.

(** C142. The truncated normal can be differentiated with respect to its mean, within its support, whatever branch of the normalisation is taken: the derivative of the log-density is
    (x - mu) / sigma^2 minus its mean under the density. *)
Theorem C142_truncnorm_mean :
  forall bk kw mu sigma high low x, 0 < sigma -> low <= x <= high -> low < high ->
  let density := fun m y => truncnorm bk kw (Fin y) (Fin m) (Fin sigma) (Fin high) (Fin low) in
  exists p score, returns (density mu x) p /\ centred_score (density mu) (fun y => (y - mu) / (sigma * sigma)) low high x score /\
    derivative_of_call (fun m => density m x) mu (p * score).
Proof. exact C142_truncnorm_mean_pf. Qed.
Print Assumptions C142_truncnorm_mean.

(** C142. The same with respect to its width: (x - mu)^2 / sigma^3 minus its mean under the density. *)
Theorem C142_truncnorm_width :
  forall bk kw mu sigma high low x, 0 < sigma -> low <= x <= high -> low < high ->
  let density := fun s y => truncnorm bk kw (Fin y) (Fin mu) (Fin s) (Fin high) (Fin low) in
  exists p score, returns (density sigma x) p /\ centred_score (density sigma) (fun y => (y - mu) * (y - mu) / (sigma * sigma * sigma)) low high x score /\
    derivative_of_call (fun s => density s x) sigma (p * score).
Proof. exact C142_truncnorm_width_pf. Qed.
Print Assumptions C142_truncnorm_width.

(** C142. If the weights of the posterior samples and the densities at the injections are differentiable in a hyper-parameter, so is the log-likelihood, and its derivative is that of the documented
    formula: for every event the mean of the derivatives of the weights over the mean of the weights, minus the number of events times the same for the injections. *)
Theorem C142_log_likelihood :
  forall bk prob inj conv L v (parameters converted : R -> dict xf) (W : list (list (R -> R))) dW (p : list (R -> R)) dp q N t,
  li_kind L = Hyper -> (0 < li_samples L)%nat -> Forall (fun w => List.length w = li_samples L) W ->
  locally t (fun u => conv (parameters u) = Ok (converted u) /\ weights_are prob L (converted u) (rows_at W u) /\ injections_are inj v (converted u) (at_point p u) q N) ->
  Forall2 (Forall2 (fun f d => is_derive f t d /\ 0 < f t)) W dW -> Forall2 (fun f d => is_derive f t d) p dp -> 0 < Rsum (quotients (at_point p t) q) ->
  rv_marginalize v = false -> rv_enforce v = false \/ (exists n, rv_n_events v = Fin n /\ selection_converged (quotients (at_point p t) q) N n) ->
  exists l var : R -> R,
    locally t (fun u => ln_likelihood_and_variance bk prob (resampling_call bk inj v) conv L (parameters u) = Ok (Fin (l u), Fin (var u))) /\
    is_derive l t (gradient_of_events (rows_at W t) dW - INR (li_n L) * (Rsum (quotients dp q) / Rsum (quotients (at_point p t) q))).
Proof. exact C142_log_likelihood_pf. Qed.
Print Assumptions C142_log_likelihood.

Example C142_met : exists p score, returns (powerlaw Jax ["alpha"%string] (Fin 3) (Fin (-1)) (Fin 5) (Fin 2)) p /\
  centred_score (fun y => powerlaw Jax ["alpha"%string] (Fin y) (Fin (-1)) (Fin 5) (Fin 2)) ln 2 5 3 score.
Proof.
  destruct (C142_powerlaw Jax ["alpha"%string] (-1) 5 2 3) as (p & s & A & B & _); [lra|lra|now left|]. exists p, s. split; assumption.
Qed.
(** One event with two samples whose weights are the square of the hyper-parameter and 3. *)
Example C142_weights_met : Forall2 (Forall2 (fun (f : R -> R) d => is_derive f 2 d /\ 0 < f 2)) [[(fun u => u * u); (fun _ => 3)]] [[4; 0]] /\
  gradient_of_events (rows_at [[(fun u : R => u * u); (fun _ => 3)]] 2) [[4; 0]] = 4 / 7.
Proof.
  split.
  - apply Forall2_cons; [|apply Forall2_nil]. apply Forall2_cons; [split; [auto_derive; auto; lra|lra]|]. apply Forall2_cons; [split; [auto_derive; auto|lra]|apply Forall2_nil].
  - unfold gradient_of_events, rows_at, at_point. simpl. field.
Qed.

