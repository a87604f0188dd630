(** * Model of gwpopulation/experimental/numpyro.py and gwpopulation/experimental/jax.py. Definitions only.

    Third-party code is represented by arguments: [prob] and [conv] as in [Hyperpe_model]; [sel_prob] is [Model.prob] of the selection function's
    model on the injections; [choose key p n] is [jax.random.choice(key, arange(len(p)), p=p, shape=(n,), replace=False)];
    [draw n] is the standard Gamma variate of shape [n] of a sampling run. *)
From Coq Require Import Reals List String Bool Arith.
From Verif Require Import Xf Py Np Interp_model Redshift_model Vt_model Hyperpe_model Double.
Import ListNotations.
Local Open Scope string_scope.

(** What a call records: the deterministic sites (numpyro.py 49-54, 69-76, 93-94), the Gamma site (80) as concentration and rate, the predictive
    sites, and the returned value. *)
Record sites := {
  nb_ln_bfs : list xf; nb_variances : list xf; nb_selection : xf; nb_selection_variance : xf; nb_rate : option (nat * xf);
  nb_ln_l : xf; nb_variance : xf; nb_predictive : list (string * list xf); nb_return : xf }.

(** jax indexing: an index beyond the end gives the last element. *)
Definition jget {A} (d : A) (l : list A) (i : nat) : A := nth (Nat.min i (List.length l - 1)) l d.

(** numpyro.py 131-134: the normalised probabilities, [weights[:, event]] for an event and all weights otherwise. *)
Definition column (weights : matrix) (event : nat) : list xf := map (fun row => jget NaN row event) weights.
Definition normalised (w : list xf) : list xf := map (fun x => fdiv x (fsum w)) w.

(** numpyro.py 108-147: [posterior_predictive_resample] for an event: [shape = ()], one index. The key is always [PRNGKey(0)]. *)
Definition resample_event (choose : nat -> list xf -> nat -> list nat) (data : dict matrix) (weights : matrix) (event : nat) (fit_keys : option (list string))
  : result (list (string * list xf)) :=
  let idx := choose 0 (normalised (column weights event)) 1 in
  mapM (fun key => d <- dlookup key data ;; Ok (key ++ "_" ++ str_nat event, map (jget NaN (nth event d [])) idx))
    (match fit_keys with Some l => l | None => dkeys data end).
(** The same without an event, [shape = (n,)] (lines 82-88); drawing more indices than there are weights raises ValueError. *)
Definition resample_injections (choose : nat -> list xf -> nat -> list nat) (data : dict (list xf)) (weights : list xf) (n : nat) (fit_keys : option (list string))
  : result (list (string * list xf)) :=
  if Nat.ltb (List.length weights) n then Err ValueError
  else
    let idx := choose 0 (normalised weights) n in
    mapM (fun key => d <- dlookup key data ;; Ok (key ++ "_injections", map (jget NaN d) idx))
      (match fit_keys with Some l => l | None => dkeys data end).

Section Numpyro.
  Variable bk : backend.
  Variable prob : dict matrix -> dict xf -> result matrix.
  Variable sel_prob : dict (list xf) -> dict xf -> result (list xf).
  Variable conv : dict xf -> result (dict xf).
  Variable choose : nat -> list xf -> nat -> list nat.

  (** numpyro.py 59-88: the selection block. *)
  Definition selection_block (L : likelihood) (v : resampling) (parameters : dict xf) (predictive_resample : bool) (fit_keys : option (list string))
    : result (xf * xf * (nat * xf) * list (string * list xf)) :=
    p <- sel_prob (rv_data v) parameters ;;
    prior <- dlookup "prior" (rv_data v) ;;
    injection_weights <- bcast bk fdiv p prior ;;
    let efficiency := fdiv (fsum injection_weights) (rv_total v) in
    let selection_uncertainty := fsub (fdiv (fsum (map fsq injection_weights)) (fsq (rv_total v))) (fdiv (fsq efficiency) (rv_total v)) in
    let selection := fmul (fopp (flog efficiency)) (of_nat (li_n L)) in
    let selection_variance := fmul (fdiv selection_uncertainty (fsq efficiency)) (fsq (of_nat (li_n L))) in
    total_hypervolume <- surveyed_hypervolume v parameters ;;
    let vt := fmul total_hypervolume efficiency in
    pred <- (if predictive_resample then resample_injections choose (rv_data v) injection_weights (li_n L) fit_keys else Ok []) ;;
    Ok (selection, selection_variance, (li_n L, fdiv (Fin 1) vt), pred).

  (** numpyro.py 13-105: [gwpopulation_likelihood_model]; [v] is the likelihood's selection function, a [ResamplingVT]. *)
  Definition likelihood_model (L : likelihood) (v : resampling) (hyper_params : dict xf) (varmax : xf) (apply_selection predictive_resample : bool)
    (fit_keys : option (list string)) : result sites :=
    parameters <- conv hyper_params ;;
    p <- prob (li_data L) parameters ;;
    weights <- mdiv bk p (li_prior L) ;;
    let expectations := map fmean weights in
    let square_expectations := map (fun w => fmean (map fsq w)) weights in
    let variances := zipWith (fun s e => fdiv (fsub s (fsq e)) (fmul (of_nat (li_samples L)) (fsq e))) square_expectations expectations in
    let ln_bayes_factors := map flog expectations in
    let ln_l_events := fsum ln_bayes_factors in
    let variance_events := fsum variances in
    '(selection, selection_variance, rate, pred_sel) <-
      (if apply_selection
       then '(s, sv, r, pr) <- selection_block L v parameters predictive_resample fit_keys ;; Ok (s, sv, Some r, pr)
       else Ok (Fin 0, Fin 0, None, [])) ;;
    let ln_l := fadd ln_l_events selection in
    let variance := fadd variance_events selection_variance in
    pred <- (if predictive_resample then mapM (fun event => resample_event choose (li_data L) weights event fit_keys) (seq 0 (li_n L)) else Ok []) ;;
    let returned := if flt varmax PInf then (if (match ln_l with NaN => true | _ => false end) || flt varmax variance then nan_to_num NInf else ln_l) else ln_l in
    Ok {| nb_ln_bfs := ln_bayes_factors; nb_variances := variances; nb_selection := selection; nb_selection_variance := selection_variance; nb_rate := rate;
          nb_ln_l := ln_l; nb_variance := variance; nb_predictive := (pred_sel ++ List.concat pred)%list; nb_return := returned |}.
End Numpyro.

(** The value drawn at the site [Gamma(concentration, rate)]: numpyro divides the standard variate by the rate. *)
Definition gamma_site (draw : nat -> xf) (site : nat * xf) : xf := fdiv (draw (fst site)) (snd site).

(** ** jax.py *)

(** Keyword arguments of the wrapped function: Python booleans and numbers. *)
Inductive kwarg := KBool (b : bool) | KNum (x : xf).

(** jax.py 9-26 under [jit] (58): the keyword arguments are traced, so branching on [use_ratio] raises (TracerBoolConversionError, a TypeError), as does an
    unexpected keyword. Without keywords the branch is decided by the Python default. Tracing and compiling do not change the value of [ratio]. *)
Definition jitted_default (ratio : dict xf -> result xf) (parameters : dict xf) (kwargs : dict kwarg) : result xf :=
  match kwargs with [] => ratio parameters | _ => Err TypeError end.

(** jax.py 65-66: [JittedLikelihood.log_likelihood_ratio]; [func] is the jitted function. *)
Definition jitted_ratio (func : dict xf -> dict kwarg -> result xf) (kwargs : dict kwarg) (parameters : dict xf) : result xf :=
  x <- func parameters kwargs ;; Ok (nan_to_num x).

(** Attribute lookup on a [JittedLikelihood]: the instance's dictionary, then the class and its bases (bilby's [Likelihood], object), then [__getattr__]
    (62-63), which looks up [self._likelihood] in the same way and then the name on the wrapped object. Values are left abstract. *)
Inductive attr {V : Type} := Own (v : V) | OfClass (name : string) | Wrapped (name : string) | RecursionError.
Arguments attr : clear implicits.
Fixpoint lookup_attr {V} (fuel : nat) (instance : dict V) (class : list string) (name : string) : attr V :=
  match fuel with
  | O => RecursionError
  | S fuel' =>
      match dget name instance with
      | Some v => Own v
      | None =>
          if existsb (String.eqb name) class then OfClass name
          else match lookup_attr fuel' instance class "_likelihood" with
               | RecursionError => RecursionError
               | _ => Wrapped name
               end
      end
  end.
(** jax.py 50-60: the instance after [__init__]. *)
Definition jitted_instance {V} (kwargs wrapped func : V) : dict V := [("kwargs", kwargs); ("_likelihood", wrapped); ("likelihood_func", func)].
