(** * Model of gwpopulation/hyperpe.py. Definitions only.

    Third-party code is represented by arguments: [prob] is [Model.prob] of the population model on the event data, [sel] the selection function,
    [conv] the conversion function (a new dictionary; the key list it also returns is not used by the code), [sample_rows] pandas'
    [DataFrame.sample], [choose] [numpy.random.choice]/[jax.random.choice], and the draw of the Gamma distribution is a number. *)
From Coq Require Import Reals List String Bool Arith.
From Verif Require Import Xf Py Np Interp_model Vt_model Double.
Import ListNotations.
Local Open Scope string_scope.

(** A two-dimensional array, one row per event. *)
Definition matrix := list (list xf).

(** A pandas DataFrame: number of rows and columns. *)
Record frame := { fr_len : nat; fr_cols : dict (list xf) }.

(** The three likelihood classes (hyperpe.py 59, 433, 483). *)
Inductive kind := Hyper | Rate | Null.

(** The attributes of a likelihood. [li_prior = None] is the number 1 (line 130). *)
Record likelihood := {
  li_kind : kind; li_data : dict matrix; li_prior : option matrix; li_noise : xf;
  li_n : nat; li_samples : nat; li_maxu : xf; li_max_variance : xf }.

(** The [hyper_prior] argument (lines 113-123): a function, a model with [parameters] and a callable [prob], or anything else. *)
Inductive hyper_prior_arg := Function | ModelLike | Other.

(** ** Construction *)

(** Row selection: the elements at the given positions. *)
Definition take {A} (d : A) (rows : list nat) (l : list A) : list A := map (fun i => nth i l d) rows.

(** Lines 332-333: the common number of samples; [None] is a limit larger than any length (the default 1e100). *)
Definition cap_samples (max_samples : option nat) (posteriors : list frame) : option nat :=
  fold_left (fun m f => Some (match m with Some k => Nat.min (fr_len f) k | None => fr_len f end)) posteriors max_samples.

(** Lines 337-340: one row of every array per posterior; [rows] are the sampled row numbers of each posterior, the same for all its columns. *)
Fixpoint collect (acc : dict matrix) (l : list (frame * list nat)) : result (dict matrix) :=
  match l with
  | [] => Ok acc
  | (f, rows) :: l' =>
      new <- mapM (fun kv : string * matrix =>
                     c <- dlookup (fst kv) (fr_cols f) ;; Ok (fst kv, (snd kv ++ [take NaN rows c])%list)) acc ;;
      collect new l'
  end.

(** Lines 314-343: [resample_posteriors]. [sample_rows i n k] are the rows drawn from posterior [i] of length [n]. IndexError for an empty list. *)
Definition resample_posteriors (sample_rows : nat -> nat -> nat -> list nat) (posteriors : list frame) (max_samples : option nat)
  : result (nat * dict matrix) :=
  match posteriors, cap_samples max_samples posteriors with
  | first :: _, Some k =>
      let keys := dkeys (fr_cols first) in
      data <- collect (map (fun key => (key, [])) keys)
                (combine posteriors (map (fun i => sample_rows i (fr_len (nth i posteriors first)) k) (seq 0 (List.length posteriors)))) ;;
      Ok (k, data)
  | _, _ => Err IndexError
  end.

(** Lines 72-142 with the setter of lines 155-161: [__init__]. *)
Definition likelihood_init (c : kind) (sample_rows : nat -> nat -> nat -> list nat) (posteriors : list frame) (hyper_prior : hyper_prior_arg)
  (ln_evidences : option (list xf)) (max_samples : option nat) (maximum_uncertainty : xf) : result likelihood :=
  '(k, data) <- resample_posteriors sample_rows posteriors max_samples ;;
  match hyper_prior with
  | Other => Err AttributeError
  | _ =>
      Ok {| li_kind := c; li_data := ddel "prior" data; li_prior := dget "prior" data;
            li_noise := match ln_evidences with Some l => fsum l | None => NaN end;
            li_n := List.length posteriors; li_samples := k; li_maxu := maximum_uncertainty;
            li_max_variance := match maximum_uncertainty with PInf => PInf | u => fsq u end |}
  end.

(** ** Evaluation *)

(** Element-wise division of two arrays of the same shape (other shapes raise here; numpy would broadcast some of them). *)
Definition same_shape (a b : matrix) : bool :=
  if list_eq_dec Nat.eq_dec (map (@List.length xf) a) (map (@List.length xf) b) then true else false.
Definition mdiv (bk : backend) (a : matrix) (b : option matrix) : result matrix :=
  match b with
  | None => Ok (map (map (fun x => fdiv x (Fin 1))) a)
  | Some q => if same_shape a q then Ok (zipWith (zipWith fdiv) a q) else Err (shape_error bk)
  end.

(** The methods of a selection function that [generate_rate_posterior_sample] looks for (lines 304-308). *)
Record volume_methods := { vm_efficiency : dict xf -> result (xf * xf); vm_hypervolume : dict xf -> result xf }.

Section Eval.
  Variable bk : backend.
  Variable prob : dict matrix -> dict xf -> result matrix.
  Variable sel : dict xf -> result selection.
  Variable conv : dict xf -> result (dict xf).

  (** Lines 197, 377-379. *)
  Definition event_weights (L : likelihood) (parameters : dict xf) : result matrix :=
    p <- prob (li_data L) parameters ;; mdiv bk p (li_prior L).

  (** Lines 198-204 for one event. *)
  Definition event_variance (L : likelihood) (w : list xf) : xf :=
    fdiv (fsub (fmean (map fsq w)) (fsq (fmean w))) (fmul (of_nat (li_samples L)) (fsq (fmean w))).

  (** Lines 194-206: [_compute_per_event_ln_bayes_factors]. *)
  Definition per_event (L : likelihood) (parameters : dict xf) : result (list xf * list xf) :=
    w <- event_weights L parameters ;;
    Ok (map (fun e => flog (fmean e)) w, map (event_variance L) w).

  (** Lines 219-226: [_selection_function_with_uncertainty]. *)
  Definition selection_with_uncertainty (parameters : dict xf) : result (xf * xf) :=
    s <- sel parameters ;;
    match s with ValueAndVariance s v => Ok (s, v) | Value s => Ok (s, Fin 0) end.

  (** Lines 208-217 and 445-473: [_get_selection_factor]. The division of line 470 is between Python floats on numpy and cupy. *)
  Definition selection_factor (L : likelihood) (parameters : dict xf) : result (xf * xf) :=
    '(s, v) <- selection_with_uncertainty parameters ;;
    match li_kind L with
    | Rate =>
        rate <- dlookup "rate" parameters ;;
        let n_expected := fmul s rate in
        let total := fadd (fopp n_expected) (fmul (of_nat (li_n L)) (flog rate)) in
        total_variance <- float_div bk (fmul n_expected v) (fsq s) ;;
        Ok (total, total_variance)
    | _ => Ok (fmul (fopp (of_nat (li_n L))) (flog s), fmul (fsq (of_nat (li_n L))) (fdiv v (fsq s)))
    end.

  (** Lines 163-178 and 493-498: [ln_likelihood_and_variance]. *)
  Definition ln_likelihood_and_variance (L : likelihood) (parameters : dict xf) : result (xf * xf) :=
    parameters <- conv parameters ;;
    '(ln_bfs, variances) <- per_event L parameters ;;
    '(selection, selection_variance) <- selection_factor L parameters ;;
    let variance := fadd (fsum variances) selection_variance in
    match li_kind L with
    | Null => Ok (Fin 0, variance)
    | _ => Ok (fadd (fsum ln_bfs) selection, variance)
    end.

  (** Lines 182-184: the end of [log_likelihood_ratio], in binary64 ([ln_l] is a double). [inf * (a < b)] is +inf or NaN. *)
  Definition cut (maximum_uncertainty ln_l variance : xf) : xf :=
    let ln_l := nan_to_num_nan NInf ln_l in
    let penalty := nan_to_num_nan (Fin 0) (fmul PInf (of_bool (flt maximum_uncertainty variance))) in
    nan_to_num (xfl (fsub ln_l penalty)).

  (** Lines 180-184: [log_likelihood_ratio]; the estimator, computed exactly in the model, is rounded to a double. *)
  Definition log_likelihood_ratio (L : likelihood) (parameters : dict xf) : result xf :=
    '(ln_l, variance) <- ln_likelihood_and_variance L parameters ;;
    Ok (cut (li_maxu L) (xfl ln_l) variance).

  (** Lines 186-192: [noise_log_likelihood] and [log_likelihood]. *)
  Definition noise_log_likelihood (L : likelihood) : xf := li_noise L.
  Definition log_likelihood (L : likelihood) (parameters : dict xf) : result xf :=
    l <- log_likelihood_ratio L parameters ;; Ok (fadd (noise_log_likelihood L) l).

  (** Lines 263-265: the loop over events. *)
  Fixpoint store_events (ii : nat) (ln_bfs variances : list xf) (sample : dict xf) : dict xf :=
    match ln_bfs, variances with
    | l :: ln_bfs', v :: variances' =>
        store_events (S ii) ln_bfs' variances' (dset ("var_" ++ str_nat ii) v (dset ("ln_bf_" ++ str_nat ii) l sample))
    | _, _ => sample
    end.

  (** Lines 258-275: [generate_extra_statistics]; the dictionary returned is the (modified) argument. If the model returns a number of rows
      other than [n_posteriors] the real code raises IndexError or ignores rows; here the rows decide. [variance /= selection**2]
      is a division of Python floats on numpy and cupy. *)
  Definition generate_extra_statistics (L : likelihood) (sample : dict xf) : result (dict xf) :=
    parameters <- conv sample ;;
    '(ln_bfs, variances) <- per_event L parameters ;;
    let sample := store_events 0 ln_bfs variances sample in
    '(s, v) <- selection_with_uncertainty parameters ;;
    variance <- float_div bk v (fsq s) ;;
    let selection_variance := fmul variance (fsq (of_nat (li_n L))) in
    let sample := dset "selection" s sample in
    let sample := dset "selection_variance" variance sample in
    Ok (dset "variance" (fadd (fsum variances) selection_variance) sample).

  (** Lines 277-312 and 475-480: [generate_rate_posterior_sample]; [volume] is given for a selection function with the two methods
      [detection_efficiency] and [surveyed_hypervolume]; otherwise the selection function itself is called and must return a
      number (dividing by a tuple raises TypeError). [draw] is the standard Gamma variate of shape [n_posteriors] (a numpy float).
      The conversion function is not applied. *)
  Definition generate_rate_posterior_sample (volume : option volume_methods) (draw : xf) (L : likelihood) (parameters : dict xf) : result xf :=
    match li_kind L with
    | Rate => dlookup "rate" parameters
    | _ =>
        vt <- match volume with
              | Some v =>
                  '(e, _) <- vm_efficiency v parameters ;;
                  h <- vm_hypervolume v parameters ;;
                  Ok (fmul e h)
              | None => s <- sel parameters ;; match s with Value x => Ok x | ValueAndVariance _ _ => Err TypeError end
              end ;;
        Ok (fdiv draw vt)
    end.

  (** Lines 381, 383: every row divided by its sum. *)
  Definition normalise_rows (w : matrix) : matrix := map (fun row => map (fun x => fdiv x (fsum row)) row) w.
  Definition madd (a b : matrix) : result matrix :=
    if same_shape a b then Ok (zipWith (zipWith fadd) a b) else Err (shape_error bk).

  (** Lines 375-382: the loop over hyper-parameter samples (the logged event weights are left out). *)
  Fixpoint accumulate (L : likelihood) (samples : list (dict xf)) (weights : matrix) : result matrix :=
    match samples with
    | [] => Ok weights
    | sample :: samples' =>
        parameters <- conv sample ;;
        new_weights <- event_weights L parameters ;;
        weights' <- madd weights (normalise_rows new_weights) ;;
        accumulate L samples' weights'
    end.

  (** The argument check of [numpy.random.choice(p=...)]: non-negative numbers with sum 1 (numpy's tolerance on the sum is not modelled). *)
  Definition valid_p (row : list xf) : bool := forallb (fun x => fle (Fin 0) x) row && feq (fsum row) (Fin 1).
  Definition draw_rows (choose : nat -> list xf -> list nat) (ii : nat) (row : list xf) : result (list nat) :=
    if is_jax bk || valid_p row then Ok (choose ii row) else Err ValueError.

  (** Lines 345-420: [posterior_predictive_resample]; both results are returned. [choose ii p] are the indices drawn for event [ii]. *)
  Definition posterior_predictive_resample (choose : nat -> list xf -> list nat) (L : likelihood) (samples : list (dict xf)) : result (dict matrix * matrix) :=
    w <- accumulate L samples (repeat (repeat (Fin 0) (li_samples L)) (li_n L)) ;;
    let weights := normalise_rows w in
    new_idxs <- mapM (fun ii => draw_rows choose ii (nth ii weights [])) (seq 0 (li_n L)) ;;
    Ok (map (fun kv : string * matrix => (fst kv, map (fun ii => take NaN (nth ii new_idxs []) (nth ii (snd kv) [])) (seq 0 (li_n L)))) (li_data L), weights).
End Eval.
