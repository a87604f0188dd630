(** Property theorems (numpyro). Proofs are in [numpyro_thms]; the vocabulary is in [Spec]. *)
From Coq Require Import Reals ZArith Lra Lia Psatz String Bool.
From Coquelicot Require Import Coquelicot.
From Coq Require Import List.
From Verif Require Import Xf Py Xf_facts Py_facts Np Np_facts Interp_model Interp_facts Vt_model Hyperpe_model Numpyro_model SpecHyper Double Double_facts hypera_thms hyperb_thms hyperc_thms.
Import ListNotations.
Local Open Scope R_scope.
From Verif Require Import numpyro_thms.

(** C76. With selection: whenever the numpyro model can be evaluated, HyperparameterLikelihood with the same ResamplingVT (convergence enforcement and marginalisation off) gives exactly the same log
    likelihood and variance, for all values including infinite and NaN ones; the per-event sites are the likelihood's per-event numbers. *)
Theorem C76_agrees :
  forall bk prob sel_prob conv choose L v hyper_params varmax resample fit_keys s,
  li_kind L = Hyper -> rv_marginalize v = false -> rv_enforce v = false ->
  likelihood_model bk prob sel_prob conv choose L v hyper_params varmax true resample fit_keys = Ok s ->
  ln_likelihood_and_variance bk prob (resampling_call bk sel_prob v) conv L hyper_params = Ok (nb_ln_l s, nb_variance s) /\
  exists converted, conv hyper_params = Ok converted /\ per_event bk prob L converted = Ok (nb_ln_bfs s, nb_variances s).
Proof. exact C76_agrees_pf. Qed.
Print Assumptions C76_agrees.

(** C76, conversely: when that likelihood can be evaluated and the surveyed volume computed, the numpyro model (without predictive sites) is defined and has the same two numbers. *)
Theorem C76_defined :
  forall bk prob sel_prob conv choose L v hyper_params converted varmax fit_keys ln_l variance h,
  li_kind L = Hyper -> rv_marginalize v = false -> rv_enforce v = false -> conv hyper_params = Ok converted -> surveyed_hypervolume v converted = Ok h ->
  ln_likelihood_and_variance bk prob (resampling_call bk sel_prob v) conv L hyper_params = Ok (ln_l, variance) ->
  exists s, likelihood_model bk prob sel_prob conv choose L v hyper_params varmax true false fit_keys = Ok s /\ nb_ln_l s = ln_l /\ nb_variance s = variance.
Proof. exact C76_defined_pf. Qed.
Print Assumptions C76_defined.

Definition np_L : likelihood := {| li_kind := Hyper; li_data := [("x"%string, [[Fin 1; Fin 2]; [Fin 3; Fin 4]])]; li_prior := None; li_noise := NaN; li_n := 2; li_samples := 2; li_maxu := PInf; li_max_variance := PInf |}.
Definition np_v : resampling := {| rv_data := [("x"%string, [Fin 1; Fin 2]); ("prior"%string, [Fin 1; Fin 1])]; rv_n_events := Fin 2; rv_total := Fin 4; rv_time := Fin 1; rv_redshift := None; rv_marginalize := false; rv_enforce := false; rv_volume := Some (Fin 5) |}.
Example C76_hyps : exists s, likelihood_model Jax (fun d _ => dlookup "x" d) (fun d _ => dlookup "x" d) (fun p => Ok p) (fun _ _ n => repeat 0%nat n) np_L np_v [] PInf true true None = Ok s /\ List.length (nb_predictive s) = 4%nat.
Proof. eexists. split; [cbn; reflexivity|reflexivity]. Qed.

(** C76. Without selection the log likelihood and variance are those of the likelihood with a selection function that is identically 1 (the default one). *)
Theorem C76_without_selection :
  forall bk prob sel_prob conv choose L v hyper_params varmax resample fit_keys s, li_kind L = Hyper ->
  likelihood_model bk prob sel_prob conv choose L v hyper_params varmax false resample fit_keys = Ok s ->
  ln_likelihood_and_variance bk prob (fun _ => Ok (Value (Fin 1))) conv L hyper_params = Ok (nb_ln_l s, nb_variance s) /\ nb_rate s = None.
Proof. exact C76_without_selection_pf. Qed.
Print Assumptions C76_without_selection.

(** C76. The returned value: with a finite threshold, the most negative double exactly when the log likelihood is NaN or the variance exceeds the threshold, otherwise the log likelihood;
    with the default threshold always the log likelihood. *)
Theorem C76_returned :
  forall bk prob sel_prob conv choose L v hyper_params varmax apply_selection resample fit_keys s,
  likelihood_model bk prob sel_prob conv choose L v hyper_params varmax apply_selection resample fit_keys = Ok s ->
  (varmax = PInf -> nb_return s = nb_ln_l s) /\
  (forall m, varmax = Fin m -> nb_ln_l s = NaN \/ nb_variance s = PInf \/ (exists x, nb_variance s = Fin x /\ m < x) -> nb_return s = Fin (- MAXF)) /\
  (forall m, varmax = Fin m -> nb_ln_l s <> NaN -> nb_variance s = NInf \/ nb_variance s = NaN \/ (exists x, nb_variance s = Fin x /\ x <= m) -> nb_return s = nb_ln_l s).
Proof. exact C76_returned_pf. Qed.
Print Assumptions C76_returned.

(** C76 (the NaN clause is refuted for the default threshold). At every point where the estimator is NaN the numpyro model returns NaN while log_likelihood_ratio rejects the point. *)
Theorem C76_nan_default_refuted :
  forall bk prob sel_prob conv choose L v hyper_params resample fit_keys s, li_kind L = Hyper -> rv_marginalize v = false -> rv_enforce v = false ->
  likelihood_model bk prob sel_prob conv choose L v hyper_params PInf true resample fit_keys = Ok s -> nb_ln_l s = NaN ->
  nb_return s = NaN /\ log_likelihood_ratio bk prob (resampling_call bk sel_prob v) conv L hyper_params = Ok (Fin (- MAXF)).
Proof. exact C76_nan_default_refuted_pf. Qed.
Print Assumptions C76_nan_default_refuted.

Example C76_nan_hyps : exists s, likelihood_model Jax (fun d _ => Ok [[NaN; Fin 1]; [Fin 1; Fin 1]]) (fun d _ => dlookup "x" d) (fun p => Ok p) (fun _ _ n => repeat 0%nat n) np_L np_v [] PInf true false None = Ok s /\ nb_ln_l s = NaN.
Proof. eexists. split; [cbn; reflexivity|]. reflexivity. Qed.

(** C89 (refuted). The numpyro model ignores the selection function's convergence requirement and uncertainty marginalisation: two ResamplingVT objects with the same injections, volume and time
    give the same sites and value; where an enforced, unconverged selection function makes log_likelihood_ratio reject the point, the numpyro model returns the raw estimate. *)
Theorem C89_convergence_refuted :
  forall bk prob sel_prob conv choose L v hyper_params converted resample fit_keys s mu var,
  li_kind L = Hyper -> (0 < li_n L)%nat -> rv_marginalize v = false -> rv_enforce v = true -> conv hyper_params = Ok converted ->
  detection_efficiency bk sel_prob v converted = Ok (mu, var) -> fst (check_convergence v mu var) = false ->
  likelihood_model bk prob sel_prob conv choose L v hyper_params PInf true resample fit_keys = Ok s ->
  log_likelihood_ratio bk prob (resampling_call bk sel_prob v) conv L hyper_params = Ok (Fin (- MAXF)) /\
  nb_return s = fadd (fsum (nb_ln_bfs s)) (fmul (fopp (of_nat (li_n L))) (flog mu)).
Proof. exact C89_convergence_refuted_pf. Qed.
Print Assumptions C89_convergence_refuted.

Theorem C89_settings_ignored_refuted :
  forall bk prob sel_prob conv choose L v v' hyper_params varmax apply_selection resample fit_keys,
  rv_data v = rv_data v' -> rv_total v = rv_total v' -> rv_time v = rv_time v' -> rv_redshift v = rv_redshift v' -> rv_volume v = rv_volume v' ->
  likelihood_model bk prob sel_prob conv choose L v hyper_params varmax apply_selection resample fit_keys = likelihood_model bk prob sel_prob conv choose L v' hyper_params varmax apply_selection resample fit_keys.
Proof. exact C89_settings_ignored_refuted_pf. Qed.
Print Assumptions C89_settings_ignored_refuted.

Definition np_ve : resampling := {| rv_data := [("x"%string, [Fin 1; Fin 0]); ("prior"%string, [Fin 1; Fin 1])]; rv_n_events := Fin 2; rv_total := Fin 2; rv_time := Fin 1; rv_redshift := None; rv_marginalize := false; rv_enforce := true; rv_volume := Some (Fin 5) |}.
Example C89_hyps : exists s mu var, likelihood_model Jax (fun d _ => dlookup "x" d) (fun d _ => dlookup "x" d) (fun p => Ok p) (fun _ _ n => repeat 0%nat n) np_L np_ve [] PInf true false None = Ok s /\
  detection_efficiency Jax (fun d _ => dlookup "x" d) np_ve [] = Ok (mu, var) /\ fst (check_convergence np_ve mu var) = false /\ exists x, flog mu = Fin x.
Proof.
  eexists _, (Fin (1/2)), (Fin (1/8)). split; [cbn; reflexivity|]. split; [|split].
  - unfold detection_efficiency. cbn [bind rv_data np_ve dlookup dget String.eqb Ascii.eqb Bool.eqb bcast bcast2 List.length Nat.eqb zipWith combine map fst snd rv_total to_number fsum fold_right].
    rewrite !fdiv_fin by lra. rewrite !fsq_fin, !fadd_fin, !fdiv_fin by lra. unfold to_number. rewrite !fsq_fin, !fdiv_fin, fsub_fin by lra. do 3 f_equal; field.
  - unfold check_convergence. cbn [fst rv_n_events np_ve]. rewrite !fmul_fin, fsq_fin, fgt_fin. apply Rltb_false. lra.
  - exists (ln (1/2)). apply flog_fin. lra.
Qed.

(** C77 (refuted). Whatever the (in-range) random choice, the predictive sample of event i is one of its first N samples, N the number of events (or its last one, if it has fewer): the
    probabilities are the weights of sample number i of all events. In particular an event whose first N samples all have weight zero always gets a sample of weight zero. *)
Theorem C77_first_samples_refuted :
  forall bk prob sel_prob conv choose L v hyper_params varmax apply_selection s converted P,
  conv hyper_params = Ok converted -> prob (li_data L) converted = Ok P -> List.length P = li_n L -> (0 < li_n L)%nat ->
  (forall key p, p <> [] -> exists j, choose key p 1%nat = [j] /\ (j < List.length p)%nat) ->
  likelihood_model bk prob sel_prob conv choose L v hyper_params varmax apply_selection true None = Ok s ->
  exists drawn w, event_weights bk prob L converted = Ok w /\
  forall i key array, (i < li_n L)%nat -> dget key (li_data L) = Some array -> In key (dkeys (li_data L)) ->
    (drawn i < li_n L)%nat /\
    In (String.append key (String.append "_" (str_nat i)), [nth (Nat.min (drawn i) (List.length (nth i array []) - 1)) (nth i array []) NaN]) (nb_predictive s) /\
    choose 0%nat (normalised (map (fun row => nth (Nat.min i (List.length row - 1)) row NaN) w)) 1%nat = [drawn i].
Proof. exact C77_first_samples_refuted_pf. Qed.
Print Assumptions C77_first_samples_refuted.

Definition np_L3 : likelihood := {| li_kind := Hyper; li_data := [("x"%string, [[Fin 0; Fin 0; Fin 7]; [Fin 3; Fin 4; Fin 5]])]; li_prior := None; li_noise := NaN; li_n := 2; li_samples := 3; li_maxu := PInf; li_max_variance := PInf |}.
Example C77_hyps : exists s, likelihood_model Jax (fun d _ => dlookup "x" d) (fun d _ => dlookup "x" d) (fun p => Ok p) (fun _ _ n => repeat 1%nat n) np_L3 np_v [] PInf false true None = Ok s /\ nb_predictive s = [("x_0"%string, [Fin 0]); ("x_1"%string, [Fin 4])].
Proof. eexists. split; cbn; reflexivity. Qed.

(** C77. The draw for an event does not depend on the event's own weights except one: two weight arrays with the same column i give the same predictive sample of event i. *)
Theorem C77_own_weights_refuted :
  forall choose data (w w' : matrix) i fit_keys, List.length w = List.length w' ->
  (forall k, (k < List.length w)%nat -> (i < List.length (nth k w []))%nat /\ (i < List.length (nth k w' []))%nat /\ nth i (nth k w []) NaN = nth i (nth k w' []) NaN) ->
  resample_event choose data w i fit_keys = resample_event choose data w' i fit_keys.
Proof. exact C77_own_weights_refuted_pf. Qed.
Print Assumptions C77_own_weights_refuted.

(** C86 (refuted). With finite efficiency e > 0 and volume h > 0 and a standard Gamma(N) variate g > 0: the rate site is g * e * h, the rate posterior sample of the likelihood is g / (e * h);
    they agree only if e * h = 1. *)
Theorem C86_rate_refuted :
  forall bk prob sel_prob conv choose L v parameters varmax resample fit_keys s e var h draw g,
  li_kind L = Hyper -> conv parameters = Ok parameters ->
  detection_efficiency bk sel_prob v parameters = Ok (Fin e, var) -> surveyed_hypervolume v parameters = Ok (Fin h) -> 0 < e -> 0 < h ->
  draw (li_n L) = Fin g -> 0 < g ->
  likelihood_model bk prob sel_prob conv choose L v parameters varmax true resample fit_keys = Ok s ->
  exists site, nb_rate s = Some site /\ gamma_site draw site = Fin (g * (e * h)) /\
    generate_rate_posterior_sample (resampling_call bk sel_prob v) (Some {| vm_efficiency := detection_efficiency bk sel_prob v; vm_hypervolume := surveyed_hypervolume v |}) (draw (li_n L)) L parameters = Ok (Fin (g / (e * h))) /\
    (g * (e * h) = g / (e * h) <-> e * h = 1).
Proof. exact C86_rate_refuted_pf. Qed.
Print Assumptions C86_rate_refuted.

Example C86_hyps : detection_efficiency Jax (fun d _ => dlookup "x" d) np_v [] = Ok (Fin (3/4), Fin (5/16 - 9/16/4)) /\ surveyed_hypervolume np_v [] = Ok (Fin 5).
Proof.
  split; [|reflexivity]. unfold detection_efficiency. cbn [bind rv_data np_v dlookup dget String.eqb Ascii.eqb Bool.eqb bcast bcast2 List.length Nat.eqb zipWith combine map fst snd rv_total to_number fsum fold_right].
  rewrite !fdiv_fin by lra. rewrite !fsq_fin, !fadd_fin, !fdiv_fin by lra. unfold to_number. rewrite !fsq_fin, !fdiv_fin, fsub_fin by lra. do 3 f_equal; field.
Qed.

(** C87 (refuted). The index drawn is a function of the normalised weights alone: any two uses (of different events, data, or calls) whose weights are proportional draw the same indices; for every key
    both report the sample at those indices. *)
Theorem C87_same_draw_refuted :
  forall choose (data data' : dict matrix) (w w' : matrix) i i' (x : list R) c sites sites', 0 < c -> 0 < Rsum x ->
  map (fun row => nth (Nat.min i (List.length row - 1)) row NaN) w = map Fin x ->
  map (fun row => nth (Nat.min i' (List.length row - 1)) row NaN) w' = map Fin (map (Rmult c) x) ->
  resample_event choose data w i None = Ok sites -> resample_event choose data' w' i' None = Ok sites' ->
  exists idx, (forall key array, In key (dkeys data) -> dget key data = Some array ->
      In (String.append key (String.append "_" (str_nat i)), map (fun j => nth (Nat.min j (List.length (nth i array []) - 1)) (nth i array []) NaN) idx) sites) /\
    (forall key array, In key (dkeys data') -> dget key data' = Some array ->
      In (String.append key (String.append "_" (str_nat i')), map (fun j => nth (Nat.min j (List.length (nth i' array []) - 1)) (nth i' array []) NaN) idx) sites').
Proof. exact C87_same_draw_refuted_pf. Qed.
Print Assumptions C87_same_draw_refuted.

Example C87_hyps : map (fun row => nth (Nat.min 0 (List.length row - 1)) row NaN) [[Fin 1; Fin 2]; [Fin 3; Fin 6]] = map Fin [1; 3] /\
  map (fun row => nth (Nat.min 1 (List.length row - 1)) row NaN) [[Fin 1; Fin (2 * 1)]; [Fin 3; Fin (2 * 3)]] = map Fin (map (Rmult 2) [1; 3]).
Proof. split; reflexivity. Qed.

(** C78. The default JittedLikelihood: equal to the wrapped ratio whenever that is finite, finite whenever defined; for the package's own likelihoods it is the wrapped value for all parameters. *)
Theorem C78_agrees :
  (forall ratio parameters, (forall x, ratio parameters = Ok (Fin x) -> jitted_ratio (jitted_default ratio) [] parameters = Ok (Fin x)) /\
     (forall e, ratio parameters = Err e -> jitted_ratio (jitted_default ratio) [] parameters = Err e)) /\
  (forall func kwargs parameters y, jitted_ratio func kwargs parameters = Ok y -> exists r, y = Fin r) /\
  (forall bk prob sel conv L parameters, jitted_ratio (jitted_default (log_likelihood_ratio bk prob sel conv L)) [] parameters = log_likelihood_ratio bk prob sel conv L parameters).
Proof. exact C78_agrees_pf. Qed.
Print Assumptions C78_agrees.

(** C78 (refuted). The documented choice of the full likelihood through the keyword arguments is impossible: with any keyword arguments the default function raises. *)
Theorem C78_keyword_refuted :
  forall ratio k v kwargs parameters, jitted_ratio (jitted_default ratio) ((k, v) :: kwargs) parameters = Err TypeError.
Proof. exact C78_keyword_refuted_pf. Qed.
Print Assumptions C78_keyword_refuted.

(** C78 (refuted). A function that returns NaN gives 0: with the full likelihood of a likelihood without evidences the result is 0 wherever it can be evaluated, whatever the parameters. *)
Theorem C78_full_likelihood_refuted :
  forall bk prob sel conv L kwargs parameters l, li_noise L = NaN -> log_likelihood_ratio bk prob sel conv L parameters = Ok l ->
  jitted_ratio (fun p _ => log_likelihood bk prob sel conv L p) kwargs parameters = Ok (Fin 0).
Proof. exact C78_full_likelihood_refuted_pf. Qed.
Print Assumptions C78_full_likelihood_refuted.

Example C78_hyps : exists l, log_likelihood_ratio Jax (fun d _ => dlookup "x" d) (fun _ => Ok (Value (Fin 1))) (fun p => Ok p) np_L [] = Ok l /\ li_noise np_L = NaN.
Proof. eexists. split; [|reflexivity]. unfold log_likelihood_ratio. match goal with |- bind ?m _ = _ => let x := eval cbn in m in change m with x end. cbn [bind]. reflexivity. Qed.

(** C90. A constructed JittedLikelihood passes exactly those attributes on to the wrapped likelihood that are neither its own nor defined by its class or a base class. In particular (refuted) an
    attribute every bilby likelihood class defines, such as log_likelihood or noise_log_likelihood, is never the wrapped one. *)
Theorem C90_delegation_refuted :
  forall (V : Type) (kwargs wrapped func : V) class name fuel, (1 < fuel)%nat ->
  (lookup_attr fuel (jitted_instance kwargs wrapped func) class name = Wrapped name <-> ~ In name ["kwargs"; "_likelihood"; "likelihood_func"]%string /\ ~ In name class) /\
  (In "log_likelihood"%string class -> lookup_attr fuel (jitted_instance kwargs wrapped func) class "log_likelihood" = OfClass "log_likelihood") /\
  (In "noise_log_likelihood"%string class -> lookup_attr fuel (jitted_instance kwargs wrapped func) class "noise_log_likelihood" = OfClass "noise_log_likelihood").
Proof. exact C90_delegation_refuted_pf. Qed.
Print Assumptions C90_delegation_refuted.

(** C91 (refuted). On an instance whose dictionary is still empty (as created by copy, deepcopy or unpickling, which then look for __setstate__) every attribute that the class does not define recurses
    without end: no recursion depth suffices. *)
Theorem C91_copy_refuted :
  forall (V : Type) class fuel name, ~ In "_likelihood"%string class -> ~ In name class -> lookup_attr fuel (@nil (string * V)) class name = RecursionError.
Proof. exact C91_copy_refuted_pf. Qed.
Print Assumptions C91_copy_refuted.

Example C91_hyps : ~ In "_likelihood"%string ["log_likelihood"; "noise_log_likelihood"; "log_likelihood_ratio"]%string /\ ~ In "__setstate__"%string ["log_likelihood"; "noise_log_likelihood"; "log_likelihood_ratio"]%string.
Proof. split; intros H; cbn in H; intuition discriminate. Qed.

