(** Property theorems (npinj). Proofs are in [npinj_thms]; the vocabulary is in [Spec]. *)
From Coq Require Import Reals ZArith Lra Lia Psatz String Bool.
From Coquelicot Require Import Coquelicot.
From Coq Require Import List.
From Verif Require Import Xf Py Xf_facts Py_facts Np Np_facts Interp_model Interp_facts Vt_model Hyperpe_model Numpyro_model SpecHyper Double Double_facts hypera_thms hyperb_thms hyperc_thms hyperd_thms numpyro_thms.
Import ListNotations.
Local Open Scope R_scope.
From Verif Require Import npinj_thms.

(** C120. Predictive injections of the numpyro model: when the model can be evaluated with selection and predictive resampling, the sampler is asked once for as many indices as there are events,
    with the injections' weights divided by their sum as probabilities, and every requested key gets a site holding the injections with these indices, in the same order for all keys. *)
Theorem C120_injections :
  forall bk prob sel_prob conv choose L v hyper_params varmax fit_keys s converted P prior W,
  conv hyper_params = Ok converted -> sel_prob (rv_data v) converted = Ok P -> dget "prior" (rv_data v) = Some prior -> bcast bk fdiv P prior = Ok W ->
  (forall key p n, (n <= List.length p)%nat -> List.length (choose key p n) = n /\ NoDup (choose key p n) /\ Forall (fun j => (j < List.length p)%nat) (choose key p n)) ->
  likelihood_model bk prob sel_prob conv choose L v hyper_params varmax true true fit_keys = Ok s ->
  exists drawn, drawn = choose 0%nat (map (fun w => fdiv w (fsum W)) W) (li_n L) /\ List.length drawn = li_n L /\ NoDup drawn /\
  forall key array, In key (match fit_keys with Some keys => keys | None => dkeys (rv_data v) end) -> dget key (rv_data v) = Some array -> List.length array = List.length W ->
    In (String.append key "_injections", map (fun j => nth j array NaN) drawn) (nb_predictive s).
Proof. exact C120_injections_pf. Qed.
Print Assumptions C120_injections.

Example C120_hyps : (forall (key : nat) (p : list xf) n, (n <= List.length p)%nat -> List.length (seq 0 n) = n /\ NoDup (seq 0 n) /\ Forall (fun j => (j < List.length p)%nat) (seq 0 n)) /\
  exists s, likelihood_model Jax (fun d _ => dlookup "x" d) (fun d _ => dlookup "x" d) (fun p => Ok p) (fun _ _ n => seq 0 n)
    {| li_kind := Hyper; li_data := [("x"%string, [[Fin 1; Fin 2]; [Fin 3; Fin 4]])]; li_prior := None; li_noise := NaN; li_n := 2; li_samples := 2; li_maxu := PInf; li_max_variance := PInf |}
    {| rv_data := [("x"%string, [Fin 1; Fin 2; Fin 3]); ("prior"%string, [Fin 1; Fin 1; Fin 1])]; rv_n_events := Fin 2; rv_total := Fin 4; rv_time := Fin 1; rv_redshift := None; rv_marginalize := false; rv_enforce := false; rv_volume := Some (Fin 5) |}
    [] PInf true true (Some ["x"%string]) = Ok s /\ In ("x_injections"%string, [Fin 1; Fin 2]) (nb_predictive s).
Proof.
  split.
  - intros _ p n H. rewrite seq_length. split; [reflexivity|]. split; [apply seq_NoDup|]. apply Forall_forall. intros j J. apply in_seq in J. lia.
  - eexists. split; [cbn; reflexivity|]. cbn. now left.
Qed.

(** C120. With fewer injections than events the model with predictive resampling cannot be evaluated, at any hyper-parameters at which the model without it can: drawing without replacement
    raises ValueError. *)
Theorem C120_too_few_injections :
  forall bk prob sel_prob conv choose L v hyper_params varmax fit_keys s converted P prior W,
  conv hyper_params = Ok converted -> sel_prob (rv_data v) converted = Ok P -> dget "prior" (rv_data v) = Some prior -> bcast bk fdiv P prior = Ok W ->
  (List.length W < li_n L)%nat ->
  likelihood_model bk prob sel_prob conv choose L v hyper_params varmax true false fit_keys = Ok s ->
  likelihood_model bk prob sel_prob conv choose L v hyper_params varmax true true fit_keys = Err ValueError.
Proof. exact C120_too_few_injections_pf. Qed.
Print Assumptions C120_too_few_injections.

Example C120_too_few_hyps : exists s, likelihood_model Jax (fun d _ => dlookup "x" d) (fun d _ => dlookup "x" d) (fun p => Ok p) (fun _ _ n => seq 0 n)
    {| li_kind := Hyper; li_data := [("x"%string, [[Fin 1; Fin 2]; [Fin 3; Fin 4]])]; li_prior := None; li_noise := NaN; li_n := 2; li_samples := 2; li_maxu := PInf; li_max_variance := PInf |}
    {| rv_data := [("x"%string, [Fin 1]); ("prior"%string, [Fin 1])]; rv_n_events := Fin 2; rv_total := Fin 4; rv_time := Fin 1; rv_redshift := None; rv_marginalize := false; rv_enforce := false; rv_volume := Some (Fin 5) |}
    [] PInf true false None = Ok s.
Proof. eexists. cbn. reflexivity. Qed.

(** C67. The counts the likelihood uses: the number of events is the number of posteriors given, the number of samples that of the resampled arrays. *)
Theorem C67_counts :
  forall c rows posteriors hp ev max_samples u L, likelihood_init c rows posteriors hp ev max_samples u = Ok L ->
  li_n L = List.length posteriors /\ exists data, resample_posteriors rows posteriors max_samples = Ok (li_samples L, data) /\ li_prior L = dget "prior" data.
Proof. exact C67_counts_pf. Qed.
Print Assumptions C67_counts.

Example C67_counts_hyps : exists L, likelihood_init Hyper (fun _ n k => seq 0 k) [{| fr_len := 2; fr_cols := [("x"%string, [Fin 1; Fin 2])] |}; {| fr_len := 3; fr_cols := [("x"%string, [Fin 1; Fin 2; Fin 3])] |}] ModelLike None None PInf = Ok L /\
  li_n L = 2%nat /\ li_samples L = 2%nat.
Proof. eexists. split; [cbn; reflexivity|]. now split. Qed.

