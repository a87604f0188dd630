(** Property theorems (abstract). Proofs are in [abstract_thms]; the vocabulary is in [Spec]. *)
From Coq Require Import Reals Lra Lia String Bool.
From Coquelicot Require Import Coquelicot.
From Coq Require Import List.
From Verif Require Import Xf Py St Xf_facts Py_facts Utils_model Np Np_facts Mass_model Smoothed_model Cosmo_model Redshift_model redshift_thms
  Vt_model Hyperpe_model Abstract_model.
Import ListNotations.
Local Open Scope R_scope.
Local Opaque linspace xlinspace.
From Verif Require Import abstract_thms.

(** C137. An object of the base redshift class, which has no rate evolution, can be created and asked for its parameter names, but never
    gives a probability: every evaluation raises NotImplementedError, whatever the data and the parameters; so does the surveyed volume of
    every selection function whose last redshift model is such an object. *)
Theorem C137_redshift :
  forall available z_max cosmo_model r parameters, redshift_init available base_rate z_max cosmo_model = Ok r ->
  (forall dataset, probability r dataset parameters = Err NotImplementedError) /\
  (forall dvc before after data n marginalize enforce v, Forall (fun m => m = None) after ->
     resampling_init dvc (before ++ Some r :: after) data n marginalize enforce = Ok v ->
     surveyed_hypervolume v parameters = Err NotImplementedError).
Proof. exact C137_redshift_pf. Qed.
Print Assumptions C137_redshift.

(** C137. An object of the base class of the smoothed mass models, which has no primary mass model, never gives a density at a mass: every
    evaluation with at least one primary mass raises an exception and leaves the object as it was; the exception is TypeError when the
    keywords are acceptable to every subclass. *)
Theorem C137_mass :
  forall bk linterp self kwargs dataset masses, dget "mass_1" dataset = Some masses -> masses <> [] ->
  exists e, smoothed_call bk base_primary_model base_kwargs linterp dataset kwargs self = (self, Err e) /\
  (forall beta, dget "beta" kwargs = Some beta ->
     flt (dget_default "mmin" (sm_mmin self) kwargs) (sm_mmin self) = false ->
     fgt (dget_default "mmax" (sm_mmax self) kwargs) (sm_mmax self) = false -> e = TypeError).
Proof. exact C137_mass_pf. Qed.
Print Assumptions C137_mass.

(** C137. A likelihood whose selection function is an object of the base class never gives a number: neither the log-likelihood (of any
    of the three classes) nor the extra statistics nor, unless the rate is sampled, a draw of the rate. Where the model can be evaluated on the
    events the exception is NotImplementedError. *)
Theorem C137_selection :
  forall bk prob conv L parameters,
  (exists e, log_likelihood_ratio bk prob base_vt_call conv L parameters = Err e) /\
  (exists e, log_likelihood bk prob base_vt_call conv L parameters = Err e) /\
  (exists e, generate_extra_statistics bk prob base_vt_call conv L parameters = Err e) /\
  (forall draw, li_kind L <> Rate -> generate_rate_posterior_sample base_vt_call None draw L parameters = Err NotImplementedError) /\
  (forall converted weights, conv parameters = Ok converted -> event_weights bk prob L converted = Ok weights ->
     log_likelihood_ratio bk prob base_vt_call conv L parameters = Err NotImplementedError /\
     generate_extra_statistics bk prob base_vt_call conv L parameters = Err NotImplementedError).
Proof. exact C137_selection_pf. Qed.
Print Assumptions C137_selection.

Definition toy_abs : cosmology := {| co_dl := fun z => z; co_ddl := fun _ => Fin 1; co_dvc := fun _ => Fin 1 |}.
Example C137_met : (exists r, redshift_init [("Planck15"%string, Instance toy_abs)] base_rate 1 "Planck15" = Ok r /\ fst (variable_names r) = []) /\
  (exists s, smoothed_init 2 100 (10%nat, 10%nat) true = Ok s /\ flt (Fin 5) (sm_mmin s) = false /\ fgt (Fin 80) (sm_mmax s) = false).
Proof.
  split; [eexists; split; reflexivity|].
  assert (E : smoothed_init 2 100 (10%nat, 10%nat) true = Ok {| sm_mmin := Fin 2; sm_mmax := Fin 100; sm_m1s := xlinspace 2 100 10;
    sm_qs := xlinspace (1 / 1000) 1 10; sm_cache := true; sm_masses := None |}) by reflexivity.
  eexists. split; [exact E|]. cbn [sm_mmin sm_mmax]. unfold fgt. cbn [flt]. unfold Rltb.
  split; [destruct (Rlt_dec 5 2) as [F|F]|destruct (Rlt_dec 100 80) as [F|F]]; try reflexivity; lra.
Qed.

