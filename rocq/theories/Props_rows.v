(** Property theorems (rows). Proofs are in [rows_thms]; the vocabulary is in [Spec]. *)
From Coq Require Import Reals Lra Lia String Bool Permutation.
From Coq Require Import List.
From Verif Require Import Xf Py St Xf_facts Py_facts Utils_model Np Np_facts Mass_model Smoothed_model Smoothed_facts Interp_model Interp_facts Cosmo_model Redshift_model iplb_thms SpecRows.
Import ListNotations.
Local Open Scope R_scope.
From Verif Require Import rows_thms.

(** C128. The smoothed mass models: a new object, or one made without caching whatever it was used for before, evaluates a data set sample by sample. Any primary mass model, any hyper-parameters, complete or not. *)
Theorem C128_smoothed :
  forall bk primary_model self_kwargs interp s kwargs, sm_masses s = None \/ sm_cache s = false ->
  sample_by_sample (fun dataset => snd (smoothed_call bk primary_model self_kwargs interp dataset kwargs s)).
Proof. exact C128_smoothed_pf. Qed.
Print Assumptions C128_smoothed.

Example C128_met : exists s, smoothed_init 2 100 (3, 3)%nat true = Ok s /\ sample_by_sample (fun ds => snd (class_call SinglePeak Jax (fun _ _ _ => Fin 1) ds [("beta", Fin 1)]%string s)).
Proof. eexists. split; [reflexivity|]. apply C128_smoothed. now left. Qed.

(** C128. The redshift models, with any rate evolution and any cosmology, evaluate a data set sample by sample. *)
Theorem C128_redshift :
  forall r parameters, sample_by_sample (fun dataset => probability r dataset parameters) /\
  forall bounds, sample_by_sample (fun dataset => differential_spacetime_volume r dataset bounds parameters).
Proof. exact C128_redshift_pf. Qed.
Print Assumptions C128_redshift.

(** C128. CosmoModel: if the population model evaluates sample by sample, so does the model on detector-frame data, with conversion and Jacobian, whatever columns the data has. *)
Theorem C128_cosmo :
  forall bk z_at_value m prob kwargs, sample_by_sample (fun dataset => prob dataset kwargs) ->
  sample_by_sample (fun dataset => cosmo_prob bk z_at_value m prob dataset kwargs).
Proof. exact C128_cosmo_pf. Qed.
Print Assumptions C128_cosmo.

Example C128_cosmo_met : sample_by_sample (fun ds => cosmo_prob Numpy (fun _ d => d) {| mx_names := []; mx_cosmo := Instance {| co_dl := fun z => z; co_ddl := fun _ => Fin 1; co_dvc := fun _ => Fin 1 |} |} (fun d _ => rmap (map (fmul (Fin 2))) (dlookup "redshift" d)) ds [])%string.
Proof.
  apply C128_cosmo. intros sample columns. apply describes_rows. destruct (dlookup "redshift" columns) as [f|e] eqn:E.
  - apply describes_mapM with (f := fun s => Ok (fmul (Fin 2) (f s))). intros rows _. rewrite table_lookup, E. cbn [rmap]. rewrite map_map. induction rows as [|r rows IH]; [reflexivity|]. cbn [map mapM bind]. rewrite <- IH. reflexivity.
  - apply describes_fails. intros rows _. exists e. now rewrite table_lookup, E.
Qed.

(** C128. The interpolated models (base class and spin models): a new object evaluates a data set sample by sample, whatever the hyper-parameters, also if they change the number of nodes. *)
Theorem C128_interpolated :
  forall bk spl s kwargs, in_norm s = None -> sample_by_sample (fun dataset => snd (p_x_identical bk spl dataset kwargs s)).
Proof. exact C128_interpolated_pf. Qed.
Print Assumptions C128_interpolated.

Example C128_interpolated_met : exists s, spin_magnitude_init 0 1 5 "cubic" false = Ok s /\ in_norm s = None.
Proof. eexists. split; reflexivity. Qed.

(** C128. The spline-modulated power law: a new object evaluates a data set sample by sample. *)
Theorem C128_spline_power_law :
  forall bk spl interp nodes kind mmin mmax shape regularize s kwargs, ipl_init nodes kind mmin mmax shape regularize = Ok s ->
  sample_by_sample (fun dataset => snd (ipl_call bk spl interp dataset kwargs s)).
Proof. exact C128_spline_power_law_pf. Qed.
Print Assumptions C128_spline_power_law.

Example C128_spline_met : exists s, ipl_init 3 "cubic" 2 100 (4, 3)%nat false = Ok s.
Proof. eexists. reflexivity. Qed.

