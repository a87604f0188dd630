(** Proofs of the property theorems stated in [Props_abstract]. *)
From Coq Require Import Reals Lra Lia String Bool.
From Coquelicot Require Import Coquelicot.
From Coq Require Import List.
From Verif Require Import Xf Py St Xf_facts Py_facts Utils_model Np Np_facts Mass_model Smoothed_model Cosmo_model Redshift_model redshift_thms
  Vt_model Hyperpe_model Abstract_model.
Import ListNotations.
Local Open Scope R_scope.
Local Opaque linspace xlinspace.
Lemma base_norm av zm name r p : redshift_init av base_rate zm name = Ok r -> normalisation r p = Err NotImplementedError.
Proof.
  intros Hi. destruct (init_rs _ _ _ _ _ Hi) as (I1 & _ & I3 & _).
  unfold normalisation, differential_spacetime_volume. cbn [dlookup dget String.eqb Ascii.eqb Bool.eqb bind].
  assert (L : List.length (rs_zs r) = 2500%nat) by (rewrite I1, map_length; apply zs_len).
  destruct (rs_zs r) as [|z zs]; [discriminate L|]. cbn [mapM].
  unfold differential_spacetime_volume_at. rewrite I3. reflexivity.
Qed.
Lemma C137_redshift_pf :
  forall available z_max cosmo_model r parameters, redshift_init available base_rate z_max cosmo_model = Ok r ->
  (forall dataset, probability r dataset parameters = Err NotImplementedError) /\
  (forall dvc before after data n marginalize enforce v, Forall (fun m => m = None) after ->
     resampling_init dvc (before ++ Some r :: after) data n marginalize enforce = Ok v ->
     surveyed_hypervolume v parameters = Err NotImplementedError).
Proof.
  intros av zm name r p Hi. pose proof (base_norm _ _ _ _ p Hi) as N. split.
  - intros d. unfold probability. rewrite N. reflexivity.
  - intros dvc bef aft data n mu en v HF. unfold resampling_init. destruct (dlookup "prior" (inj_data data)); cbn [bind]; [|discriminate].
    intros E. injection E as <-. unfold surveyed_hypervolume. cbn [rv_redshift].
    rewrite fold_left_app. cbn [fold_left].
    assert (G : forall l acc, Forall (fun m : option redshift => m = None) l ->
      fold_left (fun acc (m : option redshift) => match m with Some r => Some r | None => acc end) l acc = acc).
    { intros l. induction l as [|x l IH]; intros acc Hl; [reflexivity|]. inversion Hl as [|? ? Hx Hl']; subst. cbn [fold_left]. now apply IH. }
    rewrite (G aft (Some r) HF). rewrite N. reflexivity.
Qed.

Lemma C137_mass_pf :
  forall bk linterp self kwargs dataset masses, dget "mass_1" dataset = Some masses -> masses <> [] ->
  exists e, smoothed_call bk base_primary_model base_kwargs linterp dataset kwargs self = (self, Err e) /\
  (forall beta, dget "beta" kwargs = Some beta ->
     flt (dget_default "mmin" (sm_mmin self) kwargs) (sm_mmin self) = false ->
     fgt (dget_default "mmax" (sm_mmax self) kwargs) (sm_mmax self) = false -> e = TypeError).
Proof.
  intros bk li s kw d ms Hm Hne.
  assert (P : forall kw', p_m1 bk base_primary_model s d kw' = Err TypeError).
  { intros kw'. unfold p_m1, dlookup. rewrite Hm. cbn [bind]. unfold smoothed_primary.
    destruct ms as [|m ms]; [now elim Hne|]. reflexivity. }
  unfold smoothed_call, sbind, slift. unfold dlookup at 1. destruct (dget "beta" kw) as [b|] eqn:B; cbn.
  2:{ eexists. split; [reflexivity|]. discriminate. }
  assert (D : forall k x, k <> "beta"%string -> dget_default k x (ddel "beta" kw) = dget_default k x kw).
  { intros k x Hk. unfold dget_default. now rewrite dget_ddel_other. }
  rewrite !D by discriminate.
  destruct (negb (is_jax bk) && flt (dget_default "mmin" (sm_mmin s) kw) (sm_mmin s)) eqn:A1.
  { eexists. split; [reflexivity|]. intros _ _ F _. rewrite F, andb_false_r in A1. discriminate. }
  destruct (negb (is_jax bk) && fgt (dget_default "mmax" (sm_mmax s) kw) (sm_mmax s)) eqn:A2.
  { eexists. split; [reflexivity|]. intros _ _ _ F. rewrite F, andb_false_r in A2. discriminate. }
  cbn. rewrite P. eexists. split; [reflexivity|]. auto.
Qed.

Lemma C137_selection_pf :
  forall bk prob conv L parameters,
  (exists e, log_likelihood_ratio bk prob base_vt_call conv L parameters = Err e) /\
  (exists e, log_likelihood bk prob base_vt_call conv L parameters = Err e) /\
  (exists e, generate_extra_statistics bk prob base_vt_call conv L parameters = Err e) /\
  (forall draw, li_kind L <> Rate -> generate_rate_posterior_sample base_vt_call None draw L parameters = Err NotImplementedError) /\
  (forall converted weights, conv parameters = Ok converted -> event_weights bk prob L converted = Ok weights ->
     log_likelihood_ratio bk prob base_vt_call conv L parameters = Err NotImplementedError /\
     generate_extra_statistics bk prob base_vt_call conv L parameters = Err NotImplementedError).
Proof.
  intros bk prob conv L p.
  unfold log_likelihood, log_likelihood_ratio, ln_likelihood_and_variance, generate_extra_statistics, per_event, selection_factor, selection_with_uncertainty, base_vt_call.
  repeat split.
  - destruct (conv p) as [c|]; cbn; eauto. destruct (event_weights bk prob L c); cbn; eauto.
  - destruct (conv p) as [c|]; cbn; eauto. destruct (event_weights bk prob L c); cbn; eauto.
  - destruct (conv p) as [c|]; cbn; eauto. destruct (event_weights bk prob L c); cbn; eauto.
  - intros dr HK. unfold generate_rate_posterior_sample. destruct (li_kind L); [reflexivity|now elim HK|reflexivity].
  - rewrite H. cbn. rewrite H0. reflexivity.
  - rewrite H. cbn. rewrite H0. reflexivity.
Qed.

