(** Property theorems (agree). Proofs are in [agree_thms]; the vocabulary is in [Spec]. *)
From Coq Require Import Reals Lra Lia Psatz String Bool.
From Coquelicot Require Import Coquelicot.
From Coq Require Import List FunctionalExtensionality.
From Verif Require Import Xf Py Xf_facts Py_facts St Np Utils_model Mass_model Spin_model Smoothed_model Cosmo_model Vt_model Hyperpe_model SpecAgree Smoothed_facts smoothed_thms.
Import ListNotations.
Local Open Scope R_scope.
From Verif Require Import agree_thms.

(** C109. Every analytic density, for all inputs (NaN and infinities included): numpy and cupy do the same, jax returns their value whenever they return one, and on jax no analytic
    density ever raises. *)
Theorem C109_analytic_densities :
  let ok {A} (f : backend -> result A) := backends_agree f /\ jax_returns f in
  (forall kw x a b c, ok (fun bk => beta_dist bk kw x a b c)) /\ (forall kw x a h l, ok (fun bk => powerlaw bk kw x a h l)) /\ (forall kw x m s h l, ok (fun bk => truncnorm bk kw x m s h l)) /\
  (forall m a1 a2 mn mx bf, ok (fun bk => double_power_law_primary_mass bk m a1 a2 mn mx bf)) /\
  (forall m a1 a2 mn mx bf l mp sp g, ok (fun bk => double_power_law_peak_primary_mass bk m a1 a2 mn mx bf l mp sp g)) /\
  (forall m q a1 a2 be mn mx bf, ok (fun bk => double_power_law_primary_power_law_mass_ratio bk m q a1 a2 be mn mx bf)) /\
  (forall m al mn mx, ok (fun bk => power_law_mass bk m al mn mx)) /\
  (forall m al mn mx l mp sp g, ok (fun bk => two_component_single bk m al mn mx l mp sp g)) /\
  (forall m al mn mx l l1 m1 s1 m2 s2 g, ok (fun bk => three_component_single bk m al mn mx l l1 m1 s1 m2 s2 g)) /\
  (forall m q al be mn mx l mp sp g, ok (fun bk => two_component_primary_mass_ratio bk m q al be mn mx l mp sp g)) /\
  (forall m q al be mn mx, ok (fun bk => power_law_primary_mass_ratio bk m q al be mn mx)) /\
  (forall m1 m2 al be mn mx, ok (fun bk => power_law_primary_secondary_independent bk m1 m2 al be mn mx)) /\
  (forall m1 m2 al mn mx, ok (fun bk => power_law_primary_secondary_identical bk m1 m2 al mn mx)) /\
  (forall m1 m2 al be mn mx l mp sp g, ok (fun bk => two_component_primary_secondary_independent bk m1 m2 al be mn mx l mp sp g)) /\
  (forall m1 m2 al mn mx l mp sp g, ok (fun bk => two_component_primary_secondary_identical bk m1 m2 al mn mx l mp sp g)) /\
  (forall a1 a2 al1 al2 be1 be2 s1 s2, ok (fun bk => independent_spin_magnitude_beta bk a1 a2 al1 al2 be1 be2 s1 s2)) /\
  (forall a1 a2 s al be, ok (fun bk => iid_spin_magnitude_beta bk a1 a2 s al be)) /\
  (forall c1 c2 xi s1 s2 m1 m2, ok (fun bk => independent_spin_orientation_gaussian_isotropic bk c1 c2 xi s1 s2 m1 m2)) /\
  (forall c1 c2 xi s m, ok (fun bk => iid_spin_orientation_gaussian_isotropic bk c1 c2 xi s m)) /\
  (forall a1 a2 c1 c2 xi s mx al be, ok (fun bk => iid_spin bk a1 a2 c1 c2 xi s mx al be)) /\
  (forall x m s, ok (fun bk => gaussian_chi_eff bk x m s)) /\ (forall x m s, ok (fun bk => gaussian_chi_p bk x m s)).
Proof. exact C109_analytic_densities_pf. Qed.
Print Assumptions C109_analytic_densities.

Example C109_analytic_example : exists v, power_law_mass Numpy (Fin 30) (Fin 2) (Fin 5) (Fin 80) = Ok v /\ power_law_mass Jax (Fin 30) (Fin 2) (Fin 5) (Fin 80) = Ok v /\
  power_law_mass Numpy (Fin 30) (Fin (-1)) (Fin 5) (Fin 80) = Err ValueError.
Proof.
  assert (N : forall x, x <> 1 -> fne (Fin x) (Fin 1) = true) by (intros x H; unfold fne; rewrite feq_fin, Reqb_false; auto).
  assert (P : exists v, power_law_mass Numpy (Fin 30) (Fin 2) (Fin 5) (Fin 80) = Ok v).
  { unfold power_law_mass, powerlaw, apply_conditions. cbn [is_jax kwargs_of pl_kw filter existsb map fst snd String.eqb Ascii.eqb Bool.eqb orb].
    cbn [check_conditions powerlaw_conds dget String.eqb Ascii.eqb Bool.eqb check_one forallb andb]. rewrite fge_fin, Rleb_true by lra. cbn [andb bind].
    cbn [check_conditions dget String.eqb Ascii.eqb Bool.eqb check_one forallb andb]. rewrite fopp_fin, N by lra. cbn [andb bind]. eexists; reflexivity. }
  destruct P as [v P]. exists v. split; [exact P|]. split.
  - assert (T := C109_analytic_densities). cbv zeta in T. destruct T as (_ & _ & _ & _ & _ & _ & T & _). destruct (T (Fin 30) (Fin 2) (Fin 5) (Fin 80)) as [[_ Q] _]. now apply Q.
  - unfold power_law_mass, powerlaw, apply_conditions. cbn [is_jax kwargs_of pl_kw filter existsb map fst snd String.eqb Ascii.eqb Bool.eqb orb].
    cbn [check_conditions powerlaw_conds dget String.eqb Ascii.eqb Bool.eqb check_one forallb andb]. rewrite fge_fin, Rleb_true by lra. cbn [andb bind].
    cbn [check_conditions dget String.eqb Ascii.eqb Bool.eqb check_one forallb andb]. unfold fne. rewrite fopp_fin, feq_fin, Reqb_true by lra. reflexivity.
Qed.

(** C109. The smoothed mass models: a fresh object called with delta_m > 0 returns on jax what it returns on numpy and cupy, for all four classes, data sets (also of shapes that
    have to be broadcast), hyperparameters, grids and interpolation kernels. *)
Theorem C109_smoothed_models :
  forall c interp s dataset kwargs d, sm_masses s = None -> dget "delta_m"%string kwargs = Some d -> fgt d (Fin 0) = true ->
  backends_agree (fun bk => snd (class_call c bk interp dataset kwargs s)).
Proof. exact C109_smoothed_models_pf. Qed.
Print Assumptions C109_smoothed_models.

Example C109_smoothed_hyps : exists s, smoothed_init 2 100 (1000, 500)%nat true = Ok s /\ sm_masses s = None  /\ fgt (Fin 5) (Fin 0) = true.
Proof. eexists. split; [reflexivity|]. split; [reflexivity|]. rewrite fgt_fin. apply Rltb_true. lra. Qed.

(** C109 fails for delta_m = 0 (no smoothing): at the minimum mass numpy and cupy use the window value 1, jax a number below 2e-6. *)
Theorem C109_no_smoothing_refuted :
  forall mmin mmax, mmin <= mmax ->
  smoothing Numpy (Fin mmin) (Fin mmin) (Fin mmax) (Fin 0) = Fin 1 /\ smoothing Cupy (Fin mmin) (Fin mmin) (Fin mmax) (Fin 0) = Fin 1 /\
  exists r, smoothing Jax (Fin mmin) (Fin mmin) (Fin mmax) (Fin 0) = Fin r /\ 0 < r < 2 / 1000000.
Proof. exact C109_no_smoothing_refuted_pf. Qed.
Print Assumptions C109_no_smoothing_refuted.

(** C109. The selection functions, if the population model agrees on the backends. *)
Theorem C109_selection_functions :
  forall (prob : backend -> dict (list xf) -> dict xf -> result (list xf)) (gprob : backend -> dict array -> dict xf -> result array),
  (forall d h, backends_agree (fun bk => prob bk d h)) -> (forall d h, backends_agree (fun bk => gprob bk d h)) ->
  (forall v h, backends_agree (fun bk => detection_efficiency bk (prob bk) v h)) /\
  (forall v h, backends_agree (fun bk => vt_factor bk (prob bk) v h)) /\
  (forall v h, backends_agree (fun bk => resampling_call bk (prob bk) v h)) /\
  (forall g h, backends_agree (fun bk => gridvt_call bk (gprob bk) g h)).
Proof. exact C109_selection_functions_pf. Qed.
Print Assumptions C109_selection_functions.

Example C109_selection_hyps : let prob (bk : backend) (d : dict (list xf)) (h : dict xf) := d <- dlookup "x"%string d ;; mapM (fun m => power_law_mass bk m (Fin 2) (Fin 5) (Fin 80)) d in
  forall d h, backends_agree (fun bk => prob bk d h).
Proof.
  cbv zeta. intros d h. split; [reflexivity|]. tole. apply le_bind; [apply le_refl|]. intros a. apply le_mapM. intros m.
  assert (T := C109_analytic_densities). cbv zeta in T. destruct T as (_ & _ & _ & _ & _ & _ & T & _). exact (proj2 (proj1 (T _ _ _ _))).
Qed.

(** C109. The conversion from detector to source frame and the transformed density. *)
Theorem C109_cosmology :
  forall z_at_value m (prob : backend -> dict (list xf) -> dict xf -> result (list xf)), (forall d h, backends_agree (fun bk => prob bk d h)) ->
  (forall data h, backends_agree (fun bk => detector_frame_to_source_frame bk z_at_value m data h)) /\
  (forall data h, backends_agree (fun bk => cosmo_prob bk z_at_value m (prob bk) data h)).
Proof. exact C109_cosmology_pf. Qed.
Print Assumptions C109_cosmology.

(** C109. The likelihood classes and their by-products, if the population model, the selection function and the conversion function agree on the backends. The random
    choices are the same function of the weights on all backends here. *)
Theorem C109_likelihoods :
  forall (prob : backend -> dict matrix -> dict xf -> result matrix) (sel : backend -> dict xf -> result selection) (conv : backend -> dict xf -> result (dict xf)) L,
  (forall d h, backends_agree (fun bk => prob bk d h)) -> (forall h, backends_agree (fun bk => sel bk h)) -> (forall h, backends_agree (fun bk => conv bk h)) ->
  (forall h, backends_agree (fun bk => per_event bk (prob bk) L h)) /\
  (forall h, backends_agree (fun bk => ln_likelihood_and_variance bk (prob bk) (sel bk) (conv bk) L h)) /\
  (forall h, backends_agree (fun bk => log_likelihood_ratio bk (prob bk) (sel bk) (conv bk) L h)) /\
  (forall h, backends_agree (fun bk => log_likelihood bk (prob bk) (sel bk) (conv bk) L h)) /\
  (forall h, backends_agree (fun bk => generate_extra_statistics bk (prob bk) (sel bk) (conv bk) L h)) /\
  (forall vm draw h, backends_agree (fun bk => generate_rate_posterior_sample (sel bk) vm draw L h)) /\
  (forall choose samples, backends_agree (fun bk => posterior_predictive_resample bk (prob bk) (conv bk) choose L samples)).
Proof. exact C109_likelihoods_pf. Qed.
Print Assumptions C109_likelihoods.

Example C109_likelihood_hyps :
  let prob (bk : backend) (d : dict matrix) (h : dict xf) := d <- dlookup "mass_1"%string d ;; a <- dlookup "alpha"%string h ;; mapM (mapM (fun m => power_law_mass bk m a (Fin 5) (Fin 80))) d in
  let sprob (bk : backend) (d : dict (list xf)) (h : dict xf) := d <- dlookup "mass_1"%string d ;; a <- dlookup "alpha"%string h ;; mapM (fun m => power_law_mass bk m a (Fin 5) (Fin 80)) d in
  (forall d h, backends_agree (fun bk => prob bk d h)) /\ (forall v h, backends_agree (fun bk => resampling_call bk (sprob bk) v h)) /\
  forall h : dict xf, backends_agree (fun _ : backend => Ok (dset "beta"%string (Fin 1) h)).
Proof.
  assert (T := C109_analytic_densities). cbv zeta in T. destruct T as (_ & _ & _ & _ & _ & _ & T & _).
  cbv zeta. split; [|split].
  - intros d h. split; [reflexivity|]. tole. apply le_bind; [apply le_refl|]. intros m. apply le_bind; [apply le_refl|]. intros a. apply le_mapM. intros r. apply le_mapM. intros x.
    exact (proj2 (proj1 (T _ _ _ _))).
  - intros v h. apply (C109_selection_functions (fun bk d h => d <- dlookup "mass_1"%string d ;; a <- dlookup "alpha"%string h ;; mapM (fun m => power_law_mass bk m a (Fin 5) (Fin 80)) d) (fun _ _ _ => Err ValueError)).
    + intros d h'. split; [reflexivity|]. tole. apply le_bind; [apply le_refl|]. intros m. apply le_bind; [apply le_refl|]. intros a. apply le_mapM. intros x. exact (proj2 (proj1 (T _ _ _ _))).
    + intros. split; [reflexivity|]. intros w E. discriminate.
  - intros h. split; [reflexivity|]. auto.
Qed.

