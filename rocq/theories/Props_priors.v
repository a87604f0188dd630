(** Property theorems (priors). Proofs are in [priors_thms]; the vocabulary is in [Spec]. *)
From Coq Require Import Reals Lra Lia Psatz String Bool.
From Coquelicot Require Import Coquelicot.
From Coq Require Import List.
From Verif Require Import Xf Py St Xf_facts Py_facts Calc Spec Utils_model Powerlaw_facts Truncnorm_facts Trap_facts Np Np_facts
  Mass_model Mass_facts Spin_model spin_thms Smoothed_model Smoothed_facts smoothed_thms smooth2_thms SpecClass Cosmo_model Redshift_model redshift_thms Priors_model SpecPrior.
Import ListNotations.
Local Open Scope R_scope.
Local Opaque linspace xlinspace.
From Verif Require Import priors_thms.

(** C132. Masses: every draw from the two prior files with mass parameters - on numpy and cupy with a slope other than -1 - can be evaluated by a new power-law-plus-peak model on the default mass range (2 to 100,
    at least 11 grid masses; the default is 1000): given the draw's entries for the names the model advertises, the call returns one finite number per sample, for all samples with positive masses. *)
Theorem C132_masses :
  forall file bk li n nq cache s d names ms qs, file = bbh_population \/ file = mass_rates -> draw_of file d ->
  smoothed_init 2 100 (n, nq) cache = Ok s -> (11 <= n)%nat ->
  snd (Smoothed_model.variable_names (dkeys (class_kwargs SinglePeak (sm_mmax s))) (class_object SinglePeak)) = Ok names ->
  bk = Jax \/ dget "alpha" d <> Some (Fin (-1)) -> Forall (fun m => 0 < m) ms -> List.length qs = List.length ms ->
  exists l, snd (class_call SinglePeak bk li [("mass_1"%string, map Fin ms); ("mass_ratio"%string, map Fin qs)] (given names d) s) = Ok (map Fin l) /\ List.length l = List.length ms.
Proof. exact C132_masses_pf. Qed.
Print Assumptions C132_masses.

(** [low_draw]: the lower ends of the intervals. *)
Example C132_met : draw_of bbh_population (low_draw bbh_population) /\ draw_of mass_rates (low_draw mass_rates) /\ draw_of spin_file (low_draw spin_file) /\ draw_of spin_talbot_thrane (low_draw spin_talbot_thrane) /\
  dget "alpha" (low_draw bbh_population) <> Some (Fin (-1)).
Proof.
  unfold draw_of, low_draw, bbh_population, mass_rates, spin_file, spin_talbot_thrane. cbn [map fst snd low].
  repeat split; try (repeat (apply Forall2_cons; [cbn [fst snd in_support]; split; [reflexivity|eexists; split; [reflexivity|lra]]|]); apply Forall2_nil).
  cbn. intros E. injection E. lra.
Qed.

(** C132. Spins: every draw from bbh_population.prior with positive maximal spins can be evaluated by both independent spin models, for all samples: the values are non-negative numbers, and 0 for
    magnitudes outside [0, 1]. *)
Theorem C132_spins :
  forall bk d, draw_of bbh_population d -> dget "amax_1" d <> Some (Fin 0) -> dget "amax_2" d <> Some (Fin 0) ->
  (forall a_1 a_2, exists v, magnitude_kw bk (Fin a_1) (Fin a_2) (given magnitude_args d) = Ok (Fin v) /\ 0 <= v /\ (a_1 < 0 \/ 1 < a_1 \/ a_2 < 0 \/ 1 < a_2 -> v = 0)) /\
  (forall c_1 c_2, exists v, orientation_kw bk (Fin c_1) (Fin c_2) (given (orientation_args ++ orientation_defaults) d) = Ok (Fin v) /\ 0 <= v).
Proof. exact C132_spins_pf. Qed.
Print Assumptions C132_spins.

(** C132. Orientations: every draw from spin_talbot_thrane.prior (three parameters; the two means take their default) and every draw from spin.prior can be evaluated by the orientation model, for all samples. *)
Theorem C132_orientations :
  forall file bk d c_1 c_2, file = spin_talbot_thrane \/ file = spin_file -> draw_of file d ->
  exists v, orientation_kw bk (Fin c_1) (Fin c_2) (given (orientation_args ++ orientation_defaults) d) = Ok (Fin v) /\ 0 <= v.
Proof. exact C132_orientations_pf. Qed.
Print Assumptions C132_orientations.

(** C132. Redshifts: every draw from bbh_population.prior can be evaluated by the power-law redshift model with a fixed cosmology whose volume element is positive for 0 < z <= z_max: given the draw's entries for
    the names the model advertises, the density is a positive number at every 0 < z <= z_max, 0 beyond, and normalised on the grid. *)
Theorem C132_redshifts :
  forall available z_max cosmo_model r d c (dvc : R -> R), draw_of bbh_population d -> 1/1000000 < z_max ->
  redshift_init available powerlaw_rate z_max cosmo_model = Ok r -> mx_names (rs_mixin r) = [] -> cosmology_of (rs_mixin r) (given (fst (Redshift_model.variable_names r)) d) = Ok c ->
  (forall z, 0 < z -> co_dvc c (Fin z) = Fin (dvc z)) -> (forall z, 0 < z <= z_max -> 0 < dvc z) ->
  (forall z, 0 < z -> exists v, probability r [("redshift"%string, [Fin z])] (given (fst (Redshift_model.variable_names r)) d) = Ok [Fin v] /\ (z <= z_max -> 0 < v) /\ (z_max < z -> v = 0)) /\
  exists p, probability r [("redshift"%string, rs_zs r)] (given (fst (Redshift_model.variable_names r)) d) = Ok p /\ trapezoid p (rs_zs r) = Fin 1.
Proof. exact C132_redshifts_pf. Qed.
Print Assumptions C132_redshifts.

(** C132 is false at two edges of the ranges in the files, on numpy and cupy: a draw with a maximal spin of exactly 0 is refused by the spin model, and a draw with mass slope alpha of exactly -1 by the mass model.
    Both edges are inside the closed ranges ([0, 1] and [-4, 12]), the second in the interior. *)
Theorem C132_edges_refuted :
  exists d, draw_of bbh_population d /\
  forall bk, bk <> Jax ->
  (forall a_1 a_2, magnitude_kw bk (Fin a_1) (Fin a_2) (given magnitude_args d) = Err ValueError) /\
  (forall li n nq cache s names m q, smoothed_init 2 100 (n, nq) cache = Ok s ->
    snd (Smoothed_model.variable_names (dkeys (class_kwargs SinglePeak (sm_mmax s))) (class_object SinglePeak)) = Ok names ->
    snd (class_call SinglePeak bk li [("mass_1"%string, [Fin m]); ("mass_ratio"%string, [Fin q])] (given names d) s) = Err ValueError).
Proof. exact C132_edges_refuted_pf. Qed.
Print Assumptions C132_edges_refuted.

(** C133 (claim: the shipped spin prior file goes with the library's spin magnitude models) is false: no draw from spin.prior, and none from mass_rates.prior, can be evaluated by a spin magnitude model, because the
    files call the shape parameters alpha_1, alpha_2, beta_1, beta_2 and the models call them alpha_chi_1, alpha_chi_2, beta_chi_1, beta_chi_2 (or alpha_chi, beta_chi): whatever subset of the draw is passed, the
    call is a TypeError. *)
Theorem C133_spin_file_refuted :
  forall file bk d names a_1 a_2 c_1 c_2, file = spin_file \/ file = mass_rates -> draw_of file d ->
  magnitude_kw bk a_1 a_2 (given names d) = Err TypeError /\ iid_spin_kw bk a_1 a_2 c_1 c_2 (given names d) = Err TypeError.
Proof. exact C133_spin_file_refuted_pf. Qed.
Print Assumptions C133_spin_file_refuted.

(** C133. Which draws name every required parameter of which spin model: bbh_population.prior those of the independent magnitude and orientation models, spin.prior and spin_talbot_thrane.prior those of the
    orientation model only, mass_rates.prior (which calls the mixing fraction xi) those of neither; and no file names those of the identical-spins model. *)
Theorem C133_coverage :
  let covers (file : dict prior) (args : list string) := forall d, draw_of file d -> forall a, In a args -> exists x, dget a (given args d) = Some (Fin x) in
  covers bbh_population magnitude_args /\ covers bbh_population orientation_args /\ covers spin_file orientation_args /\ covers spin_talbot_thrane orientation_args /\
  ~ covers mass_rates orientation_args /\ ~ covers mass_rates magnitude_args /\ ~ covers spin_file magnitude_args /\
  (forall file, In file [bbh_population; mass_rates; spin_file; spin_talbot_thrane] -> ~ covers file iid_spin_args).
Proof. exact C133_coverage_pf. Qed.
Print Assumptions C133_coverage.

Example C133_met : draw_of spin_file (low_draw spin_file) /\ draw_of mass_rates (low_draw mass_rates).
Proof. split; [exact (proj1 (proj2 (proj2 C132_met)))|exact (proj1 (proj2 C132_met))]. Qed.

