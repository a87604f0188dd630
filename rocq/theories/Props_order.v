(** Property theorems (order). Proofs are in [order_thms]; the vocabulary is in [Spec]. *)
From Coq Require Import Reals Lra Lia Psatz String Bool ZArith.
From Coquelicot Require Import Coquelicot.
From Coq Require Import List.
From Verif Require Import Xf Py Np Xf_facts Py_facts Np_facts Calc Special Gauss_facts Spec SpecU Utils_model Mass_model Spin_model Cosmo_model Redshift_model
  Powerlaw_facts Truncnorm_facts Beta_facts Trap_facts Utils_facts Mass_facts redshift_thms ipl_thms SpecCosmo SpecOrder.
Import ListNotations.
Local Open Scope R_scope.
Local Opaque linspace xlinspace.
From Verif Require Import order_thms.

(** C113. A larger exponent makes large values more likely: on the same range, the probability of a value below x is smaller, for every x inside. *)
Theorem C113_powerlaw :
  forall bk kw alpha alpha' high low x, 0 < low -> low < x < high -> alpha < alpha' ->
  (bk = Jax \/ ~ In "alpha"%string kw \/ (alpha <> 1 /\ alpha' <> 1)) ->
  shifted_up (fun x => powerlaw bk kw (Fin x) (Fin alpha) (Fin high) (Fin low)) (fun x => powerlaw bk kw (Fin x) (Fin alpha') (Fin high) (Fin low)) low x.
Proof. exact C113_powerlaw_pf. Qed.
Print Assumptions C113_powerlaw.

(** C113. A larger mean shifts the truncated Gaussian up. *)
Theorem C113_truncnorm :
  forall bk kw mu mu' sigma high low x, 0 < sigma -> low < x < high -> mu < mu' ->
  shifted_up (fun x => truncnorm bk kw (Fin x) (Fin mu) (Fin sigma) (Fin high) (Fin low)) (fun x => truncnorm bk kw (Fin x) (Fin mu') (Fin sigma) (Fin high) (Fin low)) low x.
Proof. exact C113_truncnorm_pf. Qed.
Print Assumptions C113_truncnorm.

(** C113. For the power law in mass the exponent is minus alpha, so a larger alpha makes masses lighter. *)
Theorem C113_power_law_mass :
  forall bk alpha alpha' mmin mmax m, 0 < mmin -> mmin < m < mmax -> alpha < alpha' -> (bk = Jax \/ (alpha <> -1 /\ alpha' <> -1)) ->
  shifted_up (fun m => power_law_mass bk (Fin m) (Fin alpha') (Fin mmin) (Fin mmax)) (fun m => power_law_mass bk (Fin m) (Fin alpha) (Fin mmin) (Fin mmax)) mmin m.
Proof. exact C113_power_law_mass_pf. Qed.
Print Assumptions C113_power_law_mass.

(** C113. A larger beta favours equal masses, at every primary mass above mmin. *)
Theorem C113_mass_ratio :
  forall bk m1 beta beta' mmin q, 0 < mmin -> mmin < m1 -> mmin / m1 < q < 1 -> beta < beta' ->
  shifted_up (fun q => mass_ratio_factor bk (Fin m1) (Fin q) (Fin beta) (Fin mmin)) (fun q => mass_ratio_factor bk (Fin m1) (Fin q) (Fin beta') (Fin mmin)) (mmin / m1) q.
Proof. exact C113_mass_ratio_pf. Qed.
Print Assumptions C113_mass_ratio.

(** C113. The means of the Gaussian models of chi_eff and chi_p shift their densities up. *)
Theorem C113_chi :
  forall bk mu mu' sigma x, 0 < sigma -> mu < mu' ->
  (-1 < x < 1 -> shifted_up (fun x => gaussian_chi_eff bk (Fin x) (Fin mu) (Fin sigma)) (fun x => gaussian_chi_eff bk (Fin x) (Fin mu') (Fin sigma)) (-1) x) /\
  (0 < x < 1 -> shifted_up (fun x => gaussian_chi_p bk (Fin x) (Fin mu) (Fin sigma)) (fun x => gaussian_chi_p bk (Fin x) (Fin mu') (Fin sigma)) 0 x).
Proof. exact C113_chi_pf. Qed.
Print Assumptions C113_chi.

(** C113. For the Beta distribution a larger alpha shifts the density up and a larger beta shifts it down, whatever the other parameters (the densities may diverge at the ends). *)
Theorem C113_beta :
  forall bk kw alpha beta alpha' beta' scale x, 0 < alpha -> 0 < beta -> 0 < scale -> 0 < x < scale ->
  (alpha < alpha' -> shifted_up_open (fun x => beta_dist bk kw (Fin x) (Fin alpha) (Fin beta) (Fin scale)) (fun x => beta_dist bk kw (Fin x) (Fin alpha') (Fin beta) (Fin scale)) 0 x) /\
  (beta < beta' -> shifted_up_open (fun x => beta_dist bk kw (Fin x) (Fin alpha) (Fin beta') (Fin scale)) (fun x => beta_dist bk kw (Fin x) (Fin alpha) (Fin beta) (Fin scale)) 0 x).
Proof. exact C113_beta_pf. Qed.
Print Assumptions C113_beta.

(** C113. Redshift, for any rate: if the ratio of the rates at the two parameter sets increases with redshift, then the probability of a redshift below any interior grid point, as the trapezoid rule
    measures it, is smaller under the second set. *)
Theorem C113_redshift :
  forall available ra z_max cosmo_model r parameters parameters' c (psi psi' dvc : R -> R) k, 1/1000000 < z_max ->
  redshift_init available ra z_max cosmo_model = Ok r -> cosmology_of (rs_mixin r) parameters = Ok c -> cosmology_of (rs_mixin r) parameters' = Ok c ->
  (forall z, 0 < z <= z_max -> ra_psi ra (Fin z) parameters = Ok (Fin (psi z)) /\ ra_psi ra (Fin z) parameters' = Ok (Fin (psi' z)) /\ co_dvc c (Fin z) = Fin (dvc z) /\
     0 < psi z /\ 0 < psi' z /\ 0 < dvc z) ->
  (forall s t, 0 < s -> s < t -> t <= z_max -> psi' s * psi t < psi' t * psi s) -> (0 < k < 2499)%nat ->
  grid_shifted_up (probability r [("redshift"%string, rs_zs r)] parameters) (probability r [("redshift"%string, rs_zs r)] parameters') (rs_zs r) k.
Proof. exact C113_redshift_pf. Qed.
Print Assumptions C113_redshift.

(** C113. The library's redshift models: a larger lamb, a larger gamma and (for kappa > 0) a larger z_peak each shift the distribution to larger redshifts. *)
Theorem C113_redshift_library :
  forall available ra z_max cosmo_model r parameters parameters' c (dvc : R -> R) k, 1/1000000 < z_max ->
  redshift_init available ra z_max cosmo_model = Ok r -> cosmology_of (rs_mixin r) parameters = Ok c -> cosmology_of (rs_mixin r) parameters' = Ok c ->
  (forall z, 0 < z <= z_max -> co_dvc c (Fin z) = Fin (dvc z) /\ 0 < dvc z) ->
  (ra = powerlaw_rate /\ (exists lamb lamb', dget "lamb" parameters = Some (Fin lamb) /\ dget "lamb" parameters' = Some (Fin lamb') /\ lamb < lamb') \/
   ra = madau_rate /\ (exists gamma kappa z_peak gamma' z_peak', dget "gamma" parameters = Some (Fin gamma) /\ dget "kappa" parameters = Some (Fin kappa) /\ dget "z_peak" parameters = Some (Fin z_peak) /\
      dget "gamma" parameters' = Some (Fin gamma') /\ dget "kappa" parameters' = Some (Fin kappa) /\ dget "z_peak" parameters' = Some (Fin z_peak') /\ -1 < z_peak /\ -1 < z_peak' /\
      (gamma < gamma' /\ z_peak = z_peak' \/ gamma = gamma' /\ z_peak < z_peak' /\ 0 < kappa))) ->
  (0 < k < 2499)%nat ->
  grid_shifted_up (probability r [("redshift"%string, rs_zs r)] parameters) (probability r [("redshift"%string, rs_zs r)] parameters') (rs_zs r) k.
Proof. exact C113_redshift_library_pf. Qed.
Print Assumptions C113_redshift_library.

(** Non-vacuity: two power laws on [5, 80]; two spins; two parameter sets of the redshift model on the toy cosmology. *)
Example C113_power_law : shifted_up (fun m => power_law_mass Numpy (Fin m) (Fin 3) (Fin 5) (Fin 80)) (fun m => power_law_mass Numpy (Fin m) (Fin 2) (Fin 5) (Fin 80)) 5 30.
Proof. apply C113_power_law_mass; try lra; right; lra. Qed.
Example C113_spin : shifted_up_open (fun x => beta_dist Numpy [] (Fin x) (Fin (1/2)) (Fin (1/2)) (Fin 1)) (fun x => beta_dist Numpy [] (Fin x) (Fin 3) (Fin (1/2)) (Fin 1)) 0 (1/3).
Proof. destruct (C113_beta Numpy [] (1/2) (1/2) 3 3 1 (1/3)) as [H _]; try lra. apply H. lra. Qed.
Definition toy_o : cosmology := {| co_dl := fun z => z; co_ddl := fun _ => Fin 1; co_dvc := fun _ => Fin 1 |}.
Definition toy_available_o : dict cosmo_entry := [("Planck15", Instance toy_o); ("FlatLambdaCDM", Class (fun _ => Ok toy_o))]%string.
Example C113_rate : exists r, redshift_init toy_available_o powerlaw_rate (23/10) "Planck15" = Ok r /\
  grid_shifted_up (probability r [("redshift"%string, rs_zs r)] [("lamb"%string, Fin 1)]) (probability r [("redshift"%string, rs_zs r)] [("lamb"%string, Fin 3)]) (rs_zs r) 1000.
Proof.
  eexists. split; [reflexivity|]. eapply (C113_redshift_library toy_available_o powerlaw_rate (23/10) "Planck15" _ _ _ toy_o (fun _ => 1)); try reflexivity; try lra.
  - intros; split; [reflexivity|lra].
  - left. split; [reflexivity|]. exists 1, 3. repeat split; lra.
  - lia.
Qed.

