(** Property theorems (ident). Proofs are in [ident_thms]; the vocabulary is in [Spec]. *)
From Coq Require Import Reals Lra Lia Psatz String Bool.
From Coquelicot Require Import Coquelicot.
From Coq Require Import List.
From Verif Require Import Xf Py St Xf_facts Py_facts Calc Spec Special Gauss_facts Utils_model Powerlaw_facts Truncnorm_facts Beta_facts
  Trap_facts Np Np_facts Utils_facts utils_thms Mass_model Mass_facts Smoothed_model Smoothed_facts Cosmo_model Redshift_model redshift_thms.
Import ListNotations.
Local Open Scope R_scope.
From Verif Require Import ident_thms.

(** C141. A power law's values at two different points of its support determine its slope. *)
Theorem C141_powerlaw :
  forall bk kw kw' alpha alpha' high low x y vx vy, 0 < low < high -> low <= x <= high -> low <= y <= high -> x <> y ->
  powerlaw bk kw (Fin x) (Fin alpha) (Fin high) (Fin low) = Ok (Fin vx) -> powerlaw bk kw' (Fin x) (Fin alpha') (Fin high) (Fin low) = Ok (Fin vx) ->
  powerlaw bk kw (Fin y) (Fin alpha) (Fin high) (Fin low) = Ok (Fin vy) -> powerlaw bk kw' (Fin y) (Fin alpha') (Fin high) (Fin low) = Ok (Fin vy) ->
  alpha = alpha'.
Proof. exact C141_powerlaw_pf. Qed.
Print Assumptions C141_powerlaw.

(** C141. A truncated normal's values at three different points of its support determine mean and width. *)
Theorem C141_truncnorm :
  forall bk kw kw' mu sigma mu' sigma' high low x y z vx vy vz, 0 < sigma -> 0 < sigma' -> low < high ->
  low <= x <= high -> low <= y <= high -> low <= z <= high -> x <> y -> y <> z -> x <> z ->
  let p := fun t => truncnorm bk kw (Fin t) (Fin mu) (Fin sigma) (Fin high) (Fin low) in
  let p' := fun t => truncnorm bk kw' (Fin t) (Fin mu') (Fin sigma') (Fin high) (Fin low) in
  p x = Ok (Fin vx) /\ p' x = Ok (Fin vx) -> p y = Ok (Fin vy) /\ p' y = Ok (Fin vy) -> p z = Ok (Fin vz) /\ p' z = Ok (Fin vz) ->
  mu = mu' /\ sigma = sigma'.
Proof. exact C141_truncnorm_pf. Qed.
Print Assumptions C141_truncnorm.

(** C141. A beta density's values at three different interior points determine both shape parameters. *)
Theorem C141_beta :
  forall bk kw kw' alpha beta alpha' beta' scale x y z vx vy vz, 0 < alpha -> 0 < beta -> 0 < alpha' -> 0 < beta' ->
  0 < x < scale -> 0 < y < scale -> 0 < z < scale -> x <> y -> y <> z -> x <> z ->
  let p := fun t => beta_dist bk kw (Fin t) (Fin alpha) (Fin beta) (Fin scale) in
  let p' := fun t => beta_dist bk kw' (Fin t) (Fin alpha') (Fin beta') (Fin scale) in
  p x = Ok (Fin vx) /\ p' x = Ok (Fin vx) -> p y = Ok (Fin vy) /\ p' y = Ok (Fin vy) -> p z = Ok (Fin vz) /\ p' z = Ok (Fin vz) ->
  alpha = alpha' /\ beta = beta'.
Proof. exact C141_beta_pf. Qed.
Print Assumptions C141_beta.

(** C141. The density of the power-law redshift model at two different redshifts within its range determines its slope, whatever the
    cosmology (with a positive volume element there). *)
Theorem C141_redshift :
  forall available z_max cosmo_model r parameters parameters' c lamb lamb' N N' x y dx dy vx vy,
  redshift_init available powerlaw_rate z_max cosmo_model = Ok r ->
  cosmology_of (rs_mixin r) parameters = Ok c -> cosmology_of (rs_mixin r) parameters' = Ok c ->
  dget "lamb" parameters = Some (Fin lamb) -> dget "lamb" parameters' = Some (Fin lamb') ->
  normalisation r parameters = Ok (Fin N) -> normalisation r parameters' = Ok (Fin N') -> 0 < N -> 0 < N' ->
  -1 < x <= z_max -> -1 < y <= z_max -> x <> y -> co_dvc c (Fin x) = Fin dx -> co_dvc c (Fin y) = Fin dy -> 0 < dx -> 0 < dy ->
  probability r [("redshift"%string, [Fin x; Fin y])] parameters = Ok [Fin vx; Fin vy] ->
  probability r [("redshift"%string, [Fin x; Fin y])] parameters' = Ok [Fin vx; Fin vy] -> lamb = lamb'.
Proof. exact C141_redshift_pf. Qed.
Print Assumptions C141_redshift.

(** C141. Exchanging the two Gaussian peaks (and replacing the fraction of the first by its complement) changes no value the mixture model
    returns and no exception it raises, on any backend and for every mass. *)
Theorem C141_peak_labels :
  forall bk mass alpha mmin mmax lam lam_1 mpp_1 sigpp_1 mpp_2 sigpp_2 gaussian_mass_maximum,
  three_component_single bk mass alpha mmin mmax (Fin lam) (Fin lam_1) mpp_1 sigpp_1 mpp_2 sigpp_2 gaussian_mass_maximum =
  three_component_single bk mass alpha mmin mmax (Fin lam) (Fin (1 - lam_1)) mpp_2 sigpp_2 mpp_1 sigpp_1 gaussian_mass_maximum.
Proof. exact C141_peak_labels_pf. Qed.
Print Assumptions C141_peak_labels.

(** C141. The same for the smoothed model with two peaks: whatever the object's grids and cache, the data set and the remaining parameters,
    both labellings return the same densities (or raise the same exception) and leave the object in the same state. *)
Theorem C141_multipeak_labels :
  forall bk linterp dataset s alpha mmin mmax lam lam_1 mpp_1 sigpp_1 mpp_2 sigpp_2 beta delta_m,
  let kwargs := fun l m1 s1 m2 s2 => [("alpha", alpha); ("mmin", mmin); ("mmax", mmax); ("lam", Fin lam); ("lam_1", Fin l); ("mpp_1", m1);
     ("sigpp_1", s1); ("mpp_2", m2); ("sigpp_2", s2); ("beta", beta); ("delta_m", delta_m)]%string in
  class_call MultiPeak bk linterp dataset (kwargs lam_1 mpp_1 sigpp_1 mpp_2 sigpp_2) s =
  class_call MultiPeak bk linterp dataset (kwargs (1 - lam_1) mpp_2 sigpp_2 mpp_1 sigpp_1) s.
Proof. exact C141_multipeak_labels_pf. Qed.
Print Assumptions C141_multipeak_labels.

Example C141_met : 0 < 2 < 5 /\ 2 <= 3 <= 5 /\ 2 <= 4 <= 5 /\ 3 <> 4 /\
  (exists v, powerlaw Numpy ["alpha"%string] (Fin 3) (Fin (-2)) (Fin 5) (Fin 2) = Ok (Fin v)) /\
  (exists v, truncnorm Jax [] (Fin 3) (Fin 4) (Fin 1) (Fin 5) (Fin 2) = Ok (Fin v)) /\
  (exists v, beta_dist Cupy ["scale"%string] (Fin (1/2)) (Fin 2) (Fin 3) (Fin 1) = Ok (Fin v)).
Proof.
  repeat split; try lra.
  - rewrite powerlaw_ok by (try lra; right; right; lra). rewrite powerlaw_body_in by lra. eauto.
  - rewrite truncnorm_ok by lra. rewrite truncnorm_body_in by lra. eauto.
  - rewrite beta_dist_ok by lra. rewrite beta_dist_body_in by lra. eauto.
Qed.

