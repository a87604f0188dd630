(** Property theorems (contl). Proofs are in [contl_thms]; the vocabulary is in [Spec]. *)
From Coq Require Import Reals Lra Lia Psatz String Bool.
From Coquelicot Require Import Coquelicot.
From Coq Require Import List.
From Verif Require Import Xf Py Xf_facts Py_facts Calc Spec Utils_model Trap_facts Np Np_facts Cosmo_model Redshift_model Vt_model vt_thms Hyperpe_model SpecHyper hypera_thms SpecInvar invar_thms redshift_thms SpecCont Gauss_facts cont_thms.
Import ListNotations.
Local Open Scope R_scope.
Local Opaque linspace xlinspace.
From Verif Require Import contl_thms.

(** C130. If the weights of the posterior samples and the densities at the injections vary continuously with the hyper-parameters and are positive, so do the log-likelihood and its variance; with enforced convergence, at hyper-parameters where the selection
    estimate has converged. *)
Theorem C130_likelihood :
  forall (T : UniformSpace) bk prob inj conv L v (parameters converted : T -> dict xf) (W : list (list (T -> R))) (p : list (T -> R)) q N t,
  li_kind L = Hyper -> (0 < li_samples L)%nat -> Forall (fun w => List.length w = li_samples L) W ->
  locally t (fun u => conv (parameters u) = Ok (converted u) /\ weights_are prob L (converted u) (rows_at W u) /\ injections_are inj v (converted u) (at_point p u) q N) ->
  Forall (Forall (fun f => continuous f t /\ 0 < f t)) W -> Forall (fun f => continuous f t) p -> 0 < Rsum (quotients (at_point p t) q) ->
  rv_marginalize v = false -> rv_enforce v = false \/ (exists n, rv_n_events v = Fin n /\ selection_converged (quotients (at_point p t) q) N n) ->
  exists l var : T -> R, continuous l t /\ continuous var t /\
    locally t (fun u => ln_likelihood_and_variance bk prob (resampling_call bk inj v) conv L (parameters u) = Ok (Fin (l u), Fin (var u))).
Proof. exact C130_likelihood_pf. Qed.
Print Assumptions C130_likelihood.

(** One event with two samples whose weights are a power of the hyper-parameter and 3; the hypotheses hold at 2. *)
Example C130_met : Forall (Forall (fun f : R -> R => continuous f 2 /\ 0 < f 2)) [[(fun u => u * u); (fun _ => 3)]] /\ selection_converged (quotients (at_point [(fun u : R => u); (fun _ => 2)] 2) [1; 1]) 2 1.
Proof.
  split.
  - repeat apply Forall_cons; try apply Forall_nil; (split; [apply cont_of_deriv; auto_derive; exact I|lra]).
  - unfold selection_converged, quotients, at_point, squares. simpl. lra.
Qed.

(** C129. Redshift models: if rate and volume element vary continuously (with the rate parameters, the cosmological parameters and the redshift), so does the density, including its normalisation over the grid, at redshifts below z_max. *)
Theorem C129_redshift :
  forall (T : UniformSpace) available ra z_max cosmo_model r (parameters : T -> dict xf) (c : T -> cosmology) (psi dvc : T -> R -> R) (z : T -> R) t, 1/1000000 < z_max ->
  redshift_init available ra z_max cosmo_model = Ok r ->
  (forall u, cosmology_of (rs_mixin r) (parameters u) = Ok (c u)) ->
  (forall u y, 0 < y <= z_max -> ra_psi ra (Fin y) (parameters u) = Ok (Fin (psi u y)) /\ co_dvc (c u) (Fin y) = Fin (dvc u y) /\ 0 < psi u y /\ 0 < dvc u y) ->
  (forall y, 0 < y <= z_max -> continuous (fun u => psi u y) t /\ continuous (fun u => dvc u y) t) ->
  continuous z t -> 0 < z t < z_max -> continuous (fun u => psi u (z u)) t -> continuous (fun u => dvc u (z u)) t ->
  exists g : T -> R, continuous g t /\ locally t (fun u => probability r [("redshift"%string, [Fin (z u)])] (parameters u) = Ok [Fin (g u)]).
Proof. exact C129_redshift_pf. Qed.
Print Assumptions C129_redshift.

(** C129. In particular the two rate evolutions of the library vary continuously with their parameters and the redshift. *)
Theorem C129_rates :
  forall (T : UniformSpace) (parameters : T -> dict xf) (lamb gamma kappa z_peak z : T -> R) t,
  continuous lamb t -> continuous gamma t -> continuous kappa t -> continuous z_peak t -> continuous z t -> -1 < z t -> -1 < z_peak t ->
  ((forall u, dget "lamb"%string (parameters u) = Some (Fin (lamb u))) -> continuous_call (fun u => powerlaw_psi (Fin (z u)) (parameters u)) t) /\
  ((forall u, dget "gamma"%string (parameters u) = Some (Fin (gamma u)) /\ dget "kappa"%string (parameters u) = Some (Fin (kappa u)) /\ dget "z_peak"%string (parameters u) = Some (Fin (z_peak u))) ->
   continuous_call (fun u => madau_psi (Fin (z u)) (parameters u)) t).
Proof. exact C129_rates_pf. Qed.
Print Assumptions C129_rates.

Example C129_redshift_met : continuous_call (fun u : R => powerlaw_psi (Fin 2) [("lamb"%string, Fin u)]) 3.
Proof. apply (C129_rates R_UniformSpace (fun u => [("lamb"%string, Fin u)]) (fun u => u) (fun _ => 1) (fun _ => 1) (fun _ => 1) (fun _ => 2) 3); try (intros; reflexivity); try lra; apply cont_of_deriv; auto_derive; exact I. Qed.

