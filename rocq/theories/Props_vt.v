(** Property theorems (vt). Proofs are in [vt_thms]; the vocabulary is in [Spec]. *)
From Coq Require Import Reals Lra Lia Psatz String Bool Permutation.
From Coquelicot Require Import Coquelicot.
From Coq Require Import List.
From Verif Require Import Xf Py Xf_facts Py_facts Calc Spec Utils_model Trap_facts Np Np_facts Cosmo_model Redshift_model Cosmo_facts
  redshift_thms Vt_model.
Import ListNotations.
Local Open Scope R_scope.
Local Opaque linspace xlinspace.
From Verif Require Import vt_thms.

(** C51. The estimator: with finite model values p_i and finite non-zero prior values q_i at M injections out of N generated, w_i = p_i/q_i,
    mu = sum w / N and var = sum w^2 / N^2 - mu^2 / N; the variance is non-negative whenever M <= N. *)
Theorem C51_detection_efficiency :
  forall bk prob dvc models data n_events mg en v parameters (p q : list R) N,
  resampling_init dvc models data n_events mg en = Ok v ->
  dget "prior" (inj_data data) = Some (map Fin q) -> Forall (fun x => x <> 0) q ->
  prob (inj_data data) parameters = Ok (map Fin p) -> List.length p = List.length q ->
  (inj_total data = Some (Fin N) /\ N <> 0 \/ inj_total data = None /\ N = INR (List.length q) /\ q <> []) ->
  let w := map (fun x => fst x / snd x) (combine p q) in
  exists mu var, detection_efficiency bk prob v parameters = Ok (Fin mu, Fin var) /\
    mu = Rsum w / N /\ var = Rsum (map (fun x => x * x) w) / N ^ 2 - mu ^ 2 / N /\
    (0 < N -> INR (List.length w) <= N -> 0 <= var).
Proof. exact C51_detection_efficiency_pf. Qed.
Print Assumptions C51_detection_efficiency.

Definition ex_inj : injections := {| inj_data := [("prior"%string, map Fin [1/2; 1/2])]; inj_total := Some (Fin 10); inj_time := None |}.
Example C51_hyps : exists v, resampling_init (fun _ => Fin 1) [] ex_inj (Fin 3) false true = Ok v /\ dget "prior" (inj_data ex_inj) = Some (map Fin [1/2; 1/2]) /\
  Forall (fun x => x <> 0) [1/2; 1/2] /\ INR (List.length (map (fun x => fst x / snd x) (combine [1; 2] [1/2; 1/2]))) <= 10.
Proof. eexists. split; [reflexivity|]. split; [reflexivity|]. split; [repeat constructor; lra|]. simpl. lra. Qed.

(** C51. Both numbers are unchanged when the injections are permuted (all special values included). *)
Theorem C51_permutation :
  forall bk prob v v' parameters p q p' q', rv_total v = rv_total v' ->
  prob (rv_data v) parameters = Ok p -> dget "prior" (rv_data v) = Some q -> List.length p = List.length q ->
  prob (rv_data v') parameters = Ok p' -> dget "prior" (rv_data v') = Some q' -> List.length p' = List.length q' ->
  Permutation (combine p q) (combine p' q') ->
  detection_efficiency bk prob v parameters = detection_efficiency bk prob v' parameters.
Proof. exact C51_permutation_pf. Qed.
Print Assumptions C51_permutation.

(** C51. Scaling the population density by c scales mu by c and var by c^2. *)
Theorem C51_homogeneous :
  forall bk prob prob' v parameters (p q : list R) N c, rv_total v = Fin N -> N <> 0 ->
  dget "prior" (rv_data v) = Some (map Fin q) -> Forall (fun x => x <> 0) q -> List.length p = List.length q ->
  prob (rv_data v) parameters = Ok (map Fin p) -> prob' (rv_data v) parameters = Ok (map Fin (map (Rmult c) p)) ->
  exists mu var, detection_efficiency bk prob v parameters = Ok (Fin mu, Fin var) /\
                 detection_efficiency bk prob' v parameters = Ok (Fin (c * mu), Fin (c ^ 2 * var)).
Proof. exact C51_homogeneous_pf. Qed.
Print Assumptions C51_homogeneous.

Example C51_perm_hyps : Permutation (combine [Fin 1; Fin 2] [Fin 3; Fin 4]) (combine [Fin 2; Fin 1] [Fin 4; Fin 3]).
Proof. apply perm_swap. Qed.

(** C52. The convergence correction for every value of its inputs: 0 when mu^2 > 4 n var, +inf otherwise (a comparison involving NaN is false). *)
Theorem C52_correction :
  forall v mu var n, rv_n_events v = Fin n ->
  (forall m s, mu = Fin m -> var = Fin s -> m ^ 2 > 4 * n * s -> check_convergence v mu var = (true, Fin 0)) /\
  (forall m s, mu = Fin m -> var = Fin s -> m ^ 2 <= 4 * n * s -> check_convergence v mu var = (false, PInf)) /\
  (mu = NaN \/ var = NaN -> check_convergence v mu var = (false, PInf)).
Proof. exact C52_correction_pf. Qed.
Print Assumptions C52_correction.

(** C52. With the default number of events (infinite) and a non-negative variance the correction is +inf whatever the estimate: a
    default-constructed selection function is never converged. *)
Theorem C52_default_never_converges :
  forall v mu var, rv_n_events v = PInf -> (exists s, var = Fin s /\ 0 <= s) \/ var = PInf \/ var = NaN ->
  check_convergence v mu var = (false, PInf).
Proof. exact C52_default_never_converges_pf. Qed.
Print Assumptions C52_default_never_converges.

Example C52_hyps : exists v, resampling_init (fun _ => Fin 1) [] ex_inj PInf false true = Ok v /\ rv_n_events v = PInf.
Proof. eexists. split; reflexivity. Qed.

(** C52, C54. What the selection function returns: unconverged (or default) gives a selection of +inf, so that the sample is rejected, converged gives the estimate itself;
    without enforcement the estimate is returned whatever the variance. *)
Theorem C52_call :
  forall bk prob v parameters mu var n, detection_efficiency bk prob v parameters = Ok (Fin mu, Fin var) -> rv_n_events v = Fin n -> rv_marginalize v = false ->
  resampling_call bk prob v parameters =
    Ok (ValueAndVariance (if rv_enforce v then (if Rlt_dec (4 * n * var) (mu ^ 2) then Fin mu else PInf) else Fin mu) (Fin var)).
Proof. exact C52_call_pf. Qed.
Print Assumptions C52_call.

(** C53. The uncertainty-marginalised factor for non-zero estimate and variance (all backends): mu exp(-(3+n)/(2 n_eff)) with n_eff = mu^2/var when
    converged, +inf otherwise; when converged with positive variance it is positive and smaller than mu. *)
Theorem C53_vt_factor :
  forall bk prob v parameters mu var n, detection_efficiency bk prob v parameters = Ok (Fin mu, Fin var) -> rv_n_events v = Fin n -> 0 <= n ->
  mu <> 0 -> var <> 0 ->
  (mu ^ 2 > 4 * n * var -> exists r, vt_factor bk prob v parameters = Ok (Fin r) /\ r = mu * exp (- ((3 + n) / (2 * (mu ^ 2 / var)))) /\
                           (0 < mu -> 0 < var -> 0 < r < mu)) /\
  (mu ^ 2 <= 4 * n * var -> vt_factor bk prob v parameters = Ok PInf).
Proof. exact C53_vt_factor_pf. Qed.
Print Assumptions C53_vt_factor.

Example C53_hyps : (2:R) <> 0 /\ (1/10:R) <> 0 /\ 2 ^ 2 > 4 * 3 * (1/10).
Proof. lra. Qed.

(** C53. Degenerate estimates. On numpy and cupy a vanishing variance or estimate raises ZeroDivisionError. On jax a vanishing variance gives mu itself (if non-zero),
    and a vanishing estimate with vanishing variance gives NaN. *)
Theorem C53_degenerate :
  forall bk prob v parameters mu var n, detection_efficiency bk prob v parameters = Ok (Fin mu, Fin var) -> rv_n_events v = Fin n -> 0 <= n ->
  (bk <> Jax -> mu = 0 \/ var = 0 -> vt_factor bk prob v parameters = Err ZeroDivisionError) /\
  (bk = Jax -> var = 0 -> mu <> 0 -> vt_factor bk prob v parameters = Ok (Fin mu)) /\
  (bk = Jax -> var = 0 -> mu = 0 -> vt_factor bk prob v parameters = Ok NaN).
Proof. exact C53_degenerate_pf. Qed.
Print Assumptions C53_degenerate.

(** C45. The four-volume is T times a positive number that depends only on the cosmology, the index and the redshift limit: proportional to the analysis time and positive for
    positive time and volume element. *)
Theorem C45_four_volume :
  forall dvc (g : R -> R) lamb max_redshift, 0 < max_redshift -> (forall z, 0 <= z <= max_redshift -> dvc (Fin z) = Fin (g z) /\ 0 <= g z) ->
  exists V, 0 <= V /\ (forall T, total_four_volume dvc (Fin lamb) (Fin T) max_redshift = Fin (T * V)) /\
            ((forall z, 0 <= z <= max_redshift -> 0 < g z) -> 0 < V).
Proof. exact C45_four_volume_pf. Qed.
Print Assumptions C45_four_volume.

Definition toy_cosmo : cosmology := {| co_dl := fun z => z; co_ddl := fun _ => Fin 1; co_dvc := fun _ => Fin 1 |}.
Example C45_hyps : exists r v, redshift_init [("Planck15", Instance toy_cosmo)]%string powerlaw_rate (23/10) "Planck15" = Ok r /\
  cosmology_of (rs_mixin r) [("lamb"%string, Fin 3)] = Ok toy_cosmo /\
  resampling_init (co_dvc toy_cosmo) ([] ++ [Some r]) {| inj_data := [("prior"%string, [Fin 1])]; inj_total := None; inj_time := Some (Fin 2) |} (Fin 3) false true = Ok v /\
  (forall z, 0 <= z <= 23/10 -> co_dvc toy_cosmo (Fin z) = Fin ((fun _ => 1) z) /\ 0 <= (fun _ : R => 1) z).
Proof. do 2 eexists. split; [reflexivity|]. split; [reflexivity|]. split; [reflexivity|]. intros; split; [reflexivity|lra]. Qed.

(** C45. Consistency with the redshift model: for a power-law redshift model with the same volume element, surveyed_hypervolume and total_four_volume are both
    T / 10^9 times the trapezoid of the same integrand psi(z)/(1+z) dVc/dz, on grids from 10^-6 and from 0 to z_max. *)
Theorem C45_consistent :
  forall available z_max cosmo_model r models data n_events mg en v dvc parameters c (g : R -> R) lamb T, 1/1000000 < z_max ->
  redshift_init available powerlaw_rate z_max cosmo_model = Ok r -> cosmology_of (rs_mixin r) parameters = Ok c ->
  resampling_init dvc (models ++ [Some r]) data n_events mg en = Ok v -> inj_time data = Some (Fin T) ->
  dget "lamb" parameters = Some (Fin lamb) ->
  (forall z, 0 <= z <= z_max -> co_dvc c (Fin z) = Fin (g z) /\ dvc (Fin z) = Fin (g z)) ->
  exists f : R -> R, (forall z, 0 <= z <= z_max -> f z = Rpower (1 + z) lamb / (1 + z) * (4 * PI * g z)) /\
    surveyed_hypervolume v parameters = Ok (Fin (T / 1000000000 * Rtrap (map f (linspace (1/1000000) z_max 2500)) (linspace (1/1000000) z_max 2500))) /\
    total_four_volume dvc (Fin lamb) (Fin T) z_max = Fin (T / 1000000000 * Rtrap (map f (linspace 0 z_max 2500)) (linspace 0 z_max 2500)).
Proof. exact C45_consistent_pf. Qed.
Print Assumptions C45_consistent.

(** C45. Without a redshift model the surveyed volume is the four-volume of a constant rate up to redshift 2.3, whatever the parameters. *)
Theorem C45_no_redshift_model :
  forall dvc models data n_events mg en v parameters, resampling_init dvc models data n_events mg en = Ok v ->
  Forall (fun m => m = None) models ->
  surveyed_hypervolume v parameters = Ok (total_four_volume dvc (Fin 0) (match inj_time data with Some t => t | None => Fin 1 end) (23/10)).
Proof. exact C45_no_redshift_model_pf. Qed.
Print Assumptions C45_no_redshift_model.

