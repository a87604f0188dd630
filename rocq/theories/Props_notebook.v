(** Property theorems (notebook). Proofs are in [notebook_thms]; the vocabulary is in [Spec]. *)
From Coq Require Import Reals Lra Lia Psatz String Bool.
From Coquelicot Require Import Coquelicot.
From Coq Require Import List.
From Verif Require Import Xf Py St Xf_facts Py_facts Calc Spec Special Utils_model Powerlaw_facts Truncnorm_facts Trap_facts Np Np_facts
  Mass_model Mass_facts mass_thms Spin_model spin_thms Smoothed_model Smoothed_facts smoothed_thms Cosmo_model Redshift_model redshift_thms Vt_model vt_thms Hyperpe_model SpecHyper Double Double_facts hypera_thms hyperb_thms hyperd_thms
  Priors_model SpecPrior priors_thms Example_model SpecExample.
Import ListNotations.
Local Open Scope R_scope.
Local Opaque linspace xlinspace.
From Verif Require Import notebook_thms.

(** C134. The density of the analysis in examples/GWTC3.ipynb. For every draw from its prior (on numpy and cupy: unless the slope is exactly -1, excluded by C27) and every fixed cosmology with a positive volume
    element there are a joint density of primary mass and mass ratio on mmin <= m1 <= 100, mmin/m1 <= q <= 1, densities of the two spin magnitudes on (0, 1) and a joint density of the two tilts on [-1, 1]^2, each
    with integral 1, and a redshift density with trapezoidal integral 1 on the grid, such that bilby's model returns exactly their product for every binary with positive masses and redshift and a primary mass other than mmin.
    The product is non-negative, and positive for all binaries in the domain. *)
Theorem C134_density :
  forall bk available z_max cosmo_model r d c (dvc : R -> R), draw_of notebook_prior d -> bk = Jax \/ dget "alpha" d <> Some (Fin (-1)) ->
  1/1000000 < z_max -> redshift_init available powerlaw_rate z_max cosmo_model = Ok r -> mx_names (rs_mixin r) = [] ->
  cosmology_of (rs_mixin r) (given (fst (Redshift_model.variable_names r)) d) = Ok c -> (forall z, 0 < z -> co_dvc c (Fin z) = Fin (dvc z)) -> (forall z, 0 < z <= z_max -> 0 < dvc z) ->
  exists (masses tilts : R -> R -> R) (magnitude_1 magnitude_2 redshifts : R -> R) mmin mmax,
    dget "mmin" d = Some (Fin mmin) /\ dget "mmax" d = Some (Fin mmax) /\
    integrates2_to (fun x y => Ok (Fin (masses x y))) mmin 100 (fun m => mmin / m) (fun _ => 1) 1 /\
    integrates2_to (fun x y => Ok (Fin (tilts x y))) (-1) 1 (fun _ => -1) (fun _ => 1) 1 /\
    is_RInt_gen magnitude_1 (at_right 0) (at_left 1) 1 /\ is_RInt_gen magnitude_2 (at_right 0) (at_left 1) 1 /\
    Rtrap (map redshifts (linspace (1/1000000) z_max 2500)) (linspace (1/1000000) z_max 2500) = 1 /\
    let f := fun s => masses (m1 s) (ratio s) * (tilts (tilt1 s) (tilt2 s) * (magnitude_1 (spin1 s) * magnitude_2 (spin2 s))) * redshifts (z s) in
    population bk r d f /\
    (forall s, physical d s -> ratio s * m1 s < mmin \/ 1 < ratio s \/ z_max < z s \/ spin1 s < 0 \/ 1 < spin1 s \/ spin2 s < 0 \/ 1 < spin2 s -> f s = 0) /\
    (forall s, mmin < m1 s <= mmax -> mmin / m1 s <= ratio s <= 1 -> 0 < spin1 s < 1 -> 0 < spin2 s < 1 -> -1 <= tilt1 s <= 1 -> -1 <= tilt2 s <= 1 -> 0 < z s <= z_max -> 0 < f s).
Proof. exact C134_density_pf. Qed.
Print Assumptions C134_density.

(** C132. The spin models called with the entries of a draw from bbh_population.prior, in closed form: each magnitude has the Beta density with the draw's alpha_chi_i, beta_chi_i and amax_i, and the tilts the mixture with weight
    xi_spin of an isotropic and a Gaussian distribution around 1 with widths sigma_1 and sigma_2; the constants are the ones that make each density integrate to 1. *)
Theorem C132_spin_formula :
  forall bk d, draw_of bbh_population d -> let v := fun name => value name d in 0 < v "amax_1"%string -> 0 < v "amax_2"%string ->
  let beta_shape := fun alpha beta amax a => Rpower a (alpha - 1) * Rpower (amax - a) (beta - 1) in
  let b_1 := beta_shape (v "alpha_chi_1"%string) (v "beta_chi_1"%string) (v "amax_1"%string) in
  let b_2 := beta_shape (v "alpha_chi_2"%string) (v "beta_chi_2"%string) (v "amax_2"%string) in
  exists k_1 k_2 t_1 t_2,
    is_RInt_gen (fun a => k_1 * b_1 a) (at_right 0) (at_left (v "amax_1"%string)) 1 /\ is_RInt_gen (fun a => k_2 * b_2 a) (at_right 0) (at_left (v "amax_2"%string)) 1 /\
    is_RInt (fun t => t_1 * bell 1 (v "sigma_1"%string) t) (-1) 1 1 /\ is_RInt (fun t => t_2 * bell 1 (v "sigma_2"%string) t) (-1) 1 1 /\
    (forall a_1 a_2, 0 < a_1 < v "amax_1"%string -> 0 < a_2 < v "amax_2"%string -> magnitude_kw bk (Fin a_1) (Fin a_2) (given magnitude_args d) = Ok (Fin (k_1 * b_1 a_1 * (k_2 * b_2 a_2)))) /\
    (forall c_1 c_2, -1 <= c_1 <= 1 -> -1 <= c_2 <= 1 -> orientation_kw bk (Fin c_1) (Fin c_2) (given (orientation_args ++ orientation_defaults) d) =
       Ok (Fin ((1 - v "xi_spin"%string) / 4 + v "xi_spin"%string * (t_1 * bell 1 (v "sigma_1"%string) c_1 * (t_2 * bell 1 (v "sigma_2"%string) c_2))))).
Proof. exact C132_spin_formula_pf. Qed.
Print Assumptions C132_spin_formula.

Example C132_spin_formula_met : exists d, draw_of bbh_population d /\ value "amax_1" d = 1 /\ value "amax_2" d = 1 /\ value "alpha_chi_1" d = 5.
Proof.
  exists (map (fun e => (fst e, match snd e with Uniform _ b => Fin b | LogUniform _ b => Fin b | Fixed v => Fin v end)) bbh_population). split; [|repeat split].
  unfold draw_of, bbh_population. cbn [map fst snd]. repeat (apply Forall2_cons; [cbn [fst snd in_support]; split; [reflexivity|eexists; split; [reflexivity|lra]]|]). apply Forall2_nil.
Qed.

(** C134. The density in closed form: with the hyper-parameters of any draw, bilby's model returns, at every binary of the domain, the mixture of a power law on [mmin, mmax] and a Gaussian on [mmin, 100]
    in the primary mass, times a power law in the mass ratio on [mmin/m1, 1], times the mixture of isotropic and Gaussian tilts with mean 1, times the Beta densities of the two magnitudes, times
    dV/dz (1+z)^(lamb-1). Each factor has its own constant, the one that makes it integrate to 1 (on the redshift grid, by the trapezoidal rule). *)
Theorem C134_formula :
  forall bk available z_max cosmo_model r d c (dvc : R -> R), draw_of notebook_prior d -> bk = Jax \/ dget "alpha" d <> Some (Fin (-1)) ->
  1/1000000 < z_max -> redshift_init available powerlaw_rate z_max cosmo_model = Ok r -> mx_names (rs_mixin r) = [] ->
  cosmology_of (rs_mixin r) (given (fst (Redshift_model.variable_names r)) d) = Ok c -> (forall z, 0 < z -> co_dvc c (Fin z) = Fin (dvc z)) -> (forall z, 0 < z <= z_max -> 0 < dvc z) ->
  let v := fun name => value name d in
  exists c_law c_peak c_spin c_tilt c_z (c_ratio : R -> R),
    is_RInt (fun m => c_law * Rpower m (- v "alpha"%string)) (v "mmin"%string) (v "mmax"%string) 1 /\
    is_RInt (fun m => c_peak * bell (v "mpp"%string) (v "sigpp"%string) m) (v "mmin"%string) 100 1 /\
    (forall m, v "mmin"%string < m -> is_RInt (fun q => c_ratio m * Rpower q (v "beta"%string)) (v "mmin"%string / m) 1 1) /\
    is_RInt_gen (fun a => c_spin * (Rpower a (v "alpha_chi"%string - 1) * Rpower (1 - a) (v "beta_chi"%string - 1))) (at_right 0) (at_left 1) 1 /\
    is_RInt (fun t => c_tilt * bell 1 (v "sigma_spin"%string) t) (-1) 1 1 /\
    Rtrap (map (fun z => c_z * (dvc z * Rpower (1 + z) (v "lamb"%string - 1))) (linspace (1/1000000) z_max 2500)) (linspace (1/1000000) z_max 2500) = 1 /\
    forall s, v "mmin"%string < m1 s <= 100 -> v "mmin"%string / m1 s <= ratio s <= 1 -> 0 < spin1 s < 1 -> 0 < spin2 s < 1 -> -1 <= tilt1 s <= 1 -> -1 <= tilt2 s <= 1 -> 0 < z s <= z_max ->
      let law := if Rle_dec (m1 s) (v "mmax"%string) then c_law * Rpower (m1 s) (- v "alpha"%string) else 0 in
      let peak := c_peak * bell (v "mpp"%string) (v "sigpp"%string) (m1 s) in
      let tilt := fun t => c_tilt * bell 1 (v "sigma_spin"%string) t in
      let spin := fun a => c_spin * (Rpower a (v "alpha_chi"%string - 1) * Rpower (1 - a) (v "beta_chi"%string - 1)) in
      notebook_point bk r (entry s) d = Ok (Fin (
        ((1 - v "lam"%string) * law + v "lam"%string * peak) * (c_ratio (m1 s) * Rpower (ratio s) (v "beta"%string)) *
        (((1 - v "xi_spin"%string) / 4 + v "xi_spin"%string * (tilt (tilt1 s) * tilt (tilt2 s))) * (spin (spin1 s) * spin (spin2 s))) *
        (c_z * (dvc (z s) * Rpower (1 + z s) (v "lamb"%string - 1))))).
Proof. exact C134_formula_pf. Qed.
Print Assumptions C134_formula.

(** C134. What the analysis computes. Given any list of events (each with at least one posterior sample, columns as in the notebook including the sampling prior), any found injections out of [total] generated ones, and
    hyper-parameters where the population density is [f]: the likelihood and the selection function can be constructed with the notebook's arguments, there are K samples per event (K the length of the shortest
    posterior, taken at different positions), and the log-likelihood is the sum over events of the log of the mean weight minus N times the log of the detected fraction, with the documented variance, whenever every event
    has a sample of positive weight and the injections have converged (mu^2 > 4 N var); otherwise the log-likelihood ratio is the most negative double. *)
Theorem C134_likelihood :
  forall bk r d f events inj total time rows dvc, population bk r d f ->
  events <> [] -> Forall (fun e => e <> [] /\ Forall (physical d) e) events -> Forall (physical d) inj -> 0 < total -> INR (List.length inj) <= total ->
  (forall i n k, (k <= n)%nat -> List.length (rows i n k) = k /\ NoDup (rows i n k) /\ Forall (fun j => j < n)%nat (rows i n k)) ->
  let N := INR (List.length events) in
  let mu := Rsum (weights f inj) / total in
  let var := Rsum (squares (weights f inj)) / total ^ 2 - mu ^ 2 / total in
  exists L V K drawn,
    likelihood_init Hyper rows (map posterior events) ModelLike None None PInf = Ok L /\
    resampling_init dvc [None; None; Some r] {| inj_data := columns inj; inj_total := Some (Fin total); inj_time := time |} (Fin N) false true = Ok V /\
    Forall (fun e => K <= List.length e)%nat events /\ Exists (fun e => List.length e = K) events /\ Forall2 (some_of K) events drawn /\
    let W := map (weights f) drawn in
    let usable := Forall (fun w => 0 < Rsum w) W /\ 4 * N * var < mu ^ 2 in
    (usable -> ln_likelihood_and_variance bk (notebook_prob_events bk r) (resampling_call bk (notebook_prob bk r) V) Ok L d =
       Ok (Fin (Rsum (map (fun w => ln (mean w)) W) - N * ln mu), Fin (Rsum (map (mc_variance K) W) + N ^ 2 * (var / mu ^ 2)))) /\
    (~ usable -> log_likelihood_ratio bk (notebook_prob_events bk r) (resampling_call bk (notebook_prob bk r) V) Ok L d = Ok (Fin (- MAXF))).
Proof. exact C134_likelihood_pf. Qed.
Print Assumptions C134_likelihood.

(** A draw, a redshift model with a (toy) cosmology of unit volume element, and a binary of 30 solar masses and mass ratio 0.8: the density theorem applies, and with it the likelihood theorem
    (two events with two and three samples; the first rows are drawn). *)
Definition toy_cosmology : cosmology := {| co_dl := fun z => z; co_ddl := fun _ => Fin 1; co_dvc := fun _ => Fin 1 |}.
Definition thirty : binary := {| m1 := 30; ratio := 8/10; spin1 := 1/10; spin2 := 2/10; tilt1 := 0; tilt2 := 1/2; z := 1/10; sampling := 2 |}.
Example C134_met : let d := low_draw notebook_prior in
  draw_of notebook_prior d /\ dget "alpha" d <> Some (Fin (-1)) /\ physical d thirty /\
  (exists r, redshift_init [("Planck15"%string, Instance toy_cosmology)] powerlaw_rate (23/10) "Planck15" = Ok r /\ mx_names (rs_mixin r) = [] /\
     cosmology_of (rs_mixin r) (given (fst (Redshift_model.variable_names r)) d) = Ok toy_cosmology) /\
  Forall (fun e => e <> [] /\ Forall (physical d) e) [[thirty; thirty]; [thirty; thirty; thirty]] /\
  (forall i n k : nat, (k <= n)%nat -> List.length (seq 0 k) = k /\ NoDup (seq 0 k) /\ Forall (fun j => j < n)%nat (seq 0 k)).
Proof.
  cbv zeta. assert (P : physical (low_draw notebook_prior) thirty). { unfold physical, thirty. cbn. repeat split; try lra. intros E. injection E. lra. }
  split. { unfold draw_of, low_draw, notebook_prior. cbn [map fst snd low]. repeat (apply Forall2_cons; [cbn [fst snd in_support]; split; [reflexivity|eexists; split; [reflexivity|lra]]|]). apply Forall2_nil. }
  split; [cbn; intros E; injection E; lra|]. split; [exact P|]. split; [eexists; repeat split; reflexivity|]. split; [repeat (apply Forall_cons; [split; [discriminate|repeat (apply Forall_cons; [exact P|]); apply Forall_nil]|]); apply Forall_nil|].
  intros i n k H. split; [apply seq_length|]. split; [apply seq_NoDup|]. apply Forall_forall. intros j J. apply in_seq in J. lia.
Qed.
(** The likelihood of those two events, with injections of the same binary, at that draw: all weights are equal and positive, so the mean weight of each event is the weight. *)
Example C134_likelihood_met : exists (r : redshift) (f : binary -> R), population Numpy r (low_draw notebook_prior) f /\ 0 < f thirty /\
  let inj := [thirty; thirty; thirty; thirty; thirty; thirty; thirty; thirty; thirty; thirty] in
  let mu := Rsum (weights f inj) / 10 in
  mu = f thirty / 2 /\ 4 * INR 2 * (Rsum (squares (weights f inj)) / 10 ^ 2 - mu ^ 2 / 10) < mu ^ 2.
Proof.
  destruct C134_met as (D & A & P & (r & R1 & R2 & R3) & _).
  destruct (C134_density Numpy _ (23/10) _ r _ toy_cosmology (fun _ => 1) D (or_intror A) ltac:(lra) R1 R2 R3 ltac:(reflexivity) ltac:(intros; lra)) as (ma & ti & g1 & g2 & rs & mmin & mmax & E1 & E2 & _ & _ & _ & _ & _ & Pop & _ & Pos).
  exists r. eexists. split; [exact Pop|]. cbn in E1, E2. injection E1 as <-. injection E2 as <-. specialize (Pos thirty). cbv beta in Pos.
  match type of Pos with _ -> _ -> _ -> _ -> _ -> _ -> _ -> 0 < ?e => set (v := e) in * end.
  assert (V : 0 < v). { apply Pos; unfold thirty; cbn; lra. }
  split; [exact V|]. cbv zeta. unfold weights, squares. cbn [map Rsum fold_right sampling thirty]. fold v. split; [field|]. simpl INR. nra.
Qed.

