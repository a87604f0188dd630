(** Property theorems (coord). Proofs are in [coord_thms]; the vocabulary is in [Spec]. *)
From Coq Require Import Reals Lra Lia Psatz String Bool.
From Coquelicot Require Import Coquelicot.
From Coq Require Import List.
From Verif Require Import Xf Py Xf_facts Py_facts Calc Np Np_facts Cosmo_model Cosmo_facts Vt_model vt_thms Hyperpe_model SpecHyper hypera_thms SpecInvar invar_thms SpecCoord.
Import ListNotations.
Local Open Scope R_scope.
From Verif Require Import coord_thms.

(** C124. The analysis does not depend on the coordinates in which samples, densities and priors are expressed: if the population density and the recorded prior density are both multiplied by a Jacobian, which may differ from sample to sample, on the events and on
    the injections, the estimator, its variance and log_likelihood_ratio are unchanged, for every setting and kind of likelihood (also where evaluation raises). *)
Theorem C124_coordinates :
  forall bk prob prob' inj inj' conv L L' v v' parameters converted, conv parameters = Ok converted -> same_settings L L' -> same_survey v v' ->
  events_in_other_coordinates prob prob' L L' converted -> injections_in_other_coordinates inj inj' v v' converted ->
  ln_likelihood_and_variance bk prob' (resampling_call bk inj' v') conv L' parameters = ln_likelihood_and_variance bk prob (resampling_call bk inj v) conv L parameters /\
  log_likelihood_ratio bk prob' (resampling_call bk inj' v') conv L' parameters = log_likelihood_ratio bk prob (resampling_call bk inj v) conv L parameters.
Proof. exact C124_coordinates_pf. Qed.
Print Assumptions C124_coordinates.

(** C124. The change of coordinates which the library makes: a detector-frame injection set analysed with CosmoModel gives the same selection function (for every setting) as the source-frame injection set, whose prior density is the detector-frame one times the
    Jacobian, analysed with the source-frame model, at fixed cosmological parameters. *)
Theorem C124_detector_frame :
  forall bk z_at_value m prob v v' parameters samples J p q, same_survey v v' ->
  detector_frame_to_source_frame bk z_at_value m (rv_data v) parameters = Ok (samples, map Fin J) -> Forall (fun x => x <> 0) J ->
  dget "prior"%string (rv_data v) = Some (map Fin q) -> Forall (fun x => x <> 0) q -> List.length p = List.length q -> List.length J = List.length q ->
  prob samples parameters = Ok (map Fin p) -> prob (rv_data v') parameters = Ok (map Fin p) -> dget "prior"%string (rv_data v') = Some (map Fin (times q J)) ->
  resampling_call bk (cosmo_prob bk z_at_value m prob) v parameters = resampling_call bk prob v' parameters.
Proof. exact C124_detector_frame_pf. Qed.
Print Assumptions C124_detector_frame.

Definition ex_Lx (c d : R) : likelihood := {| li_kind := Hyper; li_data := [("x"%string, [[Fin c; Fin (2 * d)]; [Fin (3 * c); Fin (4 * d)]])]; li_prior := Some [[Fin (2 * c); Fin (2 * d)]; [Fin c; Fin d]];
  li_noise := NaN; li_n := 2; li_samples := 2; li_maxu := PInf; li_max_variance := PInf |}.
Example C124_met : events_in_other_coordinates (fun d _ => dlookup "x" d) (fun d _ => dlookup "x" d) (ex_Lx 1 1) (ex_Lx 5 7) [].
Proof.
  exists [[1; 2 * 1]; [3 * 1; 4 * 1]], [[2 * 1; 2 * 1]; [1; 1]], [[5; 7]; [5; 7]]. split; [reflexivity|]. split; [reflexivity|].
  split. { change (Ok [[Fin 5; Fin (2 * 7)]; [Fin (3 * 5); Fin (4 * 7)]] = Ok [[Fin (1 * 5); Fin (2 * 1 * 7)]; [Fin (3 * 1 * 5); Fin (4 * 1 * 7)]]). now rewrite !Rmult_1_l, !Rmult_1_r. }
  split. { change (Some [[Fin (2 * 5); Fin (2 * 7)]; [Fin 5; Fin 7]] = Some [[Fin (2 * 1 * 5); Fin (2 * 1 * 7)]; [Fin (1 * 5); Fin (1 * 7)]]). now rewrite !Rmult_1_l, !Rmult_1_r. }
  split; [repeat constructor; lra|]. split; [repeat constructor; lra|]. split; reflexivity.
Qed.
(** Luminosity distance 2 z; one injection at distance 2 (redshift 1) and detector-frame mass 60 (source-frame mass 30): the Jacobian is 2 * 2. *)
Definition ex_cosmo' : cosmology := {| co_dl := fun z => fmul (Fin 2) z; co_ddl := fun _ => Fin 2; co_dvc := fun _ => Fin 1 |}.
Definition ex_v' (d : dict (list xf)) : resampling := {| rv_data := d; rv_n_events := Fin 2; rv_total := Fin 10; rv_time := Fin 1; rv_redshift := None; rv_marginalize := false; rv_enforce := true; rv_volume := None |}.
Example C124_detector_met :
  let m := {| mx_names := []; mx_cosmo := Instance ex_cosmo' |} in let zav := fun (f : xf -> xf) D => fdiv D (Fin 2) in
  let data := [("luminosity_distance"%string, [Fin 2]); ("mass_1_detector"%string, [Fin 60]); ("prior"%string, [Fin 7])] in
  exists z mass J, detector_frame_to_source_frame Numpy zav m (rv_data (ex_v' data)) [] = Ok ([("redshift"%string, [Fin z]); ("mass_1"%string, [Fin mass]); ("prior"%string, [Fin 7])], map Fin [J]) /\ z = 1 /\ mass = 30 /\ J = 4.
Proof.
  exists (2 / 2), (60 / (1 + 2 / 2)), (2 * (1 + 2 / 2)). split; [|lra].
  unfold detector_frame_to_source_frame, convert_start. cbn -[fdiv fmul fadd]. rewrite fdiv_fin by lra. cbn -[fdiv fmul fadd]. rewrite fadd_fin, fdiv_fin, fmul_fin by lra. reflexivity.
Qed.

(** C125. Small changes of the population change the result little: if the density at every posterior sample and at every injection changes at most by a factor k (another model, or the same model at other hyper-parameters), the log likelihood of n events
    changes at most by 2 n ln k, n ln k from the events and n ln k from the selection. *)
Theorem C125_stable :
  forall bk prob prob' inj inj' conv L v parameters parameters' converted converted' W W' p p' q N k, 1 <= k -> li_kind L = Hyper ->
  conv parameters = Ok converted -> conv parameters' = Ok converted' -> weights_are prob L converted W -> weights_are prob' L converted' W' ->
  positive_weights L W -> positive_weights L W' -> List.length W = li_n L -> Forall2 (close_weights k) W W' ->
  injections_are inj v converted p q N -> injections_are inj' v converted' p' q N -> 0 < Rsum (quotients p q) -> close_weights k (quotients p q) (quotients p' q) ->
  rv_marginalize v = false -> rv_enforce v = false ->
  exists l l' var var', ln_likelihood_and_variance bk prob (resampling_call bk inj v) conv L parameters = Ok (Fin l, var) /\
    ln_likelihood_and_variance bk prob' (resampling_call bk inj' v) conv L parameters' = Ok (Fin l', var') /\ Rabs (l' - l) <= 2 * INR (li_n L) * ln k.
Proof. exact C125_stable_pf. Qed.
Print Assumptions C125_stable.

(** Weights changed by up to 2: 1 to 2, and 3 to 2. *)
Example C125_met : Forall2 (close_weights 2) [[1; 3]; [2; 4]] [[2; 2]; [1; 4]] /\ close_weights 2 (quotients [1; 3] [1; 2]) (quotients [2; 3] [1; 2]).
Proof. unfold close_weights, quotients; simpl. split; repeat constructor; simpl; lra. Qed.

