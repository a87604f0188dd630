(** * Model of gwpopulation/models/redshift.py. Definitions only.

    The cosmology is an argument (see Cosmo_model.v). Keyword arguments that clash with named parameters
    ([dataset], [bounds], [redshift]: TypeError) are not modelled. *)
From Coq Require Import Reals List String Bool.
From Verif Require Import Xf Py Utils_model Np Cosmo_model.
Import ListNotations.
Local Open Scope string_scope.

(** A subclass supplies [base_variable_names] and [psi_of_z] (redshift.py 44, 124-146), element-wise. *)
Record rate := { ra_names : option (list string); ra_psi : xf -> dict xf -> result xf }.

(** redshift.py 201-215: [PowerLawRedshift.psi_of_z]. *)
Definition powerlaw_psi (z : xf) (parameters : dict xf) : result xf :=
  lamb <- dlookup "lamb" parameters ;;
  Ok (fpow (fadd (Fin 1) z) lamb).
(** redshift.py 222-249: [MadauDickinsonRedshift.psi_of_z]. [(1 + z_peak) ** (-kappa)] is numpy's power; for Python floats with
    [z_peak <= -1] Python raises ZeroDivisionError or returns a complex number instead (not modelled). *)
Definition madau_psi (z : xf) (parameters : dict xf) : result xf :=
  gamma <- dlookup "gamma" parameters ;;
  kappa <- dlookup "kappa" parameters ;;
  z_peak <- dlookup "z_peak" parameters ;;
  let psi := fdiv (fpow (fadd (Fin 1) z) gamma)
                  (fadd (Fin 1) (fpow (fdiv (fadd (Fin 1) z) (fadd (Fin 1) z_peak)) kappa)) in
  Ok (fmul psi (fadd (Fin 1) (fpow (fadd (Fin 1) z_peak) (fopp kappa)))).

(** redshift.py 44, 124-146 ([_Redshift] itself), 198-199, 218-220. *)
Definition base_rate : rate := {| ra_names := None; ra_psi := fun _ _ => Err NotImplementedError |}.
Definition powerlaw_rate : rate := {| ra_names := Some ["lamb"]; ra_psi := powerlaw_psi |}.
Definition madau_rate : rate := {| ra_names := Some ["gamma"; "kappa"; "z_peak"]; ra_psi := madau_psi |}.

(** A redshift model object. *)
Record redshift := { rs_mixin : mixin; rs_zmax : R; rs_zs : list xf; rs_rate : rate }.

(** redshift.py 63-66: [__init__]. *)
Definition redshift_init (available : dict cosmo_entry) (ra : rate) (z_max : R) (cosmo_model : string) : result redshift :=
  m <- mixin_init available cosmo_model ;;
  Ok {| rs_mixin := m; rs_zmax := z_max; rs_zs := xlinspace (1 / 1000000) z_max 2500; rs_rate := ra |}.

(** redshift.py 46-61: reading [variable_names] returns the list and the object afterwards. [cosmology_names.copy()]
    (line 58) makes [+=] extend a fresh list, so the object keeps its [cosmology_names]. *)
Definition variable_names (r : redshift) : list string * redshift :=
  let vars := mx_names (rs_mixin r) in
  let vars := match ra_names (rs_rate r) with Some b => (vars ++ b)%list | None => vars end in
  (vars, r).

(** redshift.py 148-167: [dvc_dz], at one redshift. *)
Definition dvc_dz (r : redshift) (z : xf) (parameters : dict xf) : result xf :=
  c <- cosmology_of (rs_mixin r) parameters ;;
  Ok (fmul (Fin (4 * PI)) (co_dvc c z)).

(** redshift.py 169-195: [differential_spacetime_volume], at one redshift. *)
Definition differential_spacetime_volume_at (r : redshift) (bounds : bool) (parameters : dict xf) (z : xf) : result xf :=
  psi <- ra_psi (rs_rate r) z parameters ;;
  let dv := fdiv psi (fadd (Fin 1) z) in
  v <- dvc_dz r z parameters ;;
  let dv := fmul dv v in
  Ok (if bounds then fmul dv (of_bool (fle z (Fin (rs_zmax r)))) else dv).
Definition differential_spacetime_volume (r : redshift) (dataset : dict (list xf)) (bounds : bool) (parameters : dict xf)
  : result (list xf) :=
  z <- dlookup "redshift" dataset ;;
  mapM (differential_spacetime_volume_at r bounds parameters) z.

(** redshift.py 74-98: [normalisation]. *)
Definition normalisation (r : redshift) (parameters : dict xf) : result xf :=
  d <- differential_spacetime_volume r [("redshift", rs_zs r)] true parameters ;;
  Ok (trapezoid d (rs_zs r)).

(** redshift.py 68-72, 100-122: [probability] and [__call__]. *)
Definition probability (r : redshift) (dataset : dict (list xf)) (parameters : dict xf) : result (list xf) :=
  norm <- normalisation r parameters ;;
  d <- differential_spacetime_volume r dataset true parameters ;;
  Ok (map (fun v => fdiv v norm) d).

(** redshift.py 252-295: [total_four_volume]; [dvc] is [Planck15.differential_comoving_volume]. *)
Definition total_four_volume (dvc : xf -> xf) (lamb analysis_time : xf) (max_redshift : R) : xf :=
  let redshifts := xlinspace 0 max_redshift 2500 in
  fmul (trapezoid (map (fun z => fmul (fdiv (dvc z) (fadd (Fin 1) z)) (fpow (fadd (Fin 1) z) lamb)) redshifts) redshifts)
       (fmul (Fin (4 * PI / 1000000000)) analysis_time).
