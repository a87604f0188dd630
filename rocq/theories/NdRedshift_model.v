(** * Model of the redshift models (gwpopulation/models/redshift.py 68-249) for a column of redshifts that is an array of any shape. Definitions only.

    What is computed at one redshift is in [Redshift_model]; here are the shapes, the dtypes, the Python numbers among the parameters and the in-place
    operations. A value is as in [Nd_model]. The cosmology maps an array of redshifts element by element to an array of floats. *)
From Coq Require Import Reals String List Bool Arith.
From Verif Require Import Xf Py Np Utils_model Cosmo_model Redshift_model Nd_model NdModels_model.
Import ListNotations.

(** A float scalar of the library and a float array with one axis. *)
Definition lib_scalar (x : xf) : nd xf := {| nd_py := false; nd_int := false; nd_shape := []; nd_at := fun _ => x |}.
Definition lib_array (l : list xf) : nd xf := {| nd_py := false; nd_int := false; nd_shape := [List.length l]; nd_at := fun i => nth (nth 0 i 0) l NaN |}.
(** The numbers passed on to the cosmology. *)
Definition plain (parameters : dict (nd xf)) : dict xf := map (fun p => (fst p, nd_at (snd p) [])) parameters.

Section Calls.
  Variable bk : backend.

  (** redshift.py 201-215: [PowerLawRedshift.psi_of_z]. *)
  Definition powerlaw_psi_nd (z : nd xf) (parameters : dict (nd xf)) : result (nd xf) :=
    one_z <- nop bk fadd (py_int (Fin 1)) z ;;
    lamb <- dlookup "lamb" parameters ;;
    npow bk one_z lamb.

  (** redshift.py 222-249: [MadauDickinsonRedshift.psi_of_z]. *)
  Definition madau_psi_nd (z : nd xf) (parameters : dict (nd xf)) : result (nd xf) :=
    gamma <- dlookup "gamma" parameters ;;
    kappa <- dlookup "kappa" parameters ;;
    z_peak <- dlookup "z_peak" parameters ;;
    one_z <- nop bk fadd (py_int (Fin 1)) z ;;
    rise <- npow bk one_z gamma ;;
    one_peak <- nop bk fadd (py_int (Fin 1)) z_peak ;;
    ratio <- ndivide bk one_z one_peak ;;
    fall <- npow bk ratio kappa ;;
    below <- nop bk fadd (py_int (Fin 1)) fall ;;
    psi <- ndivide bk rise below ;;
    at_zero <- npow bk one_peak (nneg kappa) ;;
    factor <- nop bk fadd (py_int (Fin 1)) at_zero ;;
    iop bk (nd_int factor) fmul psi factor.

  Variable psi_nd : nd xf -> dict (nd xf) -> result (nd xf).

  (** redshift.py 148-167: [dvc_dz]. *)
  Definition dvc_dz_nd (r : redshift) (z : nd xf) (parameters : dict (nd xf)) : result (nd xf) :=
    c <- cosmology_of (rs_mixin r) (plain parameters) ;;
    Ok (nmap (fun z => fmul (Fin (4 * PI)%R) (co_dvc c z)) z).

  (** redshift.py 169-195: [differential_spacetime_volume]. *)
  Definition differential_spacetime_volume_nd (r : redshift) (z : nd xf) (bounds : bool) (parameters : dict (nd xf)) : result (nd xf) :=
    psi <- psi_nd z parameters ;;
    one_z <- nop bk fadd (py_int (Fin 1)) z ;;
    dv <- ndivide bk psi one_z ;;
    v <- dvc_dz_nd r z parameters ;;
    dv <- iop bk (nd_int v) fmul dv v ;;
    if bounds
    then inside <- nmap2 bk false true fle z (py_float (Fin (rs_zmax r))) ;;
         iop bk true (fun x (c : bool) => fmul x (of_bool c)) dv inside
    else Ok dv.

  (** redshift.py 74-98: [normalisation], on the grid of the object. *)
  Definition normalisation_nd (r : redshift) (parameters : dict (nd xf)) : result (nd xf) :=
    d <- differential_spacetime_volume_nd r (lib_array (rs_zs r)) true parameters ;;
    Ok (lib_scalar (trapezoid (elements d) (rs_zs r))).

  (** redshift.py 68-72, 100-122: [probability] and [__call__]. *)
  Definition probability_nd (r : redshift) (z : nd xf) (parameters : dict (nd xf)) : result (nd xf) :=
    norm <- normalisation_nd r parameters ;;
    d <- differential_spacetime_volume_nd r z true parameters ;;
    ndivide bk d norm.
End Calls.
