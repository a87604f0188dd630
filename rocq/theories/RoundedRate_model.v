(** * The rate evolution and the differential spacetime volume of models/redshift.py on binary64 numbers. Definitions only.

    The same lines as [Redshift_model.powerlaw_psi], [madau_psi] and [differential_spacetime_volume_at], on the IEEE-754 numbers of Flocq. [pow] is the library's
    power, an argument, and so is the comoving volume element [dvc] that the cosmology returns (a double). One redshift, parameters that are doubles. *)
From Coq Require Import Reals ZArith Bool.
From Flocq Require Import Core BinarySingleNaN.
From Verif Require Import Double_facts Rounded_model RoundedPl_model.

Section Rate.
  Variable pow : b64 -> b64 -> b64.
  (** models/redshift.py line 215: [(1 + redshift) ** parameters["lamb"]]. *)
  Definition powerlaw_psi64 (z lamb : b64) : b64 := pow (Bplus mode_NE one64 z) lamb.
  (** models/redshift.py lines 245-249. *)
  Definition madau_psi64 (z gamma kappa z_peak : b64) : b64 :=
    let psi := Bdiv mode_NE (pow (Bplus mode_NE one64 z) gamma)
                 (Bplus mode_NE one64 (pow (Bdiv mode_NE (Bplus mode_NE one64 z) (Bplus mode_NE one64 z_peak)) kappa)) in
    Bmult mode_NE psi (Bplus mode_NE one64 (pow (Bplus mode_NE one64 z_peak) (Bopp kappa))).
End Rate.

(** models/redshift.py lines 189-193 with [bounds=True]; a boolean multiplies as 1.0 or 0.0. *)
Definition differential64 (psi dvc z z_max : b64) : b64 :=
  Bmult mode_NE (Bmult mode_NE (Bdiv mode_NE psi (Bplus mode_NE one64 z)) dvc) (if Bleb z z_max then one64 else zero64).
