(** * The normalised redshift density of models/redshift.py on binary64 numbers. Definitions only.

    The same lines as [Redshift_model.normalisation] and [probability], on the IEEE-754 numbers of Flocq. The rate evolution [psi] (the method [psi_of_z] with its
    parameters) and the comoving volume element [dvc] (the method [dvc_dz]) are arguments; [RoundedRate_model] models the rate evolutions of the library. One redshift. *)
From Coq Require Import Reals ZArith List.
From Flocq Require Import Core BinarySingleNaN.
From Verif Require Import Double_facts Rounded_model RoundedPl_model RoundedTrap_model RoundedRate_model.

Section Density.
  Variables psi dvc : b64 -> b64.
  Variable z_max : b64.
  (** models/redshift.py lines 187-195 with [bounds=True]. *)
  Definition volume64 (z : b64) : b64 := differential64 (psi z) (dvc z) z z_max.
  (** models/redshift.py lines 94-97: the terms of the integral over [self.zs]. *)
  Definition volume_terms64 (zs : list b64) : list b64 := trap_terms64 (map volume64 zs) zs.
  (** models/redshift.py lines 117-122; [t] is the order in which the terms of the integral are added. *)
  Definition probability64 (t : order) (z : b64) : b64 := Bdiv mode_NE (volume64 z) (sum64 t).
End Density.
