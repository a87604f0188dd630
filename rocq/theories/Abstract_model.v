(** * Model of the parts of base classes that subclasses must replace. Definitions only.

    The rate evolution of the base redshift class is [base_rate] in Redshift_model.v. *)
From Coq Require Import Reals List String.
From Verif Require Import Xf Py Vt_model.
Import ListNotations.

(** models/mass.py line 542: [primary_model = None]; calling [None] raises TypeError. *)
Definition base_primary_model (kwargs : dict xf) (mass : xf) : result xf := Err TypeError.

(** models/mass.py lines 558-560: no keyword arguments of its own. *)
Definition base_kwargs (mmax : xf) : dict xf := [].

(** vt.py lines 70-71: [_BaseVT.__call__], for every argument. The class has neither [detection_efficiency] nor [surveyed_hypervolume]. *)
Definition base_vt_call (parameters : dict xf) : result selection := Err NotImplementedError.
