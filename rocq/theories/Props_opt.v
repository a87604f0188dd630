(** Property theorems (opt). Proofs are in [opt_thms]; the vocabulary is in [Spec]. *)
From Coq Require Import Reals Lra Lia Psatz String Bool.
From Coquelicot Require Import Coquelicot.
From Coq Require Import List.
From Verif Require Import Xf Py St Xf_facts Py_facts Calc Spec Utils_model Np Np_facts
  Mass_model Mass_facts Spin_model Smoothed_model Smoothed_facts smoothed_thms SpecClass Cosmo_model Redshift_model Priors_model Example_model.
Import ListNotations.
Local Open Scope string_scope.
Local Open Scope R_scope.
From Verif Require Import opt_thms.

(** C144. The largest mass of the Gaussian component is optional in the four mass functions that have it, with default 100. *)
Theorem C144_gaussian_mass_maximum :
  forall bk kw m q, dget "gaussian_mass_maximum" kw = None ->
  let kw' := dset "gaussian_mass_maximum" (Fin 100) kw in
  two_component_kw bk kw' m = two_component_kw bk kw m /\ three_component_kw bk kw' m = three_component_kw bk kw m /\
  double_power_law_peak_kw bk kw' m = double_power_law_peak_kw bk kw m /\ mass_ratio_kw bk m q kw' = mass_ratio_kw bk m q kw.
Proof. exact C144_gaussian_mass_maximum_pf. Qed.
Print Assumptions C144_gaussian_mass_maximum.

(** C144. The means of the two Gaussian tilt distributions are optional, each with default 1. *)
Theorem C144_tilt_means :
  forall bk c_1 c_2 kw,
  (dget "mu_1" kw = None -> orientation_kw bk c_1 c_2 (dset "mu_1" (Fin 1) kw) = orientation_kw bk c_1 c_2 kw) /\
  (dget "mu_2" kw = None -> orientation_kw bk c_1 c_2 (dset "mu_2" (Fin 1) kw) = orientation_kw bk c_1 c_2 kw).
Proof. exact C144_tilt_means_pf. Qed.
Print Assumptions C144_tilt_means.

(** C144. The smoothing width is optional in the four smoothed mass models: leaving it out is the same as 0, for the result, the exception and the object left behind. *)
Theorem C144_smoothing_width :
  forall c bk linterp dataset kw self, dget "delta_m" kw = None ->
  class_call c bk linterp dataset (dset "delta_m" (Fin 0) kw) self = class_call c bk linterp dataset kw self.
Proof. exact C144_smoothing_width_pf. Qed.
Print Assumptions C144_smoothing_width.

Example C144_met : exists kw, dget "delta_m" kw = None /\ dget "mu_1" kw = None /\ dget "beta" kw = Some (Fin 1) /\
  dset "delta_m" (Fin 0) kw = [("beta", Fin 1); ("delta_m", Fin 0)].
Proof. exists [("beta", Fin 1)]. repeat split; reflexivity. Qed.

