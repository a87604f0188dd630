(** * Model of the prior files shipped in /repo/priors and of the spin models called by keyword.

    A prior file is a dictionary from hyper-parameter names to priors. Labels ([name=], [latex_label=]) are left out: the
    dictionary is indexed by the name before the equals sign. *)
From Coq Require Import Reals String Bool.
From Coq Require Import List.
From Verif Require Import Xf Py Utils_model Spin_model Smoothed_model.
Import ListNotations.
Local Open Scope R_scope.
Local Open Scope string_scope.

Inductive prior := Uniform (minimum maximum : R) | LogUniform (minimum maximum : R) | Fixed (value : R).

(** priors/bbh_population.prior lines 1-21 *)
Definition bbh_population : dict prior :=
  [("xi_spin", Uniform 0 1); ("amax_1", Uniform 0 1); ("amax_2", Uniform 0 1); ("mu_1", Fixed 1); ("mu_2", Fixed 1);
   ("sigma_1", Uniform (1/100) 4); ("sigma_2", Uniform (1/100) 4);
   ("alpha_chi_1", Uniform 1 5); ("alpha_chi_2", Uniform 1 5); ("beta_chi_1", Uniform 1 5); ("beta_chi_2", Uniform 1 5);
   ("alpha", Uniform (-4) 12); ("mmin", Uniform 3 10); ("mmax", Uniform 30 65); ("lam", Uniform 0 1); ("mpp", Uniform 20 60);
   ("sigpp", Uniform (5/10) 10); ("beta", Uniform (-4) 12); ("delta_m", Uniform 0 10); ("lamb", Uniform (-5) 10);
   ("rate", LogUniform (1/10) 1000)].
(** priors/mass_rates.prior lines 1-18 *)
Definition mass_rates : dict prior :=
  [("xi", Fixed 0); ("amax_1", Fixed 1); ("amax_2", Fixed 1); ("sigma_1", Fixed 100); ("sigma_2", Fixed 100);
   ("alpha_1", Fixed 1); ("alpha_2", Fixed 1); ("beta_1", Fixed 1); ("beta_2", Fixed 1);
   ("alpha", Uniform (-4) 6); ("mmin", Uniform 2 10); ("mmax", Uniform 20 65); ("lam", Uniform 0 1); ("mpp", Uniform 20 60);
   ("sigpp", Uniform (5/10) 10); ("beta", Uniform (-4) 6); ("delta_m", Uniform 0 10); ("rate", LogUniform (1/10) 1000)].
(** priors/spin.prior lines 1-11 *)
Definition spin_file : dict prior :=
  [("xi_spin", Uniform 0 1); ("amax_1", Uniform 0 1); ("amax_2", Uniform 0 1); ("mu_1", Fixed 1); ("mu_2", Fixed 1);
   ("sigma_1", Uniform (1/100) 4); ("sigma_2", Uniform (1/100) 4);
   ("alpha_1", Uniform 1 5); ("alpha_2", Uniform 1 5); ("beta_1", Uniform 1 5); ("beta_2", Uniform 1 5)].
(** priors/spin_talbot_thrane.prior lines 1-3 *)
Definition spin_talbot_thrane : dict prior :=
  [("xi_spin", Uniform 0 1); ("sigma_1", Uniform (1/100) 4); ("sigma_2", Uniform (1/100) 4)].

(** spin.py lines 70-72: the signature of [independent_spin_magnitude_beta]; a missing or unexpected keyword raises TypeError. *)
Definition magnitude_args := ["alpha_chi_1"; "alpha_chi_2"; "beta_chi_1"; "beta_chi_2"; "amax_1"; "amax_2"].
Definition magnitude_kw (bk : backend) (a_1 a_2 : xf) (kw : dict xf) : result xf :=
  _ <- kwbind magnitude_args [] kw ;;
  independent_spin_magnitude_beta bk a_1 a_2 (kwv "alpha_chi_1" kw) (kwv "alpha_chi_2" kw) (kwv "beta_chi_1" kw)
    (kwv "beta_chi_2" kw) (kwv "amax_1" kw) (kwv "amax_2" kw).
(** spin.py lines 127-129: the signature of [independent_spin_orientation_gaussian_isotropic], with defaults mu_1 = mu_2 = 1 *)
Definition orientation_args := ["xi_spin"; "sigma_1"; "sigma_2"].
Definition orientation_defaults := ["mu_1"; "mu_2"].
Definition orientation_kw (bk : backend) (cos_tilt_1 cos_tilt_2 : xf) (kw : dict xf) : result xf :=
  _ <- kwbind orientation_args orientation_defaults kw ;;
  independent_spin_orientation_gaussian_isotropic bk cos_tilt_1 cos_tilt_2 (kwv "xi_spin" kw) (kwv "sigma_1" kw)
    (kwv "sigma_2" kw) (dget_default "mu_1" (Fin 1) kw) (dget_default "mu_2" (Fin 1) kw).
(** spin.py line 24: the signature of [iid_spin] *)
Definition iid_spin_args := ["xi_spin"; "sigma_spin"; "amax"; "alpha_chi"; "beta_chi"].
Definition iid_spin_kw (bk : backend) (a_1 a_2 cos_tilt_1 cos_tilt_2 : xf) (kw : dict xf) : result xf :=
  _ <- kwbind iid_spin_args [] kw ;;
  iid_spin bk a_1 a_2 cos_tilt_1 cos_tilt_2 (kwv "xi_spin" kw) (kwv "sigma_spin" kw) (kwv "amax" kw) (kwv "alpha_chi" kw)
    (kwv "beta_chi" kw).

(** The entries of a parameter dictionary that a function which asks for [names] is given: bilby's [Model] passes each function the
    parameters it names (a missing one is a missing keyword here; bilby raises KeyError). *)
Definition given (names : list string) (d : dict xf) : dict xf :=
  filter (fun kv => existsb (String.eqb (fst kv)) names) d.
