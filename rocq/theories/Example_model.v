(** * Model of the analysis in examples/GWTC3.ipynb: its prior, its population model and the calls bilby makes of it.

    bilby's [Model] passes each function the parameters it asks for and multiplies the values, starting from 1. The functions
    are element-wise in the samples; the columns of a data set have the same length. *)
From Coq Require Import Reals String Bool.
From Coq Require Import List.
From Verif Require Import Xf Py Np Utils_model Mass_model Spin_model Smoothed_model Cosmo_model Redshift_model Hyperpe_model Priors_model.
Import ListNotations.
Local Open Scope R_scope.
Local Open Scope string_scope.

(** examples/GWTC3.ipynb, the cell under "Define our prior" *)
Definition notebook_prior : dict prior :=
  [("alpha", Uniform (-2) 4); ("beta", Uniform (-4) 12); ("mmin", Uniform 2 (25/10)); ("mmax", Uniform 80 100); ("lam", Uniform 0 1);
   ("mpp", Uniform 10 50); ("sigpp", Uniform 1 10); ("gaussian_mass_maximum", Fixed 100);
   ("amax", Fixed 1); ("alpha_chi", Uniform 1 6); ("beta_chi", Uniform 1 6); ("xi_spin", Uniform 0 1); ("sigma_spin", Uniform (3/10) 4);
   ("lamb", Uniform (-1) 10)].

(** mass.py lines 397-399: the signature of [two_component_primary_mass_ratio] *)
Definition mass_ratio_args := ["alpha"; "beta"; "mmin"; "mmax"; "lam"; "mpp"; "sigpp"].
Definition mass_ratio_kw (bk : backend) (m1 q : xf) (kw : dict xf) : result xf :=
  _ <- kwbind mass_ratio_args ["gaussian_mass_maximum"] kw ;;
  two_component_primary_mass_ratio bk m1 q (kwv "alpha" kw) (kwv "beta" kw) (kwv "mmin" kw) (kwv "mmax" kw) (kwv "lam" kw)
    (kwv "mpp" kw) (kwv "sigpp" kw) (dget_default "gaussian_mass_maximum" (Fin 100) kw).

(** The columns the three functions read (mass.py 436-437, spin.py 44-45, 90-91, 155-164, redshift.py 189). *)
Definition sample_keys := ["mass_1"; "mass_ratio"; "cos_tilt_1"; "cos_tilt_2"; "a_1"; "a_2"; "redshift"].

(** [Model.prob] at one sample, [at k] being the entry of column [k]: the cell under "Define some models and the likelihood". *)
Definition notebook_point (bk : backend) (r : redshift) (at_key : string -> xf) (parameters : dict xf) : result xf :=
  p_mass <- mass_ratio_kw bk (at_key "mass_1") (at_key "mass_ratio")
              (given (mass_ratio_args ++ ["gaussian_mass_maximum"]) parameters) ;;
  p_spin <- iid_spin_kw bk (at_key "a_1") (at_key "a_2") (at_key "cos_tilt_1") (at_key "cos_tilt_2") (given iid_spin_args parameters) ;;
  p_redshift <- probability r [("redshift", [at_key "redshift"])] (given (fst (Redshift_model.variable_names r)) parameters) ;;
  Ok (fmul (fmul (fmul (Fin 1) p_mass) p_spin) (nth 0 p_redshift NaN)).

(** [Model.prob] on a data set (the injections), and on two-dimensional arrays with one row per event (the posterior samples). *)
Definition notebook_prob (bk : backend) (r : redshift) (data : dict (list xf)) (parameters : dict xf) : result (list xf) :=
  columns <- mapM (fun k => c <- dlookup k data ;; Ok (k, c)) sample_keys ;;
  mapM (fun i => notebook_point bk r (fun k => match dget k columns with Some c => nth i c NaN | None => NaN end) parameters)
       (seq 0 (match columns with (_, c) :: _ => List.length c | [] => 0 end)).
Definition notebook_prob_events (bk : backend) (r : redshift) (data : dict matrix) (parameters : dict xf) : result matrix :=
  m1 <- dlookup "mass_1" data ;;
  mapM (fun ii => notebook_prob bk r (map (fun kv => (fst kv, nth ii (snd kv) [])) data) parameters) (seq 0 (List.length m1)).
