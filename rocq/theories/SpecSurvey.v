(** * Vocabulary for a whole analysis. *)
From Coq Require Import Reals String Bool.
From Coq Require Import List.
From Verif Require Import Xf Py St Np Smoothed_model Redshift_model Hyperpe_model Vt_model Priors_model SpecPrior Cache_model Survey_model SpecSmooth SpecExample.
Import ListNotations.
Local Open Scope R_scope.

(** A function with memory that, as long as it is used on one data set only, returns what it returns on first use. *)
Definition forgets {M} (data : dict (list xf)) (f : memory_function M) (m : M) : Prop :=
  forall earlier kw, snd (my_call f data kw (run (my_call f) (map (fun k => (data, k)) earlier) m)) = snd (my_call f data kw m).
(** The product of what the functions return on first use. *)
Fixpoint first_use {M} (acc : option (list xf)) (fs : list (memory_function M)) (ms : list M) (data : dict (list xf)) (parameters : dict xf) : result (option (list xf)) :=
  match fs, ms with
  | f :: fs', m :: ms' => v <- snd (my_call f data (given (my_names f) parameters) m) ;; first_use (times_list acc (Some v)) fs' ms' data parameters
  | _, _ => Ok acc
  end.

(** A draw from bbh_population.prior without the two edges of C132. *)
Definition usable_draw (bk : backend) (d : dict xf) : Prop :=
  draw_of bbh_population d /\ (bk = Jax \/ value "alpha" d <> -1) /\ 0 < value "amax_1" d /\ 0 < value "amax_2" d.

(** The density of one binary: the product of what a new mass model [s], the two spin models and the redshift model return for this binary alone. *)
Definition density_is (bk : backend) (linterp : list xf -> list xf -> xf -> xf) (s : smoothed) (r : redshift) (d : dict xf) (b : binary) (x : R) : Prop :=
  exists p_mass p_magnitude p_tilt p_redshift,
    snd (class_call SinglePeak bk linterp [("mass_1", [Fin (m1 b)]); ("mass_ratio", [Fin (ratio b)])]%string
           (given ["alpha"; "mmin"; "mmax"; "lam"; "mpp"; "sigpp"; "beta"; "delta_m"]%string d) s) = Ok [Fin p_mass] /\
    magnitude_kw bk (Fin (spin1 b)) (Fin (spin2 b)) (given ["alpha_chi_1"; "alpha_chi_2"; "beta_chi_1"; "beta_chi_2"; "amax_1"; "amax_2"]%string d) = Ok (Fin p_magnitude) /\
    orientation_kw bk (Fin (tilt1 b)) (Fin (tilt2 b)) (given ["xi_spin"; "sigma_1"; "sigma_2"; "mu_1"; "mu_2"]%string d) = Ok (Fin p_tilt) /\
    probability r [("redshift"%string, [Fin (z b)])] (given (fst (Redshift_model.variable_names r)) d) = Ok [Fin p_redshift] /\
    x = p_mass * p_magnitude * p_tilt * p_redshift.

(** Positive primary mass, redshift and sampling density. *)
Definition proper (b : binary) : Prop := 0 < m1 b /\ 0 < z b /\ 0 < sampling b.
