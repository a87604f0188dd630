(** * Specification vocabulary for the smoothed mass classes: legal hyperparameters, datasets on a product grid. *)
From Coq Require Import Reals String.
From Coq Require Import List.
From Verif Require Import Xf Py Smoothed_model.
Import ListNotations.
Local Open Scope R_scope.

(** The hyperparameters (other than beta and delta_m) the four classes document, in their documented ranges: power law
    between 0 < mmin < mmax, mixing fractions in [0,1], positive widths, break strictly inside the range. A slope of -1 is
    only accepted on jax (property C27). *)
Definition slope_ok (bk : backend) (alpha : R) : Prop := bk = Jax \/ alpha <> -1.
Inductive legal (bk : backend) (mmin mmax : R) : smoothed_class -> dict xf -> Prop :=
  | legal_single alpha lam mpp sigpp : slope_ok bk alpha -> 0 <= lam <= 1 -> 0 < sigpp ->
      legal bk mmin mmax SinglePeak
        [("alpha", Fin alpha); ("mmin", Fin mmin); ("mmax", Fin mmax); ("lam", Fin lam); ("mpp", Fin mpp); ("sigpp", Fin sigpp)]%string
  | legal_multi alpha lam lam_1 mpp_1 sigpp_1 mpp_2 sigpp_2 : slope_ok bk alpha -> 0 <= lam <= 1 -> 0 <= lam_1 <= 1 ->
      0 < sigpp_1 -> 0 < sigpp_2 ->
      legal bk mmin mmax MultiPeak
        [("alpha", Fin alpha); ("mmin", Fin mmin); ("mmax", Fin mmax); ("lam", Fin lam); ("lam_1", Fin lam_1);
         ("mpp_1", Fin mpp_1); ("sigpp_1", Fin sigpp_1); ("mpp_2", Fin mpp_2); ("sigpp_2", Fin sigpp_2)]%string
  | legal_broken alpha_1 alpha_2 b : slope_ok bk alpha_1 -> slope_ok bk alpha_2 -> 0 < b < 1 ->
      legal bk mmin mmax BrokenPowerLaw
        [("alpha_1", Fin alpha_1); ("alpha_2", Fin alpha_2); ("mmin", Fin mmin); ("mmax", Fin mmax);
         ("break_fraction", Fin b)]%string
  | legal_broken_peak alpha_1 alpha_2 b lam mpp sigpp : slope_ok bk alpha_1 -> slope_ok bk alpha_2 -> 0 < b < 1 ->
      0 <= lam <= 1 -> 0 < sigpp ->
      legal bk mmin mmax BrokenPowerLawPeak
        [("alpha_1", Fin alpha_1); ("alpha_2", Fin alpha_2); ("mmin", Fin mmin); ("mmax", Fin mmax);
         ("break_fraction", Fin b); ("lam", Fin lam); ("mpp", Fin mpp); ("sigpp", Fin sigpp)]%string.

(** The dataset of all pairs (mass, ratio) of two grids, mass by mass. *)
Definition grid_dataset (ms qs : list xf) : dict (list xf) :=
  [("mass_1"%string, List.concat (map (fun m => map (fun _ => m) qs) ms));
   ("mass_ratio"%string, List.concat (map (fun _ => qs) ms))].

(** An interpolation kernel that reproduces the values at its nodes. *)
Definition exact_at_nodes (interp : list xf -> list xf -> xf -> xf) : Prop :=
  forall nodes vals i, (i < List.length nodes)%nat -> List.length vals = List.length nodes -> NoDup nodes ->
  interp nodes vals (nth i nodes NaN) = nth i vals NaN.
