(** * Vocabulary for changes of the unit of mass. *)
From Coq Require Import Reals String List.
From Verif Require Import Xf Py Smoothed_model.
Import ListNotations.
Local Open Scope R_scope.

(** In units that are [c] times smaller every mass is a number [c] times larger. *)
Definition mass_hyperparameters : list string :=
  ["mmin"; "mmax"; "delta_m"; "mpp"; "sigpp"; "mpp_1"; "sigpp_1"; "mpp_2"; "sigpp_2"; "gaussian_mass_maximum"]%string.
Definition in_units (c : R) (kwargs : dict xf) : dict xf :=
  map (fun kv => (fst kv, if existsb (String.eqb (fst kv)) mass_hyperparameters then fmul (Fin c) (snd kv) else snd kv)) kwargs.

(** A density is [x] in the old units and [x / k] in the new ones. *)
Definition rescaled (k : R) (old new : result xf) : Prop := exists x, old = Ok (Fin x) /\ new = Ok (Fin (x / k)).

(** Two smoothed mass models: the limits, the mass grid and the remembered masses of the second are those of the first in the new units. *)
Definition object_in_units (c : R) (s s' : smoothed) : Prop :=
  sm_mmin s' = fmul (Fin c) (sm_mmin s) /\ sm_mmax s' = fmul (Fin c) (sm_mmax s) /\ sm_m1s s' = map (fmul (Fin c)) (sm_m1s s) /\ sm_qs s' = sm_qs s /\
  sm_cache s' = sm_cache s /\ sm_masses s' = option_map (map (fmul (Fin c))) (sm_masses s).

(** Interpolation does not depend on the unit of the abscissa. *)
Definition unit_free (interp : list xf -> list xf -> xf -> xf) : Prop :=
  forall c nodes vals x, 0 < c -> interp (map (fmul (Fin c)) nodes) vals (fmul (Fin c) x) = interp nodes vals x.

(** A dataset with its primary masses in the new units. *)
Definition dataset_in_units (c : R) (ds : dict (list xf)) : dict (list xf) :=
  map (fun kv => (fst kv, if String.eqb (fst kv) "mass_1"%string then map (fmul (Fin c)) (snd kv) else snd kv)) ds.
Definition positive_masses (ms : list xf) : Prop := forall m, In m ms -> exists r, m = Fin r /\ 0 < r.
