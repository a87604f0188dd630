(** * Vocabulary for changes of coordinates: densities and Jacobians at samples. *)
From Coq Require Import Reals List String.
From Verif Require Import Xf Py Xf_facts Vt_model Hyperpe_model.
Import ListNotations.
Local Open Scope R_scope.

(** Element-wise products. *)
Definition times (a j : list R) : list R := map (fun x => fst x * snd x) (combine a j).
Definition times_rows (A J : list (list R)) : list (list R) := map (fun x => times (fst x) (snd x)) (combine A J).

(** Two likelihood objects, or two selection functions, with the same settings; only the samples and their prior densities may differ. *)
Definition same_settings (L L' : likelihood) : Prop :=
  li_kind L' = li_kind L /\ li_n L' = li_n L /\ li_samples L' = li_samples L /\ li_maxu L' = li_maxu L.
Definition same_survey (v v' : resampling) : Prop :=
  rv_total v' = rv_total v /\ rv_n_events v' = rv_n_events v /\ rv_marginalize v' = rv_marginalize v /\ rv_enforce v' = rv_enforce v.

(** The events of [L'] are those of [L] in other coordinates: at every sample both the population density and the recorded prior density (which is not zero) are multiplied by the Jacobian [J]. *)
Definition events_in_other_coordinates (prob prob' : dict matrix -> dict xf -> result matrix) (L L' : likelihood) (parameters : dict xf) : Prop :=
  exists P Q J, prob (li_data L) parameters = Ok (map (map Fin) P) /\ li_prior L = Some (map (map Fin) Q) /\
    prob' (li_data L') parameters = Ok (map (map Fin) (times_rows P J)) /\ li_prior L' = Some (map (map Fin) (times_rows Q J)) /\
    Forall (Forall (fun x => x <> 0)) Q /\ Forall (Forall (fun x => x <> 0)) J /\
    map (@List.length R) P = map (@List.length R) Q /\ map (@List.length R) J = map (@List.length R) Q.

(** The same for the found injections. *)
Definition injections_in_other_coordinates (prob prob' : dict (list xf) -> dict xf -> result (list xf)) (v v' : resampling) (parameters : dict xf) : Prop :=
  exists p q j, prob (rv_data v) parameters = Ok (map Fin p) /\ dget "prior"%string (rv_data v) = Some (map Fin q) /\
    prob' (rv_data v') parameters = Ok (map Fin (times p j)) /\ dget "prior"%string (rv_data v') = Some (map Fin (times q j)) /\
    Forall (fun x => x <> 0) q /\ Forall (fun x => x <> 0) j /\ List.length p = List.length q /\ List.length j = List.length q.

(** Two lists of weights which differ at most by the factor [k] at every sample. *)
Definition close_weights (k : R) (w w' : list R) : Prop := Forall2 (fun x y => x / k <= y <= k * x) w w'.
