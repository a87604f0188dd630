(** * Vocabulary for bounds and mixtures of the likelihood. *)
From Coq Require Import Reals List String.
From Verif Require Import Xf Py Xf_facts Vt_model Hyperpe_model SpecHyper.
Import ListNotations.
Local Open Scope R_scope.

(** [t] times one list plus [1 - t] times another. *)
Definition mix (t : R) (a b : list R) : list R := map (fun x => t * fst x + (1 - t) * snd x) (combine a b).

(** One population model is the mixture of two others with fraction [t], on the events' samples and on the injections. *)
Definition events_mixed (t : R) (prob_1 prob_2 prob : dict matrix -> dict xf -> result matrix) : Prop :=
  forall d h P_1 P_2, prob_1 d h = Ok (map (map Fin) P_1) -> prob_2 d h = Ok (map (map Fin) P_2) -> map (@List.length R) P_1 = map (@List.length R) P_2 ->
    prob d h = Ok (map (map Fin) (map (fun r => mix t (fst r) (snd r)) (combine P_1 P_2))).
Definition injections_mixed (t : R) (prob_1 prob_2 prob : dict (list xf) -> dict xf -> result (list xf)) : Prop :=
  forall d h p_1 p_2, prob_1 d h = Ok (map Fin p_1) -> prob_2 d h = Ok (map Fin p_2) -> List.length p_1 = List.length p_2 -> prob d h = Ok (map Fin (mix t p_1 p_2)).
