(** * Vocabulary for the invariances of the likelihood. *)
From Coq Require Import Reals List String.
From Verif Require Import Xf Py Xf_facts Vt_model Hyperpe_model SpecHyper.
Import ListNotations.
Local Open Scope R_scope.

(** One population model is [c] times another one, on the events' samples and on the injections. *)
Definition events_scaled (c : R) (prob prob' : dict matrix -> dict xf -> result matrix) : Prop :=
  forall d h P, prob d h = Ok (map (map Fin) P) -> prob' d h = Ok (map (map Fin) (map (map (Rmult c)) P)).
Definition injections_scaled (c : R) (prob prob' : dict (list xf) -> dict xf -> result (list xf)) : Prop :=
  forall d h p, prob d h = Ok (map Fin p) -> prob' d h = Ok (map Fin (map (Rmult c) p)).

(** [p] are the model's values at the found injections and [q] the (non-zero) densities they were drawn from, out of [N] injections of which
    at most [N] were found. *)
Definition injections_are (prob : dict (list xf) -> dict xf -> result (list xf)) (v : resampling) (parameters : dict xf) (p q : list R) (N : R) : Prop :=
  prob (rv_data v) parameters = Ok (map Fin p) /\ dget "prior"%string (rv_data v) = Some (map Fin q) /\ List.length p = List.length q /\
  Forall (fun x => x <> 0) q /\ rv_total v = Fin N /\ 0 < N /\ INR (List.length q) <= N.

(** A list repeated [k] times. *)
Definition copies {A} (k : nat) (l : list A) : list A := List.concat (repeat l k).

(** The effective number of samples of weights [w]. *)
Definition n_effective (w : list R) : R := Rsum w ^ 2 / Rsum (squares w).
