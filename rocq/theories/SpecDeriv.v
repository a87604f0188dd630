(** * Vocabulary for derivatives with respect to hyper-parameters. *)
From Coq Require Import Reals String.
From Coquelicot Require Import Coquelicot.
From Coq Require Import List.
From Verif Require Import Xf Py Xf_facts Spec.
Import ListNotations.
Local Open Scope R_scope.

(** Near [t] the calls return finite numbers, and these have derivative [d] at [t]. *)
Definition derivative_of_call (f : R -> result xf) (t d : R) : Prop :=
  exists g : R -> R, locally t (fun u => returns (f u) (g u)) /\ is_derive g t d.

(** [score] is the derivative of the log-density at [x] of the normalised family [f] on [low, high] whose unnormalised log-density has derivative
    [s]: [s x] minus the mean of [s] under the density itself. *)
Definition centred_score (density : R -> result xf) (s : R -> R) (low high x score : R) : Prop :=
  exists (p : R -> R) (mean : R), (forall y, low <= y <= high -> returns (density y) (p y)) /\ is_RInt (fun y => s y * p y) low high mean /\ score = s x - mean.

(** The derivative of the log-likelihood: for every event the derivatives of its weights over its weights, minus [n] times the derivatives of the
    weights of the injections over these weights. *)
Definition gradient_of_events (weights derivatives : list (list R)) : R :=
  Rsum (map (fun wd => Rsum (snd wd) / Rsum (fst wd)) (combine weights derivatives)).
