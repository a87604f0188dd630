(** * Vocabulary for the expected log-likelihood of a catalogue: data that can be seen, and what a population predicts for them. *)
From Coq Require Import Reals List.
From Coquelicot Require Import Coquelicot.
From Coq Require Import List.
From Verif Require Import Xf Py Vt_model Hyperpe_model SpecHyper SpecProb.
Import ListNotations.
Local Open Scope R_scope.

(** [Z d] is how probable the data [d] are under a population (the evidence), [seen] are the data that pass the detection threshold. Among the detected events the data [d] occur with frequency [Z d] over the detectable fraction. *)
Definition among_seen {D} (seen : list D) (Z : D -> R) (d : D) : R := Z d / total (map Z seen).

(** The likelihood [L] was built from the events [l], and for the converted hyper-parameters every event's Monte Carlo integral is exact: the mean weight is the evidence of the population, up to a factor [c d] which does not
    depend on the population (the evidence under the sampling prior). *)
Definition analysed {D} (prob : dict matrix -> dict xf -> result matrix) (converted : dict xf) (c Z : D -> R) (L : likelihood) (l : list D) : Prop :=
  li_n L = length l /\
  exists W, weights_are prob L converted W /\ positive_weights L W /\ Forall2 (fun w d => mean w = c d * Z d) W l.

(** The selection function returns the detectable fraction of the population [Z]. *)
Definition selected {D} (sel : dict xf -> result selection) (converted : dict xf) (seen : list D) (Z : D -> R) : Prop :=
  exists v, sel converted = Ok (ValueAndVariance (Fin (total (map Z seen))) (Fin v)) \/ sel converted = Ok (Value (Fin (total (map Z seen)))) /\ v = 0.

(** [x] is the log-likelihood which the likelihood built from the catalogue [l] returns. *)
Definition ln_l_of {D} bk prob sel conv (L : list D -> likelihood) (parameters : dict xf) (l : list D) (x : R) : Prop :=
  exists var, ln_likelihood_and_variance bk prob sel conv (L l) parameters = Ok (Fin x, var).

(** The mean of [F] when the number of events has the distribution [often] and the events are independent. *)
Definition catalogue_mean {D} (seen : list D) (pmf : D -> R) (often : nat -> R) (F : list D -> R) (x : R) : Prop :=
  is_series (fun n => often n * expectation seen pmf n F) x.

(** Poisson counts of mean [lambda]. *)
Definition poisson (lambda : R) (n : nat) : R := exp (- lambda) * (lambda ^ n / INR (fact n)).
