(** * Vocabulary for the likelihood properties: weights, their mean and relative variance as real numbers. *)
From Coq Require Import Reals List.
From Flocq Require Import BinarySingleNaN.
From Verif Require Import Xf Py Xf_facts Hyperpe_model Double_facts.
Import ListNotations.
Local Open Scope R_scope.

Definition mean (w : list R) : R := Rsum w / INR (length w).
Definition squares (w : list R) : list R := map (fun x => x * x) w.

(** The variance of the log of a Monte Carlo mean of [K] weights. *)
Definition mc_variance (K : nat) (w : list R) : R := (mean (squares w) - mean w * mean w) / (INR K * (mean w * mean w)).

Definition quotients (a b : list R) : list R := map (fun p => fst p / snd p) (combine a b).

(** The population model is finite on the events' samples and [W] are the weights: the values of the model, divided by the sampling prior if there is one. *)
Definition weights_are (prob : dict matrix -> dict xf -> result matrix) (L : likelihood) (parameters : dict xf) (W : list (list R)) : Prop :=
  exists P, prob (li_data L) parameters = Ok (map (map Fin) P) /\
    match li_prior L with
    | None => W = P
    | Some q => exists Q, q = map (map Fin) Q /\ Forall (Forall (fun x => x <> 0)) Q /\ map (@length R) P = map (@length R) Q /\
                          W = map (fun p => quotients (fst p) (snd p)) (combine P Q)
    end.

(** Every event has [K] samples of positive weight, at least one. *)
Definition positive_weights (L : likelihood) (W : list (list R)) : Prop :=
  (0 < li_samples L)%nat /\ Forall (fun w => length w = li_samples L /\ Forall (fun x => 0 < x) w) W.

(** The tail of log_likelihood_ratio on Flocq's binary64 numbers. *)
Definition nan_to_num_b (nan : b64) (x : b64) : b64 :=
  match x with
  | B754_nan => nan
  | B754_infinity false => Bmax_float
  | B754_infinity true => Bopp Bmax_float
  | _ => x
  end.
Definition cut_b (u l v : b64) : b64 :=
  let l := nan_to_num_b (B754_infinity true) l in
  let penalty := if Bltb u v then Bmax_float else B754_zero false in
  nan_to_num_b (B754_zero false) (Bminus mode_NE l penalty).

(** [N] rows of [K] non-negative weights, not all zero in any row. *)
Definition usable_weights (N K : nat) (W : list (list R)) : Prop :=
  length W = N /\ Forall (fun w => length w = K /\ Forall (fun x => 0 <= x) w /\ 0 < Rsum w) W.

(** The predictive weight of sample [j] of event [i]: its share of the event's weight, averaged over the hyper-parameter samples. *)
Definition predictive_weight (Ws : list (list (list R))) (i j : nat) : R :=
  mean (map (fun W => nth j (nth i W []) 0 / Rsum (nth i W [])) Ws).
