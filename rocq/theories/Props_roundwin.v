(** Property theorems (roundwin). Proofs are in [roundwin_thms]; the vocabulary is in [Spec]. *)
From Coq Require Import Reals ZArith Lra Lia Psatz Bool.
From Coquelicot Require Import Rcomplements.
From Flocq Require Import Core BinarySingleNaN Relative.
From Coq Require Import List.
From Verif Require Import Xf Py Xf_facts Smoothed_model Smoothed_facts Double Double_facts Rounded_model SpecRound SpecHyper RoundedPl_model RoundedWindow_model SpecRoundWindow round_thms roundpl_thms.
Import ListNotations.
Local Open Scope R_scope.
From Verif Require Import roundwin_thms.

Theorem C122_range_and_monotone :
  forall jax expit m mmin mmax delta_m, nearest_expit expit -> window_arguments m mmin mmax delta_m ->
  is_finite (smoothing64 jax expit m mmin mmax delta_m) = true /\ 0 <= B2R (smoothing64 jax expit m mmin mmax delta_m) <= 1 /\
  (B2R m < B2R mmin \/ B2R mmax < B2R m -> B2R (smoothing64 jax expit m mmin mmax delta_m) = 0) /\
  forall m', window_arguments m' mmin mmax delta_m -> B2R mmin <= B2R m -> B2R m <= B2R m' -> B2R m' <= B2R mmax ->
    B2R (smoothing64 jax expit m mmin mmax delta_m) <= B2R (smoothing64 jax expit m' mmin mmax delta_m).
Proof. exact C122_range_and_monotone_pf. Qed.
Print Assumptions C122_range_and_monotone.

Theorem C122_plateaus :
  forall jax expit m mmin mmax delta_m, nearest_expit expit -> window_arguments m mmin mmax delta_m -> B2R mmin <= B2R m <= B2R mmax ->
  let s := (B2R m - B2R mmin) / B2R delta_m in
  (s <= / 770 -> B2R (smoothing64 jax expit m mmin mmax delta_m) = 0) /\
  (41 / 42 <= s -> B2R (smoothing64 jax expit m mmin mmax delta_m) = 1).
Proof. exact C122_plateaus_pf. Qed.
Print Assumptions C122_plateaus.

Theorem C122_positive_refuted :
  forall jax expit m mmin mmax delta_m, nearest_expit expit -> window_arguments m mmin mmax delta_m -> B2R mmin <= B2R m <= B2R mmax ->
  (B2R m - B2R mmin) / B2R delta_m <= / 770 ->
  B2R (smoothing64 jax expit m mmin mmax delta_m) = 0 /\
  forall bk, exists v, smoothing bk (Fin (B2R m)) (Fin (B2R mmin)) (Fin (B2R mmax)) (Fin (B2R delta_m)) = Fin v /\ 0 < v.
Proof. exact C122_positive_refuted_pf. Qed.
Print Assumptions C122_positive_refuted.

Theorem C122_accuracy :
  forall jax expit m mmin mmax delta_m, nearest_expit expit -> window_arguments m mmin mmax delta_m -> B2R mmin <= B2R m <= B2R mmax ->
  let s := (B2R m - B2R mmin) / B2R delta_m in
  / 700 <= s <= 63 / 64 ->
  Rabs (B2R (smoothing64 jax expit m mmin mmax delta_m) - exact_window s) <= exact_window s / 2 ^ 36 /\
  forall bk, smoothing bk (Fin (B2R m)) (Fin (B2R mmin)) (Fin (B2R mmax)) (Fin (B2R delta_m)) = Fin (exact_window s).
Proof. exact C122_accuracy_pf. Qed.
Print Assumptions C122_accuracy.

Example C122_met :
  (exists expit, nearest_expit expit) /\
  (exists m m' mmin mmax delta_m, window_arguments m mmin mmax delta_m /\ window_arguments m' mmin mmax delta_m /\ B2R mmin <= B2R m < B2R m' /\ B2R m' <= B2R mmax) /\
  (exists m mmin mmax delta_m, window_arguments m mmin mmax delta_m /\ B2R mmin <= B2R m <= B2R mmax /\ (B2R m - B2R mmin) / B2R delta_m <= / 770) /\
  (exists m mmin mmax delta_m, window_arguments m mmin mmax delta_m /\ B2R mmin <= B2R m <= B2R mmax /\ 41 / 42 <= (B2R m - B2R mmin) / B2R delta_m) /\
  (exists m mmin mmax delta_m, window_arguments m mmin mmax delta_m /\ B2R mmin <= B2R m <= B2R mmax /\ / 700 <= (B2R m - B2R mmin) / B2R delta_m <= 63 / 64).
Proof. exact C122_met_pf. Qed.

