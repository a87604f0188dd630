(** Property theorems (roundtrap). Proofs are in [roundtrap_thms]; the vocabulary is in [Spec]. *)
From Coq Require Import Reals ZArith Lra Lia Psatz Bool.
From Coquelicot Require Import Rcomplements.
From Flocq Require Import Core BinarySingleNaN Relative.
From Coq Require Import List.
From Verif Require Import Xf Py Xf_facts Py_facts Trap_facts Utils_model Double Double_facts Rounded_model SpecRound RoundedTrap_model SpecRoundTrap round_thms.
Import ListNotations.
Local Open Scope R_scope.
From Verif Require Import roundtrap_thms.

Theorem C121_trapezoid :
  forall y x t, List.length y = List.length x -> steps_within 400 x -> values_within 400 y -> (Z.of_nat (List.length x) <= 2 ^ 50)%Z ->
  leaves t = trap_terms64 y x ->
  let exact := exact_trapezoid (reals y) (reals x) in
  let n := (depth t + 4)%nat in
  is_finite (sum64 t) = true /\ (1 - u64) ^ n * exact <= B2R (sum64 t) <= exact / (1 - u64) ^ n /\
  trapezoid (map Fin (reals y)) (map Fin (reals x)) = Fin exact.
Proof. exact C121_trapezoid_pf. Qed.
Print Assumptions C121_trapezoid.

Example C121_trapezoid_met :
  exists y x t, List.length y = List.length x /\ steps_within 400 x /\ values_within 400 y /\ (Z.of_nat (List.length x) <= 2 ^ 50)%Z /\ leaves t = trap_terms64 y x /\
  exact_trapezoid (reals y) (reals x) = 7 / 2.
Proof. exact C121_trapezoid_met_pf. Qed.

Theorem C121_normalised :
  forall y x t t', List.length y = List.length x -> steps_within 100 x -> values_within 100 y -> (Z.of_nat (List.length x) <= 2 ^ 50)%Z ->
  Exists (fun w : b64 => B2R w <> 0) y -> leaves t = trap_terms64 y x ->
  let p := normalise64 t y in
  leaves t' = trap_terms64 p x ->
  let n := (depth t + depth t' + 9)%nat in
  let m := (depth t + 5)%nat in
  is_finite (sum64 t') = true /\ (1 - u64) ^ n <= B2R (sum64 t') <= / (1 - u64) ^ n /\
  (1 - u64) ^ m <= exact_trapezoid (reals p) (reals x) <= / (1 - u64) ^ m /\
  forall i, (i < List.length y)%nat -> let exact := nth i (reals y) 0 / exact_trapezoid (reals y) (reals x) in
    (1 - u64) ^ m * exact <= nth i (reals p) 0 <= exact / (1 - u64) ^ m.
Proof. exact C121_normalised_pf. Qed.
Print Assumptions C121_normalised.

Example C121_normalised_met :
  exists y x t t', List.length y = List.length x /\ steps_within 100 x /\ values_within 100 y /\ (Z.of_nat (List.length x) <= 2 ^ 50)%Z /\
  Exists (fun w : b64 => B2R w <> 0) y /\ leaves t = trap_terms64 y x /\ leaves t' = trap_terms64 (normalise64 t y) x /\ exact_trapezoid (reals y) (reals x) = 7 / 2.
Proof. exact C121_normalised_met_pf. Qed.

Theorem C121_underflow_refuted :
  forall y x t, List.length y = List.length x -> Forall positive_double y -> Forall (fun w : b64 => is_finite w = true) x ->
  (forall i, (S i < List.length x)%nat -> 0 < nth (S i) (reals x) 0 - nth i (reals x) 0 <= 2 ^ 1000 /\ nth i (reals y) 0 <= 2 ^ 999 /\ nth (S i) (reals y) 0 <= 2 ^ 999 /\
     (nth (S i) (reals x) 0 - nth i (reals x) 0) * (nth (S i) (reals y) 0 + nth i (reals y) 0) <= / 2 ^ 1078) ->
  leaves t = trap_terms64 y x ->
  let exact := exact_trapezoid (reals y) (reals x) in
  sum64 t = B754_zero false /\ Forall (fun w => w = B754_infinity false) (normalise64 t y) /\
  0 < exact /\ exact_trapezoid (map (fun v => v / exact) (reals y)) (reals x) = 1.
Proof. exact C121_underflow_refuted_pf. Qed.
Print Assumptions C121_underflow_refuted.

Example C121_underflow_met :
  exists y x t, List.length y = List.length x /\ Forall positive_double y /\ Forall (fun w : b64 => is_finite w = true) x /\
  (forall i, (S i < List.length x)%nat -> 0 < nth (S i) (reals x) 0 - nth i (reals x) 0 <= 2 ^ 1000 /\ nth i (reals y) 0 <= 2 ^ 999 /\ nth (S i) (reals y) 0 <= 2 ^ 999 /\
     (nth (S i) (reals x) 0 - nth i (reals x) 0) * (nth (S i) (reals y) 0 + nth i (reals y) 0) <= / 2 ^ 1078) /\
  leaves t = trap_terms64 y x.
Proof. exact C121_underflow_met_pf. Qed.

