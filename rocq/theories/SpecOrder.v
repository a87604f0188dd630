(** * Vocabulary for the direction of the hyper-parameters (C113). *)
From Coq Require Import Reals.
From Coquelicot Require Import Coquelicot.
From Coq Require Import List.
From Verif Require Import Xf Py Spec Utils_model.
Local Open Scope R_scope.

(** The probability of a value in [a, x] is strictly smaller under [g] than under [f]: [g] puts more of its mass above [x]. *)
Definition shifted_up (f g : R -> result xf) (a x : R) : Prop :=
  exists p q, integrates_to f a x p /\ integrates_to g a x q /\ q < p.
(** The same for densities that may diverge at the lower end [a]. *)
Definition shifted_up_open (f g : R -> result xf) (a x : R) : Prop :=
  exists (F G : R -> R) p q, (forall t, a < t <= x -> returns (f t) (F t)) /\ (forall t, a < t <= x -> returns (g t) (G t)) /\
    is_RInt_gen F (at_right a) (at_point x) p /\ is_RInt_gen G (at_right a) (at_point x) q /\ q < p.
(** The same on a grid: [f] and [g] are calls returning the densities at the nodes [xs]; the trapezoid rule over the first [k + 1] nodes gives less under [g]. *)
Definition grid_shifted_up (f g : result (list xf)) (xs : list xf) (k : nat) : Prop :=
  exists F G p q, f = Ok F /\ g = Ok G /\ trapezoid (firstn (S k) F) (firstn (S k) xs) = Fin p /\ trapezoid (firstn (S k) G) (firstn (S k) xs) = Fin q /\ q < p.
