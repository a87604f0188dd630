(** * Vocabulary for sampling properties: independent draws from a finite distribution. *)
From Coq Require Import Reals List.
Import ListNotations.
Local Open Scope R_scope.

Definition total (l : list R) : R := fold_right Rplus 0 l.

(** [pmf] is a probability mass function on the points [space], nowhere zero. *)
Definition distribution {O} (space : list O) (pmf : O -> R) : Prop :=
  (forall w, In w space -> 0 < pmf w) /\ total (map pmf space) = 1.

(** The mean of [f] at one draw. *)
Definition mean_of {O} (space : list O) (pmf f : O -> R) : R := total (map (fun w => pmf w * f w) space).

(** The mean of [F] over [n] independent draws. *)
Fixpoint expectation {O} (space : list O) (pmf : O -> R) (n : nat) (F : list O -> R) : R :=
  match n with
  | 0%nat => F []
  | Datatypes.S k => mean_of space pmf (fun w => expectation space pmf k (fun l => F (w :: l)))
  end.

(** [l] is a possible outcome of [n] draws. *)
Definition draws {O} (space : list O) (n : nat) (l : list O) : Prop := length l = n /\ Forall (fun w => In w space) l.

(** The probability that [n] draws satisfy [P] (decided by [dec]). *)
Definition chance {O} (space : list O) (pmf : O -> R) (n : nat) (P : list O -> Prop) (dec : forall l, {P l} + {~ P l}) : R :=
  expectation space pmf n (fun l => if dec l then 1 else 0).
