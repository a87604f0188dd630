(** * Vocabulary for the grid-based selection function: multi-dimensional trapezoid rule on a product grid. *)
From Coq Require Import Reals List.
From Verif Require Import Xf Vt_model Trap_facts.
Import ListNotations.
Local Open Scope R_scope.

(** The integral of a function of the grid indices by the trapezoid rule along every axis; [coords] are the coordinates of the axes. *)
Fixpoint iterated (coords : list (list R)) (f : list nat -> R) : R :=
  match coords with
  | [] => f []
  | c :: cs => Rtrap (map (fun i => iterated cs (fun idx => f (i :: idx))) (seq 0 (length c))) c
  end.

(** [idx] is a multi-index of the grid. *)
Definition inside (coords : list (list R)) (idx : list nat) : Prop := Forall2 (fun i c => (i < length c)%nat) idx coords.

(** The array has the shape of the grid and holds the coordinate of axis [i] (one of the outputs of numpy's [meshgrid] with "ij" indexing). *)
Definition meshgrid (coords : list (list R)) (i : nat) (a : array) : Prop :=
  ar_shape a = map (@length R) coords /\ (i < length coords)%nat /\
  forall idx, inside coords idx -> ar_at a idx = Fin (nth (nth i idx O) (nth i coords []) 0).

(** The array has the shape of the grid and finite values [f]. *)
Definition samples (coords : list (list R)) (f : list nat -> R) (a : array) : Prop :=
  ar_shape a = map (@length R) coords /\ forall idx, inside coords idx -> ar_at a idx = Fin (f idx).
