(** * What calling a function of numbers on arrays should give. Definitions only, independent of the model. *)
From Coq Require Import List Bool Arith.
From Verif Require Import Xf Py Nd_model.
Import ListNotations.

(** A shape (last axis first) can be repeated to another one: aligned at the last axis, every axis has the same length or length 1. *)
Fixpoint fits (s t : list nat) : Prop :=
  match s, t with
  | [], _ => True
  | _ :: _, [] => False
  | n :: s', m :: t' => (n = m \/ n = 1) /\ fits s' t'
  end.
(** The common shape of some shapes: the smallest they all fit. *)
Definition common (shapes : list (list nat)) (s : list nat) : Prop :=
  (forall u, In u shapes -> fits u s) /\ forall t, (forall u, In u shapes -> fits u t) -> fits s t.
(** An index of an array of this shape. *)
Definition inside (s i : list nat) : Prop := Forall2 lt i s.
(** The element of an argument that belongs to index [i] of the result: coordinates along missing axes and axes of length 1 are ignored. *)
Fixpoint own (s i : list nat) : list nat :=
  match s, i with
  | 1 :: s', _ :: i' => 0 :: own s' i'
  | _ :: s', j :: i' => j :: own s' i'
  | _, _ => []
  end.
Definition entry (a : nd xf) (i : list nat) : xf := nd_at a (own (nd_shape a) i).
(** The result of a call is the array of the common shape with these entries. *)
Definition gives (r : result (nd xf)) (args : list (nd xf)) (f : list nat -> xf) : Prop :=
  exists y, r = Ok y /\ common (map nd_shape args) (nd_shape y) /\ forall i, inside (nd_shape y) i -> nd_at y i = f i.
(** The arguments can be combined: there is a shape they all fit. *)
Definition compatible (args : list (nd xf)) : Prop := exists t, forall a, In a args -> fits (nd_shape a) t.
