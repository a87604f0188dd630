(** * State and exception monad for code with observable side effects.

    A computation maps a state to a new state together with a value or an exception;
    the state reached when the exception is raised is kept.  Definitions only. *)
From Coq Require Import List String.
From Verif Require Import Py.

Definition ST (S A : Type) : Type := S -> S * result A.

Definition sret {S A} (a : A) : ST S A := fun s => (s, Ok a).
Definition sfail {S A} (e : exn) : ST S A := fun s => (s, Err e).
Definition slift {S A} (r : result A) : ST S A := fun s => (s, r).
Definition sbind {S A B} (m : ST S A) (f : A -> ST S B) : ST S B :=
  fun s => match m s with (s', Ok a) => f a s' | (s', Err e) => (s', Err e) end.
Definition sget {S} : ST S S := fun s => (s, Ok s).
Definition sput {S} (s : S) : ST S unit := fun _ => (s, Ok tt).

Notation "x <~ m ;; f" := (sbind m (fun x => f)) (at level 61, m at next level, right associativity).
Notation "' p <~ m ;; f" := (sbind m (fun p => f))
  (at level 61, p pattern, m at next level, right associativity).
