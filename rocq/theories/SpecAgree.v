(** * Vocabulary for the agreement of the numerical backends. *)
From Coq Require Import Reals List String.
From Verif Require Import Xf Py.
Local Open Scope R_scope.

(** The two eager backends do the same, and whenever they return a value jax returns that value (where they raise, jax may return something). *)
Definition backends_agree {A} (f : backend -> result A) : Prop := f Cupy = f Numpy /\ forall v, f Numpy = Ok v -> f Jax = Ok v.

(** On jax the call returns, whatever the inputs. *)
Definition jax_returns {A} (f : backend -> result A) : Prop := exists v, f Jax = Ok v.
