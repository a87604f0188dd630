(** * Specification vocabulary for the redshift and cosmology properties. *)
From Coq Require Import Reals String.
From Coq Require Import List.
From Verif Require Import Xf Py Redshift_model.
Import ListNotations.
Local Open Scope R_scope.

(** The lists returned by [n] successive reads of [variable_names]. *)
Fixpoint reads (n : nat) (r : redshift) : list (list string) :=
  match n with O => [] | S n' => let '(v, r') := variable_names r in v :: reads n' r' end.

(** The detector-frame name of a parameter. *)
Definition detector (p : string) : string := (p ++ "_detector")%string.

(** [x] multiplied [k] times by [f]. *)
Fixpoint times (k : nat) (x f : xf) : xf := match k with O => x | S k' => fmul (times k' x f) f end.

(** The element-wise quotient of a column by 1 + z. *)
Definition over_one_plus (col z : list xf) : list xf := map (fun p => fdiv (fst p) (fadd (Fin 1) (snd p))) (combine col z).
