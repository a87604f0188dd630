(** * IEEE binary64 rounding, for the last operations of the likelihood.

    The numbers of the model ([Xf.v]) are exact reals. Where the size of the largest double matters (the uncertainty cut of the likelihood subtracts it)
    the result of an operation is rounded with [xfl]: round to nearest even in binary64, overflow to infinity. [Double_facts.v] proves that the rounded
    subtraction is the subtraction of the IEEE-754 formalisation of the Flocq library. Definitions only. *)
From Coq Require Import Reals ZArith.
From Flocq Require Import Core.
From Verif Require Import Xf.
Local Open Scope R_scope.

(** Binary64: 53 bits of precision, smallest positive number 2^-1074. *)
Definition format64 : Z -> Z := FLT_exp (-1074) 53.
Definition rnd64 (r : R) : R := round radix2 format64 ZnearestE r.
Definition fl (r : R) : xf := if Rlt_dec (Rabs (rnd64 r)) (bpow radix2 1024) then Fin (rnd64 r) else inf_of_sign r.
Definition xfl (x : xf) : xf := match x with Fin r => fl r | _ => x end.

(** The reals that are finite doubles. *)
Definition is_double (r : R) : Prop := generic_format radix2 format64 r /\ Rabs r < bpow radix2 1024.
