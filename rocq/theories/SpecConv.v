(** * Vocabulary for the conversion properties (C15-C20, C80).

    A Python dictionary of parameters is an association list; [VNone] is the value None. *)
From Coq Require Import Reals String.
From Coq Require Import List.
From Verif Require Import Xf Py St Conversions_model.
Import ListNotations.
Local Open Scope string_scope.

Definition has_key (k : string) (P : dict pval) : Prop := exists v, dget k P = Some v.
Definition usable (k : string) (P : dict pval) : Prop := exists v, dget k P = Some v /\ v <> VNone.

(** alpha and beta of this suffix are already given. *)
Definition given (P : dict pval) (suf : string) : Prop :=
  usable ("alpha_chi" ++ suf) P /\ usable ("beta_chi" ++ suf) P.
Definition mean_and_width (P : dict pval) (suf : string) : Prop :=
  has_key ("mu_chi" ++ suf) P /\ has_key ("sigma_chi" ++ suf) P.

(** The suffixes whose alpha and beta get computed. *)
Definition selected (P : dict pval) (suf : string) : Prop :=
  ((suf = "_1" \/ suf = "_2") /\ ~ given P suf /\ mean_and_width P suf) \/
  (suf = "" /\ ~ given P "_1" /\ ~ mean_and_width P "_1" /\
               ~ given P "_2" /\ ~ mean_and_width P "_2" /\ ~ given P "" /\ mean_and_width P "").

(** The relevant entries, where present, are finite numbers, with sigma and amax nonzero. *)
Definition numeric (P : dict pval) : Prop :=
  forall suf v, In suf ["_1"; "_2"; ""] ->
    (dget ("mu_chi" ++ suf) P = Some v -> exists x py, v = VNum (Fin x) py) /\
    (dget ("sigma_chi" ++ suf) P = Some v \/ dget ("amax" ++ suf) P = Some v ->
       exists x py, v = VNum (Fin x) py /\ x <> 0%R).

(** The number held by a computed value. *)
Definition is_num (v : nd) (r : R) : Prop := exists py, v = Sc (Fin r) py.
Definition holds_num (v : option pval) (r : R) : Prop := exists py, v = Some (VNum (Fin r) py).

(** Contents of the caller's arrays and dictionaries that existed before the call. *)
Definition same_dicts (s s' : store) : Prop :=
  forall d, (d < List.length (dicts s))%nat -> nth d (dicts s') [] = nth d (dicts s) [].
Definition same_arrays (s s' : store) : Prop :=
  forall p, (p < List.length (arrays s))%nat -> nth p (arrays s') [] = nth p (arrays s) [].
