(** Property theorems (numinterp). Proofs are in [numinterp_thms]; the vocabulary is in [Spec]. *)
From Coq Require Import Reals String Bool Lra Lia.
From Coq Require Import List.
From Verif Require Import Xf Py St Utils_model Np Mass_model Smoothed_model Interp_model NumInterp_model Interp_facts.
Import ListNotations.
Local Open Scope R_scope.
Local Open Scope string_scope.
From Verif Require Import numinterp_thms.

(** C151. The spline models accept node values that are integers as well as floats, and return what they return for the same numbers as floats: on jax, without regularisation, or if at least
    one of the node values is a float. Partial: see [C151_integers_refuted]. *)

Theorem C151_identical_partial :
  forall bk spl self dataset kwargs,
  is_jax bk = true \/ in_regularize self = false \/ (exists k v, In k (in_fkeys self) /\ dget k kwargs = Some v /\ is_int v = false) ->
  p_x_identical_num bk spl dataset kwargs self = p_x_identical bk spl dataset (as_floats kwargs) self.
Proof. exact C151_identical_partial_pf. Qed.
Print Assumptions C151_identical_partial.

(** C151. The same for the spline-modulated power-law mass model. *)

Theorem C151_mass_partial :
  forall bk spl linterp self dataset kwargs,
  is_jax bk = true \/ in_regularize (snd self) = false \/ (exists k v, In k (in_fkeys (snd self)) /\ k <> "beta" /\ dget k kwargs = Some v /\ is_int v = false) ->
  ipl_call_num bk spl linterp dataset kwargs self = ipl_call bk spl linterp dataset (as_floats kwargs) self.
Proof. exact C151_mass_partial_pf. Qed.
Print Assumptions C151_mass_partial.

(** C151 (claim: node values that are integers are accepted) is false on numpy and cupy for a regularised model whose node values are all integers: the evaluation raises TypeError,
    whatever the data, also when the same numbers given as floats are fine. *)

Theorem C151_integers_refuted :
  forall bk spl linterp self dataset kwargs,
  let integer_nodes (s : interp) := in_regularize s = true /\ in_fkeys s <> [] /\ (forall k, In k (in_fkeys s) -> k <> "beta" /\ exists v, dget k kwargs = Some v /\ is_int v = true) /\
    (rmskey (in_base s) <> "beta" /\ exists v, dget (rmskey (in_base s)) kwargs = Some v) in
  is_jax bk = false ->
  (integer_nodes self -> dget (fkey (in_base self) (in_nodes self)) kwargs = None -> snd (p_x_identical_num bk spl dataset kwargs self) = Err TypeError) /\
  (forall mass : ipl, integer_nodes (snd mass) ->
     (exists v, dget "beta" kwargs = Some v) ->
     (forall v, dget "mmin" kwargs = Some v -> flt (num v) (sm_mmin (fst mass)) = false) -> (forall v, dget "mmax" kwargs = Some v -> fgt (num v) (sm_mmax (fst mass)) = false) ->
     flt (sm_mmin (fst mass)) (sm_mmin (fst mass)) = false -> fgt (sm_mmax (fst mass)) (sm_mmax (fst mass)) = false ->
     snd (ipl_call_num bk spl linterp dataset kwargs mass) = Err TypeError).
Proof. exact C151_integers_refuted_pf. Qed.
Print Assumptions C151_integers_refuted.

(** The hypotheses are met: a regularised spin-magnitude model with two nodes whose values are the integers 1 and 2 raises on numpy; with one of them a float, or both (given as [1.0] and [2.0]), it returns
    an array, as it does on jax. *)
Definition two_nodes (f0 f1 : number) : dict number :=
  let int n := {| is_int := true; num := n |} in
  [("a0", int (Fin 0)); ("a1", int (Fin 1)); ("fa0", f0); ("fa1", f1); ("rmsa", int (Fin 1))].
Definition two_spins : dict (list xf) := [("a_1", [Fin (1 / 2)]); ("a_2", [Fin (1 / 4)])].
Definition flat_spline : string -> list xf -> list xf -> xf -> xf := fun _ _ _ _ => Fin 0.
Example C151_met : exists self, spin_magnitude_init 0 1 2 "cubic" true = Ok self /\
  let int n := {| is_int := true; num := n |} in let float n := {| is_int := false; num := n |} in
  let ints := two_nodes (int (Fin 1)) (int (Fin 2)) in let mixed := two_nodes (int (Fin 1)) (float (Fin 2)) in
  (in_regularize self = true /\ in_fkeys self <> [] /\ (forall k, In k (in_fkeys self) -> k <> "beta" /\ exists v, dget k ints = Some v /\ is_int v = true) /\
   (rmskey (in_base self) <> "beta" /\ exists v, dget (rmskey (in_base self)) ints = Some v)) /\
  dget (fkey (in_base self) (in_nodes self)) ints = None /\
  snd (p_x_identical_num Numpy flat_spline two_spins ints self) = Err TypeError /\
  (exists k v, In k (in_fkeys self) /\ dget k mixed = Some v /\ is_int v = false) /\
  (exists p, snd (p_x_identical_num Numpy flat_spline two_spins mixed self) = Ok [p]) /\
  (exists p, snd (p_x_identical Numpy flat_spline two_spins (as_floats ints) self) = Ok [p]) /\
  (exists p, snd (p_x_identical_num Jax flat_spline two_spins ints self) = Ok [p]).
Proof.
  eexists. split; [reflexivity|]. cbv zeta. cbn [in_regularize in_fkeys in_base in_nodes].
  split; [split; [reflexivity|split; [discriminate|split; [|split; [discriminate|eexists; reflexivity]]]]|].
  { intros k [<-|[<-|[]]]; (split; [discriminate|eexists; split; reflexivity]). }
  split; [reflexivity|]. split; [reflexivity|]. split; [exists "fa1"; eexists; split; [right; left; reflexivity|split; reflexivity]|].
  split; [eexists; reflexivity|]. split; eexists; reflexivity.
Qed.

