(** Property theorems (indep). Proofs are in [indep_thms]; the vocabulary is in [Spec]. *)
From Coq Require Import Reals Lra Lia Psatz String Bool.
From Coquelicot Require Import Coquelicot.
From Coq Require Import List.
From Verif Require Import Xf Py Xf_facts Py_facts Calc Special Spec Utils_model Powerlaw_facts Mass_model Mass_facts mass_thms.
Import ListNotations.
Local Open Scope R_scope.
From Verif Require Import indep_thms.

(** C25, exactly: the integral of the joint "density" over the ordered region is 1 when the slopes agree and never otherwise: it exceeds 1 when the secondary falls more steeply
    than the primary and is below 1 when the primary does. *)
Theorem C25_independent_normalisation :
  forall bk alpha beta mmin mmax, 0 < mmin < mmax ->
  exists v,
    integrates2_to (fun m1 m2 => power_law_primary_secondary_independent bk (Fin m1) (Fin m2) (Fin alpha) (Fin beta)
                                   (Fin mmin) (Fin mmax)) mmin mmax (fun _ => mmin) (fun m1 => m1) v /\
    (alpha = beta <-> v = 1) /\ (alpha < beta <-> 1 < v) /\ (beta < alpha <-> v < 1).
Proof. exact C25_independent_normalisation_pf. Qed.
Print Assumptions C25_independent_normalisation.

Example C25_normalisation_example : exists v, v < 1 /\
  integrates2_to (fun m1 m2 => power_law_primary_secondary_independent Numpy (Fin m1) (Fin m2) (Fin 3) (Fin 2) (Fin 5) (Fin 50))
    5 50 (fun _ => 5) (fun m1 => m1) v.
Proof.
  destruct (C25_independent_normalisation Numpy 3 2 5 50 ltac:(lra)) as [v [I [_ [_ K]]]].
  exists v. split; auto. apply K. lra.
Qed.

