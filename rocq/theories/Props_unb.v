(** Property theorems (unb). Proofs are in [unb_thms]; the vocabulary is in [Spec]. *)
From Coq Require Import Reals Lra Lia Psatz String Bool.
From Coquelicot Require Import Coquelicot.
From Coq Require Import List.
From Verif Require Import Xf Py Xf_facts Py_facts Calc Special Gauss_facts Spec SpecUnb Utils_model Powerlaw_facts Truncnorm_facts.
Import ListNotations.
Local Open Scope R_scope.
From Verif Require Import unb_thms.

(** C106: densities with infinite bounds. *)

(** [truncnorm] with no bounds is the normal density, which integrates to 1 over the line. *)
Theorem C106_normal :
  forall bk kw mu sigma, 0 < sigma ->
    let f := fun x => truncnorm bk kw (Fin x) (Fin mu) (Fin sigma) PInf NInf in
    (forall x, returns (f x) (normal_density mu sigma x)) /\ integrates_line f 1.
Proof. exact C106_normal_pf. Qed.
Print Assumptions C106_normal.

(** With only a lower bound it is the normal density divided by the probability above the bound. *)
Theorem C106_half_normal_above :
  forall bk kw mu sigma low, 0 < sigma ->
    let f := fun x => truncnorm bk kw (Fin x) (Fin mu) (Fin sigma) PInf (Fin low) in
    integrates_above f low 1 /\ (forall x, x < low -> returns (f x) 0) /\
    exists mass, 0 < mass < 1 /\ is_RInt_gen (normal_density mu sigma) (at_point low) (Rbar_locally p_infty) mass /\
      forall x, low <= x -> returns (f x) (normal_density mu sigma x / mass).
Proof. exact C106_half_normal_above_pf. Qed.
Print Assumptions C106_half_normal_above.

(** With only an upper bound it is the normal density divided by the probability below the bound. *)
Theorem C106_half_normal_below :
  forall bk kw mu sigma high, 0 < sigma ->
    let f := fun x => truncnorm bk kw (Fin x) (Fin mu) (Fin sigma) (Fin high) NInf in
    integrates_below f high 1 /\ (forall x, high < x -> returns (f x) 0) /\
    exists mass, 0 < mass < 1 /\ is_RInt_gen (normal_density mu sigma) (Rbar_locally m_infty) (at_point high) mass /\
      forall x, x <= high -> returns (f x) (normal_density mu sigma x / mass).
Proof. exact C106_half_normal_below_pf. Qed.
Print Assumptions C106_half_normal_below.

Example C106_normal_example : integrates_line (fun x => truncnorm Numpy ["mu"; "sigma"; "high"; "low"]%string (Fin x) (Fin 35) (Fin 5) PInf NInf) 1.
Proof. apply C106_normal; lra. Qed.
Example C106_half_normal_example : integrates_above (fun x => truncnorm Jax [] (Fin x) (Fin (-3)) (Fin 2) PInf (Fin 5)) 5 1.
Proof. apply C106_half_normal_above; lra. Qed.

(** [powerlaw] with an infinite upper bound: for a slope below -1 it is the Pareto density. *)
Theorem C106_pareto :
  forall bk kw alpha low, 0 < low -> alpha < -1 ->
    let f := fun x => powerlaw bk kw (Fin x) (Fin alpha) PInf (Fin low) in
    integrates_above f low 1 /\ (forall x, 0 < x < low -> returns (f x) 0) /\
    (forall x, low <= x -> returns (f x) ((- (1 + alpha) / low) * Rpower (x / low) alpha)).
Proof. exact C106_pareto_pf. Qed.
Print Assumptions C106_pareto.

(** For a slope of -1 or more no density exists, and the call returns 0 at every point. *)
Theorem C106_no_pareto :
  forall bk kw alpha low x, 0 < low -> 0 < x -> -1 <= alpha -> (bk = Jax \/ ~ In "alpha"%string kw \/ alpha <> 1) ->
    returns (powerlaw bk kw (Fin x) (Fin alpha) PInf (Fin low)) 0.
Proof. exact C106_no_pareto_pf. Qed.
Print Assumptions C106_no_pareto.

(** A lower bound of zero (an array element): for a slope above -1 the density on (0, high] integrates to 1 and vanishes beyond [high]. *)
Theorem C106_from_zero :
  forall bk kw alpha high, 0 < high -> -1 < alpha -> (bk = Jax \/ ~ In "alpha"%string kw \/ alpha <> 1) ->
    let f := fun x => powerlaw bk kw (Fin x) (Fin alpha) (Fin high) (Fin 0) in
    integrates_from_zero f high 1 /\ (forall x, high < x -> returns (f x) 0) /\
    (forall x, 0 < x <= high -> returns (f x) ((1 + alpha) / high * Rpower (x / high) alpha)).
Proof. exact C106_from_zero_pf. Qed.
Print Assumptions C106_from_zero.

(** For a slope of -1 or less there is no density down to zero; the call returns 0 on (0, high]. *)
Theorem C106_no_density_from_zero :
  forall bk kw alpha high x, 0 < high -> 0 < x -> alpha <= -1 ->
    returns (powerlaw bk kw (Fin x) (Fin alpha) (Fin high) (Fin 0)) 0.
Proof. exact C106_no_density_from_zero_pf. Qed.
Print Assumptions C106_no_density_from_zero.

Example C106_pareto_example : integrates_above (fun x => powerlaw Numpy ["alpha"; "low"; "high"]%string (Fin x) (Fin (-2.35)) PInf (Fin 5)) 5 1.
Proof. apply C106_pareto; lra. Qed.
Example C106_from_zero_example : integrates_from_zero (fun x => powerlaw Cupy ["alpha"; "low"; "high"]%string (Fin x) (Fin (-0.5)) (Fin 1) (Fin 0)) 1 1.
Proof. apply C106_from_zero; lra. Qed.

