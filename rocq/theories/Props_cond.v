(** Property theorems (cond). Proofs are in [cond_thms]; the vocabulary is in [Spec]. *)
From Coq Require Import Reals Lra Lia Psatz String Bool.
From Coquelicot Require Import Coquelicot.
From Coq Require Import List.
From Verif Require Import Xf Py Xf_facts Py_facts Calc Special Gauss_facts Spec Utils_model Powerlaw_facts Truncnorm_facts Mass_model Mass_facts mass_thms SpecCond.
Import ListNotations.
Local Open Scope R_scope.
From Verif Require Import cond_thms.

(** C118. Narrowing the limits of the power law conditions it on the narrower interval. *)
Theorem C118_powerlaw :
  forall bk kw alpha low high a b, 0 < low -> low <= a -> a < b -> b <= high -> (bk = Jax \/ ~ In "alpha"%string kw \/ alpha <> 1) ->
  conditioned (fun x => powerlaw bk kw (Fin x) (Fin alpha) (Fin high) (Fin low)) (fun x => powerlaw bk kw (Fin x) (Fin alpha) (Fin b) (Fin a)) a b.
Proof. exact C118_powerlaw_pf. Qed.
Print Assumptions C118_powerlaw.

(** C118. The same for the truncated normal distribution, whatever the mean. *)
Theorem C118_truncnorm :
  forall bk kw mu sigma low high a b, 0 < sigma -> low <= a -> a < b -> b <= high ->
  conditioned (fun x => truncnorm bk kw (Fin x) (Fin mu) (Fin sigma) (Fin high) (Fin low)) (fun x => truncnorm bk kw (Fin x) (Fin mu) (Fin sigma) (Fin b) (Fin a)) a b.
Proof. exact C118_truncnorm_pf. Qed.
Print Assumptions C118_truncnorm.

(** C118. The power-law mass model: raising mmin and lowering mmax. *)
Theorem C118_power_law_mass :
  forall bk alpha mmin mmax mmin' mmax', 0 < mmin -> mmin <= mmin' -> mmin' < mmax' -> mmax' <= mmax -> (bk = Jax \/ alpha <> -1) ->
  conditioned (fun m => power_law_mass bk (Fin m) (Fin alpha) (Fin mmin) (Fin mmax)) (fun m => power_law_mass bk (Fin m) (Fin alpha) (Fin mmin') (Fin mmax')) mmin' mmax'.
Proof. exact C118_power_law_mass_pf. Qed.
Print Assumptions C118_power_law_mass.

(** C118. The broken power law, when the break stays at the same mass (the break fraction is measured inside the new limits). *)
Theorem C118_broken_power_law :
  forall bk a1 a2 mmin mmax bf mmin' mmax' bf', 0 < mmin -> mmin <= mmin' -> mmin' < mmax' -> mmax' <= mmax -> 0 < bf < 1 -> 0 < bf' < 1 ->
  mmin + bf * (mmax - mmin) = mmin' + bf' * (mmax' - mmin') -> (bk = Jax \/ (a1 <> -1 /\ a2 <> -1)) ->
  conditioned (fun m => double_power_law_primary_mass bk (Fin m) (Fin a1) (Fin a2) (Fin mmin) (Fin mmax) (Fin bf))
    (fun m => double_power_law_primary_mass bk (Fin m) (Fin a1) (Fin a2) (Fin mmin') (Fin mmax') (Fin bf')) mmin' mmax'.
Proof. exact C118_broken_power_law_pf. Qed.
Print Assumptions C118_broken_power_law.

(** C118, refuted for the power law with a peak: lowering mmax (with the peak truncated below the new limit) rescales the power-law part only, so the fraction of
    the peak stays at lam although the conditional distribution gives the peak a larger share. *)
Theorem C118_mixture_refuted :
  forall bk alpha mmin mmax mmax' lam mpp sigpp gmax, 0 < mmin -> mmin < gmax -> gmax < mmax' -> mmax' < mmax -> 0 < sigpp -> 0 < lam < 1 -> (bk = Jax \/ alpha <> -1) ->
  ~ conditioned (fun m => two_component_single bk (Fin m) (Fin alpha) (Fin mmin) (Fin mmax) (Fin lam) (Fin mpp) (Fin sigpp) (Fin gmax))
      (fun m => two_component_single bk (Fin m) (Fin alpha) (Fin mmin) (Fin mmax') (Fin lam) (Fin mpp) (Fin sigpp) (Fin gmax)) mmin mmax'.
Proof. exact C118_mixture_refuted_pf. Qed.
Print Assumptions C118_mixture_refuted.

Example C118_hyps : 0 < 5 /\ 5 <= 8 /\ 8 < 40 /\ 40 <= 100 /\ (Numpy = Jax \/ ~ In "alpha"%string ["high"]%string \/ -2 <> 1) /\
  (5 + 35/95 * (100 - 5) = 8 + 32/42 * (50 - 8)) /\ 0 < 32/42 < 1 /\ 0 < 35/95 < 1 /\ 0 < 2 /\ 5 < 60 /\ 60 < 80 /\ 80 < 100 /\ 0 < 1/10 < 1.
Proof. repeat split; try lra. Qed.

