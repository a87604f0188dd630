(** Property theorems (ad). Proofs are in [ad_thms]; the vocabulary is in [Spec]. *)
From Coq Require Import Reals Lra Lia Psatz String Bool Arith.
From Coquelicot Require Import Coquelicot.
From Coq Require Import List.
From Verif Require Import Xf Py St Xf_facts Py_facts Calc Spec Special Gauss_facts Utils_model Powerlaw_facts Truncnorm_facts Trap_facts Np Np_facts Utils_facts Mass_facts
  Smoothed_model Smoothed_facts Cosmo_model Redshift_model redshift_thms cont_thms SpecDeriv deriv_thms Ad_model SpecAd.
Import ListNotations.
Local Open Scope R_scope.
From Verif Require Import ad_thms.

(** C143. For every formula and every regular point, forward mode returns the derivative. *)
Theorem C143_forward :
  forall env j x e, env j = Fin x -> regular false env e ->
  exists d, derivative (fun u => value_of (with_variable env j u) e) x d /\ instantiate (forward env j e) = Fin d.
Proof. exact C143_forward_pf. Qed.
Print Assumptions C143_forward.

(** C143. So does reverse mode where no branch that a [where] leaves out is singular. *)
Theorem C143_reverse :
  forall env j x e, env j = Fin x -> regular true env e ->
  exists d, derivative (fun u => value_of (with_variable env j u) e) x d /\ instantiate (reverse env j e (Fin 1)) = Fin d.
Proof. exact C143_reverse_pf. Qed.
Print Assumptions C143_reverse.

(** C143. [jax.jvp] and [jax.grad] of [powerlaw] return the derivative with respect to each argument inside the support, for every slope other than -1. *)
Theorem C143_powerlaw :
  forall kw xx alpha high low j, 0 < low -> low < xx -> xx < high -> alpha <> -1 -> (j < 4)%nat ->
  let env := powerlaw_env (Fin xx) (Fin alpha) (Fin high) (Fin low) in
  let call := fun u => let e := with_variable env j u in powerlaw Jax kw (e 0%nat) (e 1%nat) (e 2%nat) (e 3%nat) in
  exists d, derivative_of_call call (toR (env j)) d /\
    instantiate (forward env j powerlaw_formula) = Fin d /\ instantiate (reverse env j powerlaw_formula (Fin 1)) = Fin d.
Proof. exact C143_powerlaw_pf. Qed.
Print Assumptions C143_powerlaw.

(** C143. At slope -1 neither mode returns the derivative (which exists, C142): forward mode loses the term of the normalisation, so it is wrong unless the limits are each other's reciprocals,
    and reverse mode returns NaN. *)
Theorem C143_minus_one_refuted :
  forall kw xx high low, 0 < low -> low <= xx -> xx <= high -> low < high ->
  let env := powerlaw_env (Fin xx) (Fin (-1)) (Fin high) (Fin low) in
  exists p d, returns (powerlaw Jax kw (Fin xx) (Fin (-1)) (Fin high) (Fin low)) p /\ 0 < p /\
    derivative_of_call (fun a => powerlaw Jax kw (Fin xx) (Fin a) (Fin high) (Fin low)) (-1) d /\
    d = p * (ln xx - (ln high + ln low) / 2) /\
    forward env 1 powerlaw_formula = Some (Fin (p * ln xx)) /\ (high * low <> 1 -> p * ln xx <> d) /\
    reverse env 1 powerlaw_formula (Fin 1) = Some NaN.
Proof. exact C143_minus_one_refuted_pf. Qed.
Print Assumptions C143_minus_one_refuted.

(** C143. The gradients of the truncated normal with respect to the point, the mean, the width and the limits are its derivatives inside the support, whichever of the three formulas for the
    normalisation is selected, unless the mean is one of the limits (where two formulas meet). *)
Theorem C143_truncnorm :
  forall kw xx mu sigma high low j, 0 < sigma -> low < xx -> xx < high -> mu <> low -> mu <> high -> (j < 5)%nat ->
  let env := truncnorm_env (Fin xx) (Fin mu) (Fin sigma) (Fin high) (Fin low) in
  let call := fun u => let e := with_variable env j u in truncnorm Jax kw (e 0%nat) (e 1%nat) (e 2%nat) (e 3%nat) (e 4%nat) in
  exists d, derivative_of_call call (toR (env j)) d /\
    instantiate (forward env j truncnorm_formula) = Fin d /\ instantiate (reverse env j truncnorm_formula (Fin 1)) = Fin d.
Proof. exact C143_truncnorm_pf. Qed.
Print Assumptions C143_truncnorm.

(** C143. The gradients of the smoothing window with respect to the mass, the limits and the width are its derivatives, inside the limits and for positive (or negative) widths, except where [clip] sets in. *)
Theorem C143_window :
  forall mass mmin mmax delta_m j, delta_m <> 0 -> mmin < mass -> mass < mmax ->
  (mass - mmin) / delta_m <> 1 / 1000000 -> (mass - mmin) / delta_m <> 1 - 1 / 1000000 -> (j < 4)%nat ->
  let env := window_env (Fin mass) (Fin mmin) (Fin mmax) (Fin delta_m) in
  exists d, derivative (fun u => let e := with_variable env j u in smoothing Jax (e 0%nat) (e 1%nat) (e 2%nat) (e 3%nat)) (toR (env j)) d /\
    instantiate (forward env j window_formula) = Fin d /\ instantiate (reverse env j window_formula (Fin 1)) = Fin d.
Proof. exact C143_window_pf. Qed.
Print Assumptions C143_window.

(** C143 fails for the window without smoothing (delta_m = 0, the default): it does not change with the lower limit nor the mass, so both derivatives are 0, and forward mode returns 0, but reverse
    mode returns NaN for both. *)
Theorem C143_no_window_refuted :
  forall mass mmin mmax j, mmin < mass -> mass < mmax -> (j < 2)%nat ->
  let env := window_env (Fin mass) (Fin mmin) (Fin mmax) (Fin 0) in
  derivative (fun u => let e := with_variable env j u in smoothing Jax (e 0%nat) (e 1%nat) (e 2%nat) (e 3%nat)) (toR (env j)) 0 /\
  forward env j window_formula = Some (Fin 0) /\ reverse env j window_formula (Fin 1) = Some NaN.
Proof. exact C143_no_window_refuted_pf. Qed.
Print Assumptions C143_no_window_refuted.

(** C143. The gradients of the two rate evolutions with respect to the redshift and each rate parameter are their derivatives. *)
Theorem C143_rates :
  forall j z lamb gamma kappa z_peak, -1 < z -> -1 < z_peak ->
  (let env := madau_env (Fin z) (Fin lamb) (Fin kappa) (Fin z_peak) in
   (j < 2)%nat -> exists d, derivative (fun u => let e := with_variable env j u in match powerlaw_psi (e 0%nat) [("lamb"%string, e 1%nat)] with Ok v => v | Err _ => NaN end) (toR (env j)) d /\
     instantiate (forward env j powerlaw_rate_formula) = Fin d /\ instantiate (reverse env j powerlaw_rate_formula (Fin 1)) = Fin d) /\
  (let env := madau_env (Fin z) (Fin gamma) (Fin kappa) (Fin z_peak) in
   (j < 4)%nat -> exists d, derivative (fun u => let e := with_variable env j u in
       match madau_psi (e 0%nat) [("gamma", e 1%nat); ("kappa", e 2%nat); ("z_peak", e 3%nat)]%string with Ok v => v | Err _ => NaN end) (toR (env j)) d /\
     instantiate (forward env j madau_formula) = Fin d /\ instantiate (reverse env j madau_formula (Fin 1)) = Fin d).
Proof. exact C143_rates_pf. Qed.
Print Assumptions C143_rates.

Example C143_met : regular true (powerlaw_env (Fin 3) (Fin 2) (Fin 5) (Fin 1)) powerlaw_formula /\
  value_of (powerlaw_env (Fin 3) (Fin 2) (Fin 5) (Fin 1)) powerlaw_formula = powerlaw_body (Fin 3) (Fin 2) (Fin 5) (Fin 1) /\
  regular true (truncnorm_env (Fin 3) (Fin 6) (Fin 2) (Fin 5) (Fin 1)) truncnorm_formula /\ regular true (window_env (Fin 3) (Fin 2) (Fin 50) (Fin 5)) window_formula.
Proof. split; [apply pl_regular; lra|split; [reflexivity|split; [apply tn_regular; lra|apply win_regular; lra]]]. Qed.

