(** Property theorems (utils). Proofs are in [utils_thms]; the vocabulary is in [Spec]. *)
From Coq Require Import Reals Lra Lia Psatz String Bool ZArith.
From Coquelicot Require Import Coquelicot.
From Coq Require Import List.
From Verif Require Import Xf Py Xf_facts Py_facts Calc Special Gauss_facts Spec SpecU Utils_model
  Powerlaw_facts Truncnorm_facts Beta_facts Trap_facts Utils_facts.
Import ListNotations.
Local Open Scope R_scope.
From Verif Require Import utils_thms.

(** C01. [kw] is the list of argument names passed by keyword; on numpy/cupy a keyword
    [alpha=1] is rejected by the guard (see C27), every other slope is covered. *)
Theorem C01_powerlaw_density :
  forall bk kw alpha high low,
    0 < low < high -> (bk = Jax \/ ~ In "alpha"%string kw \/ alpha <> 1) ->
    let f := fun x => powerlaw bk kw (Fin x) (Fin alpha) (Fin high) (Fin low) in
    positive_on f low high /\ integrates_to f low high 1 /\
    zero_outside f (fun x => 0 < x) low high.
Proof. exact C01_powerlaw_density_pf. Qed.
Print Assumptions C01_powerlaw_density.

(** C01: the density has the documented shape: ratios of values are ratios of powers. *)
Theorem C01_powerlaw_shape :
  forall bk kw alpha high low x y,
    0 < low < high -> (bk = Jax \/ ~ In "alpha"%string kw \/ alpha <> 1) ->
    low <= x <= high -> low <= y <= high ->
    exists px py,
      returns (powerlaw bk kw (Fin x) (Fin alpha) (Fin high) (Fin low)) px /\
      returns (powerlaw bk kw (Fin y) (Fin alpha) (Fin high) (Fin low)) py /\
      px * Rpower y alpha = py * Rpower x alpha.
Proof. exact C01_powerlaw_shape_pf. Qed.
Print Assumptions C01_powerlaw_shape.

(** Non-vacuity: slope -1 on [5, 80] and slope -2.35 on [5, 80], called with all keywords. *)
Example C01_example_m1 :
  integrates_to (fun x => powerlaw Numpy ["alpha"; "high"; "low"]%string (Fin x) (Fin (-1)) (Fin 80) (Fin 5)) 5 80 1.
Proof. apply C01_powerlaw_density; [lra|right; right; lra]. Qed.
Example C01_example_salpeter :
  positive_on (fun x => powerlaw Numpy ["alpha"; "high"; "low"]%string (Fin x) (Fin (-2.35)) (Fin 80) (Fin 5)) 5 80.
Proof. apply C01_powerlaw_density; [lra|right; right; lra]. Qed.

(** C02: the value at slope -1 is the limit of the values at slopes tending to -1. *)
Theorem C02_powerlaw_limit :
  forall bk kw high low x,
    0 < low < high -> low <= x <= high ->
    exists g : R -> R,
      (forall alpha, alpha <> 1 ->
         returns (powerlaw bk kw (Fin x) (Fin alpha) (Fin high) (Fin low)) (g alpha)) /\
      is_lim g (-1) (g (-1)).
Proof. exact C02_powerlaw_limit_pf. Qed.
Print Assumptions C02_powerlaw_limit.

Example C02_example : exists g : R -> R,
  (forall alpha, alpha <> 1 -> returns (powerlaw Numpy [] (Fin 10) (Fin alpha) (Fin 80) (Fin 5)) (g alpha)) /\
  is_lim g (-1) (g (-1)).
Proof. apply C02_powerlaw_limit; lra. Qed.

(** C03 (what holds): at a point outside [low, high] the result is exactly 0 precisely for
    positive points, for 0 with a non-negative slope and for negative points with an integer
    slope; otherwise it is NaN. *)
Theorem C03_powerlaw_outside_partial :
  forall bk kw alpha high low x,
    0 < low < high -> (bk = Jax \/ ~ In "alpha"%string kw \/ alpha <> 1) ->
    (x < low \/ high < x) ->
    let good := 0 < x \/ (x = 0 /\ 0 <= alpha) \/ (x < 0 /\ exists z, alpha = IZR z) in
    (good -> returns (powerlaw bk kw (Fin x) (Fin alpha) (Fin high) (Fin low)) 0) /\
    (~ good -> powerlaw bk kw (Fin x) (Fin alpha) (Fin high) (Fin low) = Ok NaN).
Proof. exact C03_powerlaw_outside_partial_pf. Qed.
Print Assumptions C03_powerlaw_outside_partial.

(** C03 (what fails): a point outside the support where the result is not 0. *)
Theorem C03_powerlaw_outside_refuted :
  exists alpha high low x, 0 < low < high /\ x < low /\
    powerlaw Numpy [] (Fin x) (Fin alpha) (Fin high) (Fin low) = Ok NaN.
Proof. exact C03_powerlaw_outside_refuted_pf. Qed.
Print Assumptions C03_powerlaw_outside_refuted.

(** C04 *)
Theorem C04_truncnorm_density :
  forall bk kw mu sigma high low,
    0 < sigma -> low < high ->
    let f := fun x => truncnorm bk kw (Fin x) (Fin mu) (Fin sigma) (Fin high) (Fin low) in
    positive_on f low high /\ integrates_to f low high 1 /\
    zero_outside f (fun _ => True) low high.
Proof. exact C04_truncnorm_density_pf. Qed.
Print Assumptions C04_truncnorm_density.

(** C04: the density is the normal density divided by the mass of [low, high]; this is one
    formula for all three numerical branches. *)
Theorem C04_truncnorm_formula :
  forall bk kw mu sigma high low x,
    0 < sigma -> low <= x <= high -> low < high ->
    let normal := fun t => exp (- ((t - mu) * (t - mu)) / (2 * (sigma * sigma))) / (sigma * sqrt (2 * PI)) in
    exists mass, is_RInt normal low high mass /\ 0 < mass /\
      returns (truncnorm bk kw (Fin x) (Fin mu) (Fin sigma) (Fin high) (Fin low)) (normal x / mass).
Proof. exact C04_truncnorm_formula_pf. Qed.
Print Assumptions C04_truncnorm_formula.

Example C04_example_below : integrates_to (fun x => truncnorm Numpy ["sigma"%string] (Fin x) (Fin 100) (Fin 3) (Fin 10) (Fin 2)) 2 10 1.
Proof. apply C04_truncnorm_density; lra. Qed.
Example C04_example_above : integrates_to (fun x => truncnorm Numpy ["sigma"%string] (Fin x) (Fin (-100)) (Fin 3) (Fin 10) (Fin 2)) 2 10 1.
Proof. apply C04_truncnorm_density; lra. Qed.
Example C04_example_straddle : integrates_to (fun x => truncnorm Cupy [] (Fin x) (Fin 5) (Fin 3) (Fin 10) (Fin 2)) 2 10 1.
Proof. apply C04_truncnorm_density; lra. Qed.

(** C05 *)
Theorem C05_truncnorm_finite :
  forall bk kw x mu sigma high low, 0 < sigma ->
    exists r, returns (truncnorm bk kw (Fin x) (Fin mu) (Fin sigma) (Fin high) (Fin low)) r /\
      0 <= r /\ (high < low -> r = 0).
Proof. exact C05_truncnorm_finite_pf. Qed.
Print Assumptions C05_truncnorm_finite.

Example C05_example : exists r, returns (truncnorm Numpy [] (Fin 3) (Fin 1) (Fin 2) (Fin 2) (Fin 7)) r /\ 0 <= r /\ (2 < 7 -> r = 0).
Proof. apply C05_truncnorm_finite; lra. Qed.

(** C06, shift (for every choice of bounds, ordered or not) *)
Theorem C06_truncnorm_shift :
  forall bk kw c x mu sigma high low,
    truncnorm bk kw (Fin (x + c)) (Fin (mu + c)) (Fin sigma) (Fin (high + c)) (Fin (low + c))
    = truncnorm bk kw (Fin x) (Fin mu) (Fin sigma) (Fin high) (Fin low).
Proof. exact C06_truncnorm_shift_pf. Qed.
Print Assumptions C06_truncnorm_shift.

(** C06, scaling *)
Theorem C06_truncnorm_scale :
  forall bk kw s x mu sigma high low r, 0 < s -> 0 < sigma -> low < high ->
    returns (truncnorm bk kw (Fin x) (Fin mu) (Fin sigma) (Fin high) (Fin low)) r ->
    returns (truncnorm bk kw (Fin (s * x)) (Fin (s * mu)) (Fin (s * sigma)) (Fin (s * high)) (Fin (s * low))) (r / s).
Proof. exact C06_truncnorm_scale_pf. Qed.
Print Assumptions C06_truncnorm_scale.

(** C06, reflection *)
Theorem C06_truncnorm_reflect :
  forall bk kw x mu sigma high low, 0 < sigma -> low < high ->
    truncnorm bk kw (Fin (- x)) (Fin (- mu)) (Fin sigma) (Fin (- low)) (Fin (- high))
    = truncnorm bk kw (Fin x) (Fin mu) (Fin sigma) (Fin high) (Fin low).
Proof. exact C06_truncnorm_reflect_pf. Qed.
Print Assumptions C06_truncnorm_reflect.

Example C06_example :
  truncnorm Numpy [] (Fin (- 3)) (Fin (- 1)) (Fin 2) (Fin (- 2)) (Fin (- 7))
  = truncnorm Numpy [] (Fin 3) (Fin 1) (Fin 2) (Fin 7) (Fin 2).
Proof. apply C06_truncnorm_reflect; lra. Qed.

(** C07: value and unit improper integral.  [B] is characterised by its integral. *)
Theorem C07_beta_dist_density :
  forall bk kw alpha beta scale, 0 < alpha -> 0 < beta -> 0 < scale ->
    let f := fun x => beta_dist bk kw (Fin x) (Fin alpha) (Fin beta) (Fin scale) in
    (exists B, 0 < B /\
       is_RInt_gen (fun t => Rpower t (alpha - 1) * Rpower (1 - t) (beta - 1)) (at_right 0) (at_left 1) B /\
       forall x, 0 < x < scale ->
         returns (f x) (Rpower x (alpha - 1) * Rpower (scale - x) (beta - 1)
                        / (B * Rpower scale (alpha + beta - 1)))) /\
    integrates_to_open f 0 scale 1 /\
    zero_outside f (fun _ => True) 0 scale.
Proof. exact C07_beta_dist_density_pf. Qed.
Print Assumptions C07_beta_dist_density.

Example C07_example : integrates_to_open (fun x => beta_dist Numpy ["scale"%string] (Fin x) (Fin (1/2)) (Fin 3) (Fin (8/10))) 0 (8/10) 1.
Proof. apply C07_beta_dist_density; lra. Qed.

(** C08 (what holds): the value is never NaN, infinite or negative anywhere, and at an edge
    whose exponent is greater than 1 it is 0, the limit from inside. *)
Theorem C08_beta_dist_edges_partial :
  forall bk kw alpha beta scale x, 0 < alpha -> 0 < beta -> 0 < scale ->
    (exists r, returns (beta_dist bk kw (Fin x) (Fin alpha) (Fin beta) (Fin scale)) r /\ 0 <= r) /\
    (1 < alpha -> returns (beta_dist bk kw (Fin 0) (Fin alpha) (Fin beta) (Fin scale)) 0) /\
    (1 < beta -> returns (beta_dist bk kw (Fin scale) (Fin alpha) (Fin beta) (Fin scale)) 0).
Proof. exact C08_beta_dist_edges_partial_pf. Qed.
Print Assumptions C08_beta_dist_edges_partial.

Example C08_example : returns (beta_dist Numpy [] (Fin 0) (Fin 2) (Fin 5) (Fin 1)) 0.
Proof. apply (C08_beta_dist_edges_partial Numpy [] 2 5 1 0); lra. Qed.

(** C08 (what fails): with [alpha = 1] the value at 0 is 0 although the density stays above a
    positive constant arbitrarily close to 0 (witness: the uniform distribution on [0,1]). *)
Theorem C08_beta_dist_edges_refuted :
  exists alpha beta scale,
    0 < alpha /\ 0 < beta /\ 0 < scale /\
    returns (beta_dist Numpy [] (Fin 0) (Fin alpha) (Fin beta) (Fin scale)) 0 /\
    returns (beta_dist Numpy [] (Fin scale) (Fin alpha) (Fin beta) (Fin scale)) 0 /\
    exists c, 0 < c /\
      forall x, 0 < x < scale -> returns (beta_dist Numpy [] (Fin x) (Fin alpha) (Fin beta) (Fin scale)) c.
Proof. exact C08_beta_dist_edges_refuted_pf. Qed.
Print Assumptions C08_beta_dist_edges_refuted.

(** C09 for [kappa >= 0] *)
Theorem C09_von_mises_density :
  forall mu kappa, 0 <= kappa ->
    let f := fun x => Ok (von_mises (Fin x) (Fin mu) (Fin kappa)) in
    (forall a, integrates_to f a (a + 2 * PI) 1) /\
    (forall x, exists r, returns (f x) r /\ 0 < r) /\
    (forall x, f (x + 2 * PI) = f x) /\
    (forall d, f (mu - d) = f (mu + d)) /\
    (forall x r m, returns (f x) r -> returns (f mu) m -> r <= m).
Proof. exact C09_von_mises_density_pf. Qed.
Print Assumptions C09_von_mises_density.

(** C09 for negative [kappa]: the integral over a period is exp(-2 kappa) > 1. *)
Theorem C09_von_mises_negative_kappa_refuted :
  forall mu kappa a, kappa < 0 ->
    integrates_to (fun x => Ok (von_mises (Fin x) (Fin mu) (Fin kappa))) a (a + 2 * PI) (exp (-2 * kappa)) /\
    1 < exp (-2 * kappa).
Proof. exact C09_von_mises_negative_kappa_refuted_pf. Qed.
Print Assumptions C09_von_mises_negative_kappa_refuted.

Example C09_example : integrates_to (fun x => Ok (von_mises (Fin x) (Fin 1) (Fin 4))) (- PI) (- PI + 2 * PI) 1.
Proof. apply (C09_von_mises_density 1 4); lra. Qed.

(** C10 (what the code computes): the documented density raised to the power [1 + rho].
    [p, q, s] are the entries of the inverse of the documented covariance matrix. *)
Theorem C10_2d_gaussian_power_partial :
  forall x y mu_x mu_y sx sy rho p q s,
    0 < sx -> 0 < sy -> -1 < rho < 1 ->
    inverse2 (sx * sx) (rho * sx * sy) (sy * sy) p q s ->
    let dx := x - mu_x in let dy := y - mu_y in
    let documented := exp (- (p * dx * dx + 2 * q * dx * dy + s * dy * dy) / 2) in
    unnormalized_2d_gaussian (Fin x) (Fin y) (Fin mu_x) (Fin mu_y) (Fin sx) (Fin sy) (Fin rho)
      = Fin (Rpower documented (1 + rho)).
Proof. exact C10_2d_gaussian_power_partial_pf. Qed.
Print Assumptions C10_2d_gaussian_power_partial.

(** C10 (where the property holds): uncorrelated components. *)
Theorem C10_2d_gaussian_rho0_partial :
  forall x y mu_x mu_y sx sy, 0 < sx -> 0 < sy ->
    unnormalized_2d_gaussian (Fin x) (Fin y) (Fin mu_x) (Fin mu_y) (Fin sx) (Fin sy) (Fin 0)
    = Fin (exp (- ((x - mu_x) / sx) ^ 2 / 2) * exp (- ((y - mu_y) / sy) ^ 2 / 2)).
Proof. exact C10_2d_gaussian_rho0_partial_pf. Qed.
Print Assumptions C10_2d_gaussian_rho0_partial.

(** C10 (what fails): unit widths, rho = 1/2, one standard deviation away along x.  The
    inverse covariance entry is 4/3, so the documented exponent is -2/3; the code's is -1. *)
Theorem C10_2d_gaussian_refuted :
  exists rho p q s, -1 < rho < 1 /\ inverse2 1 rho 1 p q s /\
    unnormalized_2d_gaussian (Fin 1) (Fin 0) (Fin 0) (Fin 0) (Fin 1) (Fin 1) (Fin rho) = Fin (exp (-1)) /\
    exp (-1) <> exp (- p / 2).
Proof. exact C10_2d_gaussian_refuted_pf. Qed.
Print Assumptions C10_2d_gaussian_refuted.

(** C11 *)
Theorem C11_2d_gaussian_shape :
  forall x y mu_x mu_y sx sy rho, 0 < sx -> 0 < sy -> -1 < rho < 1 ->
    let g x y := unnormalized_2d_gaussian (Fin x) (Fin y) (Fin mu_x) (Fin mu_y) (Fin sx) (Fin sy) (Fin rho) in
    (exists r, g x y = Fin r /\ 0 < r <= 1 /\ (r = 1 <-> x = mu_x /\ y = mu_y)) /\
    g (2 * mu_x - x) (2 * mu_y - y) = g x y /\
    unnormalized_2d_gaussian (Fin y) (Fin x) (Fin mu_y) (Fin mu_x) (Fin sy) (Fin sx) (Fin rho) = g x y.
Proof. exact C11_2d_gaussian_shape_pf. Qed.
Print Assumptions C11_2d_gaussian_shape.

Example C11_example : exists r,
  unnormalized_2d_gaussian (Fin 1) (Fin 2) (Fin 0) (Fin 1) (Fin 3) (Fin 4) (Fin (1/2)) = Fin r /\ 0 < r <= 1 /\ (r = 1 <-> 1 = 0 /\ 2 = 1).
Proof. apply (C11_2d_gaussian_shape 1 2 0 1 3 4 (1/2)); lra. Qed.

(** C12 *)
Theorem C12_apply_conditions :
  forall A bk conds kwargs (func : result A),
    (bk = Jax -> apply_conditions bk conds kwargs func = func) /\
    (bk <> Jax -> (exists key c value, In (key, c) conds /\ dget key kwargs = Some value /\ violates c value) ->
       apply_conditions bk conds kwargs func = Err ValueError) /\
    (bk <> Jax -> ~ (exists key c value, In (key, c) conds /\ dget key kwargs = Some value /\ violates c value) ->
       apply_conditions bk conds kwargs func = func).
Proof. exact C12_apply_conditions_pf. Qed.
Print Assumptions C12_apply_conditions.

(** C12: a NaN passed by keyword violates every ordering condition, and arguments passed by
    position are never checked by the decorated densities. *)
Theorem C12_nan_and_positional :
  (forall val, violates (COp (Some fgt) val) [NaN] /\ violates (COp (Some fge) val) [NaN]) /\
  (forall bk x a b c, exists v, beta_dist bk [] x a b c = Ok v) /\
  (forall bk x a b c, exists v, powerlaw bk [] x a b c = Ok v) /\
  (forall bk x a b c d, exists v, truncnorm bk [] x a b c d = Ok v).
Proof. exact C12_nan_and_positional_pf. Qed.
Print Assumptions C12_nan_and_positional.

(** A keyword scale of -1 is rejected on numpy; the same value is accepted on jax. *)
Example C12_example_reject : beta_dist Numpy ["scale"%string] (Fin 1) (Fin 2) (Fin 2) (Fin (-1)) = Err ValueError.
Proof.
  unfold beta_dist. apply C12_apply_conditions; [discriminate|].
  exists "scale"%string, (COp (Some fgt) (Fin 0)), [Fin (-1)]. repeat split; simpl; auto.
  exists (Fin (-1)). split; auto. rewrite fgt_fin. apply Rltb_false. lra.
Qed.
Example C12_example_jax : exists v, beta_dist Jax ["scale"%string] (Fin 1) (Fin 2) (Fin 2) (Fin (-1)) = Ok v.
Proof. eexists. unfold beta_dist. apply (proj1 (C12_apply_conditions _ _ _ _ _)). reflexivity. Qed.

(** C13 *)
Theorem C13_trapezoid_linear :
  forall c d y z x, List.length y = List.length x -> List.length z = List.length x ->
    exists ry rz,
      trapezoid (map Fin y) (map Fin x) = Fin ry /\ trapezoid (map Fin z) (map Fin x) = Fin rz /\
      trapezoid (map Fin (lin c d y z)) (map Fin x) = Fin (c * ry + d * rz).
Proof. exact C13_trapezoid_linear_pf. Qed.
Print Assumptions C13_trapezoid_linear.

Theorem C13_trapezoid_affine :
  forall a b x0 x,
    trapezoid (map (fun t => Fin (a * t + b)) (x0 :: x)) (map Fin (x0 :: x))
    = Fin (RInt (fun t => a * t + b) x0 (last x x0)).
Proof. exact C13_trapezoid_affine_pf. Qed.
Print Assumptions C13_trapezoid_affine.

Theorem C13_trapezoid_concat :
  forall y1 ym y2 x1 xm x2, List.length y1 = List.length x1 ->
    trapezoid (map Fin (y1 ++ ym :: y2)) (map Fin (x1 ++ xm :: x2)) =
    fadd (trapezoid (map Fin (y1 ++ [ym])) (map Fin (x1 ++ [xm])))
         (trapezoid (map Fin (ym :: y2)) (map Fin (xm :: x2))).
Proof. exact C13_trapezoid_concat_pf. Qed.
Print Assumptions C13_trapezoid_concat.

Theorem C13_trapezoid_reverse :
  forall y x, List.length y = List.length x ->
    trapezoid (map Fin (rev y)) (map Fin (rev x)) = fopp (trapezoid (map Fin y) (map Fin x)).
Proof. exact C13_trapezoid_reverse_pf. Qed.
Print Assumptions C13_trapezoid_reverse.

Theorem C13_trapezoid_monotone :
  forall y z x, List.length y = List.length x -> increasing x -> Forall2 Rle y z ->
    exists ry rz, trapezoid (map Fin y) (map Fin x) = Fin ry /\
                  trapezoid (map Fin z) (map Fin x) = Fin rz /\ ry <= rz.
Proof. exact C13_trapezoid_monotone_pf. Qed.
Print Assumptions C13_trapezoid_monotone.

Theorem C13_trapezoid_interpolant :
  forall p y x0 x, List.length y = List.length (x0 :: x) -> strictly_increasing (x0 :: x) ->
    interpolates_linearly p y (x0 :: x) ->
    exists r, trapezoid (map Fin y) (map Fin (x0 :: x)) = Fin r /\ is_RInt p x0 (last x x0) r.
Proof. exact C13_trapezoid_interpolant_pf. Qed.
Print Assumptions C13_trapezoid_interpolant.

(** Non-vacuity: the interpolant of [(0,1);(1,3);(4,0)] given explicitly. *)
Example C13_example : exists r,
  trapezoid (map Fin [1; 3; 0]) (map Fin [0; 1; 4]) = Fin r /\
  is_RInt (fun t => if Rleb t 1 then 1 + 2 * t else 3 - (t - 1)) 0 4 r.
Proof.
  apply (C13_trapezoid_interpolant _ [1; 3; 0] 0 [1; 4]); simpl; [reflexivity|lra|].
  intros [|[|i]] Hi; simpl in *; try lia; intros t Ht.
  - rewrite Rleb_true by lra. field.
  - destruct (Rleb_spec t 1); [replace t with 1 by lra|]; field.
Qed.

