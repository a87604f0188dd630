(** Property theorems (spin). Proofs are in [spin_thms]; the vocabulary is in [Spec]. *)
From Coq Require Import Reals Lra Lia Psatz String Bool.
From Coquelicot Require Import Coquelicot.
From Coq Require Import List.
From Verif Require Import Xf Py Xf_facts Py_facts Calc Special Gauss_facts Spec Utils_model Powerlaw_facts Truncnorm_facts Beta_facts Trap_facts
  Utils_facts Np Np_facts Mass_model Mass_facts Spin_model.
Import ListNotations.
Local Open Scope R_scope.
From Verif Require Import spin_thms.

(** C38. The joint spin magnitude density is the product of a function of a_1 and a function of a_2; each
    factor is a Beta density on (0, amax_i): proportional to x^(alpha_i - 1) (amax_i - x)^(beta_i - 1) and
    integrating (improperly, the edges may be singular) to 1; the joint value is finite and non-negative everywhere and 0 when either spin
    is outside [0, amax_i]. *)
Theorem C38_independent_spin_magnitude :
  forall bk alpha_1 alpha_2 beta_1 beta_2 amax_1 amax_2,
  0 < alpha_1 -> 0 < alpha_2 -> 0 < beta_1 -> 0 < beta_2 -> 0 < amax_1 -> 0 < amax_2 ->
  let f := fun a_1 a_2 => independent_spin_magnitude_beta bk (Fin a_1) (Fin a_2)
             (Fin alpha_1) (Fin alpha_2) (Fin beta_1) (Fin beta_2) (Fin amax_1) (Fin amax_2) in
  exists g1 g2 : R -> R,
    (forall a_1 a_2, returns (f a_1 a_2) (g1 a_1 * g2 a_2)) /\
    (forall x, 0 <= g1 x /\ 0 <= g2 x) /\
    is_RInt_gen g1 (at_right 0) (at_left amax_1) 1 /\ is_RInt_gen g2 (at_right 0) (at_left amax_2) 1 /\
    (forall x, x < 0 \/ amax_1 < x -> g1 x = 0) /\ (forall x, x < 0 \/ amax_2 < x -> g2 x = 0) /\
    (exists k1, 0 < k1 /\ forall x, 0 < x < amax_1 -> g1 x = k1 * (Rpower x (alpha_1 - 1) * Rpower (amax_1 - x) (beta_1 - 1))) /\
    (exists k2, 0 < k2 /\ forall x, 0 < x < amax_2 -> g2 x = k2 * (Rpower x (alpha_2 - 1) * Rpower (amax_2 - x) (beta_2 - 1))).
Proof. exact C38_independent_spin_magnitude_pf. Qed.
Print Assumptions C38_independent_spin_magnitude.

Example C38_hyps : 0 < 3/2 /\ 0 < 2 /\ 0 < 4 /\ 0 < 1/2 /\ 0 < 1 /\ 0 < 99/100.
Proof. lra. Qed.

(** C38. The identical model is the independent one with equal parameters for the two spins (all inputs,
    including rejected ones). *)
Theorem C38_iid_is_independent :
  forall bk a_1 a_2 amax alpha beta,
  iid_spin_magnitude_beta bk a_1 a_2 amax alpha beta =
  independent_spin_magnitude_beta bk a_1 a_2 alpha alpha beta beta amax amax.
Proof. exact C38_iid_is_independent_pf. Qed.
Print Assumptions C38_iid_is_independent.

Example C38_iid_example : iid_spin_magnitude_beta Numpy (Fin (1/2)) (Fin (3/2)) (Fin 1) (Fin 2) (Fin 3) = Ok (Fin 0).
Proof.
  rewrite C38_iid_is_independent.
  destruct (C38_independent_spin_magnitude Numpy 2 2 3 3 1 1) as [g1 [g2 [H [_ [_ [_ [_ [Z _]]]]]]]]; try lra.
  rewrite H, (Z (3/2)) by lra. do 2 f_equal. ring.
Qed.

(** C39. The orientation mixture returns non-negative numbers and integrates to 1 over [-1,1] x [-1,1]; at xi = 0 it is 1/4, at xi = 1 the
    product of the two truncated normals, and in general the xi-weighted combination of the two. *)
Theorem C39_orientation_density :
  forall bk xi sigma_1 sigma_2 mu_1 mu_2, 0 < sigma_1 -> 0 < sigma_2 ->
  let f := fun z_1 z_2 => independent_spin_orientation_gaussian_isotropic bk (Fin z_1) (Fin z_2)
             (Fin xi) (Fin sigma_1) (Fin sigma_2) (Fin mu_1) (Fin mu_2) in
  integrates2_to f (-1) 1 (fun _ => -1) (fun _ => 1) 1 /\
  (0 <= xi <= 1 -> forall z_1 z_2, exists r, returns (f z_1 z_2) r /\ 0 <= r) /\
  (forall z_1 z_2, exists n_1 n_2,
      returns (truncnorm bk [] (Fin z_1) (Fin mu_1) (Fin sigma_1) (Fin 1) (Fin (-1))) n_1 /\
      returns (truncnorm bk [] (Fin z_2) (Fin mu_2) (Fin sigma_2) (Fin 1) (Fin (-1))) n_2 /\
      returns (f z_1 z_2) ((1 - xi) * (1 / 4) + xi * (n_1 * n_2))).
Proof. exact C39_orientation_density_pf. Qed.
Print Assumptions C39_orientation_density.

Example C39_hyps : 0 <= 1/2 <= 1 /\ 0 < 1/10 /\ 0 < 4.
Proof. lra. Qed.

(** C39. The formula in the documentation, with isotropic weight (1-xi)^2/4, would integrate to 1 - xi + xi^2. *)
Theorem C39_documented_weight :
  forall xi sigma_1 sigma_2 mu_1 mu_2, 0 < sigma_1 -> 0 < sigma_2 ->
  exists n_1 n_2 : R -> R,
    (forall z, returns (truncnorm Numpy [] (Fin z) (Fin mu_1) (Fin sigma_1) (Fin 1) (Fin (-1))) (n_1 z)) /\
    (forall z, returns (truncnorm Numpy [] (Fin z) (Fin mu_2) (Fin sigma_2) (Fin 1) (Fin (-1))) (n_2 z)) /\
    integrates2_to (fun z_1 z_2 => Ok (Fin ((1 - xi) ^ 2 / 4 + xi * (n_1 z_1 * n_2 z_2)))) (-1) 1 (fun _ => -1) (fun _ => 1)
      (1 - xi + xi ^ 2).
Proof. exact C39_documented_weight_pf. Qed.
Print Assumptions C39_documented_weight.

(** C39. The identical orientation model is the independent one with equal means and widths. *)
Theorem C39_iid_is_independent :
  forall bk z_1 z_2 xi sigma mu,
  iid_spin_orientation_gaussian_isotropic bk z_1 z_2 xi sigma mu =
  independent_spin_orientation_gaussian_isotropic bk z_1 z_2 xi sigma sigma mu mu.
Proof. exact C39_iid_is_independent_pf. Qed.
Print Assumptions C39_iid_is_independent.

(** C40. *)
Theorem C40_chi_eff_density :
  forall bk mu sigma, 0 < sigma ->
  let f := fun x => gaussian_chi_eff bk (Fin x) (Fin mu) (Fin sigma) in
  positive_on f (-1) 1 /\ integrates_to f (-1) 1 1 /\ zero_outside f (fun _ => True) (-1) 1 /\
  (forall x y, -1 <= x <= 1 -> -1 <= y <= 1 -> exists px py, returns (f x) px /\ returns (f y) py /\
      px * exp (- ((y - mu) / sigma) ^ 2 / 2) = py * exp (- ((x - mu) / sigma) ^ 2 / 2)).
Proof. exact C40_chi_eff_density_pf. Qed.
Print Assumptions C40_chi_eff_density.

Example C40_hyps : 0 < 1/10.
Proof. lra. Qed.

Theorem C40_chi_p_density :
  forall bk mu sigma, 0 < sigma ->
  let f := fun x => gaussian_chi_p bk (Fin x) (Fin mu) (Fin sigma) in
  positive_on f 0 1 /\ integrates_to f 0 1 1 /\ zero_outside f (fun _ => True) 0 1 /\
  (forall x y, 0 <= x <= 1 -> 0 <= y <= 1 -> exists px py, returns (f x) px /\ returns (f y) py /\
      px * exp (- ((y - mu) / sigma) ^ 2 / 2) = py * exp (- ((x - mu) / sigma) ^ 2 / 2)).
Proof. exact C40_chi_p_density_pf. Qed.
Print Assumptions C40_chi_p_density.

(** C40. Non-positive widths (and NaN) are rejected on numpy and cupy, whatever the other arguments. *)
Theorem C40_width_rejected :
  forall bk x mu sigma, bk <> Jax -> fgt sigma (Fin 0) = false ->
  gaussian_chi_eff bk x mu sigma = Err ValueError /\ gaussian_chi_p bk x mu sigma = Err ValueError.
Proof. exact C40_width_rejected_pf. Qed.
Print Assumptions C40_width_rejected.

Example C40_width_hyps : fgt (Fin (-1)) (Fin 0) = false /\ fgt (Fin 0) (Fin 0) = false /\ fgt NaN (Fin 0) = false.
Proof. repeat split; try reflexivity; rewrite fgt_fin; apply Rltb_false; lra. Qed.

(** C41. For an instance with arbitrary strictly increasing grids inside the bounds (the constructor's are such,
    see [C41_own_grid]): the iterated trapezoidal integral over the grids of the values the model returns at the grid
    points is exactly 1. *)
Theorem C41_chi_grid_normalised :
  forall ge gp mu_eff sigma_eff mu_p sigma_p rho, 0 < sigma_eff -> 0 < sigma_p -> rho <> 1 ->
  (2 <= length ge)%nat -> (2 <= length gp)%nat -> strictly_increasing ge -> strictly_increasing gp ->
  (forall e, In e ge -> -1 <= e <= 1) -> (forall p, In p gp -> 0 <= p <= 1) ->
  let model := chi_call {| cg_eff := map Fin ge; cg_p := map Fin gp |} in
  exists v : R -> R -> R,
    (forall e p, model (Fin e) (Fin p) (Fin mu_eff) (Fin sigma_eff) (Fin mu_p) (Fin sigma_p) (Fin rho) = Fin (v e p)) /\
    trapezoid (map (fun p => trapezoid (map (fun e => Fin (v e p)) ge) (map Fin ge)) gp) (map Fin gp) = Fin 1.
Proof. exact C41_chi_grid_normalised_pf. Qed.
Print Assumptions C41_chi_grid_normalised.

(** C41. The constructor's own instance: normalised on its own grids, non-negative, and exactly 0 outside the
    physical bounds. *)
Theorem C41_own_grid :
  forall mu_eff sigma_eff mu_p sigma_p rho, 0 < sigma_eff -> 0 < sigma_p -> rho <> 1 ->
  let model := fun e p => chi_call chi_init e p (Fin mu_eff) (Fin sigma_eff) (Fin mu_p) (Fin sigma_p) (Fin rho) in
  trapezoid (map (fun p => trapezoid (map (fun e => model e p) (cg_eff chi_init)) (cg_eff chi_init)) (cg_p chi_init))
    (cg_p chi_init) = Fin 1 /\
  (forall e p, exists r, model (Fin e) (Fin p) = Fin r /\ 0 <= r /\
     (Rabs e <= 1 -> 0 <= p <= 1 -> 0 < r) /\ (1 < Rabs e \/ p < 0 \/ 1 < p -> r = 0)).
Proof. exact C41_own_grid_pf. Qed.
Print Assumptions C41_own_grid.

Example C41_hyps : 0 < 2/10 /\ 0 < 1/10 /\ -1/2 <> 1.
Proof. lra. Qed.

(** C42. Where both factors return, [iid_spin] is their product, with (xi, sigma) going to the orientation
    (mean 1) and (amax, alpha, beta) to the magnitude; in particular it is invariant under exchanging the two
    bodies. When a factor is rejected so is the product. *)
Theorem C42_iid_spin_product :
  forall bk a_1 a_2 z_1 z_2 xi sigma amax alpha beta,
  let orientation := iid_spin_orientation_gaussian_isotropic bk z_1 z_2 xi sigma (Fin 1) in
  let magnitude := iid_spin_magnitude_beta bk a_1 a_2 amax alpha beta in
  (forall o m, orientation = Ok o -> magnitude = Ok m ->
      iid_spin bk a_1 a_2 z_1 z_2 xi sigma amax alpha beta = Ok (fmul o m)) /\
  (forall e, magnitude = Err e -> iid_spin bk a_1 a_2 z_1 z_2 xi sigma amax alpha beta = Err e).
Proof. exact C42_iid_spin_product_pf. Qed.
Print Assumptions C42_iid_spin_product.

(** C42. [iid_spin] treats the two bodies alike. *)
Theorem C42_iid_spin_exchange :
  forall bk a_1 a_2 z_1 z_2 xi sigma amax alpha beta, 0 < sigma -> 0 < amax -> 0 < alpha -> 0 < beta ->
  iid_spin bk (Fin a_1) (Fin a_2) (Fin z_1) (Fin z_2) (Fin xi) (Fin sigma) (Fin amax) (Fin alpha) (Fin beta) =
  iid_spin bk (Fin a_2) (Fin a_1) (Fin z_2) (Fin z_1) (Fin xi) (Fin sigma) (Fin amax) (Fin alpha) (Fin beta).
Proof. exact C42_iid_spin_exchange_pf. Qed.
Print Assumptions C42_iid_spin_exchange.

(** C14, what does hold: the densities whose widths/scales are passed by keyword reject non-positive (and NaN) values on numpy and
    cupy, for every value of the other arguments. Full statement (false, below): the same for the shape and
    width parameters of the spin magnitude and orientation models. *)
Theorem C14_validated_partial :
  forall bk w, bk <> Jax -> fgt w (Fin 0) = false ->
  (forall x mu, gaussian_chi_eff bk x mu w = Err ValueError) /\
  (forall x mu, gaussian_chi_p bk x mu w = Err ValueError) /\
  (forall m alpha mmin mmax lam mpp gmax, two_component_single bk m alpha mmin mmax lam mpp w gmax = Err ValueError) /\
  (forall m alpha mmin mmax lam lam_1 m1 s1 m2 s2 gmax, s1 = w \/ s2 = w ->
      three_component_single bk m alpha mmin mmax lam lam_1 m1 s1 m2 s2 gmax = Err ValueError) /\
  (forall m a1 a2 mmin mmax bf lam mpp gmax,
      double_power_law_peak_primary_mass bk m a1 a2 mmin mmax bf lam mpp w gmax = Err ValueError) /\
  (forall a_1 a_2 al1 al2 be1 be2 s1 s2, s1 = w \/ s2 = w ->
      independent_spin_magnitude_beta bk a_1 a_2 al1 al2 be1 be2 s1 s2 = Err ValueError).
Proof. exact C14_validated_partial_pf. Qed.
Print Assumptions C14_validated_partial.

Example C14_hyps : Numpy <> Jax /\ fgt (Fin (-2)) (Fin 0) = false.
Proof. split; [discriminate|]. rewrite fgt_fin; apply Rltb_false; lra. Qed.

(** C14 is false: the orientation model never rejects its widths nor the magnitude model its shape
    parameters (any values, any backend), because they are passed positionally. *)
Theorem C14_spin_not_validated_refuted :
  (forall bk z_1 z_2 xi s_1 s_2 m_1 m_2,
     exists v, independent_spin_orientation_gaussian_isotropic bk z_1 z_2 xi s_1 s_2 m_1 m_2 = Ok v) /\
  (forall bk a_1 a_2 al_1 al_2 be_1 be_2 amax_1 amax_2, 0 < amax_1 -> 0 < amax_2 ->
     exists v, independent_spin_magnitude_beta bk a_1 a_2 al_1 al_2 be_1 be_2 (Fin amax_1) (Fin amax_2) = Ok v).
Proof. exact C14_spin_not_validated_refuted_pf. Qed.
Print Assumptions C14_spin_not_validated_refuted.

