(** Property theorems (reduce). Proofs are in [reduce_thms]; the vocabulary is in [Spec]. *)
From Coq Require Import Reals Lra Lia Psatz String Bool.
From Coquelicot Require Import Coquelicot.
From Coq Require Import List.
From Verif Require Import Xf Py Xf_facts Py_facts Calc Special Spec Utils_model Powerlaw_facts Gauss_facts Truncnorm_facts Beta_facts Mass_model Mass_facts Spin_model.
Import ListNotations.
Local Open Scope R_scope.
From Verif Require Import reduce_thms.

(** C96 The nested mass models reduce to one another at the boundary of their parameter space. *)

(** C96: with equal slopes the break is invisible, wherever it is. *)
Theorem C96_equal_slopes :
  forall bk alpha mmin mmax bf m,
    0 < mmin < mmax -> 0 < bf < 1 -> (bk = Jax \/ alpha <> -1) -> 0 < m ->
    double_power_law_primary_mass bk (Fin m) (Fin alpha) (Fin alpha) (Fin mmin) (Fin mmax) (Fin bf)
    = power_law_mass bk (Fin m) (Fin alpha) (Fin mmin) (Fin mmax).
Proof. exact C96_equal_slopes_pf. Qed.
Print Assumptions C96_equal_slopes.

Example C96_equal_slopes_example :
  double_power_law_primary_mass Numpy (Fin 30) (Fin 3) (Fin 3) (Fin 5) (Fin 80) (Fin (1/2))
  = power_law_mass Numpy (Fin 30) (Fin 3) (Fin 5) (Fin 80) /\
  exists r, 0 < r /\ returns (power_law_mass Numpy (Fin 30) (Fin 3) (Fin 5) (Fin 80)) r.
Proof.
  split; [apply C96_equal_slopes; lra|]. exists (plval (- 3) 80 5 30). split.
  - rewrite plval_in by lra. apply plpdf_pos; lra.
  - apply plm_val; lra.
Qed.

(** C96 (what fails): putting the break at an end of the mass range should leave a single power
    law (the other slope); the code returns NaN at every mass, inside the range or not. *)
Theorem C96_break_at_an_end_refuted :
  forall bk a1 a2 mmin mmax bf m,
    0 < mmin < mmax -> bf = 0 \/ bf = 1 -> (bk = Jax \/ (a1 <> -1 /\ a2 <> -1)) -> 0 < m ->
    double_power_law_primary_mass bk (Fin m) (Fin a1) (Fin a2) (Fin mmin) (Fin mmax) (Fin bf) = Ok NaN /\
    (mmin <= m <= mmax -> exists r, 0 < r /\
       returns (power_law_mass bk (Fin m) (Fin (if Reqb bf 0 then a2 else a1)) (Fin mmin) (Fin mmax)) r).
Proof. exact C96_break_at_an_end_refuted_pf. Qed.
Print Assumptions C96_break_at_an_end_refuted.

Example C96_break_example :
  double_power_law_primary_mass Numpy (Fin 30) (Fin 2) (Fin 3) (Fin 5) (Fin 80) (Fin 1) = Ok NaN.
Proof. apply C96_break_at_an_end_refuted; lra. Qed.

(** C96: the mixtures contain their components. A mixing fraction of 0 or 1 leaves one
    component, whatever the parameters of the other; the two Gaussian peaks may be exchanged. *)
Theorem C96_mixtures :
  forall bk alpha mmin mmax bf lam lam_1 mpp_1 sigpp_1 mpp_2 sigpp_2 gmax m,
    0 < mmin < mmax -> 0 < bf < 1 -> mmin < gmax -> 0 < sigpp_1 -> 0 < sigpp_2 ->
    (bk = Jax \/ alpha <> -1) -> 0 < m ->
    let two l mu s := two_component_single bk (Fin m) (Fin alpha) (Fin mmin) (Fin mmax) (Fin l) (Fin mu) (Fin s) (Fin gmax) in
    let three l l1 mu1 s1 mu2 s2 :=
      three_component_single bk (Fin m) (Fin alpha) (Fin mmin) (Fin mmax) (Fin l) (Fin l1) (Fin mu1) (Fin s1) (Fin mu2) (Fin s2) (Fin gmax) in
    let double l mu s :=
      double_power_law_peak_primary_mass bk (Fin m) (Fin alpha) (Fin alpha) (Fin mmin) (Fin mmax) (Fin bf) (Fin l) (Fin mu) (Fin s) (Fin gmax) in
    two 0 mpp_1 sigpp_1 = power_law_mass bk (Fin m) (Fin alpha) (Fin mmin) (Fin mmax) /\
    two 1 mpp_1 sigpp_1 = truncnorm bk ["mu"; "sigma"; "high"; "low"]%string (Fin m) (Fin mpp_1) (Fin sigpp_1) (Fin gmax) (Fin mmin) /\
    three lam 1 mpp_1 sigpp_1 mpp_2 sigpp_2 = two lam mpp_1 sigpp_1 /\
    three lam 0 mpp_1 sigpp_1 mpp_2 sigpp_2 = two lam mpp_2 sigpp_2 /\
    three lam lam_1 mpp_1 sigpp_1 mpp_1 sigpp_1 = two lam mpp_1 sigpp_1 /\
    three lam lam_1 mpp_1 sigpp_1 mpp_2 sigpp_2 = three lam (1 - lam_1) mpp_2 sigpp_2 mpp_1 sigpp_1 /\
    double lam mpp_1 sigpp_1 = two lam mpp_1 sigpp_1.
Proof. exact C96_mixtures_pf. Qed.
Print Assumptions C96_mixtures.

Example C96_mixtures_example :
  two_component_single Numpy (Fin 30) (Fin 3) (Fin 5) (Fin 80) (Fin 0) (Fin 35) (Fin 1) (Fin 100)
  = power_law_mass Numpy (Fin 30) (Fin 3) (Fin 5) (Fin 80).
Proof. apply (C96_mixtures Numpy 3 5 80 (1/2) 0 0 35 1 35 1 100 30); lra. Qed.

(** C97 Symmetries of the Beta distribution. *)

(** C97: reflecting the argument exchanges the two exponents, at every real argument including
    the edges and the outside; the result (or the exception) is the same. *)
Theorem C97_reflection :
  forall bk alpha beta scale x,
    beta_dist bk ["scale"]%string (Fin x) alpha beta (Fin scale)
    = beta_dist bk ["scale"]%string (Fin (scale - x)) beta alpha (Fin scale).
Proof. exact C97_reflection_pf. Qed.
Print Assumptions C97_reflection.

(** C97: with the default exponents the density is uniform in the interior. *)
Theorem C97_uniform :
  forall bk kw scale x, 0 < x < scale ->
    returns (beta_dist bk kw (Fin x) (Fin 1) (Fin 1) (Fin scale)) (1 / scale).
Proof. exact C97_uniform_pf. Qed.
Print Assumptions C97_uniform.

(** C97: rescaling the argument and the maximum by [c] divides the density by [c]. *)
Theorem C97_scaling :
  forall bk kw alpha beta scale x c r,
    0 < alpha -> 0 < beta -> 0 < x < scale -> 0 < c ->
    returns (beta_dist bk kw (Fin x) (Fin alpha) (Fin beta) (Fin scale)) r ->
    returns (beta_dist bk kw (Fin (c * x)) (Fin alpha) (Fin beta) (Fin (c * scale))) (r / c).
Proof. exact C97_scaling_pf. Qed.
Print Assumptions C97_scaling.

Example C97_example : returns (beta_dist Numpy ["scale"]%string (Fin (3/10)) (Fin 1) (Fin 1) (Fin (8/10))) (1 / (8/10)).
Proof. apply C97_uniform; lra. Qed.

(** C08 (the other edges): with an exponent below 1 the density diverges towards that edge, and
    the value at the edge is the largest double. *)
Theorem C08_beta_dist_diverging_edges :
  forall bk kw alpha beta scale, 0 < alpha -> 0 < beta -> 0 < scale ->
    exists f : R -> R,
      (forall x, 0 < x < scale -> returns (beta_dist bk kw (Fin x) (Fin alpha) (Fin beta) (Fin scale)) (f x)) /\
      (alpha < 1 -> filterlim f (at_right 0) (Rbar_locally p_infty) /\
                    returns (beta_dist bk kw (Fin 0) (Fin alpha) (Fin beta) (Fin scale)) MAXF) /\
      (beta < 1 -> filterlim f (at_left scale) (Rbar_locally p_infty) /\
                   returns (beta_dist bk kw (Fin scale) (Fin alpha) (Fin beta) (Fin scale)) MAXF).
Proof. exact C08_beta_dist_diverging_edges_pf. Qed.
Print Assumptions C08_beta_dist_diverging_edges.

(** C08 (what fails, in general): with an exponent equal to 1 the density has a positive limit
    towards that edge, and the value at the edge is 0. *)
Theorem C08_beta_dist_unit_exponent_refuted :
  forall bk kw other scale, 0 < other -> 0 < scale ->
    exists (f g : R -> R) (L : R),
      0 < L /\
      (forall x, 0 < x < scale ->
         returns (beta_dist bk kw (Fin x) (Fin 1) (Fin other) (Fin scale)) (f x) /\
         returns (beta_dist bk kw (Fin x) (Fin other) (Fin 1) (Fin scale)) (g x)) /\
      filterlim f (at_right 0) (locally L) /\
      returns (beta_dist bk kw (Fin 0) (Fin 1) (Fin other) (Fin scale)) 0 /\
      filterlim g (at_left scale) (locally L) /\
      returns (beta_dist bk kw (Fin scale) (Fin other) (Fin 1) (Fin scale)) 0.
Proof. exact C08_beta_dist_unit_exponent_refuted_pf. Qed.
Print Assumptions C08_beta_dist_unit_exponent_refuted.

Example C08_diverging_example : returns (beta_dist Numpy [] (Fin 0) (Fin (1/2)) (Fin 2) (Fin 1)) MAXF.
Proof. destruct (C08_beta_dist_diverging_edges Numpy [] (1/2) 2 1 ltac:(lra) ltac:(lra) ltac:(lra)) as [f [_ [H _]]]. apply H; lra. Qed.

(** C98 The identically distributed spin models do not distinguish the two components. *)

(** C98: exchanging the labels of the two black holes changes nothing, for every input
    (including invalid ones, NaN and infinities). *)
Theorem C98_iid_exchange :
  forall bk a_1 a_2 t_1 t_2 xi sigma mu amax alpha beta,
    iid_spin_magnitude_beta bk a_1 a_2 amax alpha beta = iid_spin_magnitude_beta bk a_2 a_1 amax alpha beta /\
    iid_spin bk a_1 a_2 t_1 t_2 xi sigma amax alpha beta = iid_spin bk a_2 a_1 t_2 t_1 xi sigma amax alpha beta /\
    iid_spin_orientation_gaussian_isotropic bk t_1 t_2 xi sigma mu
      = iid_spin_orientation_gaussian_isotropic bk t_2 t_1 xi sigma mu.
Proof. exact C98_iid_exchange_pf. Qed.
Print Assumptions C98_iid_exchange.

(** C98: for the independent models, exchanging the two components together with their
    parameters changes nothing. *)
Theorem C98_independent_exchange :
  forall bk a_1 a_2 t_1 t_2 xi s_1 s_2 mu_1 mu_2 al_1 al_2 be_1 be_2 max_1 max_2,
    independent_spin_magnitude_beta bk a_1 a_2 al_1 al_2 be_1 be_2 max_1 max_2
      = independent_spin_magnitude_beta bk a_2 a_1 al_2 al_1 be_2 be_1 max_2 max_1 /\
    independent_spin_orientation_gaussian_isotropic bk t_1 t_2 xi s_1 s_2 mu_1 mu_2
      = independent_spin_orientation_gaussian_isotropic bk t_2 t_1 xi s_2 s_1 mu_2 mu_1.
Proof. exact C98_independent_exchange_pf. Qed.
Print Assumptions C98_independent_exchange.

(** C98: an isotropic population (no aligned component) has the constant density 1/4, whatever
    the parameters of the other component. *)
Theorem C98_isotropic :
  forall bk t_1 t_2 s_1 s_2 mu_1 mu_2,
    returns (independent_spin_orientation_gaussian_isotropic bk (Fin t_1) (Fin t_2) (Fin 0) s_1 s_2 mu_1 mu_2) (1 / 4).
Proof. exact C98_isotropic_pf. Qed.
Print Assumptions C98_isotropic.

Example C98_example :
  iid_spin Numpy (Fin (1/5)) (Fin (7/10)) (Fin 1) (Fin (-1/2)) (Fin (1/2)) (Fin 2) (Fin 1) (Fin 2) (Fin 5)
  = iid_spin Numpy (Fin (7/10)) (Fin (1/5)) (Fin (-1/2)) (Fin 1) (Fin (1/2)) (Fin 2) (Fin 1) (Fin 2) (Fin 5).
Proof. apply (C98_iid_exchange Numpy _ _ _ _ _ _ (Fin 1)). Qed.

