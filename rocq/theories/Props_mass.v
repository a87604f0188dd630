(** Property theorems (mass). Proofs are in [mass_thms]; the vocabulary is in [Spec]. *)
From Coq Require Import Reals Lra Lia Psatz String Bool.
From Coquelicot Require Import Coquelicot.
From Coq Require Import List.
From Verif Require Import Xf Py Xf_facts Py_facts Calc Special Spec Utils_model Powerlaw_facts Truncnorm_facts
  Mass_model Mass_facts.
Import ListNotations.
Local Open Scope R_scope.
From Verif Require Import mass_thms.

(** C21. [double_power_law_primary_mass] is a density on [mmin, mmax], a power law with
    exponent -alpha_1 up to and including the break and with exponent -alpha_2 from the break on
    (so the two pieces agree at the break: it is continuous there). The slopes rejected by the
    keyword guard on numpy and cupy (C27) are excluded. *)
Theorem C21_double_power_law_density :
  forall bk a1 a2 mmin mmax bf, 0 < mmin < mmax -> 0 < bf < 1 ->
  (bk = Jax \/ (a1 <> -1 /\ a2 <> -1)) ->
  let f := fun m => double_power_law_primary_mass bk (Fin m) (Fin a1) (Fin a2) (Fin mmin) (Fin mmax) (Fin bf) in
  let m_break := mmin + bf * (mmax - mmin) in
  positive_on f mmin mmax /\ integrates_to f mmin mmax 1 /\ zero_outside f (fun m => 0 < m) mmin mmax /\
  exists k1 k2, 0 < k1 /\ 0 < k2 /\
    (forall m, mmin <= m <= m_break -> returns (f m) (k1 * Rpower m (- a1))) /\
    (forall m, m_break <= m <= mmax -> returns (f m) (k2 * Rpower m (- a2))).
Proof. exact C21_double_power_law_density_pf. Qed.
Print Assumptions C21_double_power_law_density.

Example C21_hyps : 0 < 5 < 50 /\ 0 < 4/10 < 1 /\ (Numpy = Jax \/ (2 <> -1 /\ 5 <> -1)).
Proof. repeat split; try lra. Qed.

(** C22. The mixtures integrate to exactly 1 over [mmin, b] for every [b] above both upper limits,
    for every (real) mixing fraction. *)
Theorem C22_power_law_mass_normalised :
  forall bk alpha mmin mmax b, 0 < mmin < mmax -> (bk = Jax \/ alpha <> -1) -> mmax <= b ->
  let f := fun m => power_law_mass bk (Fin m) (Fin alpha) (Fin mmin) (Fin mmax) in
  density_on f mmin b /\ positive_on f mmin mmax /\ zero_outside f (fun m => 0 < m) mmin mmax.
Proof. exact C22_power_law_mass_normalised_pf. Qed.
Print Assumptions C22_power_law_mass_normalised.

Example C22_hyps : 0 < 5 < 50 /\ (Numpy = Jax \/ 2 <> -1) /\ 5 < 100 /\ 0 < 3.
Proof. repeat split; try lra. Qed.

Theorem C22_two_component_normalised :
  forall bk alpha mmin mmax lam mpp sigpp gmax b,
  0 < mmin < mmax -> mmin < gmax -> 0 < sigpp -> (bk = Jax \/ alpha <> -1) -> mmax <= b -> gmax <= b ->
  let f := fun m => two_component_single bk (Fin m) (Fin alpha) (Fin mmin) (Fin mmax)
                      (Fin lam) (Fin mpp) (Fin sigpp) (Fin gmax) in
  integrates_to f mmin b 1 /\
  (0 <= lam <= 1 -> forall m, 0 < m -> exists r, returns (f m) r /\ 0 <= r) /\
  (forall m, 0 < m -> m < mmin \/ b < m -> returns (f m) 0).
Proof. exact C22_two_component_normalised_pf. Qed.
Print Assumptions C22_two_component_normalised.

Theorem C22_three_component_normalised :
  forall bk alpha mmin mmax lam lam_1 mpp_1 sigpp_1 mpp_2 sigpp_2 gmax b,
  0 < mmin < mmax -> mmin < gmax -> 0 < sigpp_1 -> 0 < sigpp_2 -> (bk = Jax \/ alpha <> -1) ->
  mmax <= b -> gmax <= b ->
  let f := fun m => three_component_single bk (Fin m) (Fin alpha) (Fin mmin) (Fin mmax)
             (Fin lam) (Fin lam_1) (Fin mpp_1) (Fin sigpp_1) (Fin mpp_2) (Fin sigpp_2) (Fin gmax) in
  integrates_to f mmin b 1 /\
  (0 <= lam <= 1 -> 0 <= lam_1 <= 1 -> forall m, 0 < m -> exists r, returns (f m) r /\ 0 <= r) /\
  (forall m, 0 < m -> m < mmin \/ b < m -> returns (f m) 0).
Proof. exact C22_three_component_normalised_pf. Qed.
Print Assumptions C22_three_component_normalised.

Theorem C22_double_power_law_peak_normalised :
  forall bk a1 a2 mmin mmax bf lam mpp sigpp gmax b,
  0 < mmin < mmax -> 0 < bf < 1 -> mmin < gmax -> 0 < sigpp -> (bk = Jax \/ (a1 <> -1 /\ a2 <> -1)) ->
  mmax <= b -> gmax <= b ->
  let f := fun m => double_power_law_peak_primary_mass bk (Fin m) (Fin a1) (Fin a2) (Fin mmin) (Fin mmax)
             (Fin bf) (Fin lam) (Fin mpp) (Fin sigpp) (Fin gmax) in
  integrates_to f mmin b 1 /\
  (0 <= lam <= 1 -> forall m, 0 < m -> exists r, returns (f m) r /\ 0 <= r) /\
  (forall m, 0 < m -> m < mmin \/ b < m -> returns (f m) 0).
Proof. exact C22_double_power_law_peak_normalised_pf. Qed.
Print Assumptions C22_double_power_law_peak_normalised.

(** C22. Reduction to one component: at fraction 0 the mixtures are the power-law model (at every
    real mass, whatever the position of the Gaussian), at fraction 1 the truncated Gaussian. *)
Theorem C22_mixture_reduces :
  forall bk alpha mmin mmax mpp sigpp gmax m,
  0 < sigpp -> (bk = Jax \/ (alpha <> -1 /\ 0 <= mmin)) ->
  (two_component_single bk (Fin m) (Fin alpha) (Fin mmin) (Fin mmax) (Fin 0) (Fin mpp) (Fin sigpp) (Fin gmax)
     = power_law_mass bk (Fin m) (Fin alpha) (Fin mmin) (Fin mmax)) /\
  (forall lam_1 mpp_2 sigpp_2, 0 < sigpp_2 ->
     three_component_single bk (Fin m) (Fin alpha) (Fin mmin) (Fin mmax) (Fin 0) (Fin lam_1) (Fin mpp) (Fin sigpp)
         (Fin mpp_2) (Fin sigpp_2) (Fin gmax)
     = power_law_mass bk (Fin m) (Fin alpha) (Fin mmin) (Fin mmax)) /\
  (forall a1 a2 bf, double_power_law_peak_primary_mass bk (Fin m) (Fin a1) (Fin a2) (Fin mmin) (Fin mmax) (Fin bf)
         (Fin 0) (Fin mpp) (Fin sigpp) (Fin gmax)
     = double_power_law_primary_mass bk (Fin m) (Fin a1) (Fin a2) (Fin mmin) (Fin mmax) (Fin bf)) /\
  (0 < mmin < mmax -> 0 < m ->
     two_component_single bk (Fin m) (Fin alpha) (Fin mmin) (Fin mmax) (Fin 1) (Fin mpp) (Fin sigpp) (Fin gmax)
     = truncnorm bk ["mu"; "sigma"; "high"; "low"]%string (Fin m) (Fin mpp) (Fin sigpp) (Fin gmax) (Fin mmin) /\
     (forall lam lam_1, three_component_single bk (Fin m) (Fin alpha) (Fin mmin) (Fin mmax) (Fin lam) (Fin lam_1)
         (Fin mpp) (Fin sigpp) (Fin mpp) (Fin sigpp) (Fin gmax)
       = two_component_single bk (Fin m) (Fin alpha) (Fin mmin) (Fin mmax) (Fin lam) (Fin mpp) (Fin sigpp) (Fin gmax))).
Proof. exact C22_mixture_reduces_pf. Qed.
Print Assumptions C22_mixture_reduces.

Example C22_reduce_hyps : 0 < 3 /\ (Numpy = Jax \/ (2 <> -1 /\ 0 <= 5)).
Proof. repeat split; try lra. Qed.

(** C23. The primary-mass/mass-ratio models: iterated integral over m1 in [mmin, b], q in [mmin/m1, 1]
    is 1; the value is 0 when q*m1 < mmin or q > 1 (m1 = mmin excluded: see C26). *)
Theorem C23_power_law_primary_mass_ratio :
  forall bk alpha beta mmin mmax b, 0 < mmin < mmax -> (bk = Jax \/ alpha <> -1) -> mmax <= b ->
  let f := fun m1 q => power_law_primary_mass_ratio bk (Fin m1) (Fin q) (Fin alpha) (Fin beta) (Fin mmin) (Fin mmax) in
  integrates2_to f mmin b (fun m1 => mmin / m1) (fun _ => 1) 1 /\
  (forall m1 q, 0 < m1 -> 0 < q -> m1 <> mmin -> (q * m1 < mmin \/ 1 < q) -> returns (f m1 q) 0) /\
  (forall m1 q, 0 < m1 -> 0 < q -> m1 <> mmin -> exists r, returns (f m1 q) r /\ 0 <= r).
Proof. exact C23_power_law_primary_mass_ratio_pf. Qed.
Print Assumptions C23_power_law_primary_mass_ratio.

Example C23_hyps : 0 < 5 < 50 /\ (Numpy = Jax \/ 2 <> -1) /\ 50 <= 50 /\ 10 <> 5 /\ 3/10 * 10 < 5.
Proof. repeat split; try lra. Qed.

Theorem C23_two_component_primary_mass_ratio :
  forall bk alpha beta mmin mmax lam mpp sigpp gmax b,
  0 < mmin < mmax -> mmin < gmax -> 0 < sigpp -> (bk = Jax \/ alpha <> -1) -> mmax <= b -> gmax <= b ->
  let f := fun m1 q => two_component_primary_mass_ratio bk (Fin m1) (Fin q) (Fin alpha) (Fin beta) (Fin mmin) (Fin mmax)
             (Fin lam) (Fin mpp) (Fin sigpp) (Fin gmax) in
  integrates2_to f mmin b (fun m1 => mmin / m1) (fun _ => 1) 1 /\
  (forall m1 q, 0 < m1 -> 0 < q -> m1 <> mmin -> (q * m1 < mmin \/ 1 < q) -> returns (f m1 q) 0) /\
  (0 <= lam <= 1 -> forall m1 q, 0 < m1 -> 0 < q -> m1 <> mmin -> exists r, returns (f m1 q) r /\ 0 <= r).
Proof. exact C23_two_component_primary_mass_ratio_pf. Qed.
Print Assumptions C23_two_component_primary_mass_ratio.

Theorem C23_double_power_law_mass_ratio :
  forall bk a1 a2 beta mmin mmax bf b,
  0 < mmin < mmax -> 0 < bf < 1 -> (bk = Jax \/ (a1 <> -1 /\ a2 <> -1)) -> mmax <= b ->
  let f := fun m1 q => double_power_law_primary_power_law_mass_ratio bk (Fin m1) (Fin q) (Fin a1) (Fin a2) (Fin beta)
             (Fin mmin) (Fin mmax) (Fin bf) in
  integrates2_to f mmin b (fun m1 => mmin / m1) (fun _ => 1) 1 /\
  (forall m1 q, 0 < m1 -> 0 < q -> m1 <> mmin -> (q * m1 < mmin \/ 1 < q) -> returns (f m1 q) 0) /\
  (forall m1 q, 0 < m1 -> 0 < q -> m1 <> mmin -> exists r, returns (f m1 q) r /\ 0 <= r).
Proof. exact C23_double_power_law_mass_ratio_pf. Qed.
Print Assumptions C23_double_power_law_mass_ratio.

(** C24. The identical primary/secondary models integrate to 1 over m1 >= m2 and vanish when m1 < m2. *)
Theorem C24_power_law_identical :
  forall bk alpha mmin mmax, 0 < mmin < mmax ->
  let f := fun m1 m2 => power_law_primary_secondary_identical bk (Fin m1) (Fin m2) (Fin alpha) (Fin mmin) (Fin mmax) in
  integrates2_to f mmin mmax (fun _ => mmin) (fun m1 => m1) 1 /\
  (forall m1 m2, 0 < m1 < m2 -> returns (f m1 m2) 0) /\
  (forall m1 m2, 0 < m1 -> 0 < m2 -> m2 < mmin \/ mmax < m1 -> returns (f m1 m2) 0) /\
  (forall m1 m2, 0 < m1 -> 0 < m2 -> exists r, returns (f m1 m2) r /\ 0 <= r).
Proof. exact C24_power_law_identical_pf. Qed.
Print Assumptions C24_power_law_identical.

Example C24_hyps : 0 < 5 < 50 /\ 0 < 10 < 20.
Proof. lra. Qed.

Theorem C24_two_component_identical :
  forall bk alpha mmin mmax lam mpp sigpp gmax b,
  0 < mmin < mmax -> mmin < gmax -> 0 < sigpp -> (bk = Jax \/ alpha <> -1) -> mmax <= b -> gmax <= b ->
  let f := fun m1 m2 => two_component_primary_secondary_identical bk (Fin m1) (Fin m2) (Fin alpha) (Fin mmin) (Fin mmax)
             (Fin lam) (Fin mpp) (Fin sigpp) (Fin gmax) in
  integrates2_to f mmin b (fun _ => mmin) (fun m1 => m1) 1 /\
  (forall m1 m2, 0 < m1 < m2 -> returns (f m1 m2) 0) /\
  (forall m1 m2, 0 < m1 -> 0 < m2 -> m2 < mmin \/ b < m1 -> returns (f m1 m2) 0) /\
  (0 <= lam <= 1 -> forall m1 m2, 0 < m1 -> 0 < m2 -> exists r, returns (f m1 m2) r /\ 0 <= r).
Proof. exact C24_two_component_identical_pf. Qed.
Print Assumptions C24_two_component_identical.

(** C25, what does hold: exchanging the two slopes exchanges [v] and [2 - v], so the model is normalised
    on average over the two orders (and when the slopes agree, C24). Full statement (false, see below):
    [integrates2_to f mmin mmax (fun _ => mmin) (fun m1 => m1) 1] for all alpha, beta. *)
Theorem C25_independent_swap_partial :
  forall bk alpha beta mmin mmax v, 0 < mmin < mmax ->
  let f := fun alpha beta m1 m2 => power_law_primary_secondary_independent bk (Fin m1) (Fin m2) (Fin alpha) (Fin beta)
                                     (Fin mmin) (Fin mmax) in
  integrates2_to (f alpha beta) mmin mmax (fun _ => mmin) (fun m1 => m1) v ->
  integrates2_to (f beta alpha) mmin mmax (fun _ => mmin) (fun m1 => m1) (2 - v).
Proof. exact C25_independent_swap_partial_pf. Qed.
Print Assumptions C25_independent_swap_partial.

Theorem C25_two_component_independent_swap_partial :
  forall bk alpha beta mmin mmax lam mpp sigpp gmax b v,
  0 < mmin < mmax -> mmin < gmax -> 0 < sigpp -> (bk = Jax \/ (alpha <> -1 /\ beta <> -1)) -> mmax <= b -> gmax <= b ->
  let f := fun alpha beta m1 m2 => two_component_primary_secondary_independent bk (Fin m1) (Fin m2) (Fin alpha) (Fin beta)
             (Fin mmin) (Fin mmax) (Fin lam) (Fin mpp) (Fin sigpp) (Fin gmax) in
  integrates2_to (f alpha beta) mmin b (fun _ => mmin) (fun m1 => m1) v ->
  integrates2_to (f beta alpha) mmin b (fun _ => mmin) (fun m1 => m1) (2 - v).
Proof. exact C25_two_component_independent_swap_partial_pf. Qed.
Print Assumptions C25_two_component_independent_swap_partial.

(** C25 is false: with alpha = 0, beta = -1 on [1, 2] the joint "density" integrates to 8/9. *)
Theorem C25_independent_refuted :
  forall bk, integrates2_to
    (fun m1 m2 => power_law_primary_secondary_independent bk (Fin m1) (Fin m2) (Fin 0) (Fin (-1)) (Fin 1) (Fin 2))
    1 2 (fun _ => 1) (fun m1 => m1) (8 / 9).
Proof. exact C25_independent_refuted_pf. Qed.
Print Assumptions C25_independent_refuted.

(** C26. Exact characterisation of where the mass-ratio models return NaN at positive masses:
    m1 = mmin with q <> 1, and nowhere else. Full statement (false): no NaN at all. *)
Theorem C26_mass_ratio_nan_partial :
  forall bk beta mmin mmax m1 q, 0 < mmin < mmax -> 0 < m1 -> 0 < q ->
  (forall alpha, (bk = Jax \/ alpha <> -1) ->
     exists v, power_law_primary_mass_ratio bk (Fin m1) (Fin q) (Fin alpha) (Fin beta) (Fin mmin) (Fin mmax) = Ok v /\
       (v = NaN <-> (m1 = mmin /\ q <> 1))) /\
  (forall alpha lam mpp sigpp gmax, (bk = Jax \/ alpha <> -1) -> mmin < gmax -> 0 < sigpp -> 0 <= lam <= 1 ->
     exists v, two_component_primary_mass_ratio bk (Fin m1) (Fin q) (Fin alpha) (Fin beta) (Fin mmin) (Fin mmax)
                 (Fin lam) (Fin mpp) (Fin sigpp) (Fin gmax) = Ok v /\
       (v = NaN <-> (m1 = mmin /\ q <> 1))) /\
  (forall a1 a2 bf, 0 < bf < 1 -> (bk = Jax \/ (a1 <> -1 /\ a2 <> -1)) ->
     exists v, double_power_law_primary_power_law_mass_ratio bk (Fin m1) (Fin q) (Fin a1) (Fin a2) (Fin beta)
                 (Fin mmin) (Fin mmax) (Fin bf) = Ok v /\
       (v = NaN <-> (m1 = mmin /\ q <> 1))).
Proof. exact C26_mass_ratio_nan_partial_pf. Qed.
Print Assumptions C26_mass_ratio_nan_partial.

Theorem C26_mass_ratio_nan_refuted :
  power_law_primary_mass_ratio Numpy (Fin 5) (Fin (8/10)) (Fin 2) (Fin 1) (Fin 5) (Fin 50) = Ok NaN.
Proof. exact C26_mass_ratio_nan_refuted_pf. Qed.
Print Assumptions C26_mass_ratio_nan_refuted.

(** C27. Which slopes the one-dimensional models accept: on jax all; on numpy and cupy exactly those
    other than -1 (given mmin >= 0 and positive widths). Full statement (false): all slopes accepted. *)
Theorem C27_slopes_accepted_partial :
  forall bk m alpha mmin mmax, 0 <= mmin ->
  let accepted (c : result xf) := exists v, c = Ok v in
  let rejected (c : result xf) := c = Err ValueError in
  let ok a := bk = Jax \/ a <> -1 in
  (ok alpha -> accepted (power_law_mass bk (Fin m) (Fin alpha) (Fin mmin) (Fin mmax))) /\
  (~ ok alpha -> rejected (power_law_mass bk (Fin m) (Fin alpha) (Fin mmin) (Fin mmax))) /\
  (forall lam mpp sigpp gmax, 0 < sigpp ->
     let c := two_component_single bk (Fin m) (Fin alpha) (Fin mmin) (Fin mmax) (Fin lam) (Fin mpp) (Fin sigpp) (Fin gmax) in
     (ok alpha -> accepted c) /\ (~ ok alpha -> rejected c)) /\
  (forall lam lam_1 mpp sigpp mpp_2 sigpp_2 gmax, 0 < sigpp -> 0 < sigpp_2 ->
     let c := three_component_single bk (Fin m) (Fin alpha) (Fin mmin) (Fin mmax) (Fin lam) (Fin lam_1) (Fin mpp) (Fin sigpp)
                (Fin mpp_2) (Fin sigpp_2) (Fin gmax) in
     (ok alpha -> accepted c) /\ (~ ok alpha -> rejected c)) /\
  (forall alpha_2 bf, 0 < mmin < mmax -> 0 < bf < 1 ->
     let c := double_power_law_primary_mass bk (Fin m) (Fin alpha) (Fin alpha_2) (Fin mmin) (Fin mmax) (Fin bf) in
     (ok alpha -> ok alpha_2 -> accepted c) /\ (~ (ok alpha /\ ok alpha_2) -> rejected c)).
Proof. exact C27_slopes_accepted_partial_pf. Qed.
Print Assumptions C27_slopes_accepted_partial.

Example C27_hyps : (Numpy = Jax \/ 2 <> -1) /\ ~ (Numpy = Jax \/ -1 <> -1).
Proof. split; [right; lra|]. intros [H|H]; [discriminate|lra]. Qed.

(** C27 is false on numpy: the density proportional to m on [5, 50] is rejected, although it exists
    (the same call is a normalised density on jax, C22). *)
Theorem C27_slope_minus_one_refuted :
  forall m, power_law_mass Numpy (Fin m) (Fin (-1)) (Fin 5) (Fin 50) = Err ValueError /\
  density_on (fun m => power_law_mass Jax (Fin m) (Fin (-1)) (Fin 5) (Fin 50)) 5 50.
Proof. exact C27_slope_minus_one_refuted_pf. Qed.
Print Assumptions C27_slope_minus_one_refuted.

