(** Property theorems (smooth2). Proofs are in [smooth2_thms]; the vocabulary is in [Spec]. *)
From Coq Require Import Reals Lra Lia Psatz String Bool.
From Coquelicot Require Import Coquelicot.
From Coq Require Import List.
From Verif Require Import Xf Py St Xf_facts Py_facts Calc Spec Utils_model Powerlaw_facts Truncnorm_facts Trap_facts
  Np Np_facts Mass_model Mass_facts Smoothed_model Smoothed_facts SpecSmooth SpecClass smoothed_thms.
Import ListNotations.
Local Open Scope R_scope.
From Verif Require Import smooth2_thms.

(** C28. The value of the window between the clipped ends is the documented Planck taper; it is continuous for masses strictly
    inside (mmin, mmax), strictly increasing between the clipped ends, at most exp(-999998) before the taper starts and at least
    1 - exp(-999998) after it ends. *)
Theorem C28_closed_form :
  forall bk mmin mmax delta_m, 0 < delta_m ->
  exists s : R -> R,
    (forall m, smoothing bk (Fin m) (Fin mmin) (Fin mmax) (Fin delta_m) = Fin (s m)) /\
    (forall m, mmin + delta_m / 1000000 <= m <= mmin + delta_m - delta_m / 1000000 -> m <= mmax ->
       s m = / (exp (delta_m / (m - mmin) + delta_m / (m - mmin - delta_m)) + 1)) /\
    (forall m, mmin < m < mmax -> continuous s m) /\
    (forall m m', mmin + delta_m / 1000000 <= m -> m < m' -> m' <= mmin + delta_m - delta_m / 1000000 -> m' <= mmax -> s m < s m') /\
    (forall m, mmin <= m <= mmin + delta_m / 1000000 -> m <= mmax -> s m <= exp (- 999998)) /\
    (forall m, mmin + delta_m - delta_m / 1000000 <= m <= mmax -> 1 - exp (- 999998) <= s m).
Proof. exact C28_closed_form_pf. Qed.
Print Assumptions C28_closed_form.

Example C28_closed_form_hyps : 0 < 5 /\ 2 + 5 / 1000000 <= 3 <= 2 + 5 - 5 / 1000000 /\ 3 <= 50 /\ 2 < 3 < 50.
Proof. lra. Qed.

(** C29 for the four classes built by their constructor: for all legal hyperparameters whose power law range contains a grid mass, the
    primary mass density is normalised on the grid and nowhere negative. *)
Theorem C29_classes_normalised :
  forall bk c lo hi n nq cache s hyper mmin mmax delta_m,
  smoothed_init lo hi (n, nq) cache = Ok s -> 0 < lo < hi -> lo <= mmin < mmax -> mmax <= hi -> 0 < delta_m ->
  legal bk mmin mmax c hyper ->
  (exists i, (i < n)%nat /\ mmin <= lo + INR i * ((hi - lo) / INR (n - 1)) <= mmax) ->
  let kwargs := (("delta_m"%string, Fin delta_m) :: hyper ++ class_kwargs c (sm_mmax s))%list in
  exists p, p_m1 bk (class_primary c bk) s [("mass_1"%string, sm_m1s s)] kwargs = Ok p /\
            trapezoid p (sm_m1s s) = Fin 1 /\ Forall (fun v => exists r, v = Fin r /\ 0 <= r) p.
Proof. exact C29_classes_normalised_pf. Qed.
Print Assumptions C29_classes_normalised.

Example C29_classes_hyps : (exists s, smoothed_init 2 100 (3, 2)%nat true = Ok s) /\
  (forall c, exists hyper, legal Numpy 5 80 c hyper) /\
  (exists i, (i < 3)%nat /\ 5 <= 2 + INR i * ((100 - 2) / INR (3 - 1)) <= 80).
Proof.
  split; [eexists; reflexivity|]. split.
  - intros []; eexists.
    + apply (legal_single Numpy 5 80 2 (1/10) 35 4); [right|..]; lra.
    + apply (legal_multi Numpy 5 80 2 (1/10) (1/2) 35 4 50 3); [right|..]; lra.
    + apply (legal_broken Numpy 5 80 2 3 (1/2)); [right|right|]; lra.
    + apply (legal_broken_peak Numpy 5 80 2 3 (1/2) (1/10) 35 4); [right|right|..]; lra.
  - exists 1%nat. split; [lia|]. simpl. lra.
Qed.

(** C32 for instances built by the constructor: at every grid mass above mmin the conditional density of the mass ratio, evaluated on the
    grid of ratios with an instance that was never called, is normalised; all slopes beta, all delta_m > 0. *)
Theorem C32_ratio_normalised_all :
  forall bk interp lo hi n nq cache s beta mmin delta_m m,
  smoothed_init lo hi (n, nq) cache = Ok s -> exact_at_nodes interp -> lo < hi -> 0 < mmin -> 0 < delta_m ->
  In (Fin m) (sm_m1s s) -> mmin < m ->
  exists l, snd (p_q bk interp [("mass_1"%string, map (fun _ => Fin m) (sm_qs s)); ("mass_ratio"%string, sm_qs s)]
                   (Fin beta) (Fin mmin) (Fin delta_m) s) = Ok l /\ trapezoid l (sm_qs s) = Fin 1.
Proof. exact C32_ratio_normalised_all_pf. Qed.
Print Assumptions C32_ratio_normalised_all.

Example C32_all_hyps : exists s, smoothed_init 2 100 (3, 2)%nat true = Ok s /\ In (Fin (2 + INR 1 * ((100 - 2) / INR (3 - 1)))) (sm_m1s s).
Proof. eexists. split; [reflexivity|]. simpl. right; left. reflexivity. Qed.

(** C101. A call of a freshly built model of any of the four classes on all pairs (mass, ratio) of its two grids returns one value per
    pair, and the iterated trapezoidal integral of these values over both grids is exactly 1: all legal hyperparameters, slopes beta
    and delta_m > 0, provided some grid mass lies in (mmin, mmax] and mmin itself is not a grid mass. *)
Theorem C101_joint_normalised :
  forall bk c interp lo hi n nq cache s hyper mmin mmax delta_m beta,
  smoothed_init lo hi (n, nq) cache = Ok s -> exact_at_nodes interp -> 0 < lo < hi -> lo <= mmin < mmax -> mmax <= hi -> 0 < delta_m ->
  legal bk mmin mmax c hyper ->
  (exists i, (i < n)%nat /\ mmin < lo + INR i * ((hi - lo) / INR (n - 1)) <= mmax) ->
  ~ In (Fin mmin) (sm_m1s s) ->
  exists rows, snd (class_call c bk interp (grid_dataset (sm_m1s s) (sm_qs s))
                     (("beta", Fin beta) :: ("delta_m", Fin delta_m) :: hyper)%string s) = Ok (List.concat rows) /\
    List.length rows = n /\ Forall (fun row => List.length row = nq) rows /\
    trapezoid (map (fun row => trapezoid row (sm_qs s)) rows) (sm_m1s s) = Fin 1.
Proof. exact C101_joint_normalised_pf. Qed.
Print Assumptions C101_joint_normalised.

Example C101_hyps : exists s, smoothed_init 2 100 (3, 2)%nat true = Ok s /\ ~ In (Fin 5) (sm_m1s s) /\
  (exists i, (i < 3)%nat /\ 5 < 2 + INR i * ((100 - 2) / INR (3 - 1)) <= 80).
Proof.
  eexists. split; [reflexivity|]. split.
  - simpl. intros H. repeat destruct H as [H|H]; try (injection H; lra); auto.
  - exists 1%nat. split; [lia|]. simpl. lra.
Qed.

