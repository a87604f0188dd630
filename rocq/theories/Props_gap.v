(** Property theorems (gap). Proofs are in [gap_thms]; the vocabulary is in [Spec]. *)
From Coq Require Import Reals Lra Lia Psatz String Bool.
From Coquelicot Require Import Coquelicot.
From Coq Require Import List.
From Verif Require Import Xf Py St Xf_facts Py_facts Calc Spec Utils_model Powerlaw_facts Truncnorm_facts Trap_facts
  Np Np_facts Mass_model Mass_facts Smoothed_model Smoothed_facts SpecSmooth smoothed_thms SpecGap.
Import ListNotations.
Local Open Scope R_scope.
From Verif Require Import gap_thms.

(** C139. On a fresh instance of a smoothed mass model, evaluate the mass-ratio density at one primary mass [m] anywhere between two
    neighbouring masses of its grid and at all the grid mass ratios (delta_m <> 0).  Let N, A and B be the trapezoids over the mass-ratio
    grid of the unnormalised "power law in q times window in m q" at [m] and at the two neighbours.  The trapezoid of the returned values
    is N divided by the height at [m] of the straight line from A to B, and not by N itself. *)
Theorem C139_between_grid_masses :
  forall bk interp s beta mmin delta_m (grid qs : list R) i m A B N,
  linear_between interp -> sm_masses s = None ->
  sm_m1s s = map Fin grid -> strictly_increasing grid -> sm_qs s = map Fin qs -> (2 <= List.length qs)%nat ->
  (S i < List.length grid)%nat -> nth i grid 0 <= m <= nth (S i) grid 0 -> delta_m <> 0 ->
  let T := fun y => trapezoid (map (fun q => fmul (powerlaw_body (Fin q) beta (Fin 1) (fdiv mmin (Fin y)))
                                         (smoothing bk (Fin (y * q)) mmin (Fin y) (Fin delta_m))) qs) (map Fin qs) in
  T (nth i grid 0) = Fin A -> T (nth (S i) grid 0) = Fin B -> T m = Fin N ->
  chord (nth i grid 0) A (nth (S i) grid 0) B m <> 0 ->
  exists l, snd (p_q bk interp [("mass_1"%string, map (fun _ => Fin m) (sm_qs s)); ("mass_ratio"%string, sm_qs s)]
                   beta mmin (Fin delta_m) s) = Ok l /\
    trapezoid l (sm_qs s) = Fin (N / chord (nth i grid 0) A (nth (S i) grid 0) B m).
Proof. exact C139_between_grid_masses_pf. Qed.
Print Assumptions C139_between_grid_masses.

(** C139. How far from normalised that can be: if the three unnormalised trapezoids lie between two positive numbers lo and hi, the
    trapezoid of the returned values lies between lo/hi and hi/lo; at the two grid masses themselves it is exactly 1. *)
Theorem C139_normalised_up_to_one_step :
  forall bk interp s beta mmin delta_m (grid qs : list R) i m lo hi,
  linear_between interp -> sm_masses s = None ->
  sm_m1s s = map Fin grid -> strictly_increasing grid -> sm_qs s = map Fin qs -> (2 <= List.length qs)%nat ->
  (S i < List.length grid)%nat -> nth i grid 0 <= m <= nth (S i) grid 0 -> delta_m <> 0 -> 0 < lo ->
  (forall y, y = nth i grid 0 \/ y = nth (S i) grid 0 \/ y = m -> exists v, lo <= v <= hi /\
     trapezoid (map (fun q => fmul (powerlaw_body (Fin q) beta (Fin 1) (fdiv mmin (Fin y)))
                                   (smoothing bk (Fin (y * q)) mmin (Fin y) (Fin delta_m))) qs) (map Fin qs) = Fin v) ->
  exists l r, snd (p_q bk interp [("mass_1"%string, map (fun _ => Fin m) (sm_qs s)); ("mass_ratio"%string, sm_qs s)]
                   beta mmin (Fin delta_m) s) = Ok l /\
    trapezoid l (sm_qs s) = Fin r /\ lo / hi <= r <= hi / lo /\
    (m = nth i grid 0 \/ m = nth (S i) grid 0 -> r = 1).
Proof. exact C139_normalised_up_to_one_step_pf. Qed.
Print Assumptions C139_normalised_up_to_one_step.

(** C139. So it is not normalised: with beta = 0, two mass ratios 1/1000 and 1 in the grid, any mass grid and any cut mmin > 0 and
    delta_m > 0, at every primary mass strictly between two neighbouring grid masses of [mmin + delta_m, 1000 mmin) the trapezoid of
    the returned values is strictly below 1. *)
Theorem C139_below_one :
  forall bk interp s mmin delta_m (grid : list R) i m,
  linear_between interp -> sm_masses s = None ->
  sm_m1s s = map Fin grid -> strictly_increasing grid -> sm_qs s = [Fin (1 / 1000); Fin 1] ->
  (S i < List.length grid)%nat -> nth i grid 0 < m < nth (S i) grid 0 ->
  0 < mmin -> 0 < delta_m -> mmin + delta_m <= nth i grid 0 -> nth (S i) grid 0 < 1000 * mmin ->
  exists l r, snd (p_q bk interp [("mass_1"%string, [Fin m; Fin m]); ("mass_ratio"%string, sm_qs s)]
                   (Fin 0) (Fin mmin) (Fin delta_m) s) = Ok l /\
    trapezoid l (sm_qs s) = Fin r /\ 0 < r < 1.
Proof. exact C139_below_one_pf. Qed.
Print Assumptions C139_below_one.

(** A linear kernel exists, and the instance with masses 2, 5, 8 at the primary mass 6.5 with mmin = 2 and delta_m = 1 is such a case. *)
Example C139_met : linear_between seek /\ sm_masses wit_state = None /\ sm_m1s wit_state = map Fin [2; 5; 8] /\
  strictly_increasing [2; 5; 8] /\ sm_qs wit_state = [Fin (1 / 1000); Fin 1] /\ nth 1 [2; 5; 8] 0 < 13 / 2 < nth 2 [2; 5; 8] 0 /\
  2 + 1 <= nth 1 [2; 5; 8] 0 /\ nth 2 [2; 5; 8] 0 < 1000 * 2.
Proof.
  split; [exact seek_linear|]. split; [reflexivity|]. split; [reflexivity|]. split; [simpl; lra|]. split; [reflexivity|]. simpl. lra.
Qed.
(** The two-sided bound is met there too. *)
Example C139_bounds_met : forall y, y = nth 1 [2; 5; 8] 0 \/ y = nth 2 [2; 5; 8] 0 \/ y = 13 / 2 ->
  exists v, 999 / 2000 * wcst <= v <= 999 / 2000 * wcst * 2 /\
    trapezoid (map (fun q => fmul (powerlaw_body (Fin q) (Fin 0) (Fin 1) (fdiv (Fin 2) (Fin y)))
                                  (smoothing Numpy (Fin (y * q)) (Fin 2) (Fin y) (Fin 1))) [1 / 1000; 1]) (map Fin [1 / 1000; 1]) = Fin v.
Proof.
  intros y Hy. cbn [nth] in Hy. exists (999 / 2000 * wcst * (y / (y - 2))). pose proof wcst_pos as WP. split.
  - assert (1 <= y / (y - 2) <= 2).
    { split; apply Rmult_le_reg_r with (y - 2); try lra; replace (y / (y - 2) * (y - 2)) with y by (field; lra); lra. }
    split; nra.
  - exact (trap_two Numpy 2 1 y ltac:(lra) ltac:(lra) ltac:(lra) ltac:(lra)).
Qed.

