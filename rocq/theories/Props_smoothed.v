(** Property theorems (smoothed). Proofs are in [smoothed_thms]; the vocabulary is in [Spec]. *)
From Coq Require Import Reals Lra Lia Psatz String Bool.
From Coquelicot Require Import Coquelicot.
From Coq Require Import List.
From Verif Require Import Xf Py St Xf_facts Py_facts Calc Spec Utils_model Powerlaw_facts Truncnorm_facts Trap_facts
  Np Np_facts Mass_model Mass_facts Smoothed_model Smoothed_facts SpecSmooth.
Import ListNotations.
Local Open Scope R_scope.
From Verif Require Import smoothed_thms.

(** C28. The window for delta_m > 0 on every backend: the value at a finite mass is a number of [0,1], 0 exactly outside [mmin,mmax],
    never decreasing inside, the same for all masses from mmin + delta_m to mmax, with S(mmin+t) + S(mmin+delta_m-t) = 1 (so 1/2 in
    the middle). *)
Theorem C28_smoothing_window :
  forall bk mmin mmax delta_m, 0 < delta_m ->
  let S := fun m => smoothing bk (Fin m) (Fin mmin) (Fin mmax) (Fin delta_m) in
  exists s : R -> R,
    (forall m, S m = Fin (s m)) /\
    (forall m, 0 <= s m <= 1) /\
    (forall m, m < mmin \/ mmax < m -> s m = 0) /\
    (forall m, mmin <= m <= mmax -> 0 < s m) /\
    (forall m m', mmin <= m -> m <= m' -> m' <= mmax -> s m <= s m') /\
    (forall m m', mmin + delta_m <= m <= mmax -> mmin + delta_m <= m' <= mmax -> s m = s m') /\
    (mmin + delta_m / 2 <= mmax -> s (mmin + delta_m / 2) = 1 / 2) /\
    (forall t, 0 <= t <= delta_m -> mmin + delta_m <= mmax -> s (mmin + t) + s (mmin + delta_m - t) = 1).
Proof. exact C28_smoothing_window_pf. Qed.
Print Assumptions C28_smoothing_window.

Example C28_hyps : 0 < 5 /\ 5 + 5 / 2 <= 50 /\ 0 <= 2 <= 5 /\ 5 + 5 <= 50.
Proof. lra. Qed.

(** C28. At every mass, also NaN or infinite, and for all bounds and delta_m the window is a number of [0,1]; for
    delta_m <= 0 on numpy and cupy it is 1. *)
Theorem C28_smoothing_range :
  forall bk m mmin mmax delta_m,
  (exists r, smoothing bk m mmin mmax delta_m = Fin r /\ 0 <= r <= 1) /\
  (forall d, delta_m = Fin d -> d <= 0 -> bk <> Jax -> smoothing bk m mmin mmax delta_m = Fin 1).
Proof. exact C28_smoothing_range_pf. Qed.
Print Assumptions C28_smoothing_range.

Example C28_range_example : smoothing Numpy (Fin 3) (Fin 2) (Fin 50) (Fin 0) = Fin 1.
Proof. destruct (C28_smoothing_range Numpy (Fin 3) (Fin 2) (Fin 50) (Fin 0)) as [_ H]. apply (H 0); [reflexivity|lra|discriminate]. Qed.

(** C29, any primary model: if at the grid masses it returns numbers [f m >= 0], one of them positive at a grid mass in
    [mmin, self.mmax], then (delta_m > 0) the trapezoidal integral over the model's own grid of the returned p_m1 is
    exactly 1. *)
Theorem C29_primary_normalised :
  forall bk primary s kwargs mmin mmax delta_m (grid : list R) (f : R -> R),
  sm_m1s s = map Fin grid -> strictly_increasing grid -> (2 <= List.length grid)%nat -> sm_mmax s = Fin mmax ->
  dget "delta_m" kwargs = Some (Fin delta_m) -> 0 < delta_m ->
  dget_default "mmin" (sm_mmin s) kwargs = Fin mmin ->
  (forall m, In m grid -> primary (ddel "delta_m" kwargs) (Fin m) = Ok (Fin (f m)) /\ 0 <= f m) ->
  (exists m, In m grid /\ mmin <= m <= mmax /\ 0 < f m) ->
  exists p, p_m1 bk primary s [("mass_1"%string, sm_m1s s)] kwargs = Ok p /\ trapezoid p (sm_m1s s) = Fin 1 /\
            Forall (fun v => exists r, v = Fin r /\ 0 <= r) p.
Proof. exact C29_primary_normalised_pf. Qed.
Print Assumptions C29_primary_normalised.

(** C29, arbitrary returned values (also for delta_m < 0, where nothing is smoothed on numpy): whenever the trapezoid of the unnormalised values over the grid is a finite non-zero number N,
    the normalised values integrate to exactly 1. *)
Theorem C29_primary_normalised_any :
  forall bk primary s kwargs delta_m (grid : list R) vals N,
  sm_m1s s = map Fin grid -> (2 <= List.length grid)%nat ->
  dget "delta_m" kwargs = Some (Fin delta_m) -> delta_m <> 0 ->
  let mmin := dget_default "mmin" (sm_mmin s) kwargs in
  mapM (fun m => p <- primary (ddel "delta_m" kwargs) m ;; Ok (fmul p (smoothing bk m mmin (sm_mmax s) (Fin delta_m)))) (sm_m1s s) = Ok vals ->
  trapezoid vals (sm_m1s s) = Fin N -> N <> 0 ->
  exists p, p_m1 bk primary s [("mass_1"%string, sm_m1s s)] kwargs = Ok p /\ trapezoid p (sm_m1s s) = Fin 1.
Proof. exact C29_primary_normalised_any_pf. Qed.
Print Assumptions C29_primary_normalised_any.

(** C29. With delta_m = 0 (or absent) on numpy and cupy the values are the primary model's, unchanged. *)
Theorem C29_no_smoothing_no_renormalisation :
  forall bk primary s kwargs ms (f : xf -> xf), bk <> Jax ->
  dget_default "delta_m" (Fin 0) kwargs = Fin 0 ->
  (forall m, In m ms -> primary (ddel "delta_m" kwargs) m = Ok (f m)) ->
  p_m1 bk primary s [("mass_1"%string, ms)] kwargs = Ok (map f ms).
Proof. exact C29_no_smoothing_no_renormalisation_pf. Qed.
Print Assumptions C29_no_smoothing_no_renormalisation.

(** C29 for the SinglePeak class (power law plus Gaussian peak) built by its constructor: for all legal hyperparameters whose power law
    range contains a grid mass, p_m1 is normalised on the grid. *)
Theorem C29_single_peak_normalised :
  forall bk lo hi n nq cache s alpha mmin mmax lam mpp sigpp delta_m,
  smoothed_init lo hi (n, nq) cache = Ok s -> 0 < lo < hi ->
  lo <= mmin < mmax -> mmax <= hi -> 0 <= lam <= 1 -> 0 < sigpp -> 0 < delta_m -> (bk = Jax \/ alpha <> -1) ->
  (exists i, (i < n)%nat /\ mmin <= lo + INR i * ((hi - lo) / INR (n - 1)) <= mmax) ->
  let kwargs := (single_peak_kw alpha mmin mmax lam mpp sigpp delta_m ++ class_kwargs SinglePeak (sm_mmax s))%list in
  exists p, p_m1 bk (class_primary SinglePeak bk) s [("mass_1"%string, sm_m1s s)] kwargs = Ok p /\
            trapezoid p (sm_m1s s) = Fin 1 /\ Forall (fun v => exists r, v = Fin r /\ 0 <= r) p.
Proof. exact C29_single_peak_normalised_pf. Qed.
Print Assumptions C29_single_peak_normalised.

Example C29_hyps : 0 < 2 < 100 /\ 2 <= 5 < 80 /\ 80 <= 100 /\ 0 <= 1/10 <= 1 /\ 0 < 3 /\ 0 < 4 /\ 5/2 <> -1 /\
  (exists s, smoothed_init 2 100 (3, 2)%nat true = Ok s) /\
  (exists i, (i < 3)%nat /\ 5 <= 2 + INR i * ((100 - 2) / INR (3 - 1)) <= 80).
Proof. repeat split; try lra; [eexists; reflexivity|]. exists 1%nat. split; [lia|]. simpl. lra. Qed.

(** C30. [beta] is required. *)
Theorem C30_beta_required :
  forall bk primary skw interp s ds kwargs, dget "beta" kwargs = None ->
  smoothed_call bk primary skw interp ds kwargs s = (s, Err (KeyError "beta")).
Proof. exact C30_beta_required_pf. Qed.
Print Assumptions C30_beta_required.

Example C30_beta_hyps : dget "beta" (single_peak_kw 2 5 50 (1/10) 35 4 3) = None.
Proof. reflexivity. Qed.

(** C30. On numpy and cupy a call whose mmin (default: the grid's) is below the grid's or whose mmax is above the
    grid's raises ValueError, leaving the instance unchanged, whatever the model and data. *)
Theorem C30_bounds_rejected :
  forall bk primary skw interp s ds kwargs beta,
  bk <> Jax -> dget "beta" kwargs = Some beta ->
  flt (dget_default "mmin" (sm_mmin s) kwargs) (sm_mmin s) = true \/
  fgt (dget_default "mmax" (sm_mmax s) kwargs) (sm_mmax s) = true ->
  smoothed_call bk primary skw interp ds kwargs s = (s, Err ValueError).
Proof. exact C30_bounds_rejected_pf. Qed.
Print Assumptions C30_bounds_rejected.

Example C30_rejected_hyps : flt (dget_default "mmin" (Fin 2) (single_peak_kw 2 1 50 (1/10) 35 4 3)) (Fin 2) = true.
Proof. apply Rltb_true; lra. Qed.

(** C30, converse: if the bounds are within the grid (or on jax) and the primary model raises nothing, the call
    returns as many values as the dataset has points. *)
Theorem C30_accepted :
  forall bk primary skw interp s ds kwargs beta m1 q,
  dget "beta" kwargs = Some beta ->
  bk = Jax \/ (flt (dget_default "mmin" (sm_mmin s) kwargs) (sm_mmin s) = false /\
               fgt (dget_default "mmax" (sm_mmax s) kwargs) (sm_mmax s) = false) ->
  (forall k, In k (dkeys (skw (sm_mmax s))) -> dget k (ddel "beta" kwargs) = None) ->
  (forall kw m, exists v, primary kw m = Ok v) ->
  dget "mass_1" ds = Some m1 -> dget "mass_ratio" ds = Some q -> List.length q = List.length m1 ->
  sm_masses s = None ->
  exists l, snd (smoothed_call bk primary skw interp ds kwargs s) = Ok l /\ List.length l = List.length m1.
Proof. exact C30_accepted_pf. Qed.
Print Assumptions C30_accepted.

Example C30_accepted_hyps :
  flt (dget_default "mmin" (Fin 2) (single_peak_kw 2 5 50 (1/10) 35 4 3)) (Fin 2) = false /\
  fgt (dget_default "mmax" (Fin 100) (single_peak_kw 2 5 50 (1/10) 35 4 3)) (Fin 100) = false.
Proof. split; apply Rltb_false; lra. Qed.

(** C31 with cache=False, for every history of calls (any datasets and hyperparameters, failing or not): the
    outcome of a call is the outcome on the instance that never was called. *)
Theorem C31_uncached :
  forall bk primary skw interp s history dataset kwargs, sm_cache s = false ->
  let call := smoothed_call bk primary skw interp in
  snd (call dataset kwargs (run call history s)) = snd (call dataset kwargs s).
Proof. exact C31_uncached_pf. Qed.
Print Assumptions C31_uncached.

Example C31_uncached_hyps : exists s, smoothed_init 2 100 (1000, 500)%nat false = Ok s /\ sm_cache s = false.
Proof. eexists. split; reflexivity. Qed.

(** C31 with cache=True holds only for some histories (full statement: as [C31_uncached], false by [C31_cached_refuted]):
    every earlier dataset has the same mass_1 array, or a number of masses which does not broadcast to this dataset's. *)
Theorem C31_cached_partial :
  forall bk primary skw interp s history dataset kwargs m1 q,
  sm_masses s = None ->
  dget "mass_1" dataset = Some m1 -> dget "mass_ratio" dataset = Some q -> List.length q = List.length m1 ->
  (forall c m', In c history -> dget "mass_1" (fst c) = Some m' ->
      m' = m1 \/ (List.length m' <> List.length m1 /\ List.length m' <> 1%nat /\ (bk = Jax -> List.length m1 <> 1%nat))) ->
  let call := smoothed_call bk primary skw interp in
  snd (call dataset kwargs (run call history s)) = snd (call dataset kwargs s).
Proof. exact C31_cached_partial_pf. Qed.
Print Assumptions C31_cached_partial.

Example C31_cached_hyps : exists s, smoothed_init 2 100 (1000, 500)%nat true = Ok s /\ sm_masses s = None.
Proof. eexists. split; reflexivity. Qed.

(** C31 is false for the default cache=True: the SinglePeak model built by its constructor, evaluated at (m1,q) = (8,1) after an
    evaluation at (5,1) with the same legal hyperparameters, returns another value than a fresh instance does. Any
    backend, any interpolation kernel that reproduces the values at its nodes. *)
Theorem C31_cached_refuted :
  forall bk interp,
  (forall nodes vals i, (i < List.length nodes)%nat -> List.length vals = List.length nodes -> NoDup nodes ->
      interp nodes vals (nth i nodes NaN) = nth i vals NaN) ->
  let call := class_call SinglePeak bk interp in
  exists s kwargs ds1 ds2 a b, smoothed_init 2 8 (3, 2)%nat true = Ok s /\
    snd (call ds2 kwargs s) = Ok [Fin a] /\
    snd (call ds2 kwargs (run call [(ds1, kwargs)] s)) = Ok [Fin b] /\ b = 4 / 5 * a /\ 0 < a.
Proof. exact C31_cached_refuted_pf. Qed.
Print Assumptions C31_cached_refuted.

(** A kernel meeting the hypothesis: look the mass up among the nodes. *)
Fixpoint lookup_kernel (nodes vals : list xf) (m : xf) : xf :=
  match nodes, vals with
  | n :: nodes', v :: vals' => if xeq_dec m n then v else lookup_kernel nodes' vals' m
  | _, _ => NaN
  end.
Example C31_kernel_exists : forall nodes vals i, (i < List.length nodes)%nat -> List.length vals = List.length nodes -> NoDup nodes ->
      lookup_kernel nodes vals (nth i nodes NaN) = nth i vals NaN.
Proof.
  induction nodes as [|n nodes IH]; intros [|v vals] [|i] Hi HL ND; simpl in *; try lia.
  - now destruct (xeq_dec n n).
  - inversion ND as [|? ? NI ND']; subst. destruct (xeq_dec (nth i nodes NaN) n) as [E|].
    + exfalso. apply NI. rewrite <- E. apply nth_In. lia.
    + apply IH; auto; lia.
Qed.

(** C32. The mass-ratio factor never contains NaN or an infinity, whatever the dataset, hyperparameters, grids, kernel and state. *)
Theorem C32_never_nan :
  forall bk interp ds beta mmin delta_m s l, snd (p_q bk interp ds beta mmin delta_m s) = Ok l ->
  Forall (fun v => exists r, v = Fin r) l.
Proof. exact C32_never_nan_pf. Qed.
Print Assumptions C32_never_nan.

Example C32_never_nan_hyps : exists l, snd (p_q Numpy lookup_kernel (wit_ds 8) (Fin 0) (Fin 2) (Fin 1) wit_state) = Ok l.
Proof.
  assert (Q : bcast2 (qd Numpy (Fin 0) (Fin 2) (Fin 1)) [Fin 8] [Fin 1] = Some [Fin (/ (1 - 2 / 8) * wcst)]).
  { unfold bcast2, zipWith. simpl. rewrite qd_one by lra. reflexivity. }
  rewrite (p_q_cases Numpy lookup_kernel (wit_ds 8) _ _ _ wit_state [Fin 8] [Fin 1] _ eq_refl eq_refl Q). eexists. reflexivity.
Qed.

(** C32. On a fresh instance, with a kernel exact at its nodes, evaluate the mass-ratio factor at one grid mass and all the grid mass
    ratios (delta_m <> 0). If the trapezoid over the q grid of "power law in q times window in m q" at this mass is a
    finite non-zero number, the trapezoid of the returned values is exactly 1. *)
Theorem C32_ratio_normalised :
  forall bk interp s beta mmin delta_m (qs : list R) i m N,
  (forall nodes vals j, (j < List.length nodes)%nat -> List.length vals = List.length nodes -> NoDup nodes ->
      interp nodes vals (nth j nodes NaN) = nth j vals NaN) ->
  sm_masses s = None -> NoDup (sm_m1s s) -> sm_qs s = map Fin qs -> (2 <= List.length qs)%nat ->
  (i < List.length (sm_m1s s))%nat -> nth i (sm_m1s s) NaN = m -> delta_m <> 0 ->
  trapezoid (map (fun q => fmul (powerlaw_body q beta (Fin 1) (fdiv mmin m)) (smoothing bk (fmul m q) mmin m (Fin delta_m))) (sm_qs s))
            (sm_qs s) = Fin N -> N <> 0 ->
  exists l, snd (p_q bk interp [("mass_1"%string, map (fun _ => m) (sm_qs s)); ("mass_ratio"%string, sm_qs s)]
                   beta mmin (Fin delta_m) s) = Ok l /\ trapezoid l (sm_qs s) = Fin 1.
Proof. exact C32_ratio_normalised_pf. Qed.
Print Assumptions C32_ratio_normalised.

(** The hypotheses are met by the witness instance at the grid mass 5. *)
Example C32_hyps : NoDup (sm_m1s wit_state) /\ nth 1 (sm_m1s wit_state) NaN = Fin 5 /\
  exists N, N <> 0 /\
  trapezoid (map (fun q => fmul (powerlaw_body q (Fin 0) (Fin 1) (fdiv (Fin 2) (Fin 5))) (smoothing Numpy (fmul (Fin 5) q) (Fin 2) (Fin 5) (Fin 1))) (sm_qs wit_state))
            (sm_qs wit_state) = Fin N.
Proof.
  split; [|split; [reflexivity|]].
  - repeat constructor; simpl; intros H; repeat destruct H as [H|H]; try injection H; try lra; auto.
  - exists ((1 - 1 / 1000) / 2 * (/ (1 - 2 / 5) * wcst)). split.
    + assert (W := wcst_pos). assert (0 < / (1 - 2 / 5)) by (apply Rinv_0_lt_compat; lra).
      assert (0 < / (1 - 2 / 5) * wcst) by (apply Rmult_lt_0_compat; auto). lra.
    + cbn [wit_state sm_qs map]. fold (qd Numpy (Fin 0) (Fin 2) (Fin 1) (Fin 5) (Fin (1/1000))).
      fold (qd Numpy (Fin 0) (Fin 2) (Fin 1) (Fin 5) (Fin 1)). rewrite qd_one, qd_low by lra.
      change (trapezoid [Fin 0; Fin (/ (1 - 2 / 5) * wcst)] [Fin (1 / 1000); Fin 1]) with
        (trapezoid (map Fin [0; / (1 - 2 / 5) * wcst]) (map Fin [1 / 1000; 1])).
      rewrite trapezoid_fin. f_equal. unfold Rtrap. lra.
Qed.

(** C33. For a primary model that is a plain function (the case of every class of the package) the names are its arguments after
    the first, plus beta and delta_m, minus the fixed ones, and any number of reads changes nothing. *)
Theorem C33_variable_names :
  forall fixed args n,
  let mo := {| mo_args := args; mo_names := None |} in
  reads fixed n mo = mo /\
  exists names, snd (variable_names fixed (reads fixed n mo)) = Ok names /\
    forall v, In v names <-> ((In v (tl args) \/ v = "beta" \/ v = "delta_m")%string /\ ~ In v fixed).
Proof. exact C33_variable_names_pf. Qed.
Print Assumptions C33_variable_names.

(** C33. The names advertised by the four classes. *)
Theorem C33_class_names :
  forall c mmax, snd (variable_names (dkeys (class_kwargs c mmax)) (class_object c)) = Ok (match c with
    | SinglePeak => ["alpha"; "mmin"; "mmax"; "lam"; "mpp"; "sigpp"; "beta"; "delta_m"]
    | MultiPeak => ["alpha"; "mmin"; "mmax"; "lam"; "lam_1"; "mpp_1"; "sigpp_1"; "mpp_2"; "sigpp_2"; "beta"; "delta_m"]
    | BrokenPowerLaw => ["alpha_1"; "alpha_2"; "mmin"; "mmax"; "break_fraction"; "beta"; "delta_m"]
    | BrokenPowerLawPeak => ["alpha_1"; "alpha_2"; "mmin"; "mmax"; "break_fraction"; "lam"; "mpp"; "sigpp"; "beta"; "delta_m"]
    end)%string.
Proof. exact C33_class_names_pf. Qed.
Print Assumptions C33_class_names.

(** C33. The advertised names are the right ones: called with exactly these keywords (in any order, any values) a class
    never complains about its keywords (no TypeError, no KeyError); without one of them other than
    delta_m it raises TypeError or KeyError, unless the bounds check rejects it first; with one more it raises TypeError
    (or the bounds are rejected). *)
Theorem C33_names_are_the_keywords :
  forall c bk interp s ds kwargs names m1 q,
  snd (variable_names (dkeys (class_kwargs c (sm_mmax s))) (class_object c)) = Ok names ->
  dwf kwargs -> dget "mass_1" ds = Some m1 -> dget "mass_ratio" ds = Some q -> List.length q = List.length m1 -> m1 <> [] ->
  sm_masses s = None ->
  let r := snd (class_call c bk interp ds kwargs s) in
  ((forall k, In k (dkeys kwargs) <-> In k names) ->
     (exists l, r = Ok l) \/ r = Err ValueError) /\
  ((exists k, k <> "delta_m"%string /\ In k names /\ ~ In k (dkeys kwargs)) ->
     r = Err TypeError \/ r = Err (KeyError "beta") \/ r = Err ValueError) /\
  ((exists k, In k (dkeys kwargs) /\ ~ In k names) -> In "beta"%string (dkeys kwargs) ->
     r = Err TypeError \/ r = Err ValueError).
Proof. exact C33_names_are_the_keywords_pf. Qed.
Print Assumptions C33_names_are_the_keywords.

(** C33's side-effect clause is false for a primary model carrying its own [variable_names] list: every read extends that list. *)
Theorem C33_getter_mutates_refuted :
  forall fixed args names n,
  mo_names (reads fixed n {| mo_args := args; mo_names := Some names |}) =
  Some (names ++ List.concat (List.repeat ["beta"; "delta_m"]%string n))%list.
Proof. exact C33_getter_mutates_refuted_pf. Qed.
Print Assumptions C33_getter_mutates_refuted.

