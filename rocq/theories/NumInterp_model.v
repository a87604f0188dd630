(** * The spline models for parameters that are integers or floats. Definitions only.

    [Interp_model] takes the parameters as floats. Here each is an integer or a float (a Python or numpy number): [xp.array] of integers is an integer array (an empty
    one holds floats), which the in-place product of interped.py line 203 with a float cannot overwrite on numpy and cupy. Everything else converts to floats:
    the positions of the nodes go into the interpolant and into comparisons, [xp.mean] and [**0.5] return floats. Masses and spins are float arrays. *)
From Coq Require Import Reals String Bool.
From Coq Require Import List.
From Verif Require Import Xf Py St Utils_model Np Mass_model Smoothed_model Interp_model.
Import ListNotations.
Local Open Scope R_scope.
Local Open Scope string_scope.

Record number := { is_int : bool; num : xf }.
(** The parameters converted to floats. *)
Definition as_floats (kwargs : dict number) : dict xf := map (fun kv => (fst kv, num (snd kv))) kwargs.
(** Whether [xp.array(l)] holds integers. *)
Definition int_array (l : list number) : bool := match l with [] => false | _ => forallb is_int l end.

Section NumInterp.
  Variable bk : backend.
  Variable spl : string -> list xf -> list xf -> xf -> xf.
  Variable linterp : list xf -> list xf -> xf -> xf.

  (** interped.py lines 184-205; jax arrays are immutable, [*=] binds the name to the product *)
  Definition extract_spline_points_num (self : interp) (kwargs : dict number) : result (list xf * list xf) :=
    f_splines <- mapM (fun k => dlookup k kwargs) (in_fkeys self) ;;
    f_splines <- (if in_regularize self then
                    rms <- dlookup (rmskey (in_base self)) kwargs ;;
                    let factor := fdiv (num rms) (fpow (fmean (map (fun f => fsq (num f)) f_splines)) (Fin (1 / 2))) in
                    if negb (is_jax bk) && int_array f_splines then Err TypeError
                    else Ok (map (fun f => fmul (num f) factor) f_splines)
                  else Ok (map num f_splines)) ;;
    x_splines <- mapM (fun k => dlookup k kwargs) (in_xkeys self) ;;
    Ok (f_splines, map num x_splines).

  (** interped.py lines 207-237 *)
  Definition p_x_identical_num (dataset : dict (list xf)) (kwargs : dict number) : ST interp (list xf) :=
    _ <~ infer_n_nodes (as_floats kwargs) ;;
    self <~ sget ;;
    fx <~ slift (extract_spline_points_num self kwargs) ;;
    p0 <~ slift (match in_params self with [] => Err IndexError | p :: _ => dlookup p dataset end) ;;
    p_x <~ multiply_params bk spl (in_params self) dataset (snd fx) (fst fx) (map (fun _ => Fin 1) p0) ;;
    self <~ sget ;;
    norm <~ slift (norm_p_x bk spl self (fst fx) (snd fx)) ;;
    sret (map (fun p => fdiv p (fpow norm (of_nat (List.length (in_params self))))) p_x).

  (** mass.py lines 925-940 *)
  Definition ipl_p_m1_num (dataset : dict (list xf)) (kwargs : dict number) : ST ipl (list xf) :=
    self <~ sget ;;
    fm <~ slift (extract_spline_points_num (snd self) kwargs) ;;
    let kwargs := as_floats kwargs in
    let mmin := dget_default "mmin" (sm_mmin (fst self)) kwargs in
    let delta_m := dget_default "delta_m" (Fin 0) kwargs in
    let kwargs := ddel "delta_m" kwargs in
    mass_1 <~ slift (dlookup "mass_1" dataset) ;;
    p_m <~ slift (ipl_powerlaw bk kwargs mass_1) ;;
    p_m <~ slift (bcast_into bk fmul p_m (map (fun m => smoothing bk m mmin (sm_mmax (fst self)) delta_m) mass_1)) ;;
    p_x <~ on_snd (p_x_unnormed bk spl dataset "mass_1" (snd fm) (fst fm)) ;;
    p_m <~ slift (bcast_into bk fmul p_m p_x) ;;
    self <~ sget ;;
    norm <~ slift (ipl_norm_p_m1 bk spl self delta_m (fst fm) kwargs) ;;
    sret (map (fun p => fdiv p norm) p_m).

  (** mass.py lines 572-589 with the overridden [p_m1] *)
  Definition ipl_call_num (dataset : dict (list xf)) (kwargs : dict number) : ST ipl (list xf) :=
    beta <~ slift (dlookup "beta" kwargs) ;;
    let kwargs := ddel "beta" kwargs in
    self <~ sget ;;
    let mmin := dget_default "mmin" (sm_mmin (fst self)) (as_floats kwargs) in
    let mmax := dget_default "mmax" (sm_mmax (fst self)) (as_floats kwargs) in
    if negb (is_jax bk) && flt mmin (sm_mmin (fst self)) then sfail ValueError
    else if negb (is_jax bk) && fgt mmax (sm_mmax (fst self)) then sfail ValueError
    else
      let delta_m := dget_default "delta_m" (Fin 0) (as_floats kwargs) in
      pm <~ ipl_p_m1_num dataset kwargs ;;
      pq <~ on_fst (p_q bk linterp dataset (num beta) mmin delta_m) ;;
      slift (bcast bk fmul pm pq).
End NumInterp.
