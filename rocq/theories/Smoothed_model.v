(** * Model of gwpopulation/models/mass.py lines 530-841: the smoothed mass distributions.

    A dataset is a dictionary of one-dimensional arrays. A primary mass model is a function of the
    keyword arguments and of one mass; numpy applies it to every element of an array. An array that
    is empty raises nothing here, although the conditions of the densities would be checked.
    [linterp nodes norms m] stands for the third-party linear interpolant of [norms] at [nodes],
    evaluated at [m] (mass.py line 655, interped.py lines 15-43): an argument of the model. *)
From Coq Require Import Reals String Bool.
From Coq Require Import List.
From Verif Require Import Xf Py St Utils_model Np Mass_model.
Import ListNotations.
Local Open Scope R_scope.
Local Open Scope string_scope.

(** mass.py lines 659-684, at one mass. [xp.nan_to_num(x, nan=0)] also replaces infinities by the largest float. *)
Definition smoothing (bk : backend) (mass mmin mmax delta_m : xf) : xf :=
  if is_jax bk || fgt delta_m (Fin 0) then
    let shifted_mass := nan_to_num (fdiv (fsub mass mmin) delta_m) in
    let shifted_mass := fclip (1 / 1000000) (1 - 1 / 1000000) shifted_mass in
    let exponent := fsub (fdiv (Fin 1) shifted_mass) (fdiv (Fin 1) (fsub (Fin 1) shifted_mass)) in
    let window := fexpit (fopp exponent) in
    fmul window (fmul (of_bool (fge mass mmin)) (of_bool (fle mass mmax)))
  else Fin 1.

(** The attributes of an instance (lines 562-570); [sm_masses] is the set of masses the attribute
    [_q_interpolant] was built for (line 655), [None] until the attribute exists. *)
Record smoothed := { sm_mmin : xf; sm_mmax : xf; sm_m1s : list xf; sm_qs : list xf;
                     sm_cache : bool; sm_masses : option (list xf) }.

(** mass.py lines 562-570: [m1s[1]] and [qs[1]] raise IndexError for grids shorter than 2 (lines 567-568). *)
Definition smoothed_init (mmin mmax : R) (shape : nat * nat) (cache : bool) : result smoothed :=
  if (Nat.ltb (fst shape) 2 || Nat.ltb (snd shape) 2)%bool then Err IndexError
  else Ok {| sm_mmin := Fin mmin; sm_mmax := Fin mmax;
             sm_m1s := xlinspace mmin mmax (fst shape); sm_qs := xlinspace (1 / 1000) 1 (snd shape);
             sm_cache := cache; sm_masses := None |}.

(** mass.py lines 648-657 *)
Definition cache_q_norms (masses : list xf) : ST smoothed unit := fun s =>
  ({| sm_mmin := sm_mmin s; sm_mmax := sm_mmax s; sm_m1s := sm_m1s s; sm_qs := sm_qs s;
      sm_cache := sm_cache s; sm_masses := Some masses |}, Ok tt).

(** [f(a, **kw1, **kw2)]: a repeated keyword raises TypeError (line 586). *)
Definition kw_merge {V} (kw1 kw2 : dict V) : result (dict V) :=
  if existsb (fun k => dmem k kw1) (dkeys kw2) then Err TypeError else Ok (kw1 ++ kw2)%list.

(** [x * (delta_m != 0) + 1 * (delta_m == 0)] (lines 609-611, 642-644) *)
Definition norm_or_one (norm delta_m : xf) : xf :=
  fadd (fmul (nan_to_num norm) (of_bool (fne delta_m (Fin 0)))) (fmul (Fin 1) (of_bool (feq delta_m (Fin 0)))).

Section Smoothed.
  Variable bk : backend.
  (** [self.__class__.primary_model(mass, **kwargs)] at one mass *)
  Variable primary_model : dict xf -> xf -> result xf.
  (** [self.kwargs] as a function of [self.mmax] (lines 558-560 and the subclasses) *)
  Variable self_kwargs : xf -> dict xf.
  Variable linterp : list xf -> list xf -> xf -> xf.

  (** lines 594-597 / 606-607 *)
  Definition smoothed_primary (self : smoothed) (kwargs : dict xf) (mmin delta_m : xf) (masses : list xf)
    : result (list xf) :=
    mapM (fun m => p <- primary_model kwargs m ;; Ok (fmul p (smoothing bk m mmin (sm_mmax self) delta_m))) masses.

  (** mass.py lines 601-612 *)
  Definition norm_p_m1 (self : smoothed) (delta_m : xf) (kwargs : dict xf) : result xf :=
    let mmin := dget_default "mmin" (sm_mmin self) kwargs in
    if negb (is_jax bk) && feq delta_m (Fin 0) then Ok (Fin 1)
    else
      p_m <- smoothed_primary self kwargs mmin delta_m (sm_m1s self) ;;
      Ok (norm_or_one (trapezoid p_m (sm_m1s self)) delta_m).

  (** mass.py lines 591-599 *)
  Definition p_m1 (self : smoothed) (dataset : dict (list xf)) (kwargs : dict xf) : result (list xf) :=
    let mmin := dget_default "mmin" (sm_mmin self) kwargs in
    let delta_m := dget_default "delta_m" (Fin 0) kwargs in
    let kwargs := ddel "delta_m" kwargs in
    mass_1 <- dlookup "mass_1" dataset ;;
    p_m <- smoothed_primary self kwargs mmin delta_m mass_1 ;;
    norm <- norm_p_m1 self delta_m kwargs ;;
    Ok (map (fun p => fdiv p norm) p_m).

  (** The unnormalised conditional density of the mass ratio at one point (lines 615-621, 637-640) *)
  Definition q_density (beta mmin delta_m m q : xf) : result xf :=
    p <- powerlaw bk [] q beta (Fin 1) (fdiv mmin m) ;;
    Ok (fmul p (smoothing bk (fmul m q) mmin m delta_m)).

  (** mass.py lines 637-644: the norm at every grid mass (trapezoid over the q axis) *)
  Definition q_norms (self : smoothed) (beta mmin delta_m : xf) : result (list xf) :=
    mapM (fun m => p_q <- mapM (q_density beta mmin delta_m m) (sm_qs self) ;;
                   Ok (norm_or_one (trapezoid p_q (sm_qs self)) delta_m)) (sm_m1s self).

  (** mass.py lines 635-646: [self._q_interpolant] raises AttributeError before it is set *)
  Definition norm_p_q (self : smoothed) (beta mmin delta_m : xf) : result (list xf) :=
    norms <- q_norms self beta mmin delta_m ;;
    match sm_masses self with
    | None => Err AttributeError
    | Some masses => Ok (map (linterp (sm_m1s self) norms) masses)
    end.

  (** line 629: the exceptions the handler catches *)
  Definition caught (e : exn) : bool :=
    match e with AttributeError | TypeError | ValueError => true | _ => false end.

  (** the statement [p_q /= self.norm_p_q(...)] (lines 625, 628, 631) *)
  Definition div_norm (p_q : list xf) (beta mmin delta_m : xf) : ST smoothed (list xf) :=
    self <~ sget ;;
    norms <~ slift (norm_p_q self beta mmin delta_m) ;;
    slift (bcast_into bk fdiv p_q norms).

  (** [mass_1 * mass_ratio] and the other broadcasts of lines 615-621 *)
  Definition q_unnormalised (mass_1 mass_ratio : list xf) (beta mmin delta_m : xf) : result (list xf) :=
    pairs <- bcast bk (fun m q => (m, q)) mass_1 mass_ratio ;;
    mapM (fun mq => q_density beta mmin delta_m (fst mq) (snd mq)) pairs.

  (** mass.py lines 614-633 *)
  Definition p_q (dataset : dict (list xf)) (beta mmin delta_m : xf) : ST smoothed (list xf) :=
    mass_ratio <~ slift (dlookup "mass_ratio" dataset) ;;
    mass_1 <~ slift (dlookup "mass_1" dataset) ;;
    pq <~ slift (q_unnormalised mass_1 mass_ratio beta mmin delta_m) ;;
    self <~ sget ;;
    let attempt := if sm_cache self then div_norm pq beta mmin delta_m
                   else _ <~ cache_q_norms mass_1 ;; div_norm pq beta mmin delta_m in
    res <~ (fun s => match attempt s with
                     | (s', Ok l) => (s', Ok l)
                     | (s', Err e) => if caught e then (_ <~ cache_q_norms mass_1 ;; div_norm pq beta mmin delta_m) s'
                                      else (s', Err e)
                     end) ;;
    sret (map nan_to_num res).

  (** mass.py lines 572-589 *)
  Definition smoothed_call (dataset : dict (list xf)) (kwargs : dict xf) : ST smoothed (list xf) :=
    beta <~ slift (dlookup "beta" kwargs) ;;
    let kwargs := ddel "beta" kwargs in
    self <~ sget ;;
    let mmin := dget_default "mmin" (sm_mmin self) kwargs in
    let mmax := dget_default "mmax" (sm_mmax self) kwargs in
    if negb (is_jax bk) && flt mmin (sm_mmin self) then sfail ValueError
    else if negb (is_jax bk) && fgt mmax (sm_mmax self) then sfail ValueError
    else
      let delta_m := dget_default "delta_m" (Fin 0) kwargs in
      kw <~ slift (kw_merge kwargs (self_kwargs (sm_mmax self))) ;;
      pm <~ slift (p_m1 self dataset kw) ;;
      pq <~ p_q dataset beta mmin delta_m ;;
      slift (bcast bk fmul pm pq).
End Smoothed.

(** ** The primary models called by keyword: a missing or unexpected keyword raises TypeError. *)
Definition kwbind (required optional : list string) (kw : dict xf) : result unit :=
  if forallb (fun k => dmem k kw) required
     && forallb (fun k => existsb (String.eqb k) (required ++ optional)%list) (dkeys kw)
  then Ok tt else Err TypeError.
Definition kwv (k : string) (kw : dict xf) : xf := dget_default k NaN kw.

(** mass.py lines 297-299: the signature of [two_component_single] *)
Definition two_component_args := ["alpha"; "mmin"; "mmax"; "lam"; "mpp"; "sigpp"].
Definition two_component_kw (bk : backend) (kw : dict xf) (m : xf) : result xf :=
  _ <- kwbind two_component_args ["gaussian_mass_maximum"] kw ;;
  two_component_single bk m (kwv "alpha" kw) (kwv "mmin" kw) (kwv "mmax" kw) (kwv "lam" kw) (kwv "mpp" kw)
    (kwv "sigpp" kw) (dget_default "gaussian_mass_maximum" (Fin 100) kw).

(** mass.py lines 335-347 *)
Definition three_component_args :=
  ["alpha"; "mmin"; "mmax"; "lam"; "lam_1"; "mpp_1"; "sigpp_1"; "mpp_2"; "sigpp_2"].
Definition three_component_kw (bk : backend) (kw : dict xf) (m : xf) : result xf :=
  _ <- kwbind three_component_args ["gaussian_mass_maximum"] kw ;;
  three_component_single bk m (kwv "alpha" kw) (kwv "mmin" kw) (kwv "mmax" kw) (kwv "lam" kw) (kwv "lam_1" kw)
    (kwv "mpp_1" kw) (kwv "sigpp_1" kw) (kwv "mpp_2" kw) (kwv "sigpp_2" kw)
    (dget_default "gaussian_mass_maximum" (Fin 100) kw).

(** mass.py line 38 *)
Definition double_power_law_args := ["alpha_1"; "alpha_2"; "mmin"; "mmax"; "break_fraction"].
Definition double_power_law_kw (bk : backend) (kw : dict xf) (m : xf) : result xf :=
  _ <- kwbind double_power_law_args [] kw ;;
  double_power_law_primary_mass bk m (kwv "alpha_1" kw) (kwv "alpha_2" kw) (kwv "mmin" kw) (kwv "mmax" kw)
    (kwv "break_fraction" kw).

(** mass.py lines 74-85 *)
Definition double_power_law_peak_args :=
  ["alpha_1"; "alpha_2"; "mmin"; "mmax"; "break_fraction"; "lam"; "mpp"; "sigpp"].
Definition double_power_law_peak_kw (bk : backend) (kw : dict xf) (m : xf) : result xf :=
  _ <- kwbind double_power_law_peak_args ["gaussian_mass_maximum"] kw ;;
  double_power_law_peak_primary_mass bk m (kwv "alpha_1" kw) (kwv "alpha_2" kw) (kwv "mmin" kw) (kwv "mmax" kw)
    (kwv "break_fraction" kw) (kwv "lam" kw) (kwv "mpp" kw) (kwv "sigpp" kw)
    (dget_default "gaussian_mass_maximum" (Fin 100) kw).

(** The classes of lines 687-841: primary model and [kwargs] property. *)
Inductive smoothed_class := SinglePeak | MultiPeak | BrokenPowerLaw | BrokenPowerLawPeak.
(** lines 721, 766, 798, 837 *)
Definition class_primary (c : smoothed_class) : backend -> dict xf -> xf -> result xf :=
  match c with
  | SinglePeak => two_component_kw | MultiPeak => three_component_kw
  | BrokenPowerLaw => double_power_law_kw | BrokenPowerLawPeak => double_power_law_peak_kw
  end.
(** lines 558-560, 723-725, 768-770, 839-841 *)
Definition class_kwargs (c : smoothed_class) (self_mmax : xf) : dict xf :=
  match c with BrokenPowerLaw => [] | _ => [("gaussian_mass_maximum", self_mmax)] end.
Definition class_call (c : smoothed_class) (bk : backend) (linterp : list xf -> list xf -> xf -> xf) :=
  smoothed_call bk (class_primary c bk) (class_kwargs c) linterp.

(** ** variable_names (mass.py lines 547-556)

    The primary model as an object: the names of its arguments ([inspect.getfullargspec(..).args], the mass
    first) and, if it has one, its own list attribute [variable_names]. *)
Record model_object := { mo_args : list string; mo_names : option (list string) }.
(** The getter: [vars += [...]] extends in place the list it got from the attribute (line 554); the
    result is a set, given here by a list of its elements. *)
Definition variable_names (fixed : list string) : ST model_object (list string) := fun mo =>
  match mo_names mo with
  | Some names =>
      let vars := (names ++ ["beta"; "delta_m"])%list in
      ({| mo_args := mo_args mo; mo_names := Some vars |},
       Ok (filter (fun v => negb (existsb (String.eqb v) fixed)) vars))
  | None =>
      let vars := (tl (mo_args mo) ++ ["beta"; "delta_m"])%list in
      (mo, Ok (filter (fun v => negb (existsb (String.eqb v) fixed)) vars))
  end.
(** The primary models of the classes as objects: plain functions, no attribute. *)
Definition class_object (c : smoothed_class) : model_object :=
  {| mo_args := "mass" :: match c with
      | SinglePeak => two_component_args ++ ["gaussian_mass_maximum"]
      | MultiPeak => three_component_args ++ ["gaussian_mass_maximum"]
      | BrokenPowerLaw => double_power_law_args
      | BrokenPowerLawPeak => double_power_law_peak_args ++ ["gaussian_mass_maximum"]
      end%list; mo_names := None |}.
