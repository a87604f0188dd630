(** * Model of gwpopulation/models/interped.py, of the spline spin models (spin.py lines 333-396) and of the
    spline-modulated power law (mass.py lines 844-952).

    [spl kind nodes values x] stands for the third-party interpolant of the given kind through the points
    (nodes, values), evaluated at [x] (interped.py lines 34-42): an argument of the model, a total function.
    The real constructor may reject node positions (unsorted, unequally spaced); those inputs are outside the model.
    Arrays hold floats: an integer array of node values would make the in-place rescaling of line 203 raise. *)
From Coq Require Import Reals String Ascii Bool Decimal DecimalString.
From Coq Require Import List.
From Verif Require Import Xf Py St Utils_model Np Mass_model Smoothed_model.
Import ListNotations.
Local Open Scope R_scope.
Local Open Scope string_scope.

(** The decimal representation of an index, [f"{ii}"]. *)
Definition str_nat (n : nat) : string := NilEmpty.string_of_uint (Nat.to_uint n).

(** [s.strip("_1")] (interped.py line 89) *)
Definition in_strip_set (c : ascii) : bool := (Ascii.eqb c "_" || Ascii.eqb c "1")%bool.
Fixpoint lstrip (s : string) : string :=
  match s with
  | EmptyString => EmptyString
  | String c s' => if in_strip_set c then lstrip s' else s
  end.
Fixpoint rstrip (s : string) : string :=
  match s with
  | EmptyString => EmptyString
  | String c s' => match rstrip s' with
                   | EmptyString => if in_strip_set c then EmptyString else String c EmptyString
                   | r => String c r
                   end
  end.
Definition strip_1 (s : string) : string := rstrip (lstrip s).

(** A caching interpolant: its kind, its nodes and the points it was built for (interped.py lines 39-43). *)
Record spline := { sp_kind : string; sp_nodes : list xf; sp_points : list xf }.

(** Which class the instance belongs to: it decides what [self.__init__(nodes=...)] does (line 258). *)
Inductive interp_class := NoBase | SpinMagnitude | SpinTilt.

(** The attributes of an instance (interped.py lines 79-92). *)
Record interp := { in_class : interp_class; in_nodes : nat; in_norm : option spline; in_data : dict spline;
                   in_kind : string; in_xs : list xf; in_params : list string; in_log : bool;
                   in_base : string; in_xkeys : list string; in_fkeys : list string; in_regularize : bool }.

(** interped.py lines 90-91 *)
Definition xkey (base : string) (i : nat) : string := base ++ str_nat i.
Definition fkey (base : string) (i : nat) : string := "f" ++ base ++ str_nat i.
Definition rmskey (base : string) : string := "rms" ++ base.

(** interped.py lines 69-92; [self.parameters[0]] raises IndexError for an empty list (line 89).
    The attributes [min] and [max] are never read. *)
Definition interp_init (c : interp_class) (parameters : list string) (minimum maximum : R) (nodes : nat)
    (kind : string) (log_nodes regularize : bool) : result interp :=
  match parameters with
  | [] => Err IndexError
  | p0 :: _ =>
      let base := strip_1 p0 in
      Ok {| in_class := c; in_nodes := nodes; in_norm := None; in_data := []; in_kind := kind;
            in_xs := xlinspace minimum maximum (10 * nodes); in_params := parameters; in_log := log_nodes;
            in_base := base; in_xkeys := map (xkey base) (seq 0 nodes); in_fkeys := map (fkey base) (seq 0 nodes);
            in_regularize := regularize |}
  end.

(** spin.py lines 354-363 *)
Definition spin_magnitude_init (minimum maximum : R) (nodes : nat) (kind : string) (regularize : bool) : result interp :=
  interp_init SpinMagnitude ["a_1"; "a_2"] minimum maximum nodes kind false regularize.
(** spin.py lines 387-396 *)
Definition spin_tilt_init (minimum maximum : R) (nodes : nat) (kind : string) (regularize : bool) : result interp :=
  interp_init SpinTilt ["cos_tilt_1"; "cos_tilt_2"] minimum maximum nodes kind false regularize.

(** [self.__init__(nodes=nodes)] (interped.py line 258): the base class lacks three required arguments, the spin classes
    take the defaults of spin.py lines 354 and 387 for everything else. *)
Definition reinit (c : interp_class) (nodes : nat) : result interp :=
  match c with
  | NoBase => Err TypeError
  | SpinMagnitude => spin_magnitude_init 0 1 nodes "cubic" false
  | SpinTilt => spin_tilt_init (-1) 1 nodes "cubic" false
  end.

(** interped.py lines 246-252: the loop, run at most [fuel] times *)
Fixpoint first_missing {V} (fuel : nat) (base : string) (nodes : nat) (kwargs : dict V) : nat :=
  match fuel with
  | O => nodes
  | S fuel' => if dmem (fkey base nodes) kwargs then first_missing fuel' base (S nodes) kwargs else nodes
  end.
(** interped.py lines 239-258. [S (length kwargs)] rounds are enough ([Interp_facts]); the message is not modelled. *)
Definition infer_n_nodes (kwargs : dict xf) : ST interp unit := fun self =>
  let nodes := first_missing (S (List.length kwargs)) (in_base self) (in_nodes self) kwargs in
  if Nat.eqb nodes (in_nodes self) then (self, Ok tt)
  else match reinit (in_class self) nodes with
       | Ok self' => (self', Ok tt)
       | Err e => (self, Err e)
       end.

(** interped.py lines 100-114 *)
Definition interp_variable_names (self : interp) : list string :=
  (in_xkeys self ++ in_fkeys self ++ (if in_regularize self then [rmskey (in_base self)] else []))%list.

(** interped.py lines 184-205: returns (f_splines, x_splines) *)
Definition extract_spline_points (self : interp) (kwargs : dict xf) : result (list xf * list xf) :=
  f_splines <- mapM (fun k => dlookup k kwargs) (in_fkeys self) ;;
  f_splines <- (if in_regularize self then
                  rms <- dlookup (rmskey (in_base self)) kwargs ;;
                  let factor := fdiv rms (fpow (fmean (map fsq f_splines)) (Fin (1 / 2))) in
                  Ok (map (fun f => fmul f factor) f_splines)
                else Ok f_splines) ;;
  x_splines <- mapM (fun k => dlookup k kwargs) (in_xkeys self) ;;
  Ok (f_splines, x_splines).

(** [func] of interped.py lines 117-120 *)
Definition node_scale (self : interp) (l : list xf) : list xf := if in_log self then map flog l else l.

Definition set_splines (norm : option spline) (data : dict spline) (self : interp) : interp :=
  {| in_class := in_class self; in_nodes := in_nodes self; in_norm := norm; in_data := data;
     in_kind := in_kind self; in_xs := in_xs self; in_params := in_params self; in_log := in_log self;
     in_base := in_base self; in_xkeys := in_xkeys self; in_fkeys := in_fkeys self; in_regularize := in_regularize self |}.

(** interped.py lines 116-126: [_norm_spline] is assigned before [values[param]] is looked up. *)
Definition setup_interpolant (nodes : list xf) (values : dict (list xf)) : ST interp unit := fun self =>
  let mk := fun points => {| sp_kind := in_kind self; sp_nodes := node_scale self nodes; sp_points := node_scale self points |} in
  let self1 := set_splines (Some (mk (in_xs self))) (in_data self) self in
  match mapM (fun param => v <- dlookup param values ;; Ok (param, mk v)) (in_params self) with
  | Ok data => (set_splines (in_norm self1) data self1, Ok tt)
  | Err e => (self1, Err e)
  end.

(** [x_splines[0]], [x_splines[-1]] (lines 156-157, 180) *)
Definition ends (x_splines : list xf) : result (xf * xf) :=
  match x_splines with [] => Err IndexError | x0 :: xs => Ok (x0, last xs x0) end.
(** the mask [(x >= x_splines[0]) & (x <= x_splines[-1])] *)
Definition in_range (lohi : xf * xf) (x : xf) : xf := of_bool (fge x (fst lohi) && fle x (snd lohi)).

Section Interp.
  Variable bk : backend.
  Variable spl : string -> list xf -> list xf -> xf -> xf.

  (** calling the caching interpolant with new node values (lines 153, 178) *)
  Definition spline_at (s : spline) (f_splines : list xf) : list xf :=
    map (spl (sp_kind s) (sp_nodes s) f_splines) (sp_points s).

  (** interped.py lines 128-159 *)
  Definition p_x_unnormed (dataset : dict (list xf)) (parameter : string) (x_splines f_splines : list xf)
    : ST interp (list xf) :=
    self <~ sget ;;
    _ <~ (match in_norm self with None => setup_interpolant x_splines dataset | Some _ => sret tt end) ;;
    self <~ sget ;;
    s <~ slift (dlookup parameter (in_data self)) ;;
    let p_x := map fexp (spline_at s f_splines) in
    x <~ slift (dlookup parameter dataset) ;;
    lohi <~ slift (ends x_splines) ;;
    slift (bcast_into bk fmul p_x (map (in_range lohi) x)).

  (** interped.py lines 161-182; calling [None] raises TypeError *)
  Definition norm_p_x (self : interp) (f_splines x_splines : list xf) : result xf :=
    match in_norm self with
    | None => Err TypeError
    | Some s =>
        lohi <- ends x_splines ;;
        p_x <- bcast_into bk fmul (map fexp (spline_at s f_splines)) (map (in_range lohi) (in_xs self)) ;;
        Ok (trapezoid p_x (in_xs self))
    end.

  (** interped.py lines 230-233 *)
  Fixpoint multiply_params (params : list string) (dataset : dict (list xf)) (x_splines f_splines p_x : list xf)
    : ST interp (list xf) :=
    match params with
    | [] => sret p_x
    | param :: rest =>
        v <~ p_x_unnormed dataset param x_splines f_splines ;;
        p_x <~ slift (bcast_into bk fmul p_x v) ;;
        multiply_params rest dataset x_splines f_splines p_x
    end.

  (** interped.py lines 207-237 ([__call__], lines 94-98, is the same function) *)
  Definition p_x_identical (dataset : dict (list xf)) (kwargs : dict xf) : ST interp (list xf) :=
    _ <~ infer_n_nodes kwargs ;;
    self <~ sget ;;
    fx <~ slift (extract_spline_points self kwargs) ;;
    p0 <~ slift (match in_params self with [] => Err IndexError | p :: _ => dlookup p dataset end) ;;
    p_x <~ multiply_params (in_params self) dataset (snd fx) (fst fx) (map (fun _ => Fin 1) p0) ;;
    self <~ sget ;;
    norm <~ slift (norm_p_x self (fst fx) (snd fx)) ;;
    sret (map (fun p => fdiv p (fpow norm (of_nat (List.length (in_params self))))) p_x).
End Interp.

(** ** The spline-modulated power law (mass.py lines 844-952)

    An instance carries the attributes of both parents. *)
Definition ipl := (smoothed * interp)%type.

(** mass.py lines 874-916; [_xs] is replaced by the mass grid (line 916). *)
Definition ipl_init (nodes : nat) (kind : string) (mmin mmax : R) (shape : nat * nat) (regularize : bool) : result ipl :=
  s <- smoothed_init mmin mmax shape true ;;
  i <- interp_init NoBase ["mass_1"] mmin mmax nodes kind true regularize ;;
  Ok (s, {| in_class := in_class i; in_nodes := in_nodes i; in_norm := in_norm i; in_data := in_data i;
            in_kind := in_kind i; in_xs := sm_m1s s; in_params := in_params i; in_log := in_log i;
            in_base := in_base i; in_xkeys := in_xkeys i; in_fkeys := in_fkeys i; in_regularize := in_regularize i |}).

(** Run a method of one parent on the whole instance. *)
Definition on_fst {S T A} (m : ST S A) : ST (S * T) A := fun st =>
  let (s', r) := m (fst st) in ((s', snd st), r).
Definition on_snd {S T A} (m : ST T A) : ST (S * T) A := fun st =>
  let (t', r) := m (snd st) in ((fst st, t'), r).

(** mass.py lines 918-923: a set, given by a list of its elements *)
Definition ipl_variable_names (self : ipl) : list string :=
  (["alpha"; "mmin"; "mmax"; "beta"; "delta_m"] ++ interp_variable_names (snd self))%list.

Section Ipl.
  Variable bk : backend.
  Variable spl : string -> list xf -> list xf -> xf -> xf.
  Variable linterp : list xf -> list xf -> xf -> xf.

  (** mass.py lines 931-933 and 944-946: the power law at every mass *)
  Definition ipl_powerlaw (kwargs : dict xf) (masses : list xf) : result (list xf) :=
    alpha <- dlookup "alpha" kwargs ;;
    mmin <- dlookup "mmin" kwargs ;;
    mmax <- dlookup "mmax" kwargs ;;
    mapM (fun m => power_law_mass bk m alpha mmin mmax) masses.

  (** mass.py lines 942-952 *)
  Definition ipl_norm_p_m1 (self : ipl) (delta_m : xf) (f_splines : list xf) (kwargs : dict xf) : result xf :=
    let m1s := sm_m1s (fst self) in
    let mmin := dget_default "mmin" (sm_mmin (fst self)) kwargs in
    p_m <- ipl_powerlaw kwargs m1s ;;
    p_m <- bcast_into bk fmul p_m
             (map (fun m => fpow (smoothing bk m mmin (sm_mmax (fst self)) delta_m) (of_bool (fgt delta_m (Fin 0)))) m1s) ;;
    match in_norm (snd self) with
    | None => Err TypeError
    | Some s => p_m <- bcast_into bk fmul p_m (map fexp (spline_at spl s f_splines)) ;;
                Ok (trapezoid p_m m1s)
    end.

  (** mass.py lines 925-940 *)
  Definition ipl_p_m1 (dataset : dict (list xf)) (kwargs : dict xf) : ST ipl (list xf) :=
    self <~ sget ;;
    fm <~ slift (extract_spline_points (snd self) kwargs) ;;
    let mmin := dget_default "mmin" (sm_mmin (fst self)) kwargs in
    let delta_m := dget_default "delta_m" (Fin 0) kwargs in
    let kwargs := ddel "delta_m" kwargs in
    mass_1 <~ slift (dlookup "mass_1" dataset) ;;
    p_m <~ slift (ipl_powerlaw kwargs mass_1) ;;
    p_m <~ slift (bcast_into bk fmul p_m (map (fun m => smoothing bk m mmin (sm_mmax (fst self)) delta_m) mass_1)) ;;
    p_x <~ on_snd (p_x_unnormed bk spl dataset "mass_1" (snd fm) (fst fm)) ;;
    p_m <~ slift (bcast_into bk fmul p_m p_x) ;;
    self <~ sget ;;
    norm <~ slift (ipl_norm_p_m1 self delta_m (fst fm) kwargs) ;;
    sret (map (fun p => fdiv p norm) p_m).

  (** mass.py lines 572-589 with the overridden [p_m1]; [self.kwargs] is empty (lines 558-560) *)
  Definition ipl_call (dataset : dict (list xf)) (kwargs : dict xf) : ST ipl (list xf) :=
    beta <~ slift (dlookup "beta" kwargs) ;;
    let kwargs := ddel "beta" kwargs in
    self <~ sget ;;
    let mmin := dget_default "mmin" (sm_mmin (fst self)) kwargs in
    let mmax := dget_default "mmax" (sm_mmax (fst self)) kwargs in
    if negb (is_jax bk) && flt mmin (sm_mmin (fst self)) then sfail ValueError
    else if negb (is_jax bk) && fgt mmax (sm_mmax (fst self)) then sfail ValueError
    else
      let delta_m := dget_default "delta_m" (Fin 0) kwargs in
      pm <~ ipl_p_m1 dataset kwargs ;;
      pq <~ on_fst (p_q bk linterp dataset beta mmin delta_m) ;;
      slift (bcast bk fmul pm pq).
End Ipl.
