(** * Model of gwpopulation/vt.py. Definitions only.

    The population model is an argument: [prob data parameters] is [bilby.hyper.model.Model.prob]. *)
From Coq Require Import Reals List String Bool Arith.
From Verif Require Import Xf Py Utils_model Np Cosmo_model Redshift_model.
Import ListNotations.
Local Open Scope string_scope.

(** ** ResamplingVT *)

(** utils.py 281-296: [to_number(value, float)] gives a Python float on numpy and cupy, a jax scalar on jax; the number is unchanged.
    Division of Python floats raises ZeroDivisionError where arrays give inf or nan. (OverflowError of Python's [**] is not modelled: the
    finite numbers of the model are unbounded.) *)
Definition to_number (x : xf) : xf := x.
Definition float_div (bk : backend) (a b : xf) : result xf :=
  if is_jax bk then Ok (fdiv a b) else if feq b (Fin 0) then Err ZeroDivisionError else Ok (fdiv a b).

(** What a selection function returns: a value, or a value and a variance (hyperpe.py 219-226). *)
Inductive selection := Value (v : xf) | ValueAndVariance (v var : xf).

(** The dictionary of found injections: its columns and the two optional scalars (vt.py 154-155). *)
Record injections := { inj_data : dict (list xf); inj_total : option xf; inj_time : option xf }.

(** A [ResamplingVT] object. *)
Record resampling := {
  rv_data : dict (list xf); rv_n_events : xf; rv_total : xf; rv_time : xf;
  rv_redshift : option redshift; rv_marginalize : bool; rv_enforce : bool; rv_volume : option xf }.

(** vt.py 144-165 with 61-68: [__init__]. [models] are the functions of the population model, [Some r] for those that are redshift models;
    the last one is kept (159-161). [data["prior"]] is read even when "total_generated" is given (154). [dvc] is the Planck15 volume element. *)
Definition resampling_init (dvc : xf -> xf) (models : list (option redshift)) (data : injections)
  (n_events : xf) (marginalize_uncertainty enforce_convergence : bool) : result resampling :=
  prior <- dlookup "prior" (inj_data data) ;;
  let time := match inj_time data with Some t => t | None => Fin 1 end in
  let rm := fold_left (fun acc m => match m with Some r => Some r | None => acc end) models None in
  Ok {| rv_data := inj_data data; rv_n_events := n_events;
        rv_total := match inj_total data with Some n => n | None => Fin (INR (List.length prior)) end;
        rv_time := time; rv_redshift := rm; rv_marginalize := marginalize_uncertainty; rv_enforce := enforce_convergence;
        rv_volume := match rm with None => Some (total_four_volume dvc (Fin 0) time (23/10)) | Some _ => None end |}.

(** vt.py 197-206: [check_convergence]. *)
Definition check_convergence (v : resampling) (mu var : xf) : bool * xf :=
  let converged := fgt (fsq mu) (fmul (fmul (Fin 4) (rv_n_events v)) var) in
  (converged, nan_to_num_nan_posinf (Fin 0) PInf (fmul PInf (fsub (Fin 1) (of_bool converged)))).

Section Vt.
  Variable bk : backend.
  Variable prob : dict (list xf) -> dict xf -> result (list xf).

  (** vt.py 235-259: [detection_efficiency]. *)
  Definition detection_efficiency (v : resampling) (parameters : dict xf) : result (xf * xf) :=
    p <- prob (rv_data v) parameters ;;
    prior <- dlookup "prior" (rv_data v) ;;
    weights <- bcast bk fdiv p prior ;;
    let mu := to_number (fdiv (fsum weights) (rv_total v)) in
    let var := to_number (fsub (fdiv (fsum (map fsq weights)) (fsq (rv_total v))) (fdiv (fsq mu) (rv_total v))) in
    Ok (mu, var).

  (** vt.py 208-233: [vt_factor]. *)
  Definition vt_factor (v : resampling) (parameters : dict xf) : result xf :=
    '(mu, var) <- detection_efficiency v parameters ;;
    let correction := snd (check_convergence v mu var) in
    n_effective <- float_div bk (fsq mu) var ;;
    e <- float_div bk (fdiv (fadd (Fin 3) (rv_n_events v)) (Fin 2)) n_effective ;;
    Ok (fadd (fdiv mu (fexp e)) correction).

  (** vt.py 167-195: [__call__]. *)
  Definition resampling_call (v : resampling) (parameters : dict xf) : result selection :=
    if rv_marginalize v then rmap Value (vt_factor v parameters)
    else
      '(mu, var) <- detection_efficiency v parameters ;;
      let mu := if rv_enforce v then fadd mu (snd (check_convergence v mu var)) else mu in
      Ok (ValueAndVariance mu var).
End Vt.

(** vt.py 261-286: [surveyed_hypervolume]. *)
Definition surveyed_hypervolume (v : resampling) (parameters : dict xf) : result xf :=
  match rv_redshift v with
  | None => match rv_volume v with Some x => Ok x | None => Err AttributeError end
  | Some r =>
      n <- normalisation r parameters ;;
      Ok (fmul (fdiv n (Fin 1000000000)) (rv_time v))
  end.

(** ** GridVT *)

(** An n-dimensional array: its shape and the element at each multi-index. *)
Record array := { ar_shape : list nat; ar_at : list nat -> xf }.
Fixpoint indices (shape : list nat) : list (list nat) :=
  match shape with
  | [] => [[]]
  | n :: shape' => flat_map (fun i => map (cons i) (indices shape')) (seq 0 n)
  end.
Definition flatten (a : array) : list xf := map (ar_at a) (indices (ar_shape a)).

(** [numpy.unique]: sorted, without repetitions (arrays without NaN). *)
Fixpoint insert_unique (x : xf) (l : list xf) : list xf :=
  match l with
  | [] => [x]
  | y :: l' => if flt x y then x :: l else if feq x y then l else y :: insert_unique x l'
  end.
Definition unique (l : list xf) : list xf := fold_right insert_unique [] l.

(** [int(np.where(shape == n)[0][0])] (vt.py 93): the first axis of length [n]; IndexError if there is none. *)
Fixpoint first_axis (n i : nat) (shape : list nat) : result nat :=
  match shape with
  | [] => Err IndexError
  | m :: shape' => if Nat.eqb m n then Ok i else first_axis n (S i) shape'
  end.
(** Dictionaries with integer keys ([self.axes]). *)
Fixpoint iset {V} (k : nat) (v : V) (d : list (nat * V)) : list (nat * V) :=
  match d with
  | [] => [(k, v)]
  | (k', v') :: d' => if Nat.eqb k k' then (k', v) :: d' else (k', v') :: iset k v d'
  end.
Fixpoint iget {V} (k : nat) (d : list (nat * V)) : option V :=
  match d with
  | [] => None
  | (k', v) :: d' => if Nat.eqb k k' then Some v else iget k d'
  end.

Record gridvt := { gv_vts : array; gv_data : dict array; gv_values : dict (list xf); gv_axes : list (nat * string); gv_ndim : nat }.

(** vt.py 93: the dictionary comprehension; a later key on the same axis replaces the earlier one. *)
Fixpoint build_axes (shape : list nat) (values : dict (list xf)) (acc : list (nat * string)) : result (list (nat * string)) :=
  match values with
  | [] => Ok acc
  | (key, vals) :: values' =>
      i <- first_axis (List.length vals) 0 shape ;;
      build_axes shape values' (iset i key acc)
  end.

(** vt.py 87-94 with 61-68: [GridVT.__init__]. The second component is the caller's dictionary afterwards: [data.pop("vt")] (line 88) removes
    the entry from it. IndexError for a dictionary with no parameter (line 91). *)
Definition gridvt_init (data : dict array) : dict array * result gridvt :=
  match dget "vt" data with
  | None => (data, Err (KeyError "vt"))
  | Some vts =>
      let data' := ddel "vt" data in
      (data',
       let values := dmap (fun a => unique (flatten a)) data' in
       match data' with
       | [] => Err IndexError
       | (_, a) :: _ =>
           axes <- build_axes (ar_shape a) values [] ;;
           Ok {| gv_vts := vts; gv_data := data'; gv_values := values; gv_axes := axes; gv_ndim := List.length axes |}
       end)
  end.

(** [trapezoid(a, x, axis=-1)] (utils.py 321-345) on an n-dimensional array; the last axis must have the length of [x] (arrays of length-1 last
    axis, which numpy broadcasts, are not modelled: they raise here). *)
Definition trapezoid_last (bk : backend) (a : array) (x : list xf) : result array :=
  match rev (ar_shape a) with
  | [] => Err ValueError
  | n :: r =>
      if Nat.eqb n (List.length x) then
        Ok {| ar_shape := rev r; ar_at := fun idx => trapezoid (map (fun i => ar_at a (idx ++ [i])%list) (seq 0 n)) x |}
      else Err (shape_error bk)
  end.

(** vt.py 98-101: the loop, [ii] from 0 to [ndim - 1]; [n] is the number of iterations left, so the axis is [n - 1]. *)
Fixpoint integrate_axes (bk : backend) (g : gridvt) (n : nat) (a : array) : result array :=
  match n with
  | O => Ok a
  | S n' =>
      match iget n' (gv_axes g) with
      | None => Err (KeyError "")
      | Some key =>
          x <- dlookup key (gv_values g) ;;
          a' <- trapezoid_last bk a x ;;
          integrate_axes bk g n' a'
      end
  end.

(** vt.py 96-102: [GridVT.__call__]; the model's array and the sensitivity must have the same shape (broadcasting of different shapes not
    modelled). *)
Definition gridvt_call (bk : backend) (prob : dict array -> dict xf -> result array) (g : gridvt) (parameters : dict xf) : result array :=
  p <- prob (gv_data g) parameters ;;
  if list_eq_dec Nat.eq_dec (ar_shape p) (ar_shape (gv_vts g)) then
    integrate_axes bk g (gv_ndim g)
      {| ar_shape := ar_shape p; ar_at := fun idx => fmul (ar_at p idx) (ar_at (gv_vts g) idx) |}
  else Err (shape_error bk).
