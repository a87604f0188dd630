(** * Model of [trapezoid] and [to_number] (gwpopulation/utils.py 281-296, 321-348) for arrays of any rank. Definitions only.

    The wrapper passes its arguments to [xp.trapezoid] or [xp.trapz]; the two have the same meaning. Both are modelled the way numpy, cupy and jax compute
    them, from slices, a broadcast product and a sum along the axis. Abscissae are [None] or one-dimensional, as in every call of the package. *)
From Coq Require Import Reals ZArith List String Bool Arith.
From Verif Require Import Xf Py Np Vt_model Meta_model.
Import ListNotations.
Local Open Scope string_scope.

(** Python's [l[k] = v] for a position in range, [l] without position [k], and [l] with [v] put at position [k]. *)
Fixpoint set_at {A} (k : nat) (v : A) (l : list A) : list A :=
  match l, k with [], _ => [] | _ :: l', O => v :: l' | a :: l', S k' => a :: set_at k' v l' end.
Fixpoint drop_at {A} (k : nat) (l : list A) : list A :=
  match l, k with [], _ => [] | _ :: l', O => l' | a :: l', S k' => a :: drop_at k' l' end.
Fixpoint insert_at {A} (k : nat) (v : A) (l : list A) : list A :=
  match k, l with S k', a :: l' => a :: insert_at k' v l' | _, _ => v :: l end.

(** The axis as a position: negative values count from the end; out of range raises (numpy: IndexError from the assignment to the list of slices;
    [AxisError] of the other libraries is an IndexError too). *)
Definition axis_of (ndim : nat) (axis : Z) : result nat :=
  if (Z.leb 0 axis && Z.ltb axis (Z.of_nat ndim))%bool then Ok (Z.to_nat axis)
  else if (Z.ltb axis 0 && Z.leb (- Z.of_nat ndim) axis)%bool then Ok (Z.to_nat (axis + Z.of_nat ndim))
  else Err IndexError.

(** [y[..., 1:, ...]] and [y[..., :-1, ...]] at one axis. *)
Definition tail_along (k : nat) (a : array) : array :=
  {| ar_shape := set_at k (pred (nth k (ar_shape a) 0)) (ar_shape a); ar_at := fun i => ar_at a (set_at k (S (nth k i 0)) i) |}.
Definition init_along (k : nat) (a : array) : array :=
  {| ar_shape := set_at k (pred (nth k (ar_shape a) 0)) (ar_shape a); ar_at := ar_at a |}.

(** Broadcasting of two arrays of the same rank: an axis of length 1 is repeated. *)
Fixpoint bshape (s t : list nat) : option (list nat) :=
  match s, t with
  | [], [] => Some []
  | n :: s', m :: t' =>
      match bshape s' t' with
      | None => None
      | Some u => if Nat.eqb n m then Some (n :: u) else if Nat.eqb n 1 then Some (m :: u) else if Nat.eqb m 1 then Some (n :: u) else None
      end
  | _, _ => None
  end.
Fixpoint bindex (s i : list nat) : list nat :=
  match s, i with
  | n :: s', j :: i' => (if Nat.eqb n 1 then 0 else j) :: bindex s' i'
  | _, _ => []
  end.
Definition bmap2 (bk : backend) (f : xf -> xf -> xf) (a b : array) : result array :=
  match bshape (ar_shape a) (ar_shape b) with
  | Some s => Ok {| ar_shape := s; ar_at := fun i => f (ar_at a (bindex (ar_shape a) i)) (ar_at b (bindex (ar_shape b) i)) |}
  | None => Err (shape_error bk)
  end.
(** [a.sum(axis)]. *)
Definition sum_along (k : nat) (a : array) : array :=
  {| ar_shape := drop_at k (ar_shape a); ar_at := fun i => fsum (map (fun j => ar_at a (insert_at k j i)) (seq 0 (nth k (ar_shape a) 0))) |}.
(** [diff(x)] reshaped to rank [ndim] along axis [k]. *)
Definition spacing (ndim k : nat) (x : list xf) : array :=
  {| ar_shape := set_at k (pred (List.length x)) (repeat 1 ndim);
     ar_at := fun i => fsub (nth (S (nth k i 0)) x NaN) (nth (nth k i 0) x NaN) |}.
(** The library function with [x=None] ([d = dx]) or one-dimensional [x]. *)
Definition xp_trapezoid (bk : backend) (y : array) (x : option (list xf)) (dx : xf) (axis : Z) : result array :=
  k <- axis_of (List.length (ar_shape y)) axis ;;
  s <- bmap2 bk fadd (tail_along k y) (init_along k y) ;;
  p <- (match x with
        | None => Ok {| ar_shape := ar_shape s; ar_at := fun i => fmul dx (ar_at s i) |}
        | Some x => bmap2 bk fmul (spacing (List.length (ar_shape y)) k x) s
        end) ;;
  Ok (sum_along k {| ar_shape := ar_shape p; ar_at := fun i => fdiv (ar_at p i) (Fin 2) |}).

(** utils.py 321-348: [trapezoid]; [has] tells which functions the selected library has. *)
Definition trapezoid_nd (has : string -> bool) (bk : backend) (y : array) (x : option (list xf)) (dx : xf) (axis : Z) : result array :=
  if has "trapezoid" then xp_trapezoid bk y x dx axis
  else if has "trapz" then xp_trapezoid bk y x dx axis
  else Err NotImplementedError.

(** utils.py 281-296: [to_number(value, float)]. On jax the method [astype] of numpy and jax values; Python numbers, pandas objects and others have no such method here
    (pandas objects do; they are not passed). On numpy and cupy [float(value)]: arrays of more than one element raise TypeError. The number itself is unchanged. *)
Definition to_number_any (xp : backend) (v : pyvalue array) : result (pyvalue array) :=
  match xp, v with
  | Jax, PyArray lib a => Ok (PyArray lib a)
  | Jax, _ => Err AttributeError
  | _, PyNumber x => Ok (PyNumber x)
  | _, PyArray _ a => if Nat.eqb (fold_right Nat.mul 1 (ar_shape a)) 1 then Ok (PyNumber (ar_at a (map (fun _ => 0) (ar_shape a)))) else Err TypeError
  | _, _ => Err TypeError
  end.
