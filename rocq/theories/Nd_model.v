(** * Model of [powerlaw], [truncnorm] and [beta_dist] (gwpopulation/utils.py 63-183) for array arguments. Definitions only.

    Arguments are Python numbers, scalars of the library or arrays of any rank, holding integers or floats. What is computed at one element is
    in [Utils_model]; here are the shapes, the dtypes and the in-place operations. Calls are positional, so [apply_conditions] checks nothing
    (lines 39-42). Integer overflow is not modelled; a negative Python number to a fractional power is a complex number in Python, NaN here. *)
From Coq Require Import Reals List Bool Arith.
From Verif Require Import Xf Py Np Special Utils_model.
Import ListNotations.

(** A value: a Python number ([nd_py]) or an array (a scalar if the shape is empty), of integer or float dtype. The shape lists the axes from the
    last to the first, the order in which numpy aligns them. *)
Record nd (A : Type) := { nd_py : bool; nd_int : bool; nd_shape : list nat; nd_at : list nat -> A }.
Arguments nd_py {A} n.
Arguments nd_int {A} n.
Arguments nd_shape {A} n.
Arguments nd_at {A} n i.

(** A Python float. *)
Definition py_float (x : xf) : nd xf := {| nd_py := true; nd_int := false; nd_shape := []; nd_at := fun _ => x |}.
(** A Python int. *)
Definition py_int (x : xf) : nd xf := {| nd_py := true; nd_int := true; nd_shape := []; nd_at := fun _ => x |}.

(** The shape of the result of an element-wise operation. *)
Fixpoint bcast (s t : list nat) : option (list nat) :=
  match s, t with
  | [], _ => Some t
  | _, [] => Some s
  | n :: s', m :: t' =>
      match bcast s' t' with
      | None => None
      | Some u => if Nat.eqb n m then Some (n :: u) else if Nat.eqb n 1 then Some (m :: u) else if Nat.eqb m 1 then Some (n :: u) else None
      end
  end.
(** The element of an array of shape [s] used at index [i] of the result. *)
Fixpoint bidx (s i : list nat) : list nat :=
  match s, i with
  | n :: s', j :: i' => (if Nat.eqb n 1 then 0 else j) :: bidx s' i'
  | _, _ => []
  end.

Section Ops.
  Variable bk : backend.

  (** Element-wise functions of one and two values; [int] is the dtype of the result, [py] whether it is a Python number. *)
  Definition nmap {A B} (f : A -> B) (a : nd A) : nd B :=
    {| nd_py := false; nd_int := false; nd_shape := nd_shape a; nd_at := fun i => f (nd_at a i) |}.
  Definition nmap2 {A B C} (py int : bool) (f : A -> B -> C) (a : nd A) (b : nd B) : result (nd C) :=
    match bcast (nd_shape a) (nd_shape b) with
    | Some s => Ok {| nd_py := py; nd_int := int; nd_shape := s; nd_at := fun i => f (nd_at a (bidx (nd_shape a) i)) (nd_at b (bidx (nd_shape b) i)) |}
    | None => Err (shape_error bk)
    end.

  (** [a + b], [a - b], [a * b]: Python numbers give a Python number, integers an integer. *)
  Definition nop (f : xf -> xf -> xf) (a b : nd xf) : result (nd xf) :=
    nmap2 (nd_py a && nd_py b) (nd_int a && nd_int b) f a b.
  (** [a / b]: two Python numbers raise ZeroDivisionError. *)
  Definition ndivide (a b : nd xf) : result (nd xf) :=
    if nd_py a && nd_py b && feq (nd_at b []) (Fin 0) then Err ZeroDivisionError else nmap2 (nd_py a && nd_py b) false fdiv a b.

  (** All indices of a shape. *)
  Fixpoint indices (s : list nat) : list (list nat) :=
    match s with [] => [[]] | n :: s' => flat_map (fun j => map (cons j) (indices s')) (seq 0 n) end.
  (** [xp.power(a, b)]: integers to integer powers are integers, and a negative exponent raises ValueError (numpy's rule). *)
  Definition npower (a b : nd xf) : result (nd xf) :=
    r <- nmap2 false (nd_int a && nd_int b) fpow a b ;;
    if nd_int a && nd_int b && existsb (fun i => flt (nd_at b (bidx (nd_shape b) i)) (Fin 0)) (indices (nd_shape r)) then Err ValueError else Ok r.
  (** [a ** b]: for two Python numbers Python's power, otherwise [xp.power]. *)
  Definition npow (a b : nd xf) : result (nd xf) :=
    if nd_py a && nd_py b
    then if feq (nd_at a []) (Fin 0) && flt (nd_at b []) (Fin 0) then Err ZeroDivisionError
         else nmap2 true (nd_int a && nd_int b && negb (flt (nd_at b []) (Fin 0))) fpow a b
    else npower a b.

  (** [a op= b] for a result [a] of the library. jax arrays and numpy scalars are immutable: the name is bound to [a op b]. Arrays (on cupy also
      those without axes) are overwritten: the result must have their shape (ValueError) and dtype (a float does not go into an integer array:
      UFuncTypeError, a TypeError). *)
  Definition rebinds (a : nd xf) : bool := match bk with Jax => true | Numpy => match nd_shape a with [] => true | _ => false end | Cupy => false end.
  Definition iop {B} (int : bool) (f : xf -> B -> xf) (a : nd xf) (b : nd B) : result (nd xf) :=
    if rebinds a then nmap2 false (nd_int a && int) f a b
    else if nd_int a && negb int then Err TypeError
    else r <- nmap2 false (nd_int a) f a b ;;
         if list_eq_dec Nat.eq_dec (nd_shape r) (nd_shape a) then Ok r else Err ValueError.

  (** [xp.array(a)]. *)
  Definition asarray {A} (a : nd A) : nd A := {| nd_py := false; nd_int := nd_int a; nd_shape := nd_shape a; nd_at := nd_at a |}.
  (** [xp.where(c, a, b)] (all three are evaluated). *)
  Definition nwhere (c : nd bool) (a b : nd xf) : result (nd xf) :=
    ab <- nmap2 false false pair a b ;;
    nmap2 false false (fun (c : bool) (ab : xf * xf) => if c then fst ab else snd ab) c ab.

  (** utils.py 121-130: [powerlaw]. *)
  Definition powerlaw_nd (xx alpha high low : nd xf) : result (nd xf) :=
    ratio <- ndivide high low ;;
    a <- ndivide (py_int (Fin 1)) (nmap flog ratio) ;;
    one_plus <- nop fadd (py_int (Fin 1)) alpha ;;
    hp <- npow high one_plus ;;
    lp <- npow low one_plus ;;
    d <- nop fsub hp lp ;;
    b <- ndivide one_plus (asarray d) ;;
    norm <- nwhere (nmap (fun x => feq x (Fin (-1))) (asarray alpha)) a b ;;
    prob <- npower xx alpha ;;
    prob <- iop false fmul prob norm ;;
    below <- nmap2 false true fle xx high ;;
    above <- nmap2 false true fge xx low ;;
    inside <- nmap2 false true andb below above ;;
    iop true (fun p (c : bool) => fmul p (of_bool c)) prob inside.

  (** utils.py 164-183: [truncnorm]. [xp.select] is element-wise in its conditions and choices. *)
  Definition truncnorm_nd (xx mu sigma high low : nd xf) : result (nd xf) :=
    x_mu <- nop fsub xx mu ;; zz <- ndivide (asarray x_mu) sigma ;;
    l_mu <- nop fsub low mu ;; aa <- ndivide (asarray l_mu) sigma ;;
    h_mu <- nop fsub high mu ;; bb <- ndivide (asarray h_mu) sigma ;;
    log_pdf <- nmap2 false false fsub (nmap (fun z => fsub (fdiv (fopp (fsq z)) (Fin 2)) (Fin (ln (2 * PI) / 2)%R)) zz) (nmap flog sigma) ;;
    log_norm <- nmap2 false false truncnorm_log_norm aa bb ;;
    log_pdf <- iop false fsub log_pdf log_norm ;;
    above <- nmap2 false true fge xx low ;;
    below <- nmap2 false true fle xx high ;;
    p <- nmap2 false false (fun p (c : bool) => fmul p (of_bool c)) (nmap (fun l => nan_to_num (fexp l)) log_pdf) above ;;
    nmap2 false false (fun p (c : bool) => fmul p (of_bool c)) p below.

  (** utils.py 87-94: [beta_dist]. *)
  Definition beta_dist_nd (xx alpha beta scale : nd xf) : result (nd xf) :=
    a_1 <- nop fsub alpha (py_int (Fin 1)) ;;
    b_1 <- nop fsub beta (py_int (Fin 1)) ;;
    rest <- nop fsub scale xx ;;
    s <- nmap2 false false fmul a_1 (nmap flog xx) ;;
    t <- nmap2 false false fmul b_1 (nmap flog rest) ;;
    ln_beta <- nop fadd s t ;;
    norm <- nmap2 false false fbetaln alpha beta ;;
    ln_beta <- iop false fsub ln_beta norm ;;
    ab <- nop fadd alpha beta ;;
    ab_1 <- nop fsub ab (py_int (Fin 1)) ;;
    u <- nmap2 false false fmul ab_1 (nmap flog scale) ;;
    ln_beta <- iop false fsub ln_beta u ;;
    let prob := nmap (fun l => nan_to_num (fexp l)) ln_beta in
    below <- nmap2 false true fle xx scale ;;
    inside <- nmap2 false true (fun a b : bool => fmul (of_bool a) (of_bool b)) (nmap (fun x => fge x (Fin 0)) xx) below ;;
    iop true fmul prob inside.
End Ops.
