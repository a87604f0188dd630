(** * Numbers of the model: exact reals extended with the IEEE special values.

    [Fin r] is a finite floating point number; finite arithmetic is exact (no
    rounding, no overflow, no underflow, no signed zero).  [PInf], [NInf] and
    [NaN] propagate as in IEEE-754 / C99 / numpy.  This file contains only
    definitions. *)
From Coq Require Import Reals ZArith List Bool.
From Coquelicot Require Import Coquelicot.
From Coq Require Import List.
Import ListNotations.
Local Open Scope R_scope.

Inductive xf := Fin (r : R) | PInf | NInf | NaN.

(** Boolean comparisons of reals. *)
Definition Rltb (a b : R) : bool := if Rlt_dec a b then true else false.
Definition Rleb (a b : R) : bool := if Rle_dec a b then true else false.
Definition Reqb (a b : R) : bool := if Req_EM_T a b then true else false.

Definition toR (x : xf) : R := match x with Fin r => r | _ => 0 end.
Definition is_fin (x : xf) : bool := match x with Fin _ => true | _ => false end.
Definition is_nan (x : xf) : bool := match x with NaN => true | _ => false end.

(** The largest finite binary64 number, [2^1024 - 2^971]; [np.nan_to_num(np.inf)]. *)
Definition MAXZ : Z := (2 ^ 1024 - 2 ^ 971)%Z.
Definition MAXF : R := IZR MAXZ.

(** A signed infinity from the sign of a (nonzero) real. *)
Definition inf_of_sign (a : R) : xf :=
  if Rltb 0 a then PInf else if Rltb a 0 then NInf else NaN.

Definition fopp (x : xf) : xf :=
  match x with Fin a => Fin (- a) | PInf => NInf | NInf => PInf | NaN => NaN end.

Definition fadd (x y : xf) : xf :=
  match x, y with
  | NaN, _ | _, NaN => NaN
  | Fin a, Fin b => Fin (a + b)
  | PInf, NInf | NInf, PInf => NaN
  | PInf, _ | _, PInf => PInf
  | NInf, _ | _, NInf => NInf
  end.

Definition fsub (x y : xf) : xf := fadd x (fopp y).

Definition fmul (x y : xf) : xf :=
  match x, y with
  | NaN, _ | _, NaN => NaN
  | Fin a, Fin b => Fin (a * b)
  | Fin a, PInf | PInf, Fin a => inf_of_sign a
  | Fin a, NInf | NInf, Fin a => fopp (inf_of_sign a)
  | PInf, PInf | NInf, NInf => PInf
  | PInf, NInf | NInf, PInf => NInf
  end.

(** Division; a zero divisor is taken to be [+0] (no signed zeros). *)
Definition fdiv (x y : xf) : xf :=
  match x, y with
  | NaN, _ | _, NaN => NaN
  | Fin a, Fin b => if Reqb b 0 then inf_of_sign a else Fin (a / b)
  | Fin _, _ => Fin 0
  | PInf, Fin b => if Rltb b 0 then NInf else PInf
  | NInf, Fin b => if Rltb b 0 then PInf else NInf
  | _, _ => NaN
  end.

(** Comparisons; every comparison with NaN is false (so [fne] is true). *)
Definition flt (x y : xf) : bool :=
  match x, y with
  | Fin a, Fin b => Rltb a b
  | NInf, Fin _ | NInf, PInf | Fin _, PInf => true
  | _, _ => false
  end.
Definition feq (x y : xf) : bool :=
  match x, y with
  | Fin a, Fin b => Reqb a b
  | PInf, PInf | NInf, NInf => true
  | _, _ => false
  end.
Definition fle (x y : xf) : bool := flt x y || feq x y.
Definition fgt (x y : xf) : bool := flt y x.
Definition fge (x y : xf) : bool := fle y x.
Definition fne (x y : xf) : bool := negb (feq x y).

Definition of_bool (b : bool) : xf := if b then Fin 1 else Fin 0.
Definition of_nat (n : nat) : xf := Fin (INR n).

Definition fabs (x : xf) : xf :=
  match x with Fin a => Fin (Rabs a) | PInf | NInf => PInf | NaN => NaN end.

Definition fexp (x : xf) : xf :=
  match x with Fin a => Fin (exp a) | PInf => PInf | NInf => Fin 0 | NaN => NaN end.

Definition flog (x : xf) : xf :=
  match x with
  | Fin a => if Rltb 0 a then Fin (ln a) else if Reqb a 0 then NInf else NaN
  | PInf => PInf
  | _ => NaN
  end.

(** [log1p x = log (1 + x)]. *)
Definition flog1p (x : xf) : xf := flog (fadd (Fin 1) x).

Definition fcos (x : xf) : xf := match x with Fin a => Fin (cos a) | _ => NaN end.

(** Integrality tests used by [pow] for negative bases. *)
Definition is_int (b : R) : bool := Reqb (IZR (Int_part b)) b.
Definition is_odd_int (b : R) : bool := is_int b && Z.odd (Int_part b).

(** C99 [pow] / [numpy.power] on floats. *)
Definition fpow (x y : xf) : xf :=
  if feq y (Fin 0) then Fin 1
  else if feq x (Fin 1) then Fin 1
  else match x, y with
  | NaN, _ | _, NaN => NaN
  | Fin a, Fin b =>
      if Rltb 0 a then Fin (Rpower a b)
      else if Reqb a 0 then (if Rltb 0 b then Fin 0 else PInf)
      else if is_int b
           then Fin (if is_odd_int b then - Rpower (- a) b else Rpower (- a) b)
           else NaN
  | Fin a, PInf =>
      if Reqb (Rabs a) 1 then Fin 1 else if Rltb (Rabs a) 1 then Fin 0 else PInf
  | Fin a, NInf =>
      if Reqb (Rabs a) 1 then Fin 1 else if Rltb (Rabs a) 1 then PInf else Fin 0
  | PInf, Fin b => if Rltb 0 b then PInf else Fin 0
  | PInf, PInf => PInf
  | PInf, NInf => Fin 0
  | NInf, Fin b =>
      if Rltb 0 b then (if is_odd_int b then NInf else PInf) else Fin 0
  | NInf, PInf => PInf
  | NInf, NInf => Fin 0
  end.

(** [x**2]; agrees with [fpow x (Fin 2)] (proved in [Xf_facts]). *)
Definition fsq (x : xf) : xf := fmul x x.

(** [np.nan_to_num(x)] with its default replacements, and with [nan=v]. *)
Definition nan_to_num_nan (v : xf) (x : xf) : xf :=
  match x with Fin a => Fin a | PInf => Fin MAXF | NInf => Fin (- MAXF) | NaN => v end.
Definition nan_to_num (x : xf) : xf := nan_to_num_nan (Fin 0) x.
(** [nan_to_num(x, nan=0, posinf=inf)] as used in [vt.py] line 205. *)
Definition nan_to_num_nan_posinf (vnan vpos : xf) (x : xf) : xf :=
  match x with Fin a => Fin a | PInf => vpos | NInf => Fin (- MAXF) | NaN => vnan end.

(** [np.clip(x, lo, hi)] for finite bounds; NaN is propagated. *)
Definition fclip (lo hi : R) (x : xf) : xf :=
  match x with
  | Fin a => if Rltb a lo then Fin lo else if Rltb hi a then Fin hi else Fin a
  | PInf => Fin hi
  | NInf => Fin lo
  | NaN => NaN
  end.

(** [np.select(conds, choices, default)] at one element: the first true condition wins. *)
Fixpoint fselect (cs : list (bool * xf)) (default : xf) : xf :=
  match cs with
  | [] => default
  | (c, v) :: cs' => if c then v else fselect cs' default
  end.

(** [np.sum] and [np.mean] of a one-dimensional array. *)
Definition fsum (l : list xf) : xf := fold_right fadd (Fin 0) l.
Definition fmean (l : list xf) : xf := fdiv (fsum l) (of_nat (length l)).

(** [scipy.special.expit]. *)
Definition fexpit (x : xf) : xf :=
  match x with Fin a => Fin (/ (1 + exp (- a))) | PInf => Fin 1 | NInf => Fin 0 | NaN => NaN end.

(** Simplification: unfold only on constructor arguments. *)
Arguments fopp !x.
Arguments fadd !x !y.
Arguments fsub !x !y.
Arguments fmul !x !y.
Arguments fdiv !x !y.
Arguments flt !x !y.
Arguments feq !x !y.
Arguments fexp !x.
Arguments flog !x.
Arguments nan_to_num_nan v !x.
Arguments nan_to_num !x.
Arguments fle : simpl never.
Arguments fgt : simpl never.
Arguments fge : simpl never.
Arguments fne : simpl never.
