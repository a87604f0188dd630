(** * Model of automatic differentiation of the package's formulas on the jax backend. Definitions only.

    jax is not part of /repo; gwpopulation/experimental/jax.py and numpyro.py run the package under [jax.jit] and numpyro's samplers differentiate it.
    The formulas are those of utils.py 120-128 and 164-183, mass.py 659-684 and redshift.py 201-249. The rules for one operation are jax's: forward mode multiplies tangents ([jax.jvp]),
    reverse mode multiplies cotangents ([jax.grad]); an argument that does not depend on the variable has no tangent ([None], jax's symbolic zero). *)
From Coq Require Import Reals List String Bool Arith.
From Coquelicot Require Import Coquelicot.
From Coq Require Import List.
From Verif Require Import Xf Py Special Utils_model Redshift_model.
Import ListNotations.
Local Open Scope R_scope.

Inductive comparison := CEq | CLe | CGe | CGt.
Definition compare_with (c : comparison) : xf -> xf -> bool := match c with CEq => feq | CLe => fle | CGe => fge | CGt => fgt end.

(** Functions of one argument: [xp.exp], [x**2], [xp.log1p], [scs.ndtr], [scs.log_ndtr], [scs.expit], [xp.nan_to_num], [xp.clip] between constants. *)
Inductive primitive := PExp | PSquare | PLog1p | PNdtr | PLogNdtr | PExpit | PNanToNum | PClip (lo hi : R).
Definition prim_value (p : primitive) : xf -> xf :=
  match p with
  | PExp => fexp | PSquare => fsq | PLog1p => flog1p | PNdtr => fndtr | PLogNdtr => flog_ndtr | PExpit => fexpit | PNanToNum => nan_to_num
  | PClip lo hi => fclip lo hi
  end.
(** [min]/[max] pass the gradient to the argument that is the result, half of it each if they are equal. *)
Definition clip_mask (lo hi : R) (x : xf) : xf :=
  if feq x (Fin lo) || feq x (Fin hi) then Fin (1 / 2) else of_bool (fgt x (Fin lo) && flt x (Fin hi)).
(** jax's rules: what a tangent or cotangent [g] becomes when it passes the function at the point [x]. [ndtr] (erf and erfc in jax) is taken as one operation;
    [nan_to_num] selects constants at non-finite [x], so nothing passes there. *)
Definition prim_rule (p : primitive) (x g : xf) : xf :=
  match p with
  | PExp => fmul g (fexp x)
  | PSquare => fmul g (fmul (Fin 2) x)
  | PLog1p => fdiv g (fadd x (Fin 1))
  | PNdtr => fmul g (match x with Fin a => Fin (gauss a) | PInf | NInf => Fin 0 | NaN => NaN end)
  | PLogNdtr => fmul g (fexp (fsub (fsub (fdiv (fopp (fsq x)) (Fin 2)) (Fin (ln (2 * PI) / 2))) (flog_ndtr x)))
  | PExpit => fmul g (fmul (fexpit x) (fsub (Fin 1) (fexpit x)))
  | PNanToNum => if is_fin x then g else Fin 0
  | PClip lo hi => fmul g (clip_mask lo hi x)
  end.

(** Formulas: variables, constants, arithmetic, [xp.power] (also [**]), [xp.log], [xp.where] of a comparison, and two comparisons joined by [&] and used as a number. *)
Inductive formula :=
| EVar (i : nat) | ECon (x : xf)
| EAdd (a b : formula) | ESub (a b : formula) | EMul (a b : formula) | EDiv (a b : formula) | EPow (a b : formula) | ELog (a : formula) | ENeg (a : formula) | EPrim (p : primitive) (a : formula)
| EWhere (c : comparison) (a b : formula) (t f : formula)
| EMask (c : comparison) (a b : formula) (c' : comparison) (a' b' : formula).

Fixpoint value_of (env : nat -> xf) (e : formula) : xf :=
  match e with
  | EVar i => env i
  | ECon x => x
  | EAdd a b => fadd (value_of env a) (value_of env b)
  | ESub a b => fsub (value_of env a) (value_of env b)
  | EMul a b => fmul (value_of env a) (value_of env b)
  | EDiv a b => fdiv (value_of env a) (value_of env b)
  | EPow a b => fpow (value_of env a) (value_of env b)
  | ELog a => flog (value_of env a)
  | ENeg a => fopp (value_of env a)
  | EPrim p a => prim_value p (value_of env a)
  | EWhere c a b t f => if compare_with c (value_of env a) (value_of env b) then value_of env t else value_of env f
  | EMask c a b c' a' b' => of_bool (compare_with c (value_of env a) (value_of env b) && compare_with c' (value_of env a') (value_of env b'))
  end.

(** Sums of tangents, symbolic zeros left out. *)
Definition tadd (a b : option xf) : option xf :=
  match a, b with None, y => y | x, None => x | Some x, Some y => Some (fadd x y) end.
Definition tmap (f : xf -> xf) (a : option xf) : option xf := match a with Some x => Some (f x) | None => None end.
Definition instantiate (a : option xf) : xf := match a with Some x => x | None => Fin 0 end.

(** jax's derivatives of [power] with respect to base and exponent ([log] of a base 0 is replaced by [log 1]), and [integer_pow(y, -2)]. *)
Definition pow_base (x y : xf) : xf := if feq y (Fin 0) then Fin 0 else fmul y (fpow x (fsub y (Fin 1))).
Definition pow_exponent (x y : xf) : xf := fmul (flog (if feq x (Fin 0) then Fin 1 else x)) (fpow x y).
Definition minus_square (y : xf) : xf := fdiv (Fin 1) (fmul y y).

(** [jax.jvp]: the tangent of the formula for the tangent 1 of variable [j]. *)
Fixpoint forward (env : nat -> xf) (j : nat) (e : formula) : option xf :=
  let v := value_of env in
  match e with
  | EVar i => if Nat.eqb i j then Some (Fin 1) else None
  | ECon _ | EMask _ _ _ _ _ _ => None
  | EAdd a b => tadd (forward env j a) (forward env j b)
  | ESub a b => tadd (forward env j a) (tmap fopp (forward env j b))
  | EMul a b => tadd (tmap (fun g => fmul g (v b)) (forward env j a)) (tmap (fun g => fmul (v a) g) (forward env j b))
  | EDiv a b => tadd (tmap (fun g => fdiv g (v b)) (forward env j a))
                     (tmap (fun g => fmul (fmul (fopp g) (v a)) (minus_square (v b))) (forward env j b))
  | EPow a b => tadd (tmap (fun g => fmul g (pow_base (v a) (v b))) (forward env j a))
                     (tmap (fun g => fmul g (pow_exponent (v a) (v b))) (forward env j b))
  | ELog a => tmap (fun g => fdiv g (v a)) (forward env j a)
  | ENeg a => tmap fopp (forward env j a)
  | EPrim p a => tmap (prim_rule p (v a)) (forward env j a)
  | EWhere c a b t f =>
      match forward env j t, forward env j f with
      | None, None => None
      | dt, df => Some (if compare_with c (v a) (v b) then instantiate dt else instantiate df)
      end
  end.

(** [jax.grad]: the cotangent that variable [j] receives if the formula has cotangent [ct]; [None] if the formula does not depend on it. *)
Fixpoint reverse (env : nat -> xf) (j : nat) (e : formula) (ct : xf) : option xf :=
  let v := value_of env in
  match e with
  | EVar i => if Nat.eqb i j then Some ct else None
  | ECon _ | EMask _ _ _ _ _ _ => None
  | EAdd a b => tadd (reverse env j a ct) (reverse env j b ct)
  | ESub a b => tadd (reverse env j a ct) (reverse env j b (fopp ct))
  | EMul a b => tadd (reverse env j a (fmul ct (v b))) (reverse env j b (fmul (v a) ct))
  | EDiv a b => tadd (reverse env j a (fdiv ct (v b))) (reverse env j b (fopp (fmul (fmul ct (minus_square (v b))) (v a))))
  | EPow a b => tadd (reverse env j a (fmul ct (pow_base (v a) (v b)))) (reverse env j b (fmul ct (pow_exponent (v a) (v b))))
  | ELog a => reverse env j a (fdiv ct (v a))
  | ENeg a => reverse env j a (fopp ct)
  | EPrim p a => reverse env j a (prim_rule p (v a) ct)
  | EWhere c a b t f =>
      let chosen := compare_with c (v a) (v b) in
      tadd (reverse env j t (if chosen then ct else Fin 0)) (reverse env j f (if chosen then Fin 0 else ct))
  end.

(** utils.py 120-128: [powerlaw] with the variables 0 = xx, 1 = alpha, 2 = high, 3 = low. *)
Definition powerlaw_norm_formula : formula :=
  EWhere CEq (EVar 1) (ECon (Fin (-1)))
    (EDiv (ECon (Fin 1)) (ELog (EDiv (EVar 2) (EVar 3))))
    (EDiv (EAdd (ECon (Fin 1)) (EVar 1))
          (ESub (EPow (EVar 2) (EAdd (ECon (Fin 1)) (EVar 1))) (EPow (EVar 3) (EAdd (ECon (Fin 1)) (EVar 1))))).
Definition powerlaw_formula : formula :=
  EMul (EMul (EPow (EVar 0) (EVar 1)) powerlaw_norm_formula) (EMask CLe (EVar 0) (EVar 2) CGe (EVar 0) (EVar 3)).
Definition powerlaw_env (xx alpha high low : xf) (i : nat) : xf := match i with 0%nat => xx | 1%nat => alpha | 2%nat => high | _ => low end.

(** redshift.py 201-215 and 222-249: the rate evolutions with the variables 0 = redshift, 1 = lamb or gamma, 2 = kappa, 3 = z_peak. *)
Definition powerlaw_rate_formula : formula := EPow (EAdd (ECon (Fin 1)) (EVar 0)) (EVar 1).
Definition madau_formula : formula :=
  EMul (EDiv (EPow (EAdd (ECon (Fin 1)) (EVar 0)) (EVar 1))
             (EAdd (ECon (Fin 1)) (EPow (EDiv (EAdd (ECon (Fin 1)) (EVar 0)) (EAdd (ECon (Fin 1)) (EVar 3))) (EVar 2))))
       (EAdd (ECon (Fin 1)) (EPow (EAdd (ECon (Fin 1)) (EVar 3)) (ENeg (EVar 2)))).
Definition madau_env (z gamma kappa z_peak : xf) (i : nat) : xf := match i with 0%nat => z | 1%nat => gamma | 2%nat => kappa | _ => z_peak end.

(** utils.py 164-183: [truncnorm] with the variables 0 = xx, 1 = mu, 2 = sigma, 3 = high, 4 = low. [xp.select] is nested [where]; a mask with one comparison is joined with 0 <= 1. *)
Definition logsubexp_formula (log_p log_q : formula) : formula :=
  EAdd log_p (ELog (ESub (ECon (Fin 1)) (EPrim PExp (ESub log_q log_p)))).
Definition standard (i : nat) : formula := EDiv (ESub (EVar i) (EVar 1)) (EVar 2).
Definition truncnorm_log_norm_formula (aa bb : formula) : formula :=
  EWhere CLe bb (ECon (Fin 0)) (logsubexp_formula (EPrim PLogNdtr bb) (EPrim PLogNdtr aa))
    (EWhere CGt aa (ECon (Fin 0)) (logsubexp_formula (EPrim PLogNdtr (ENeg aa)) (EPrim PLogNdtr (ENeg bb)))
       (EWhere CGt bb (ECon (Fin 0)) (EPrim PLog1p (ESub (ENeg (EPrim PNdtr aa)) (EPrim PNdtr (ENeg bb)))) (ECon NaN))).
Definition mask (c : comparison) (a b : formula) : formula := EMask c a b CLe (ECon (Fin 0)) (ECon (Fin 1)).
Definition truncnorm_formula : formula :=
  let log_pdf := ESub (ESub (EDiv (ENeg (EPrim PSquare (standard 0))) (ECon (Fin 2))) (ECon (Fin (ln (2 * PI) / 2)))) (ELog (EVar 2)) in
  EMul (EMul (EPrim PNanToNum (EPrim PExp (ESub log_pdf (truncnorm_log_norm_formula (standard 4) (standard 3)))))
             (mask CGe (EVar 0) (EVar 4))) (mask CLe (EVar 0) (EVar 3)).
Definition truncnorm_env (xx mu sigma high low : xf) (i : nat) : xf := match i with 0%nat => xx | 1%nat => mu | 2%nat => sigma | 3%nat => high | _ => low end.

(** mass.py 675-682: the smoothing window on jax, with the variables 0 = mass, 1 = mmin, 2 = mmax, 3 = delta_m. *)
Definition window_formula : formula :=
  let shifted_mass := EPrim (PClip (1 / 1000000) (1 - 1 / 1000000)) (EPrim PNanToNum (EDiv (ESub (EVar 0) (EVar 1)) (EVar 3))) in
  let exponent := ESub (EDiv (ECon (Fin 1)) shifted_mass) (EDiv (ECon (Fin 1)) (ESub (ECon (Fin 1)) shifted_mass)) in
  EMul (EPrim PExpit (ENeg exponent)) (EMul (mask CGe (EVar 0) (EVar 1)) (mask CLe (EVar 0) (EVar 2))).
Definition window_env (mass mmin mmax delta_m : xf) (i : nat) : xf := match i with 0%nat => mass | 1%nat => mmin | 2%nat => mmax | _ => delta_m end.
