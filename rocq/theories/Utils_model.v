(** * Model of gwpopulation/utils.py *)
From Coq Require Import Reals String Bool.
From Coquelicot Require Import Coquelicot.
From Coq Require Import List.
From Verif Require Import Xf Py Special.
Import ListNotations.
Local Open Scope R_scope.

(** ** apply_conditions (utils.py lines 14-60)

    A condition is either a callable on the value (line 42) or a pair (op, val)
    (line 46) whose [op] may fail to be callable (lines 49, 54-55). Values are
    arrays, [xp.all] is [forallb] (line 50). *)
Inductive condition :=
  | CCallable (f : list xf -> bool)
  | COp (op : option (xf -> xf -> bool)) (val : xf).

(** utils.py lines 42-55: the check of one present keyword. *)
Definition check_one (c : condition) (value : list xf) : result unit :=
  match c with
  | CCallable f => if f value then Ok tt else Err ValueError
  | COp (Some op) val => if forallb (fun v => op v val) value then Ok tt else Err ValueError
  | COp None _ => Err ValueError
  end.

(** utils.py lines 37-55: conditions in dictionary order, absent keywords skipped. *)
Fixpoint check_conditions (conds : dict condition) (kwargs : dict (list xf)) : result unit :=
  match conds with
  | [] => Ok tt
  | (key, c) :: rest =>
      match dget key kwargs with
      | None => check_conditions rest kwargs
      | Some value => _ <- check_one c value ;; check_conditions rest kwargs
      end
  end.

(** utils.py lines 34-56: the wrapped function; [func] is the undecorated call. *)
Definition apply_conditions {A} (bk : backend) (conds : dict condition)
    (kwargs : dict (list xf)) (func : result A) : result A :=
  if is_jax bk then func
  else _ <- check_conditions conds kwargs ;; func.

(** The keyword arguments of a call: [kw] lists the names passed by keyword. *)
Definition kwargs_of (kw : list string) (args : dict xf) : dict (list xf) :=
  map (fun a => (fst a, [snd a])) (filter (fun a => existsb (String.eqb (fst a)) kw) args).

(** ** beta_dist (utils.py lines 63-94), at one point *)
Definition beta_dist_conds : dict condition :=
  [("alpha"%string, COp (Some fgt) (Fin 0)); ("beta"%string, COp (Some fgt) (Fin 0));
   ("scale"%string, COp (Some fgt) (Fin 0))].
Definition beta_dist_body (xx alpha beta scale : xf) : xf :=
  let ln_beta := fadd (fmul (fsub alpha (Fin 1)) (flog xx))
                      (fmul (fsub beta (Fin 1)) (flog (fsub scale xx))) in
  let ln_beta := fsub ln_beta (fbetaln alpha beta) in
  let ln_beta := fsub ln_beta (fmul (fsub (fadd alpha beta) (Fin 1)) (flog scale)) in
  let prob := fexp ln_beta in
  let prob := nan_to_num prob in
  fmul prob (fmul (of_bool (fge xx (Fin 0))) (of_bool (fle xx scale))).
Definition beta_dist (bk : backend) (kw : list string) (xx alpha beta scale : xf) : result xf :=
  apply_conditions bk beta_dist_conds
    (kwargs_of kw [("xx"%string, xx); ("alpha"%string, alpha); ("beta"%string, beta); ("scale"%string, scale)])
    (Ok (beta_dist_body xx alpha beta scale)).

(** ** powerlaw (utils.py lines 97-130), at one point.
    Bounds are numpy scalars/arrays (a Python float [low = 0.0] would raise
    ZeroDivisionError in [high / low], line 124; not modelled). *)
Definition powerlaw_conds : dict condition :=
  [("low"%string, COp (Some fge) (Fin 0)); ("alpha"%string, COp (Some fne) (Fin 1))].
Definition powerlaw_norm (alpha high low : xf) : xf :=
  if feq alpha (Fin (-1))
  then fdiv (Fin 1) (flog (fdiv high low))
  else fdiv (fadd (Fin 1) alpha)
            (fsub (fpow high (fadd (Fin 1) alpha)) (fpow low (fadd (Fin 1) alpha))).
Definition powerlaw_body (xx alpha high low : xf) : xf :=
  let norm := powerlaw_norm alpha high low in
  let prob := fpow xx alpha in
  let prob := fmul prob norm in
  fmul prob (of_bool (fle xx high && fge xx low)).
Definition powerlaw (bk : backend) (kw : list string) (xx alpha high low : xf) : result xf :=
  apply_conditions bk powerlaw_conds
    (kwargs_of kw [("xx"%string, xx); ("alpha"%string, alpha); ("high"%string, high); ("low"%string, low)])
    (Ok (powerlaw_body xx alpha high low)).

(** ** truncnorm (utils.py lines 133-183), at one point *)
Definition truncnorm_conds : dict condition := [("sigma"%string, COp (Some fgt) (Fin 0))].
(** lines 164-165 *)
Definition logsubexp (log_p log_q : xf) : xf :=
  fadd log_p (flog (fsub (Fin 1) (fexp (fsub log_q log_p)))).
(** lines 173-181 *)
Definition truncnorm_log_norm (aa bb : xf) : xf :=
  fselect
    [ (fle bb (Fin 0), logsubexp (flog_ndtr bb) (flog_ndtr aa));
      (fgt aa (Fin 0), logsubexp (flog_ndtr (fopp aa)) (flog_ndtr (fopp bb)));
      (fgt bb (Fin 0), flog1p (fsub (fopp (fndtr aa)) (fndtr (fopp bb)))) ]
    NaN.
Definition truncnorm_body (xx mu sigma high low : xf) : xf :=
  let zz := fdiv (fsub xx mu) sigma in
  let aa := fdiv (fsub low mu) sigma in
  let bb := fdiv (fsub high mu) sigma in
  let log_pdf := fsub (fsub (fdiv (fopp (fsq zz)) (Fin 2)) (Fin (ln (2 * PI) / 2))) (flog sigma) in
  let log_pdf := fsub log_pdf (truncnorm_log_norm aa bb) in
  fmul (fmul (nan_to_num (fexp log_pdf)) (of_bool (fge xx low))) (of_bool (fle xx high)).
Definition truncnorm (bk : backend) (kw : list string) (xx mu sigma high low : xf) : result xf :=
  apply_conditions bk truncnorm_conds
    (kwargs_of kw [("xx"%string, xx); ("mu"%string, mu); ("sigma"%string, sigma);
                   ("high"%string, high); ("low"%string, low)])
    (Ok (truncnorm_body xx mu sigma high low)).

(** ** unnormalized_2d_gaussian (utils.py lines 186-228), at one point *)
Definition unnormalized_2d_gaussian (xx yy mu_x mu_y sigma_x sigma_y covariance : xf) : xf :=
  let determinant := fmul (fmul (fsq sigma_x) (fsq sigma_y)) (fsub (Fin 1) covariance) in
  let residual_x := fmul (fsub mu_x xx) sigma_y in
  let residual_y := fmul (fsub mu_y yy) sigma_x in
  fexp (fdiv (fdiv (fopp (fsub (fadd (fsq residual_x) (fsq residual_y))
                               (fmul (fmul (fmul (Fin 2) residual_x) residual_y) covariance)))
                   (Fin 2))
             determinant).

(** ** von_mises (utils.py lines 231-258), at one point *)
Definition von_mises (xx mu kappa : xf) : xf :=
  fdiv (fexp (fmul kappa (fsub (fcos (fsub xx mu)) (Fin 1))))
       (fmul (fmul (Fin 2) (Fin PI)) (fi0e kappa)).

(** ** trapezoid (utils.py lines 321-348) along one axis with explicit abscissae.
    [np.trapezoid] sums (x[i+1]-x[i]) * (y[i+1]+y[i]) / 2; arrays of equal length
    are assumed. Arrays of any rank, the other arguments and the dispatch between the names
    [trapezoid] and [trapz] (lines 343-348) are in [Trap_model]. *)
Fixpoint trapezoid (y x : list xf) : xf :=
  match y, x with
  | y0 :: ((y1 :: _) as y'), x0 :: ((x1 :: _) as x') =>
      fadd (fdiv (fmul (fsub x1 x0) (fadd y1 y0)) (Fin 2)) (trapezoid y' x')
  | _, _ => Fin 0
  end.
