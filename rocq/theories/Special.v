(** * Special functions of [scipy.special], defined mathematically as integrals.

    [scipy] is not part of /repo: these definitions are the assumed behaviour of
    [scs.ndtr], [scs.log_ndtr], [scs.betaln] and [scs.i0e] (trusted base). That
    [Phi] really is the Gaussian distribution function (increasing, limits 0 and 1)
    and that the Beta integral exists is proved in [Gauss_facts] and [Beta_facts]. *)
From Coq Require Import Reals.
From Coquelicot Require Import Coquelicot.
From Verif Require Import Xf.
Local Open Scope R_scope.

(** Standard normal density and distribution function. *)
Definition gauss (t : R) : R := exp (- (t * t) / 2) / sqrt (2 * PI).
Definition Phi (x : R) : R := 1 / 2 + RInt gauss 0 x.

Definition fndtr (x : xf) : xf :=
  match x with Fin a => Fin (Phi a) | PInf => Fin 1 | NInf => Fin 0 | NaN => NaN end.
Definition flog_ndtr (x : xf) : xf :=
  match x with Fin a => Fin (ln (Phi a)) | PInf => Fin 0 | NInf => NInf | NaN => NaN end.

(** Beta function as an improper integral over the open interval (0,1). *)
Definition Beta_integrand (a b t : R) : R := Rpower t (a - 1) * Rpower (1 - t) (b - 1).
Definition Beta_fun (a b : R) : R := RInt_gen (Beta_integrand a b) (at_right 0) (at_left 1).
(** Outside the domain [a, b > 0] scipy returns other values; the model returns NaN there
    and no theorem relies on it. *)
Definition fbetaln (x y : xf) : xf :=
  match x, y with
  | Fin a, Fin b => if andb (Rltb 0 a) (Rltb 0 b) then Fin (ln (Beta_fun a b)) else NaN
  | _, _ => NaN
  end.

(** Modified Bessel function of order 0 and its exponentially scaled version. *)
Definition I0 (k : R) : R := RInt (fun t => exp (k * cos t)) 0 PI / PI.
Definition fi0e (x : xf) : xf :=
  match x with Fin k => Fin (exp (- Rabs k) * I0 k) | PInf | NInf => Fin 0 | NaN => NaN end.
