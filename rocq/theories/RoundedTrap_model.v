(** * The trapezoid rule and the normalisation on a grid, on binary64 numbers. Definitions only.

    The same lines as [Utils_model.trapezoid] and the normalisations that divide by it, on the IEEE-754 binary64 numbers of Flocq (see Rounded_model.v).
    The sum at the end of the trapezoid rule is an arbitrary tree of additions ([order]), because numpy, cupy and jax add up in different orders. *)
From Coq Require Import Reals ZArith List.
From Flocq Require Import Core BinarySingleNaN.
From Verif Require Import Double_facts Rounded_model.
Import ListNotations.

(** utils.py lines 343-346: [xp.trapezoid(y, x=x)] is the sum of these terms, [diff(x) * (y[1:] + y[:-1]) / 2.0]. *)
Fixpoint trap_terms64 (y x : list b64) : list b64 :=
  match y, x with
  | y0 :: ((y1 :: _) as y'), x0 :: ((x1 :: _) as x') =>
      Bdiv mode_NE (Bmult mode_NE (Bminus mode_NE x1 x0) (Bplus mode_NE y1 y0)) (int64 2) :: trap_terms64 y' x'
  | _, _ => []
  end.

(** models/mass.py lines 609-611, 642-645 and 951, models/redshift.py lines 97 and 122, models/interped.py lines 181 and 236 (one parameter): the values are
    divided by the trapezoid integral of the values on the grid. [t] is the order in which the terms of that integral are added; the [nan_to_num] and the
    [delta_m == 0] branch of mass.py are in Smoothed_model.v and not repeated here. *)
Definition normalise64 (t : order) (p : list b64) : list b64 := map (fun v => Bdiv mode_NE v (sum64 t)) p.
