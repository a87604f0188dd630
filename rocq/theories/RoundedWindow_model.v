(** * The low-mass smoothing window of mass.py on binary64 numbers. Definitions only.

    The same lines as [Smoothed_model.smoothing], on the IEEE-754 numbers of Flocq. [expit] is scipy's logistic function, an argument. One element of the
    array [masses], scalar hyper-parameters. *)
From Coq Require Import Reals ZArith Bool.
From Flocq Require Import Core BinarySingleNaN.
From Verif Require Import Double_facts Rounded_model RoundedPl_model SpecHyper.

(** The literal [1e-6] (the double nearest to one divided by the square of 1000) and [1 - 1e-6]. *)
Definition clip_low64 : b64 := Bdiv mode_NE one64 (square64 (int64 1000)).
Definition clip_high64 : b64 := Bminus mode_NE one64 clip_low64.
(** mass.py line 678: [xp.clip] of a number that is not NaN. *)
Definition clip64 (lo hi x : b64) : b64 := if Bltb x lo then lo else if Bltb hi x then hi else x.
(** mass.py lines 676-684; [jax] says whether the backend is jax. [SpecHyper.nan_to_num_b] is [xp.nan_to_num] on binary64 numbers. *)
Definition smoothing64 (jax : bool) (expit : b64 -> b64) (mass mmin mmax delta_m : b64) : b64 :=
  if jax || Bltb zero64 delta_m then
    let shifted_mass := nan_to_num_b zero64 (Bdiv mode_NE (Bminus mode_NE mass mmin) delta_m) in
    let shifted_mass := clip64 clip_low64 clip_high64 shifted_mass in
    let exponent := Bminus mode_NE (Bdiv mode_NE one64 shifted_mass) (Bdiv mode_NE one64 (Bminus mode_NE one64 shifted_mass)) in
    let window := expit (Bopp exponent) in
    Bmult mode_NE window (if Bleb mmin mass && Bleb mass mmax then one64 else zero64)
  else one64.
