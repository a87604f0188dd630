(** * [powerlaw] of utils.py on binary64 numbers. Definitions only.

    The same lines as [Utils_model.powerlaw_body], on the IEEE-754 numbers of Flocq. [pow] is the library's [power] (also Python's [**]) and [log] its
    logarithm; they are arguments. One element of the array [xx], scalar hyper-parameters; the conditions of the decorator (lines 97, 14-61) are not repeated here. *)
From Coq Require Import Reals ZArith.
From Flocq Require Import Core BinarySingleNaN.
From Verif Require Import Double_facts Rounded_model.

Definition one64 : b64 := int64 1.
Definition zero64 : b64 := B754_zero false.
(** utils.py 120-124. *)
Definition powerlaw_norm64 (pow : b64 -> b64 -> b64) (log : b64 -> b64) (alpha high low : b64) : b64 :=
  if Beqb alpha (Bopp one64) then Bdiv mode_NE one64 (log (Bdiv mode_NE high low))
  else let e := Bplus mode_NE one64 alpha in Bdiv mode_NE e (Bminus mode_NE (pow high e) (pow low e)).
(** utils.py 125-128: multiplying by a boolean multiplies by 1.0 or 0.0. *)
Definition powerlaw64 (pow : b64 -> b64 -> b64) (log : b64 -> b64) (xx alpha high low : b64) : b64 :=
  let prob := Bmult mode_NE (pow xx alpha) (powerlaw_norm64 pow log alpha high low) in
  Bmult mode_NE prob (if (Bleb xx high && Bleb low xx)%bool then one64 else zero64).
