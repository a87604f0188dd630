(** * [truncnorm] of utils.py on binary64 numbers. Definitions only.

    The same lines as [Utils_model.truncnorm_body], on the IEEE-754 numbers of Flocq. The functions [exp], [log], [log1p] of the numerical library and
    [ndtr], [log_ndtr] of its special functions, and the constant [np.log(2.0 * np.pi) / 2.0], are arguments. One element, scalar hyper-parameters; the
    conditions of the decorator are not repeated here. [x**2] is the rounded product. *)
From Coq Require Import Reals ZArith Bool.
From Flocq Require Import Core BinarySingleNaN.
From Verif Require Import Double_facts Rounded_model RoundedPl_model SpecHyper.

Section Truncnorm.
  Variables exp64 log64 log1p64 ndtr64 log_ndtr64 : b64 -> b64.
  Variable half_log_two_pi : b64.

  (** utils.py lines 164-165. *)
  Definition logsubexp64 (log_p log_q : b64) : b64 :=
    Bplus mode_NE log_p (log64 (Bminus mode_NE one64 (exp64 (Bminus mode_NE log_q log_p)))).
  (** utils.py lines 167-169: [xp.array(x - mu) / sigma]. *)
  Definition standard64 (x mu sigma : b64) : b64 := Bdiv mode_NE (Bminus mode_NE x mu) sigma.
  (** utils.py line 170. *)
  Definition log_pdf64 (zz sigma : b64) : b64 :=
    Bminus mode_NE (Bminus mode_NE (Bdiv mode_NE (Bopp (square64 zz)) (int64 2)) half_log_two_pi) (log64 sigma).
  (** utils.py lines 173-181. *)
  Definition log_norm64 (aa bb : b64) : b64 :=
    if Bleb bb zero64 then logsubexp64 (log_ndtr64 bb) (log_ndtr64 aa)
    else if Bltb zero64 aa then logsubexp64 (log_ndtr64 (Bopp aa)) (log_ndtr64 (Bopp bb))
    else if Bltb zero64 bb then log1p64 (Bminus mode_NE (Bopp (ndtr64 aa)) (ndtr64 (Bopp bb)))
    else B754_nan.
  (** utils.py lines 167-183. *)
  Definition truncnorm64 (xx mu sigma high low : b64) : b64 :=
    let zz := standard64 xx mu sigma in
    let aa := standard64 low mu sigma in
    let bb := standard64 high mu sigma in
    let log_pdf := Bminus mode_NE (log_pdf64 zz sigma) (log_norm64 aa bb) in
    Bmult mode_NE (Bmult mode_NE (nan_to_num_b zero64 (exp64 log_pdf)) (if Bleb low xx then one64 else zero64)) (if Bleb xx high then one64 else zero64).
End Truncnorm.
