(** * The beta-parameter conversions of conversions.py on binary64 numbers. Definitions only.

    The same lines as in Conversions_model, for scalars, on the IEEE-754 numbers of Flocq. [x**2] is the rounded product. *)
From Coq Require Import Reals ZArith Bool.
From Flocq Require Import Core BinarySingleNaN.
From Verif Require Import Double_facts Rounded_model RoundedPl_model.

(** conversions.py line 99: [alpha / (alpha + beta) * amax]. *)
Definition mu_of64 (alpha beta amax : b64) : b64 := Bmult mode_NE (Bdiv mode_NE alpha (Bplus mode_NE alpha beta)) amax.
(** conversions.py line 100: [alpha * beta / ((alpha + beta) ** 2 * (alpha + beta + 1)) * amax**2]. *)
Definition var_of64 (alpha beta amax : b64) : b64 :=
  let s := Bplus mode_NE alpha beta in
  Bmult mode_NE (Bdiv mode_NE (Bmult mode_NE alpha beta) (Bmult mode_NE (square64 s) (Bplus mode_NE s one64))) (square64 amax).
(** conversions.py lines 131-132: [mu /= amax; var /= amax**2]. *)
Definition unit_mu64 (mu amax : b64) : b64 := Bdiv mode_NE mu amax.
Definition unit_var64 (var amax : b64) : b64 := Bdiv mode_NE var (square64 amax).
(** conversions.py line 133: [(mu**2 * (1 - mu) - mu * var) / var]. *)
Definition alpha_of64 (mu var amax : b64) : b64 :=
  let m := unit_mu64 mu amax in let v := unit_var64 var amax in
  Bdiv mode_NE (Bminus mode_NE (Bmult mode_NE (square64 m) (Bminus mode_NE one64 m)) (Bmult mode_NE m v)) v.
(** conversions.py line 134: [(mu * (1 - mu) ** 2 - (1 - mu) * var) / var]. *)
Definition beta_of64 (mu var amax : b64) : b64 :=
  let m := unit_mu64 mu amax in let v := unit_var64 var amax in
  let o := Bminus mode_NE one64 m in
  Bdiv mode_NE (Bminus mode_NE (Bmult mode_NE m (square64 o)) (Bmult mode_NE o v)) v.
