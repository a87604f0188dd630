(** * [beta_dist] of utils.py on binary64 numbers. Definitions only.

    The same lines as [Utils_model.beta_dist_body], on the IEEE-754 numbers of Flocq. The functions [exp] and [log] of the numerical library and [betaln] of its
    special functions are arguments. One element, hyper-parameters that are doubles; the conditions of the decorator are not repeated here. *)
From Coq Require Import Reals ZArith Bool.
From Flocq Require Import Core BinarySingleNaN.
From Verif Require Import Double_facts Rounded_model RoundedPl_model SpecHyper.

Section Beta.
  Variables exp64 log64 : b64 -> b64.
  Variable betaln64 : b64 -> b64 -> b64.

  (** utils.py lines 88-90. *)
  Definition ln_beta64 (xx alpha beta scale : b64) : b64 :=
    let ln_beta := Bplus mode_NE (Bmult mode_NE (Bminus mode_NE alpha one64) (log64 xx))
                                 (Bmult mode_NE (Bminus mode_NE beta one64) (log64 (Bminus mode_NE scale xx))) in
    let ln_beta := Bminus mode_NE ln_beta (betaln64 alpha beta) in
    Bminus mode_NE ln_beta (Bmult mode_NE (Bminus mode_NE (Bplus mode_NE alpha beta) one64) (log64 scale)).
  (** utils.py lines 91-94: the product of two booleans is a boolean, and multiplies as 1.0 or 0.0. *)
  Definition beta_dist64 (xx alpha beta scale : b64) : b64 :=
    let prob := nan_to_num_b zero64 (exp64 (ln_beta64 xx alpha beta scale)) in
    Bmult mode_NE prob (if (Bleb zero64 xx && Bleb xx scale)%bool then one64 else zero64).
End Beta.
