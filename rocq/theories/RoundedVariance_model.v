(** * The total variance of hyperpe.py on binary64 numbers. Definitions only.

    Continues Rounded_model.v, where the variances of the events and of the detection efficiency are computed. *)
From Coq Require Import Reals ZArith List.
From Flocq Require Import Core BinarySingleNaN.
From Verif Require Import Double_facts Rounded_model.

(** hyperpe.py line 214: [self.n_posteriors**2 * xp.divide(variance, selection**2)] for [n] events and [N] generated injections; the square of
    the integer [n] is converted to a double. *)
Definition selection_variance64 (n N : nat) (t t2 : order) : b64 :=
  Bmult mode_NE (int64 (n * n)) (Bdiv mode_NE (efficiency_variance64 N t t2) (square64 (efficiency64 N t))).

(** hyperpe.py lines 172 and 176: the sum of the events' variances, added up in the order [tv], plus the selection term. *)
Definition total_variance64 (tv : order) (n N : nat) (t t2 : order) : b64 := Bplus mode_NE (sum64 tv) (selection_variance64 n N t t2).
