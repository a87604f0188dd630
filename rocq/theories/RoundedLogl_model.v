(** * The log-likelihood of hyperpe.py on binary64 numbers, from the weights to the number returned. Definitions only.

    Continues Rounded_model.v, where the weights are averaged. [log64] is the logarithm of the numerical library ([numpy.log], [cupy.log], [jax.numpy.log]):
    an argument. *)
From Coq Require Import Reals ZArith List.
From Flocq Require Import Core BinarySingleNaN.
From Verif Require Import Double_facts Rounded_model.
Import ListNotations.

Section Logl.
  Variable log64 : b64 -> b64.

  (** hyperpe.py line 204: [xp.log(expectation)] for every event; [events] are the weights of the events, [K] per event. *)
  Definition ln_bfs64 (K : nat) (events : list order) : list b64 := map (fun t => log64 (mean64 K t)) events.

  (** hyperpe.py line 212: [-self.n_posteriors * xp.log(selection)], where [selection] is the detection efficiency for [N] generated injections (vt.py line 255). *)
  Definition total_selection64 (n N : nat) (injections : order) : b64 := Bmult mode_NE (Bopp (int64 n)) (log64 (efficiency64 N injections)).

  (** hyperpe.py lines 171 and 177: the sum over the events, added up in the order [t] (whose summands are the [ln_bfs64]), plus the selection term. *)
  Definition ln_l64 (t : order) (n N : nat) (injections : order) : b64 := Bplus mode_NE (sum64 t) (total_selection64 n N injections).
End Logl.
