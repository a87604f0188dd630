(** * Specification vocabulary for stateful objects: the state reached by a history of calls. *)
From Coq Require Import List Reals.
From Verif Require Import Xf Py St.

(** The state reached from [s] by the calls of the history [h], in order; the outcomes are dropped. *)
Fixpoint run {S D K A : Type} (call : D -> K -> ST S A) (h : list (D * K)) (s : S) : S :=
  match h with
  | nil => s
  | cons c h' => run call h' (fst (call (fst c) (snd c) s))
  end.

(** Equality of extended numbers is decidable (classically). *)
Definition xeq_dec (x y : xf) : {x = y} + {x <> y}.
Proof.
  destruct x as [a| | |], y as [b| | |]; try (left; reflexivity); try (right; discriminate).
  destruct (Req_EM_T a b) as [->|H]; [now left|right; congruence].
Defined.
