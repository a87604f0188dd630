(** * Vocabulary for continuous dependence on hyper-parameters. *)
From Coq Require Import Reals String.
From Coquelicot Require Import Coquelicot.
From Coq Require Import List.
From Verif Require Import Xf Py Xf_facts Spec Vt_model Hyperpe_model SpecHyper.
Import ListNotations.
Local Open Scope R_scope.

(** Near the point [t] of the hyper-parameter space the calls return finite numbers, and these vary continuously at [t]. The space is arbitrary (uniform), so that several hyper-parameters can vary jointly. *)
Definition continuous_call {T : UniformSpace} (f : T -> result xf) (t : T) : Prop :=
  exists g : T -> R, locally t (fun u => returns (f u) (g u)) /\ continuous g t.

(** The values of functions of the hyper-parameters at [u]. *)
Definition at_point {T : Type} (F : list (T -> R)) (u : T) : list R := map (fun f => f u) F.
Definition rows_at {T : Type} (F : list (list (T -> R))) (u : T) : list (list R) := map (fun row => at_point row u) F.

(** The selection estimate with weights [w] out of [N] injections passes the convergence test for [n] events: its squared mean exceeds 4 n times its variance. *)
Definition selection_converged (w : list R) (N n : R) : Prop :=
  4 * n * (Rsum (squares w) / (N * N) - Rsum w / N * (Rsum w / N) / N) < Rsum w / N * (Rsum w / N).
