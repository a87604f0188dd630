(** * Vocabulary for draws from prior files. *)
From Coq Require Import Reals String Bool.
From Coq Require Import List.
From Verif Require Import Xf Py Priors_model.
Import ListNotations.
Local Open Scope R_scope.

(** The values a prior can produce. *)
Definition in_support (p : prior) (x : R) : Prop :=
  match p with Uniform a b => a <= x <= b | LogUniform a b => a <= x <= b | Fixed v => x = v end.

(** A draw from a prior file: one value for every name, in the order of the file, each in the support of its prior. *)
Definition draw_of (file : dict prior) (d : dict xf) : Prop :=
  Forall2 (fun e kv => fst kv = fst e /\ exists x, snd kv = Fin x /\ in_support (snd e) x) file d.

(** A particular draw: the lower end of every interval. *)
Definition low (p : prior) : R := match p with Uniform a _ => a | LogUniform a _ => a | Fixed v => v end.
Definition low_draw (file : dict prior) : dict xf := map (fun e => (fst e, Fin (low (snd e)))) file.

(** The value of a hyper-parameter, and the shape of a Gaussian. *)
Definition value (k : string) (parameters : dict xf) : R := match dget k parameters with Some (Fin x) => x | _ => 0 end.
Definition bell (mu sigma x : R) : R := exp (- (x - mu) ^ 2 / (2 * sigma ^ 2)).
