(** * Vocabulary for the analysis of examples/GWTC3.ipynb. *)
From Coq Require Import Reals String Bool.
From Coq Require Import List.
From Verif Require Import Xf Py Hyperpe_model Redshift_model Example_model.
Import ListNotations.
Local Open Scope R_scope.

(** One binary, with the density it was sampled from. *)
Record binary := { m1 : R; ratio : R; spin1 : R; spin2 : R; tilt1 : R; tilt2 : R; z : R; sampling : R }.

(** A data set with one column per parameter, and the entries of one binary. *)
Definition columns (l : list binary) : dict (list xf) :=
  [("mass_1", map (fun s => Fin (m1 s)) l); ("mass_ratio", map (fun s => Fin (ratio s)) l); ("a_1", map (fun s => Fin (spin1 s)) l);
   ("a_2", map (fun s => Fin (spin2 s)) l); ("cos_tilt_1", map (fun s => Fin (tilt1 s)) l); ("cos_tilt_2", map (fun s => Fin (tilt2 s)) l);
   ("redshift", map (fun s => Fin (z s)) l); ("prior", map (fun s => Fin (sampling s)) l)]%string.
Definition posterior (l : list binary) : frame := {| fr_len := List.length l; fr_cols := columns l |}.
Definition entry (s : binary) (k : string) : xf := match dget k (columns [s]) with Some [x] => x | _ => NaN end.

(** Positive masses, redshift and sampling density, and a primary mass other than the minimum mass of the hyper-parameters. *)
Definition physical (parameters : dict xf) (s : binary) : Prop :=
  0 < m1 s /\ 0 < ratio s /\ 0 < z s /\ 0 < sampling s /\ dget "mmin" parameters <> Some (Fin (m1 s)).

(** [f] is the population density of the analysis at the hyper-parameters. *)
Definition population (bk : backend) (r : redshift) (parameters : dict xf) (f : binary -> R) : Prop :=
  forall s, physical parameters s -> notebook_point bk r (entry s) parameters = Ok (Fin (f s)) /\ 0 <= f s.

(** [K] of the samples of an event, at different positions. *)
Definition some_of (K : nat) (all drawn : list binary) : Prop :=
  exists positions, List.length positions = K /\ NoDup positions /\ Forall (fun j => j < List.length all)%nat positions /\
    Forall2 (fun j s => nth_error all j = Some s) positions drawn.
Definition weights (f : binary -> R) (l : list binary) : list R := map (fun s => f s / sampling s) l.
