(** * Vocabulary for data sets made of samples. *)
From Coq Require Import Reals String List.
From Verif Require Import Xf Py.
Import ListNotations.

(** The data set of the given samples: one array per column, with one number per sample. *)
Definition table {sample} (columns : dict (sample -> xf)) (samples : list sample) : dict (list xf) :=
  map (fun c => (fst c, map (snd c) samples)) columns.

(** Evaluating a model on a data set gives, sample by sample, what it gives for that sample alone: the result of a sample depends neither on the other samples nor
    on its position, and the evaluation of the data set fails exactly if that of one of its samples does. *)
Definition sample_by_sample (model : dict (list xf) -> result (list xf)) : Prop :=
  forall sample (columns : dict (sample -> xf)) (samples : list sample) (values : list xf), samples <> [] ->
  (model (table columns samples) = Ok values <-> Forall2 (fun s v => model (table columns [s]) = Ok [v]) samples values).
