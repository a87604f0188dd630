(** * Vocabulary for population model objects: what a model without any memory returns. *)
From Coq Require Import Reals String Bool.
From Coq Require Import List.
From Verif Require Import Xf Py Priors_model Cache_model.
Import ListNotations.

(** The product of the values of the functions at the data, from left to right; the first exception if there is one. *)
Fixpoint product {Data Arr} (times : Arr -> Arr -> Arr) (acc : Arr) (fs : list (model_function Data Arr)) (data : Data) (parameters : dict xf) : result Arr :=
  match fs with
  | [] => Ok acc
  | f :: fs' => v <- mf_call f data (given (mf_names f) parameters) ;; product times (times acc v) fs' data parameters
  end.

(** Parameters that can be compared with themselves. *)
Definition no_nan (parameters : dict xf) : Prop := Forall (fun kv => snd kv <> NaN) parameters.
