(** * Model of get_name, to_number and to_numpy (gwpopulation/utils.py 261-318) and of the likelihood's [meta_data] (hyperpe.py 422-430).
    Definitions only. *)
From Coq Require Import Reals List String Bool.
From Verif Require Import Xf Py Np Vt_model Hyperpe_model.
Import ListNotations.
Local Open Scope string_scope.

(** A Python value by the library that made it: a number, an array of one of the three libraries, a pandas object, anything else (a list, say). [A] is the contents. *)
Inductive pyvalue (A : Type) := PyNumber (x : xf) | PyArray (lib : backend) (a : A) | PyPandas (a : A) | PyOther.
Arguments PyNumber {A} x. Arguments PyArray {A} lib a. Arguments PyPandas {A} a. Arguments PyOther {A}.

(** utils.py 299-318: [xp] is the library selected now; only cupy has the function [asnumpy]. *)
Definition to_numpy {A} (xp : backend) (v : pyvalue A) : result (pyvalue A) :=
  match v with
  | PyNumber _ | PyArray Numpy _ => Ok v
  | PyArray Cupy a => match xp with Cupy => Ok (PyArray Numpy a) | _ => Err AttributeError end
  | PyPandas _ => Ok v
  | PyArray Jax a => Ok (PyArray Numpy a)
  | PyOther => Err TypeError
  end.

(** A model function or object: its [__name__] if it has one, and the name of its class (utils.py 261-278). *)
Record named := { nm_name : option string; nm_class : string }.
Definition get_name (x : named) : string := match nm_name x with Some n => n | None => nm_class x end.

(** What [meta_data] returns. *)
Record meta := { me_model : list string; me_data : dict (pyvalue matrix); me_n_events : nat; me_prior : pyvalue matrix; me_samples : nat }.

(** hyperpe.py 422-430: [lib] is the library selected when the likelihood was built (its arrays belong to it), [xp] the one selected now; [models] is [None] if the
    [hyper_prior] object has no attribute [models] (the constructor only asks for [parameters] and [prob], lines 113-123). *)
Definition meta_data (lib xp : backend) (models : option (list named)) (L : likelihood) : result meta :=
  match models with
  | None => Err AttributeError
  | Some l =>
      data <- mapM (fun kv : string * matrix => v <- to_numpy xp (PyArray lib (snd kv)) ;; Ok (fst kv, v)) (li_data L) ;;
      prior <- to_numpy xp (match li_prior L with Some q => PyArray lib q | None => PyNumber (Fin 1) end) ;;
      Ok {| me_model := map get_name l; me_data := data; me_n_events := li_n L; me_prior := prior; me_samples := li_samples L |}
  end.
