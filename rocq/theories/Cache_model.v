(** * Model of the population model object that the likelihood and the selection function call: [bilby.hyper.model.Model].

    bilby is not part of /repo. /repo relies on this behaviour in gwpopulation/experimental/cosmo_models.py lines 120-126 and 137 (caching is
    switched off because the data change), examples/GWTC3.ipynb ("these cache some computations internally") and test/example_test.py lines
    24-46 (a [cache] argument, two objects). With [cache] each function's last parameters and value are kept; the data are not part of the key. *)
From Coq Require Import Reals String Bool.
From Coq Require Import List.
From Verif Require Import Xf Py Np Hyperpe_model Vt_model Priors_model.
Import ListNotations.
Local Open Scope string_scope.

(** Comparison of two parameter dictionaries built from the same list of names. *)
Fixpoint same_parameters (a b : dict xf) : bool :=
  match a, b with
  | [], [] => true
  | (k, x) :: a', (k', y) :: b' => String.eqb k k' && feq x y && same_parameters a' b'
  | _, _ => false
  end.

Section Model.
  Variables (Data Arr : Type) (one : Arr) (times : Arr -> Arr -> Arr).

  (** A function of the model: the names it asks for and its value. *)
  Record model_function := { mf_names : list string; mf_call : Data -> dict xf -> result Arr }.
  (** What is kept for a function: the parameters of the last evaluation and its value. *)
  Definition slot : Type := option (dict xf * Arr).

  (** One function: the kept value if the parameters are those of the last evaluation, otherwise a call. An exception leaves the slot alone. *)
  Definition call_function (cache : bool) (f : model_function) (s : slot) (data : Data) (parameters : dict xf) : result Arr * slot :=
    let kw := given (mf_names f) parameters in
    match s with
    | Some (last, v) => if cache && same_parameters last kw then (Ok v, s)
                        else match mf_call f data kw with Ok w => (Ok w, if cache then Some (kw, w) else s) | Err e => (Err e, s) end
    | None => match mf_call f data kw with Ok w => (Ok w, if cache then Some (kw, w) else s) | Err e => (Err e, s) end
    end.

  (** [Model.prob]: the product over the functions; an exception ends the loop. *)
  Fixpoint model_prob (cache : bool) (fs : list model_function) (slots : list slot) (acc : Arr) (data : Data) (parameters : dict xf) : result Arr * list slot :=
    match fs, slots with
    | f :: fs', s :: slots' =>
        match call_function cache f s data parameters with
        | (Ok v, s') => let '(r, rest) := model_prob cache fs' slots' (times acc v) data parameters in (r, s' :: rest)
        | (Err e, s') => (Err e, s' :: slots')
        end
    | _, _ => (Ok acc, slots)
    end.
  Definition fresh (fs : list model_function) : list slot := map (fun _ => None) fs.

  (** A sequence of evaluations of one object. *)
  Fixpoint model_history (cache : bool) (fs : list model_function) (slots : list slot) (calls : list (Data * dict xf)) : list (result Arr) * list slot :=
    match calls with
    | [] => ([], slots)
    | (data, parameters) :: calls' =>
        let '(r, slots') := model_prob cache fs slots one data parameters in
        let '(rs, slots'') := model_history cache fs slots' calls' in (r :: rs, slots'')
    end.
End Model.
Arguments mf_names {Data Arr}. Arguments mf_call {Data Arr}. Arguments fresh {Data Arr}.
Arguments model_prob {Data Arr}. Arguments model_history {Data Arr}.

(** The product of two-dimensional arrays of the same shape, and of one-dimensional ones (1 is a number and broadcasts: [None]). *)
Definition times_matrix (a b : option matrix) : option matrix :=
  match a, b with Some x, Some y => Some (zipWith (zipWith fmul) x y) | None, y => y | x, None => x end.
Definition times_list (a b : option (list xf)) : option (list xf) :=
  match a, b with Some x, Some y => Some (zipWith fmul x y) | None, y => y | x, None => x end.
Definition got {A} (r : result (option A)) : result A :=
  match r with Ok (Some a) => Ok a | Ok None => Err TypeError | Err e => Err e end.

(** hyperpe.py lines 163-184 with vt.py 167-259, the two model objects having state: the events' object is evaluated first; the selection's
    object is not evaluated if that raises. The value is that of [log_likelihood_ratio] with the two arrays just obtained. *)
Section Likelihood.
  Variables (bk : backend) (cache : bool).
  Variables (events_model : list (model_function (dict matrix) (option matrix))) (selection_model : list (model_function (dict (list xf)) (option (list xf)))).
  Variables (L : likelihood) (V : resampling).
  Definition model_state : Type := list (slot (option matrix)) * list (slot (option (list xf))).
  Definition evaluate (st : model_state) (parameters : dict xf) : result xf * model_state :=
    let '(pe, se) := model_prob times_matrix cache events_model (fst st) None (li_data L) parameters in
    match pe with
    | Err e => (Err e, (se, snd st))
    | Ok _ =>
        let '(pi, si) := model_prob times_list cache selection_model (snd st) None (rv_data V) parameters in
        (log_likelihood_ratio bk (fun _ _ => got pe) (resampling_call bk (fun _ _ => got pi) V) Ok L parameters, (se, si))
    end.
  Fixpoint evaluations (st : model_state) (calls : list (dict xf)) : list (result xf) :=
    match calls with [] => [] | parameters :: calls' => let '(r, st') := evaluate st parameters in r :: evaluations st' calls' end.
End Likelihood.
