(** Property theorems (cache). Proofs are in [cache_thms]; the vocabulary is in [Spec]. *)
From Coq Require Import Reals Lra Lia Psatz String Bool.
From Coq Require Import List.
From Verif Require Import Xf Py Xf_facts Py_facts Np Hyperpe_model Vt_model Priors_model Cache_model SpecCache.
Import ListNotations.
Local Open Scope R_scope.
From Verif Require Import cache_thms.

(** C135. Without caching a model object has no memory: in every sequence of evaluations, on any data sets and with any parameters, each result is the product of the functions' values at that call's data and parameters. *)
Theorem C135_uncached :
  forall Data Arr (one : Arr) times (fs : list (model_function Data Arr)) calls,
  fst (model_history one times false fs (fresh fs) calls) = map (fun call => product times one fs (fst call) (snd call)) calls.
Proof. exact C135_uncached_pf. Qed.
Print Assumptions C135_uncached.

(** C135. With caching (the default of the model object), an object that is only ever evaluated on one data set still returns what an object without memory does, in every sequence of evaluations, failing ones included. *)
Theorem C135_one_data_set :
  forall Data Arr (one : Arr) times (fs : list (model_function Data Arr)) data parameters,
  fst (model_history one times true fs (fresh fs) (map (fun p => (data, p)) parameters)) = map (product times one fs data) parameters.
Proof. exact C135_one_data_set_pf. Qed.
Print Assumptions C135_one_data_set.

(** C135. The likelihood: with two model objects, one for the events and one for the injections, caching or not, every sequence of evaluations of log_likelihood_ratio returns at each step what a likelihood built from
    models without memory returns for that step's parameters: earlier evaluations, successful or failed, have no influence. *)
Theorem C135_likelihood :
  forall bk cache events_model selection_model L V calls,
  evaluations bk cache events_model selection_model L V (fresh events_model, fresh selection_model) calls =
  map (fun parameters => log_likelihood_ratio bk (fun data p => got (product times_matrix None events_model data p))
                           (resampling_call bk (fun data p => got (product times_list None selection_model data p)) V) Ok L parameters) calls.
Proof. exact C135_likelihood_pf. Qed.
Print Assumptions C135_likelihood.

(** C135 is false for a caching model object shared between two data sets, as when one object is given to both the likelihood and the selection function: after an evaluation on one data set, the evaluation on any other
    data set with the same parameters (none of them NaN) returns the first data set's values, whatever the functions are. *)
Theorem C135_shared_refuted :
  forall Data Arr (one : Arr) times (fs : list (model_function Data Arr)) data data' parameters v, no_nan parameters -> product times one fs data parameters = Ok v ->
  fst (model_history one times true fs (fresh fs) [(data, parameters); (data', parameters)]) = [Ok v; Ok v].
Proof. exact C135_shared_refuted_pf. Qed.
Print Assumptions C135_shared_refuted.

(** A model of one function, the linear density 2x of the parameter x on [0, 1]: evaluated on the events 1/2, then on the injection 1/4, a caching object returns 1 for both; the density at 1/4 is 1/2. *)
Definition linear : list (model_function (list R) (list R)) := [{| mf_names := ["slope"%string]; mf_call := fun data _ => Ok (map (Rmult 2) data) |}].
Example C135_shared_example : let p := [("slope"%string, Fin 2)] in
  product (zipWith Rmult) [1] linear [1/4] p = Ok [1 * (2 * (1/4))] /\
  fst (model_history [1] (zipWith Rmult) true linear (fresh linear) [([1/2], p); ([1/4], p)]) = [Ok [1 * (2 * (1/2))]; Ok [1 * (2 * (1/2))]] /\ 1 * (2 * (1/4)) <> 1 * (2 * (1/2)).
Proof. cbv zeta. split; [reflexivity|]. split; [apply C135_shared_refuted; [constructor; [discriminate|constructor]|reflexivity]|lra]. Qed.

