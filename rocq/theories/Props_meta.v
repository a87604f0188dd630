(** Property theorems (meta). Proofs are in [meta_thms]; the vocabulary is in [Spec]. *)
From Coq Require Import Reals Lra Lia String Bool.
From Coq Require Import List.
From Verif Require Import Xf Py Xf_facts Py_facts Np Interp_facts Vt_model Hyperpe_model Meta_model hyperd_thms.
Import ListNotations.
Local Open Scope R_scope.
From Verif Require Import meta_thms.

(** C92. For a bilby model, with the library the likelihood was built with still selected (or any library, if it was not built with cupy): meta_data succeeds and reports the names of the models, every data
    array and the prior with their contents unchanged, as numpy arrays (the prior is the number 1 if there is none), and the numbers of events and samples. *)
Theorem C92_meta_data :
  forall lib xp models L, lib = xp \/ lib <> Cupy ->
  exists m, meta_data lib xp (Some models) L = Ok m /\
    List.length (me_model m) = List.length models /\
    (forall i x, nth_error models i = Some x -> nth_error (me_model m) i = Some (match nm_name x with Some n => n | None => nm_class x end)) /\
    dkeys (me_data m) = dkeys (li_data L) /\
    (forall key array, dget key (li_data L) = Some array -> dget key (me_data m) = Some (PyArray Numpy array)) /\
    (forall prior, li_prior L = Some prior -> me_prior m = PyArray Numpy prior) /\ (li_prior L = None -> me_prior m = PyNumber (Fin 1)) /\
    me_n_events m = li_n L /\ me_samples m = li_samples L.
Proof. exact C92_meta_data_pf. Qed.
Print Assumptions C92_meta_data.

(** C92 (refuted otherwise). A likelihood built with cupy cannot report its meta data after another backend has been selected, whatever its data. *)
Theorem C92_cupy_switch_refuted :
  forall xp models L, xp <> Cupy -> li_data L <> [] \/ li_prior L <> None -> meta_data Cupy xp (Some models) L = Err AttributeError.
Proof. exact C92_cupy_switch_refuted_pf. Qed.
Print Assumptions C92_cupy_switch_refuted.

(** C92 (refuted). A population model accepted by the constructor (with parameters and prob) but without the attribute models has no meta data on any backend. *)
Theorem C92_custom_model_refuted :
  forall lib xp c rows posteriors ev ms u L, likelihood_init c rows posteriors ModelLike ev ms u = Ok L -> meta_data lib xp None L = Err AttributeError.
Proof. exact C92_custom_model_refuted_pf. Qed.
Print Assumptions C92_custom_model_refuted.

Example C92_hyps : exists L, likelihood_init Hyper (fun _ _ k => seq 0 k) [{| fr_len := 2; fr_cols := [("x"%string, [Fin 1; Fin 2])] |}] ModelLike None None PInf = Ok L /\ li_data L <> [].
Proof. eexists. split; [reflexivity|discriminate]. Qed.

