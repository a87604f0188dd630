(** Proofs of the property theorems stated in [Props_meta]. *)
From Coq Require Import Reals Lra Lia String Bool.
From Coq Require Import List.
From Verif Require Import Xf Py Xf_facts Py_facts Np Interp_facts Vt_model Hyperpe_model Meta_model hyperd_thms.
Import ListNotations.
Local Open Scope R_scope.

Lemma C92_meta_data_pf :
  forall lib xp models L, lib = xp \/ lib <> Cupy ->
  exists m, meta_data lib xp (Some models) L = Ok m /\
    List.length (me_model m) = List.length models /\
    (forall i x, nth_error models i = Some x -> nth_error (me_model m) i = Some (match nm_name x with Some n => n | None => nm_class x end)) /\
    dkeys (me_data m) = dkeys (li_data L) /\
    (forall key array, dget key (li_data L) = Some array -> dget key (me_data m) = Some (PyArray Numpy array)) /\
    (forall prior, li_prior L = Some prior -> me_prior m = PyArray Numpy prior) /\ (li_prior L = None -> me_prior m = PyNumber (Fin 1)) /\
    me_n_events m = li_n L /\ me_samples m = li_samples L.
Proof.
  intros lib xp models L H. assert (T : forall a : matrix, to_numpy xp (PyArray lib a) = Ok (PyArray Numpy a)).
  { intros a. destruct H as [<-|H]; destruct lib; try reflexivity. congruence. }
  unfold meta_data. rewrite (mapM_ok _ (fun kv : string * matrix => (fst kv, PyArray Numpy (snd kv)))) by (intros kv _; rewrite T; reflexivity). cbn [bind].
  assert (P : exists pr, to_numpy xp (match li_prior L with Some q => PyArray lib q | None => PyNumber (Fin 1) end) = Ok pr /\ (forall prior, li_prior L = Some prior -> pr = PyArray Numpy prior) /\ (li_prior L = None -> pr = PyNumber (Fin 1))).
  { destruct (li_prior L) as [q|]; [exists (PyArray Numpy q); split; [apply T|split; [congruence|discriminate]]|exists (PyNumber (Fin 1)); split; [reflexivity|split; [discriminate|reflexivity]]]. }
  destruct P as (pr & P & P1 & P2). rewrite P. cbn [bind]. eexists. split; [reflexivity|]. cbn [me_model me_data me_prior me_n_events me_samples]. split; [apply map_length|]. split.
  { intros i x N. rewrite nth_error_map, N. reflexivity. }
  split; [unfold dkeys; rewrite map_map; apply map_ext; reflexivity|]. split; [|auto].
  intros key array D. rewrite (dget_map_kv (fun _ a => PyArray Numpy a)), D. reflexivity.
Qed.

Lemma C92_cupy_switch_refuted_pf :
  forall xp models L, xp <> Cupy -> li_data L <> [] \/ li_prior L <> None -> meta_data Cupy xp (Some models) L = Err AttributeError.
Proof.
  intros xp models L X H. unfold meta_data. destruct (li_data L) as [|[k a] d] eqn:D.
  - cbn [mapM bind]. destruct (li_prior L) as [q|]; [|destruct H; congruence]. destruct xp; [reflexivity|congruence|reflexivity].
  - cbn [mapM snd fst]. destruct xp; [reflexivity|congruence|reflexivity].
Qed.

Lemma C92_custom_model_refuted_pf :
  forall lib xp c rows posteriors ev ms u L, likelihood_init c rows posteriors ModelLike ev ms u = Ok L -> meta_data lib xp None L = Err AttributeError.
Proof. reflexivity. Qed.

