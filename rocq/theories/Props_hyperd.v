(** Property theorems (hyperd). Proofs are in [hyperd_thms]; the vocabulary is in [Spec]. *)
From Coq Require Import Reals ZArith Lra Lia Psatz String Bool.
From Coquelicot Require Import Coquelicot.
From Coq Require Import List.
From Verif Require Import Xf Py Xf_facts Py_facts Np Np_facts Interp_model Interp_facts Vt_model Hyperpe_model SpecHyper hypera_thms hyperc_thms.
Import ListNotations.
Local Open Scope R_scope.
From Verif Require Import hyperd_thms.

(** C67. [rows i n k] are the rows the random sampling draws from posterior [i] of [n] rows, without replacement. If every posterior has the columns of the first, the construction
    succeeds with K = min(max_samples, shortest posterior) samples, exactly the first posterior's columns, and for every event one set of K distinct rows of its own posterior,
    the same for all columns. *)
Theorem C67_resample :
  forall rows first posteriors max_samples,
  (forall i n k, (k <= n)%nat -> List.length (rows i n k) = k /\ NoDup (rows i n k) /\ Forall (fun j => j < n)%nat (rows i n k)) ->
  (forall f key, In f (first :: posteriors) -> In key (dkeys (fr_cols first)) -> dget key (fr_cols f) <> None) ->
  exists K data (drawn : nat -> list nat), resample_posteriors rows (first :: posteriors) max_samples = Ok (K, data) /\
    Forall (fun f => K <= fr_len f)%nat (first :: posteriors) /\ (forall m, max_samples = Some m -> (K <= m)%nat) /\
    (max_samples = Some K \/ exists f, In f (first :: posteriors) /\ K = fr_len f) /\
    dkeys data = dkeys (fr_cols first) /\
    (forall i f, nth_error (first :: posteriors) i = Some f ->
       List.length (drawn i) = K /\ NoDup (drawn i) /\ Forall (fun j => j < fr_len f)%nat (drawn i) /\
       forall key column, In key (dkeys data) -> dget key (fr_cols f) = Some column ->
         exists array, dget key data = Some array /\ List.length array = List.length (first :: posteriors) /\
           nth_error array i = Some (map (fun j => nth j column NaN) (drawn i))).
Proof. exact C67_resample_pf. Qed.
Print Assumptions C67_resample.

Definition ex_fr (l : list R) : frame := {| fr_len := List.length l; fr_cols := [("x"%string, map Fin l); ("y"%string, map Fin (map Rinv l))] |}.
Example C67_hyps : (forall (i n k : nat), (k <= n)%nat -> List.length (seq 0 k) = k /\ NoDup (seq 0 k) /\ Forall (fun j => j < n)%nat (seq 0 k)) /\
  forall f key, In f [ex_fr [1; 2; 3]; ex_fr [4; 5]] -> In key (dkeys (fr_cols (ex_fr [1; 2; 3]))) -> dget key (fr_cols f) <> None.
Proof.
  split.
  - intros i n k H. split; [apply seq_length|]. split; [apply seq_NoDup|]. apply Forall_forall. intros j J. apply in_seq in J. lia.
  - intros f key I J. destruct I as [<-|[<-|[]]]; destruct J as [<-|[<-|[]]]; discriminate.
Qed.

(** C67 (the documented rule "a key for each shared key" is refuted). Whenever some posterior lacks a column of the first, construction raises KeyError, for all draws and limits;
    a column the first lacks is dropped. *)
Theorem C67_shared_keys_refuted :
  forall rows first posteriors max_samples f key, In f posteriors -> In key (dkeys (fr_cols first)) -> dget key (fr_cols f) = None ->
  exists k, In k (dkeys (fr_cols first)) /\ resample_posteriors rows (first :: posteriors) max_samples = Err (KeyError k).
Proof. exact C67_shared_keys_refuted_pf. Qed.
Print Assumptions C67_shared_keys_refuted.

(** C68. The prior column: removed from the data and divided out of the population model elementwise; without it the weights are the model's values. *)
Theorem C68_prior :
  forall bk prob c rows posteriors hp ev max_samples u K data L, resample_posteriors rows posteriors max_samples = Ok (K, data) -> dwf data ->
  likelihood_init c rows posteriors hp ev max_samples u = Ok L ->
  (forall key, dget key (li_data L) = if String.eqb key "prior" then None else dget key data) /\
  (forall parameters P prior, dget "prior"%string data = Some prior -> prob (li_data L) parameters = Ok P -> map (@List.length xf) P = map (@List.length xf) prior ->
     exists w, event_weights bk prob L parameters = Ok w /\ List.length w = List.length P /\
       forall i j, (i < List.length P)%nat -> (j < List.length (nth i P []))%nat -> List.length (nth i w []) = List.length (nth i P []) /\ nth j (nth i w []) NaN = fdiv (nth j (nth i P []) NaN) (nth j (nth i prior []) NaN)) /\
  (forall parameters, dget "prior"%string data = None -> li_data L = data /\ event_weights bk prob L parameters = prob (li_data L) parameters).
Proof. exact C68_prior_pf. Qed.
Print Assumptions C68_prior.

(** C69. [choose i p] are the indices drawn for event [i] with probabilities [p]: as many as there are probabilities, none of probability zero. For any number of hyper-parameter samples
    (at least one) with usable weights the method succeeds; the weights are the average shares, non-negative, summing to 1 for each event; every resampled row of an event
    consists of samples of that event, the same for all keys, none of weight zero. *)
Theorem C69_predictive :
  forall bk prob conv choose L samples Ws, samples <> [] ->
  Forall2 (fun sample W => exists converted, conv sample = Ok converted /\ weights_are prob L converted W /\ usable_weights (li_n L) (li_samples L) W) samples Ws ->
  (forall i p, List.length (choose i p) = List.length p /\ Forall (fun j => (j < List.length p)%nat /\ nth j p NaN <> Fin 0) (choose i p)) ->
  exists new weights (drawn : nat -> list nat), posterior_predictive_resample bk prob conv choose L samples = Ok (new, weights) /\
    List.length weights = li_n L /\
    (forall i, (i < li_n L)%nat -> List.length (nth i weights []) = li_samples L /\ fsum (nth i weights []) = Fin 1 /\
       (forall j, (j < li_samples L)%nat -> nth j (nth i weights []) NaN = Fin (predictive_weight Ws i j) /\ 0 <= predictive_weight Ws i j) /\
       List.length (drawn i) = li_samples L /\ Forall (fun j => (j < li_samples L)%nat /\ 0 < predictive_weight Ws i j) (drawn i)) /\
    dkeys new = dkeys (li_data L) /\
    (forall key array, dget key (li_data L) = Some array -> exists array', dget key new = Some array' /\ List.length array' = li_n L /\
       forall i, (i < li_n L)%nat -> nth i array' [] = map (fun j => nth j (nth i array []) NaN) (drawn i)).
Proof. exact C69_predictive_pf. Qed.
Print Assumptions C69_predictive.

(** C69. Multiplying the population density of any hyper-parameter sample by a positive constant changes nothing: same weights, same draws. *)
Theorem C69_scale_invariance :
  forall bk prob prob' conv choose L samples samples' Ws (c : list R), samples <> [] ->
  Forall2 (fun sample W => exists converted, conv sample = Ok converted /\ weights_are prob L converted W /\ usable_weights (li_n L) (li_samples L) W) samples Ws ->
  List.length c = List.length Ws -> Forall (fun x => 0 < x) c ->
  Forall2 (fun sample W => exists converted, conv sample = Ok converted /\ weights_are prob' L converted W) samples' (map (fun cW => map (map (Rmult (fst cW))) (snd cW)) (combine c Ws)) ->
  posterior_predictive_resample bk prob' conv choose L samples' = posterior_predictive_resample bk prob conv choose L samples.
Proof. exact C69_scale_invariance_pf. Qed.
Print Assumptions C69_scale_invariance.

Definition ex_Ld : likelihood := {| li_kind := Hyper; li_data := [("x"%string, [[Fin 1; Fin 0]; [Fin 3; Fin 4]])]; li_prior := None;
  li_noise := NaN; li_n := 2; li_samples := 2; li_maxu := PInf; li_max_variance := PInf |}.
Example C69_hyps : Forall2 (fun sample W => exists converted, (fun p => Ok p) sample = Ok converted /\ weights_are (fun d _ => dlookup "x" d) ex_Ld converted W /\ usable_weights (li_n ex_Ld) (li_samples ex_Ld) W)
  [[]; [("a"%string, Fin 1)]] [[[1; 0]; [3; 4]]; [[1; 0]; [3; 4]]].
Proof.
  assert (U : usable_weights 2 2 [[1; 0]; [3; 4]]) by (split; [reflexivity|]; repeat constructor; cbn; lra).
  constructor; [|constructor; [|constructor]]; eexists; (split; [reflexivity|split; [|exact U]]); exists [[1; 0]; [3; 4]]; split; reflexivity.
Qed.

