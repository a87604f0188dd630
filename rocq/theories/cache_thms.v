(** Proofs of the property theorems stated in [Props_cache]. *)
From Coq Require Import Reals Lra Lia Psatz String Bool.
From Coq Require Import List.
From Verif Require Import Xf Py Xf_facts Py_facts Np Hyperpe_model Vt_model Priors_model Cache_model SpecCache.
Import ListNotations.
Local Open Scope R_scope.
Lemma same_eq a : forall b, same_parameters a b = true -> a = b.
Proof.
  induction a as [|[k x] a IH]; intros [|[k' y] b] H; try discriminate; [reflexivity|]. cbn [same_parameters] in H. apply andb_prop in H. destruct H as [H H2]. apply andb_prop in H. destruct H as [H0 H1].
  apply String.eqb_eq in H0. apply IH in H2. subst. do 2 f_equal. destruct x, y; try discriminate H1; try reflexivity. f_equal. cbn in H1. destruct (Reqb_spec r r0); [assumption|discriminate].
Qed.
Lemma same_refl a : no_nan a -> same_parameters a a = true.
Proof.
  induction 1 as [|[k x] a H _ IH]; [reflexivity|]. cbn [same_parameters snd] in *. rewrite String.eqb_refl, IH. destruct x; cbn; try congruence. rewrite Reqb_refl. reflexivity.
Qed.
Lemma given_nan names d : no_nan d -> no_nan (given names d).
Proof. unfold no_nan, given. intros H. rewrite Forall_forall in *. intros x I. apply filter_In in I. now apply H. Qed.
Definition faithful {Data Arr} (data : Data) (f : model_function Data Arr) (s : slot Arr) : Prop := forall k v, s = Some (k, v) -> mf_call f data k = Ok v.
Lemma prob_false {Data Arr} (times : Arr -> Arr -> Arr) fs : forall slots acc (data : Data) p, List.length slots = List.length fs -> model_prob times false fs slots acc data p = (product times acc fs data p, slots).
Proof.
  induction fs as [|f fs IH]; intros [|s slots] acc data p L; try discriminate; [reflexivity|]. injection L as L. cbn [model_prob product]. unfold call_function. cbn [andb].
  destruct s as [[k w]|]; destruct (mf_call f data _) as [v|e]; cbn [bind]; try reflexivity; rewrite IH by exact L; reflexivity.
Qed.
Lemma prob_true {Data Arr} (times : Arr -> Arr -> Arr) cache fs : forall slots acc (data : Data) p, Forall2 (faithful data) fs slots -> exists slots', model_prob times cache fs slots acc data p = (product times acc fs data p, slots') /\ Forall2 (faithful data) fs slots'.
Proof.
  induction fs as [|f fs IH]; intros slots acc data p F; inversion F as [|? s ? slots0 Fs F0]; subst; [exists []; now split|]. cbn [model_prob product].
  assert (C : exists s', call_function _ _ cache f s data p = (mf_call f data (given (mf_names f) p), s') /\ faithful data f s').
  { unfold call_function. assert (N : forall s0, faithful data f s0 -> exists s', match mf_call f data (given (mf_names f) p) with Ok w => (Ok w, if cache then Some (given (mf_names f) p, w) else s0) | Err e => (Err e, s0) end = (mf_call f data (given (mf_names f) p), s') /\ faithful data f s').
    { intros s0 F1. destruct (mf_call f data (given (mf_names f) p)) as [w|e] eqn:E; [|now exists s0]. eexists. split; [reflexivity|]. destruct cache; [|exact F1]. intros k v X. injection X as <- <-. exact E. }
    destruct s as [[k w]|]; [|now apply N]. destruct (cache && same_parameters k (given (mf_names f) p)) eqn:E; [|now apply N]. apply andb_prop in E. destruct E as [_ E]. apply same_eq in E. subst k. exists (Some (given (mf_names f) p, w)). split; [|exact Fs]. now rewrite (Fs _ _ eq_refl). }
  destruct C as (s' & -> & C). destruct (mf_call f data (given (mf_names f) p)) as [v|e]; cbn [bind]; [|exists (s' :: slots0); split; [reflexivity|now constructor]].
  destruct (IH slots0 (times acc v) data p F0) as (slots' & -> & F'). exists (s' :: slots'). split; [reflexivity|now constructor].
Qed.
Lemma fresh_faithful {Data Arr} (data : Data) (fs : list (model_function Data Arr)) : Forall2 (faithful data) fs (fresh fs).
Proof. induction fs; constructor; [discriminate|assumption]. Qed.
Lemma C135_uncached_pf :
  forall Data Arr (one : Arr) times (fs : list (model_function Data Arr)) calls,
  fst (model_history one times false fs (fresh fs) calls) = map (fun call => product times one fs (fst call) (snd call)) calls.
Proof.
  intros Data Arr one times fs calls. assert (G : forall slots, List.length slots = List.length fs -> fst (model_history one times false fs slots calls) = map (fun call => product times one fs (fst call) (snd call)) calls).
  { induction calls as [|[data p] calls IH]; intros slots L; [reflexivity|]. cbn [model_history map fst snd]. rewrite prob_false by exact L. specialize (IH slots L). destruct (model_history one times false fs slots calls). cbn [fst] in *. now rewrite IH. }
  apply G. unfold fresh. apply map_length.
Qed.

Lemma C135_one_data_set_pf :
  forall Data Arr (one : Arr) times (fs : list (model_function Data Arr)) data parameters,
  fst (model_history one times true fs (fresh fs) (map (fun p => (data, p)) parameters)) = map (product times one fs data) parameters.
Proof.
  intros Data Arr one times fs data ps. assert (G : forall slots, Forall2 (faithful data) fs slots -> fst (model_history one times true fs slots (map (fun p => (data, p)) ps)) = map (product times one fs data) ps).
  { induction ps as [|p ps IH]; intros slots F; [reflexivity|]. cbn [model_history map]. destruct (prob_true times true fs slots one data p F) as (slots' & -> & F'). specialize (IH slots' F').
    destruct (model_history one times true fs slots' _). cbn [fst] in *. now rewrite IH. }
  apply G, fresh_faithful.
Qed.

Lemma llr_ext bk prob prob' vp vp' L V p : prob (li_data L) p = prob' (li_data L) p -> vp (rv_data V) p = vp' (rv_data V) p ->
  log_likelihood_ratio bk prob (resampling_call bk vp V) Ok L p = log_likelihood_ratio bk prob' (resampling_call bk vp' V) Ok L p.
Proof.
  intros H H'. unfold log_likelihood_ratio, ln_likelihood_and_variance. cbn [bind]. unfold per_event, event_weights, selection_factor, selection_with_uncertainty, resampling_call, vt_factor, detection_efficiency. rewrite H, H'. reflexivity.
Qed.
Lemma C135_likelihood_pf :
  forall bk cache events_model selection_model L V calls,
  evaluations bk cache events_model selection_model L V (fresh events_model, fresh selection_model) calls =
  map (fun parameters => log_likelihood_ratio bk (fun data p => got (product times_matrix None events_model data p))
                           (resampling_call bk (fun data p => got (product times_list None selection_model data p)) V) Ok L parameters) calls.
Proof.
  intros bk cache em sm L V calls.
  assert (G : forall se si, Forall2 (faithful (li_data L)) em se -> Forall2 (faithful (rv_data V)) sm si -> evaluations bk cache em sm L V (se, si) calls =
    map (fun parameters => log_likelihood_ratio bk (fun data p => got (product times_matrix None em data p)) (resampling_call bk (fun data p => got (product times_list None sm data p)) V) Ok L parameters) calls); [|apply G; apply fresh_faithful].
  induction calls as [|p calls IH]; intros se si Fe Fi; [reflexivity|]. cbn [evaluations map]. unfold evaluate. cbn [fst snd].
  destruct (prob_true times_matrix cache em se None (li_data L) p Fe) as (se' & -> & Fe'). destruct (product times_matrix None em (li_data L) p) as [pe|e] eqn:E.
  - destruct (prob_true times_list cache sm si None (rv_data V) p Fi) as (si' & -> & Fi'). rewrite IH by assumption. f_equal. apply llr_ext; [now rewrite E|reflexivity].
  - rewrite IH by assumption. f_equal. unfold log_likelihood_ratio, ln_likelihood_and_variance. cbn [bind]. unfold per_event, event_weights. rewrite E. reflexivity.
Qed.

Lemma repeat_hit {Data Arr} (times : Arr -> Arr -> Arr) fs (data data' : Data) p : no_nan p -> forall acc v slots', model_prob times true fs (fresh fs) acc data p = (Ok v, slots') ->
  fst (model_prob times true fs slots' acc data' p) = Ok v.
Proof.
  intros N. induction fs as [|f fs IH]; intros acc v slots' H; [injection H as <- <-; reflexivity|]. cbn [fresh map model_prob call_function] in H. destruct (mf_call f data (given (mf_names f) p)) as [w|e] eqn:E; [|discriminate].
  fold (@fresh Data Arr fs) in H. destruct (model_prob times true fs (fresh fs) (times acc w) data p) as [r rest] eqn:E2. injection H as -> <-.
  cbn [model_prob call_function andb]. rewrite same_refl by now apply given_nan. specialize (IH _ _ _ E2). destruct (model_prob times true fs rest (times acc w) data' p). exact IH.
Qed.
Lemma C135_shared_refuted_pf :
  forall Data Arr (one : Arr) times (fs : list (model_function Data Arr)) data data' parameters v, no_nan parameters -> product times one fs data parameters = Ok v ->
  fst (model_history one times true fs (fresh fs) [(data, parameters); (data', parameters)]) = [Ok v; Ok v].
Proof.
  intros Data Arr one times fs data data' p v N P. cbn [model_history]. destruct (prob_true times true fs (fresh fs) one data p (fresh_faithful data fs)) as (slots' & E & _). rewrite E, P in *.
  assert (H := repeat_hit times fs data data' p N _ _ _ E). destruct (model_prob times true fs slots' one data' p) as [r s]. cbn [fst] in *. now rewrite H.
Qed.

