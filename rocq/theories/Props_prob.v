(** Property theorems (prob). Proofs are in [prob_thms]; the vocabulary is in [Spec]. *)
From Coq Require Import Reals Lra Lia Psatz String Bool.
From Coquelicot Require Import Coquelicot.
From Coq Require Import List.
From Verif Require Import Xf Py Xf_facts Py_facts Calc Np Np_facts Vt_model vt_thms Hyperpe_model SpecHyper hypera_thms SpecProb.
Import ListNotations.
Local Open Scope R_scope.
From Verif Require Import prob_thms.

(** C94. An injection campaign: N injections drawn independently from the distribution [pmf], which is what the column "prior" records; those satisfying [found] are kept, and [total_generated] = N. For a population
    assigning mass p to every point: the estimated efficiency is right on average (its mean is the detectable mass of the population), and the reported variance is on average (1 - 1/N) times the true variance of the
    efficiency. The data dictionary is any dictionary with that prior column on which the model returns the population's values. *)
Theorem C94_efficiency_unbiased :
  forall (O : Type) (space : list O) (pmf p : O -> R) (found : O -> bool) bk prob dvc models n_events mg en parameters (data : list O -> injections) N, (1 <= N)%nat ->
  distribution space pmf ->
  (forall l, draws space N l ->
     dget "prior" (inj_data (data l)) = Some (map (fun w => Fin (pmf w)) (filter found l)) /\ inj_total (data l) = Some (Fin (INR N)) /\
     prob (inj_data (data l)) parameters = Ok (map (fun w => Fin (p w)) (filter found l))) ->
  exists mu var : list O -> R,
    (forall l, draws space N l -> exists v, resampling_init dvc models (data l) n_events mg en = Ok v /\ detection_efficiency bk prob v parameters = Ok (Fin (mu l), Fin (var l))) /\
    let detectable := total (map p (filter found space)) in
    expectation space pmf N mu = detectable /\
    expectation space pmf N var = (1 - / INR N) * expectation space pmf N (fun l => (mu l - detectable) ^ 2).
Proof. exact C94_efficiency_unbiased_pf. Qed.
Print Assumptions C94_efficiency_unbiased.

(** Two kinds of injections, one detectable. *)
Example C94_hyps : distribution [true; false] (fun b : bool => if b then 1/4 else 3/4) /\ total (map (fun b : bool => if b then 1/10 else 9/10) (filter (fun b => b) [true; false])) = 1/10.
Proof. split; [split; [intros [|] _; lra|unfold total; simpl; lra]|unfold total; simpl; lra]. Qed.

(** C95. Event i's K posterior samples drawn independently from its posterior, the distribution proportional to likelihood times sampling prior; the prior values are recorded with the samples, the other events are arbitrary. For a population
    assigning mass p to every point: exp(ln_bf_i) is right on average: its mean is the ratio of the evidences under the population and under the sampling prior; and variance_i exp(2 ln_bf_i) is on average
    (1 - 1/K) times the true variance of exp(ln_bf_i). *)
Theorem C95_evidence_unbiased :
  forall (O : Type) (space : list O) (like prior p : O -> R) bk prob parameters (L : list O -> likelihood) (W : list O -> list (list R)) K i, (1 <= K)%nat ->
  (forall w, In w space -> 0 < like w /\ 0 < prior w /\ 0 < p w) ->
  let evidence := total (map (fun w => like w * prior w) space) in
  let posterior := fun w => like w * prior w / evidence in
  0 < evidence ->
  (forall l, draws space K l -> weights_are prob (L l) parameters (W l) /\ positive_weights (L l) (W l) /\ li_samples (L l) = K /\
                                nth_error (W l) i = Some (map (fun w => p w / prior w) l)) ->
  exists bf var : list O -> R,
    (forall l, draws space K l -> exists ln_bfs variances, per_event bk prob (L l) parameters = Ok (ln_bfs, variances) /\
       nth_error ln_bfs i = Some (Fin (ln (bf l))) /\ nth_error variances i = Some (Fin (var l))) /\
    let ratio := total (map (fun w => like w * p w) space) / evidence in
    expectation space posterior K bf = ratio /\
    expectation space posterior K (fun l => var l * bf l ^ 2) = (1 - / INR K) * expectation space posterior K (fun l => (bf l - ratio) ^ 2).
Proof. exact C95_evidence_unbiased_pf. Qed.
Print Assumptions C95_evidence_unbiased.

(** A likelihood that prefers the first of two points, a flat sampling prior, and a two-sample event (both samples possible). *)
Example C95_hyps : forall l, draws [true; false] 2 l ->
  exists L W, let p := fun b : bool => if b then 3/4 else 1/4 in let prior := fun _ : bool => 1/2 in
    weights_are (fun d _ => dlookup "x" d) L [] W /\ positive_weights L W /\ li_samples L = 2%nat /\ nth_error W 0 = Some (map (fun w => p w / prior w) l).
Proof.
  intros l [Hl _]. set (p := fun b : bool => if b then 3/4 else 1/4).
  exists {| li_kind := Hyper; li_data := [("x"%string, [map (fun w => Fin (p w)) l])]; li_prior := Some [map (fun _ => Fin (1/2)) l]; li_noise := NaN; li_n := 1; li_samples := 2; li_maxu := PInf; li_max_variance := PInf |}, [map (fun w => p w / (1/2)) l].
  destruct l as [|a [|b [|c l]]]; simpl in Hl; try lia. split; [|split; [|split; reflexivity]].
  - exists [[p a; p b]]. split; [reflexivity|]. exists [[1/2; 1/2]]. split; [reflexivity|]. split; [repeat constructor; lra|]. split; reflexivity.
  - split; [simpl; lia|]. assert (Q : forall x, 0 < p x / (1/2)) by (intros [|]; unfold p; lra). simpl map. repeat constructor; apply Q.
Qed.

