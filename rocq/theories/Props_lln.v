(** Property theorems (lln). Proofs are in [lln_thms]; the vocabulary is in [Spec]. *)
From Coq Require Import Reals Lra Lia Psatz String Bool.
From Coquelicot Require Import Coquelicot.
From Coq Require Import List.
From Verif Require Import Xf Py Xf_facts Py_facts Calc Np Np_facts Vt_model vt_thms Hyperpe_model SpecHyper hypera_thms SpecProb prob_thms.
Import ListNotations.
Local Open Scope R_scope.
From Verif Require Import lln_thms.

(** C99. In the setting of C94: with N injections the estimated efficiency is further than [eps] from the detectable mass with
    probability at most V / (N eps^2), where V = sum over detectable points of p^2/pmf, minus the square of the detectable mass,
    does not depend on N. *)
Theorem C99_efficiency_deviation :
  forall (O : Type) (space : list O) (pmf p : O -> R) (found : O -> bool) bk prob dvc models n_events mg en parameters (data : list O -> injections) N, (1 <= N)%nat ->
  distribution space pmf ->
  (forall l, draws space N l ->
     dget "prior" (inj_data (data l)) = Some (map (fun w => Fin (pmf w)) (filter found l)) /\ inj_total (data l) = Some (Fin (INR N)) /\
     prob (inj_data (data l)) parameters = Ok (map (fun w => Fin (p w)) (filter found l))) ->
  let detectable := total (map p (filter found space)) in
  let V := total (map (fun w => p w ^ 2 / pmf w) (filter found space)) - detectable ^ 2 in
  exists mu var : list O -> R,
    (forall l, draws space N l -> exists v, resampling_init dvc models (data l) n_events mg en = Ok v /\ detection_efficiency bk prob v parameters = Ok (Fin (mu l), Fin (var l))) /\
    forall eps, 0 < eps ->
      chance space pmf N (fun l => eps <= Rabs (mu l - detectable)) (fun l => Rle_dec eps (Rabs (mu l - detectable)))
      <= V / (INR N * eps ^ 2).
Proof. exact C99_efficiency_deviation_pf. Qed.
Print Assumptions C99_efficiency_deviation.

(** C99: hence the estimated efficiency converges to the detectable mass in probability as the number of injections grows:
    for every tolerance and every risk there is a number of injections from which on the estimate is within the tolerance with
    at most that risk. *)
Theorem C99_efficiency_converges :
  forall (O : Type) (space : list O) (pmf p : O -> R) (found : O -> bool) bk prob dvc models n_events mg en parameters (data : nat -> list O -> injections),
  distribution space pmf ->
  (forall N l, draws space N l ->
     dget "prior" (inj_data (data N l)) = Some (map (fun w => Fin (pmf w)) (filter found l)) /\ inj_total (data N l) = Some (Fin (INR N)) /\
     prob (inj_data (data N l)) parameters = Ok (map (fun w => Fin (p w)) (filter found l))) ->
  let detectable := total (map p (filter found space)) in
  forall eps risk, 0 < eps -> 0 < risk ->
  exists N0, forall N, (N0 <= N)%nat -> exists mu var : list O -> R,
    (forall l, draws space N l -> exists v, resampling_init dvc models (data N l) n_events mg en = Ok v /\ detection_efficiency bk prob v parameters = Ok (Fin (mu l), Fin (var l))) /\
    chance space pmf N (fun l => eps <= Rabs (mu l - detectable)) (fun l => Rle_dec eps (Rabs (mu l - detectable))) <= risk.
Proof. exact C99_efficiency_converges_pf. Qed.
Print Assumptions C99_efficiency_converges.

(** C99. In the setting of C95: the estimated Bayes factor is further than [eps] from the ratio of evidences with probability at
    most V / (K eps^2), V the posterior variance of population over sampling prior. *)
Theorem C99_evidence_deviation :
  forall (O : Type) (space : list O) (like prior p : O -> R) bk prob parameters (L : list O -> likelihood) (W : list O -> list (list R)) K i, (1 <= K)%nat ->
  (forall w, In w space -> 0 < like w /\ 0 < prior w /\ 0 < p w) ->
  let evidence := total (map (fun w => like w * prior w) space) in
  let posterior := fun w => like w * prior w / evidence in
  0 < evidence ->
  (forall l, draws space K l -> weights_are prob (L l) parameters (W l) /\ positive_weights (L l) (W l) /\ li_samples (L l) = K /\
                                nth_error (W l) i = Some (map (fun w => p w / prior w) l)) ->
  let ratio := total (map (fun w => like w * p w) space) / evidence in
  let V := mean_of space posterior (fun w => (p w / prior w - ratio) ^ 2) in
  exists bf : list O -> R,
    (forall l, draws space K l -> exists ln_bfs variances, per_event bk prob (L l) parameters = Ok (ln_bfs, variances) /\
       nth_error ln_bfs i = Some (Fin (ln (bf l)))) /\
    forall eps, 0 < eps ->
      chance space posterior K (fun l => eps <= Rabs (bf l - ratio)) (fun l => Rle_dec eps (Rabs (bf l - ratio)))
      <= V / (INR K * eps ^ 2).
Proof. exact C99_evidence_deviation_pf. Qed.
Print Assumptions C99_evidence_deviation.

(** C100 (what fails): the logarithm of the estimate is biased. In the setting of C95 the mean of ln_bf_i over all draws never
    exceeds the logarithm of the true ratio, and is strictly below it as soon as the weights of two points differ. *)
Theorem C100_log_evidence_biased_refuted :
  forall (O : Type) (space : list O) (like prior p : O -> R) bk prob parameters (L : list O -> likelihood) (W : list O -> list (list R)) K i, (1 <= K)%nat ->
  (forall w, In w space -> 0 < like w /\ 0 < prior w /\ 0 < p w) ->
  let evidence := total (map (fun w => like w * prior w) space) in
  let posterior := fun w => like w * prior w / evidence in
  0 < evidence ->
  (forall l, draws space K l -> weights_are prob (L l) parameters (W l) /\ positive_weights (L l) (W l) /\ li_samples (L l) = K /\
                                nth_error (W l) i = Some (map (fun w => p w / prior w) l)) ->
  let ratio := total (map (fun w => like w * p w) space) / evidence in
  exists ln_bf : list O -> R,
    (forall l, draws space K l -> exists ln_bfs variances, per_event bk prob (L l) parameters = Ok (ln_bfs, variances) /\
       nth_error ln_bfs i = Some (Fin (ln_bf l))) /\
    expectation space posterior K ln_bf <= ln ratio /\
    (forall u v, In u space -> In v space -> p u / prior u <> p v / prior v ->
       expectation space posterior K ln_bf < ln ratio).
Proof. exact C100_log_evidence_biased_refuted_pf. Qed.
Print Assumptions C100_log_evidence_biased_refuted.

(** The bound of [C99_efficiency_deviation] for two kinds of injections, one detectable: V = (1/10)^2 / (1/4) - (1/10)^2. *)
Example C99_example : let space := [true; false] in let pmf := fun b : bool => if b then 1/4 else 3/4 in let p := fun b : bool => if b then 1/10 else 9/10 in
  distribution space pmf /\ total (map (fun w => p w ^ 2 / pmf w) (filter (fun b => b) space)) - (total (map p (filter (fun b => b) space))) ^ 2 = 3/100.
Proof. cbv zeta. split; [split; [intros [|] _; lra|unfold total; simpl; lra]|unfold total; simpl; lra]. Qed.

Example C99_hyps : let pmf := fun b : bool => if b then 1/4 else 3/4 in let p := fun b : bool => if b then 1/10 else 9/10 in
  exists (data : nat -> list bool -> injections) prob, forall N l, draws [true; false] N l ->
     dget "prior" (inj_data (data N l)) = Some (map (fun w => Fin (pmf w)) (filter (fun b => b) l)) /\ inj_total (data N l) = Some (Fin (INR N)) /\
     prob (inj_data (data N l)) (@nil (string * xf)) = Ok (map (fun w => Fin (p w)) (filter (fun b => b) l)).
Proof.
  cbv zeta.
  exists (fun N l => {| inj_data := [("prior"%string, map (fun w : bool => Fin (if w then 1/4 else 3/4)) (filter (fun b => b) l));
                                     ("p"%string, map (fun w : bool => Fin (if w then 1/10 else 9/10)) (filter (fun b => b) l))];
                        inj_total := Some (Fin (INR N)); inj_time := None |}), (fun d _ => dlookup "p" d).
  intros N l _. repeat split.
Qed.

(** The hypotheses of the evidence theorems are those of C95 ([C95_hyps]); the two weights 3/2 and 1/2 of that example differ. *)
Example C100_example : (3/4) / (1/2) <> (1/4) / (1/2).
Proof. lra. Qed.

