(** Property theorems (score). Proofs are in [score_thms]; the vocabulary is in [Spec]. *)
From Coq Require Import Reals Lra Lia Psatz String Bool.
From Coquelicot Require Import Coquelicot.
From Coq Require Import List.
From Verif Require Import Xf Py Xf_facts Py_facts Calc Np Np_facts Vt_model vt_thms Hyperpe_model SpecHyper hypera_thms hyperc_thms SpecProb prob_thms lln_thms SpecScore.
Import ListNotations.
Local Open Scope R_scope.
From Verif Require Import score_thms.

(** C123. A catalogue of n detected events, each drawn from what the true population predicts among the detectable data and analysed without Monte Carlo error: on average over catalogues no population has a larger log-likelihood than the true one,
    and another population does as well exactly when it predicts the same distribution of detected data. (Events are exchangeable, [c] absorbs the evidence under the sampling prior.) *)
Theorem C123_truth_maximal :
  forall (D : Type) (seen : list D) (truth trial c : D -> R) bk prob sel conv (L : list D -> likelihood) p_truth p_trial q_truth q_trial n,
  seen <> [] -> (forall d, In d seen -> 0 < truth d /\ 0 < trial d /\ 0 < c d) ->
  conv p_truth = Ok q_truth -> conv p_trial = Ok q_trial -> selected sel q_truth seen truth -> selected sel q_trial seen trial ->
  (forall l, draws seen n l -> li_kind (L l) = Hyper /\ analysed prob q_truth c truth (L l) l /\ analysed prob q_trial c trial (L l) l) ->
  exists at_truth at_trial : list D -> R,
    (forall l, draws seen n l -> ln_l_of bk prob sel conv L p_truth l (at_truth l) /\ ln_l_of bk prob sel conv L p_trial l (at_trial l)) /\
    expectation seen (among_seen seen truth) n at_trial <= expectation seen (among_seen seen truth) n at_truth /\
    ((0 < n)%nat ->
     (expectation seen (among_seen seen truth) n at_trial = expectation seen (among_seen seen truth) n at_truth <->
      forall d, In d seen -> among_seen seen trial d = among_seen seen truth d)).
Proof. exact C123_truth_maximal_pf. Qed.
Print Assumptions C123_truth_maximal.

(** C123. With a rate: if the mean number of events is the true rate times the true detectable fraction, the expected log-likelihood of the rate likelihood is largest at the true rate and population, and another rate and population do as well exactly
    when they predict the same expected number of events for every detectable data. [often] is any distribution of the number of events with that mean. *)
Theorem C123_rate :
  forall (D : Type) (seen : list D) (truth trial c : D -> R) bk prob sel conv (L : list D -> likelihood) p_truth p_trial q_truth q_trial r_truth r_trial often,
  seen <> [] -> (forall d, In d seen -> 0 < truth d /\ 0 < trial d /\ 0 < c d) -> 0 < r_truth -> 0 < r_trial ->
  conv p_truth = Ok q_truth -> conv p_trial = Ok q_trial -> selected sel q_truth seen truth -> selected sel q_trial seen trial ->
  dget "rate"%string q_truth = Some (Fin r_truth) -> dget "rate"%string q_trial = Some (Fin r_trial) ->
  is_series often 1 -> is_series (fun n => often n * INR n) (r_truth * total (map truth seen)) ->
  (forall n l, often n <> 0 -> draws seen n l -> li_kind (L l) = Rate /\ analysed prob q_truth c truth (L l) l /\ analysed prob q_trial c trial (L l) l) ->
  exists (at_truth at_trial : list D -> R) (mean_truth mean_trial : R),
    (forall n l, often n <> 0 -> draws seen n l -> ln_l_of bk prob sel conv L p_truth l (at_truth l) /\ ln_l_of bk prob sel conv L p_trial l (at_trial l)) /\
    catalogue_mean seen (among_seen seen truth) often at_truth mean_truth /\ catalogue_mean seen (among_seen seen truth) often at_trial mean_trial /\
    mean_trial <= mean_truth /\ (mean_trial = mean_truth <-> forall d, In d seen -> r_trial * trial d = r_truth * truth d).
Proof. exact C123_rate_pf. Qed.
Print Assumptions C123_rate.

(** C123. Poisson counts are such a distribution. *)
Theorem C123_poisson :
  forall lambda, is_series (poisson lambda) 1 /\ is_series (fun n => poisson lambda n * INR n) lambda.
Proof. exact C123_poisson_pf. Qed.
Print Assumptions C123_poisson.

(** Two kinds of data, both detectable; the true population prefers the first, the trial population the second. One sample per event; the catalogue stores the two populations' probabilities of each event, and "trial" selects between them. *)
Definition ex_truth (b : bool) : R := if b then 3/4 else 1/8.
Definition ex_trial (b : bool) : R := if b then 1/4 else 1/2.
Definition ex_cat (k : kind) (l : list bool) : likelihood := {| li_kind := k; li_data := [("truth"%string, map (fun b => [Fin (ex_truth b)]) l); ("trial"%string, map (fun b => [Fin (ex_trial b)]) l)];
  li_prior := None; li_noise := NaN; li_n := List.length l; li_samples := 1; li_maxu := PInf; li_max_variance := PInf |}.
Definition ex_score_prob (d : dict matrix) (p : dict xf) : result matrix := dlookup (if dget "trial" p then "trial" else "truth")%string d.
Definition ex_score_sel (p : dict xf) : result selection :=
  Ok (Value (Fin (if dget "trial" p then total (map ex_trial [true; false]) else total (map ex_truth [true; false])))).
Lemma ex_weights (Z : bool -> R) l : (forall b, 0 < Z b) -> Forall (fun w : list R => List.length w = 1%nat /\ Forall (fun x => 0 < x) w) (map (fun b => [Z b]) l).
Proof. intros H. apply Forall_forall. intros w Hw. apply in_map_iff in Hw. destruct Hw as (b & <- & _). split; [reflexivity|]. constructor; [apply H|constructor]. Qed.
Example C123_met : forall k n l, draws [true; false] n l ->
  analysed ex_score_prob [("rate"%string, Fin 5)] (fun _ => 1) ex_truth (ex_cat k l) l /\
  analysed ex_score_prob [("rate"%string, Fin 4); ("trial"%string, Fin 1)] (fun _ => 1) ex_trial (ex_cat k l) l /\
  selected ex_score_sel [("rate"%string, Fin 5)] [true; false] ex_truth /\
  selected ex_score_sel [("rate"%string, Fin 4); ("trial"%string, Fin 1)] [true; false] ex_trial /\
  among_seen [true; false] ex_trial true <> among_seen [true; false] ex_truth true.
Proof.
  intros k n l _.
  assert (G : forall (Z : bool -> R) m, (forall b, 0 < Z b) -> dlookup m (li_data (ex_cat k l)) = Ok (map (fun b => [Fin (Z b)]) l) -> forall p, ex_score_prob (li_data (ex_cat k l)) p = dlookup m (li_data (ex_cat k l)) ->
     analysed ex_score_prob p (fun _ => 1) Z (ex_cat k l) l).
  { intros Z m HZ E p Ep. split; [reflexivity|]. exists (map (fun b => [Z b]) l). split; [|split].
    - exists (map (fun b => [Z b]) l). split; [|reflexivity]. rewrite Ep, E, map_map. reflexivity.
    - split; [simpl; lia|]. now apply ex_weights.
    - clear. induction l as [|b l IH]; simpl; constructor; [unfold mean; simpl; field|exact IH]. }
  split; [apply (G ex_truth "truth"%string); [intros [|]; unfold ex_truth; lra|reflexivity|reflexivity]|].
  split; [apply (G ex_trial "trial"%string); [intros [|]; unfold ex_trial; lra|reflexivity|reflexivity]|].
  split; [exists 0; right; split; reflexivity|]. split; [exists 0; right; split; reflexivity|].
  unfold among_seen, total, ex_trial, ex_truth; simpl. lra.
Qed.

