(** Property theorems (invar). Proofs are in [invar_thms]; the vocabulary is in [Spec]. *)
From Coq Require Import Reals Lra Lia Psatz String Bool.
From Coquelicot Require Import Coquelicot.
From Coq Require Import List.
From Verif Require Import Xf Py Xf_facts Py_facts Calc Np Vt_model vt_thms Hyperpe_model SpecHyper hypera_thms SpecInvar.
Import ListNotations.
Local Open Scope R_scope.
From Verif Require Import invar_thms.

(** C102. Multiplying the population density by any c > 0, on the events and on the injections alike, leaves the estimator and its variance unchanged: the density need not be normalised.
    This holds for every setting of the selection function (uncertainty marginalised or not, convergence enforced or not, also when it is found not to be converged) and includes
    the cases in which both evaluations raise. *)
Theorem C102_unnormalised_density :
  forall bk prob prob' inj inj' conv L v parameters converted W p q N c, 0 < c -> events_scaled c prob prob' -> injections_scaled c inj inj' ->
  li_kind L = Hyper -> conv parameters = Ok converted ->
  weights_are prob L converted W -> positive_weights L W -> List.length W = li_n L ->
  injections_are inj v converted p q N -> 0 < Rsum (quotients p q) -> (exists n, rv_n_events v = Fin n /\ 0 <= n) \/ rv_n_events v = PInf ->
  ln_likelihood_and_variance bk prob' (resampling_call bk inj' v) conv L parameters =
  ln_likelihood_and_variance bk prob (resampling_call bk inj v) conv L parameters.
Proof. exact C102_unnormalised_density_pf. Qed.
Print Assumptions C102_unnormalised_density.

Definition ex_L : likelihood := {| li_kind := Hyper; li_data := [("x"%string, [[Fin 1; Fin 2]; [Fin 3; Fin 4]])]; li_prior := Some [[Fin 2; Fin 2]; [Fin 1; Fin 1]];
  li_noise := NaN; li_n := 2; li_samples := 2; li_maxu := PInf; li_max_variance := PInf |}.
Definition ex_prob (c : R) (d : dict matrix) (h : dict xf) : result matrix := rmap (map (map (fmul (Fin c)))) (dlookup "x" d).
Definition ex_inj (c : R) (d : dict (list xf)) (h : dict xf) : result (list xf) := rmap (map (fmul (Fin c))) (dlookup "x" d).
Definition ex_v : resampling := {| rv_data := [("x"%string, [Fin 1; Fin 3]); ("prior"%string, [Fin 1; Fin 2])]; rv_n_events := Fin 2; rv_total := Fin 10; rv_time := Fin 1;
  rv_redshift := None; rv_marginalize := false; rv_enforce := true; rv_volume := None |}.
Example C102_hyps : events_scaled 3 (ex_prob 1) (ex_prob 3) /\ injections_scaled 3 (ex_inj 1) (ex_inj 3) /\
  weights_are (ex_prob 1) ex_L [] [[1 * 1 / 2; 1 * 2 / 2]; [1 * 3 / 1; 1 * 4 / 1]] /\ positive_weights ex_L [[1 * 1 / 2; 1 * 2 / 2]; [1 * 3 / 1; 1 * 4 / 1]] /\
  injections_are (ex_inj 1) ex_v [] [1 * 1; 1 * 3] [1; 2] 10 /\ 0 < Rsum (quotients [1 * 1; 1 * 3] [1; 2]).
Proof.
  assert (M : forall (a : list xf) p, map (fmul (Fin 1)) a = map Fin p -> map (fmul (Fin 3)) a = map Fin (map (Rmult 3) p)).
  { induction a as [|x a IH]; intros [|y p] E; try discriminate; auto. cbn [map] in *. injection E as E1 E2. rewrite (IH p E2). f_equal.
    destruct x as [x| | |]; cbn [fmul] in E1; try (unfold inf_of_sign in E1; rewrite Rltb_true in E1 by lra; discriminate E1); [|discriminate E1]. rewrite fmul_fin in *. injection E1 as <-. f_equal. ring. }
  split; [|split; [|split; [|split; [|split]]]].
  - intros d h P. unfold ex_prob, rmap. destruct (dlookup "x" d) as [a|]; [|discriminate]. intros E. injection E as E. f_equal. revert P E.
    induction a as [|r a IH]; intros [|p P] E; try discriminate; auto. cbn [map] in *. injection E as E1 E2. rewrite (IH P E2). f_equal. now apply M.
  - intros d h P. unfold ex_inj, rmap. destruct (dlookup "x" d) as [a|]; [|discriminate]. intros E. injection E as E. f_equal. now apply M.
  - exists [[1 * 1; 1 * 2]; [1 * 3; 1 * 4]]. split; [reflexivity|]. exists [[2; 2]; [1; 1]]. split; [reflexivity|]. split; [repeat constructor; lra|]. split; reflexivity.
  - split; [simpl; lia|]. repeat constructor; lra.
  - split; [reflexivity|]. split; [reflexivity|]. split; [reflexivity|]. split; [repeat constructor; lra|]. split; [reflexivity|]. simpl. split; lra.
  - unfold quotients, Rsum. simpl. lra.
Qed.

(** C102. With a sampled rate the scale of the density and the rate are interchangeable: the density times c with the rate divided by c gives the same estimator and variance, whatever
    selection function returns c times the value with c^2 times the variance. *)
Theorem C102_rate_absorbs_scale :
  forall bk prob prob' sel sel' conv L parameters parameters' converted converted' W s v r c, 0 < c -> 0 < s -> 0 < r ->
  li_kind L = Rate -> conv parameters = Ok converted -> conv parameters' = Ok converted' ->
  dget "rate" converted = Some (Fin r) -> dget "rate" converted' = Some (Fin (r / c)) ->
  weights_are prob L converted W -> positive_weights L W -> List.length W = li_n L ->
  weights_are prob' L converted' (map (map (Rmult c)) W) ->
  sel converted = Ok (ValueAndVariance (Fin s) (Fin v)) -> sel' converted' = Ok (ValueAndVariance (Fin (c * s)) (Fin (c ^ 2 * v))) ->
  ln_likelihood_and_variance bk prob' sel' conv L parameters' = ln_likelihood_and_variance bk prob sel conv L parameters.
Proof. exact C102_rate_absorbs_scale_pf. Qed.
Print Assumptions C102_rate_absorbs_scale.

Example C102_rate_hyps : exists L W : _, li_kind L = Rate /\ weights_are (ex_prob 1) L [("rate"%string, Fin 6)] W /\ positive_weights L W /\ List.length W = li_n L /\
  weights_are (ex_prob 3) L [("rate"%string, Fin (6 / 3))] (map (map (Rmult 3)) W).
Proof.
  exists {| li_kind := Rate; li_data := [("x"%string, [[Fin 1; Fin 2]; [Fin 3; Fin 4]])]; li_prior := None; li_noise := NaN; li_n := 2; li_samples := 2; li_maxu := PInf; li_max_variance := PInf |},
    [[1 * 1; 1 * 2]; [1 * 3; 1 * 4]]. split; [reflexivity|]. split; [|split; [|split; [reflexivity|]]].
  - exists [[1 * 1; 1 * 2]; [1 * 3; 1 * 4]]. split; reflexivity.
  - split; [simpl; lia|]. repeat constructor; lra.
  - exists (map (map (Rmult 3)) [[1 * 1; 1 * 2]; [1 * 3; 1 * 4]]). split; [|reflexivity]. unfold ex_prob, rmap, dlookup. simpl. do 3 f_equal; repeat f_equal; ring.
Qed.

(** C103. Two catalogues analysed together with the same selection function: the log likelihoods add up. The variances of the events add up; the selection variance, which grows
    with the square of the number of events, exceeds the sum of the two by 2 N1 N2 v/s^2. *)
Theorem C103_catalogues_add :
  forall bk prob prob1 prob2 sel conv L L1 L2 parameters converted W1 W2 s v r, li_kind L = Hyper ->
  li_kind L1 = li_kind L -> li_kind L2 = li_kind L ->
  li_samples L1 = li_samples L -> li_samples L2 = li_samples L -> li_n L = (li_n L1 + li_n L2)%nat -> conv parameters = Ok converted ->
  weights_are prob1 L1 converted W1 -> positive_weights L1 W1 -> weights_are prob2 L2 converted W2 -> positive_weights L2 W2 -> weights_are prob L converted (W1 ++ W2) ->
  sel converted = Ok r -> (r = ValueAndVariance (Fin s) (Fin v) \/ r = Value (Fin s) /\ v = 0) -> 0 < s ->
  exists l1 l2 var1 var2,
    ln_likelihood_and_variance bk prob1 sel conv L1 parameters = Ok (Fin l1, Fin var1) /\
    ln_likelihood_and_variance bk prob2 sel conv L2 parameters = Ok (Fin l2, Fin var2) /\
    ln_likelihood_and_variance bk prob sel conv L parameters =
      Ok (Fin (l1 + l2), Fin (var1 + var2 + 2 * INR (li_n L1) * INR (li_n L2) * (v / s ^ 2))).
Proof. exact C103_catalogues_add_pf. Qed.
Print Assumptions C103_catalogues_add.

(** C103. With a sampled rate the two likelihoods each contain the same expected number of detections s * rate, which the joint likelihood contains once: it exceeds the sum of the
    two by s * rate, and its selection variance rate * v / s is counted once. *)
Theorem C103_catalogues_add_rate :
  forall bk prob prob1 prob2 sel conv L L1 L2 parameters converted W1 W2 s v r rate, li_kind L = Rate -> dget "rate" converted = Some (Fin rate) -> 0 < rate ->
  li_kind L1 = li_kind L -> li_kind L2 = li_kind L ->
  li_samples L1 = li_samples L -> li_samples L2 = li_samples L -> li_n L = (li_n L1 + li_n L2)%nat -> conv parameters = Ok converted ->
  weights_are prob1 L1 converted W1 -> positive_weights L1 W1 -> weights_are prob2 L2 converted W2 -> positive_weights L2 W2 -> weights_are prob L converted (W1 ++ W2) ->
  sel converted = Ok r -> (r = ValueAndVariance (Fin s) (Fin v) \/ r = Value (Fin s) /\ v = 0) -> 0 < s ->
  exists l1 l2 var1 var2,
    ln_likelihood_and_variance bk prob1 sel conv L1 parameters = Ok (Fin l1, Fin var1) /\
    ln_likelihood_and_variance bk prob2 sel conv L2 parameters = Ok (Fin l2, Fin var2) /\
    ln_likelihood_and_variance bk prob sel conv L parameters = Ok (Fin (l1 + l2 + s * rate), Fin (var1 + var2 - rate * v / s)).
Proof. exact C103_catalogues_add_rate_pf. Qed.
Print Assumptions C103_catalogues_add_rate.

Definition ex_L1 (k : kind) (rows : matrix) : likelihood := {| li_kind := k; li_data := [("x"%string, rows)]; li_prior := None;
  li_noise := NaN; li_n := List.length rows; li_samples := 2; li_maxu := PInf; li_max_variance := PInf |}.
Definition ex_prob1 (d : dict matrix) (h : dict xf) : result matrix := dlookup "x" d.
Example C103_hyps : forall k, let r1 := [[1; 2]] in let r2 := [[3; 4]; [5; 6]] in let L1 := ex_L1 k (map (map Fin) r1) in let L2 := ex_L1 k (map (map Fin) r2) in let L := ex_L1 k (map (map Fin) (r1 ++ r2)) in
  weights_are ex_prob1 L1 [] r1 /\ positive_weights L1 r1 /\ weights_are ex_prob1 L2 [] r2 /\ positive_weights L2 r2 /\ weights_are ex_prob1 L [] (r1 ++ r2) /\ li_n L = (li_n L1 + li_n L2)%nat.
Proof.
  intros k r1 r2 L1 L2 L. split; [exists r1; split; reflexivity|]. split; [split; [simpl; lia|repeat constructor; lra]|]. split; [exists r2; split; reflexivity|].
  split; [split; [simpl; lia|repeat constructor; lra]|]. split; [exists (r1 ++ r2)%list; split; reflexivity|reflexivity].
Qed.

(** C104. Repeating every posterior sample k times changes no log Bayes factor but divides every reported variance by k. *)
Theorem C104_repeated_samples :
  forall bk prob prob' L L' parameters W k, (0 < k)%nat -> li_samples L' = (k * li_samples L)%nat ->
  weights_are prob L parameters W -> positive_weights L W -> weights_are prob' L' parameters (map (copies k) W) ->
  exists ln_bfs variances, per_event bk prob L parameters = Ok (map Fin ln_bfs, map Fin variances) /\
    per_event bk prob' L' parameters = Ok (map Fin ln_bfs, map Fin (map (fun v => v / INR k) variances)).
Proof. exact C104_repeated_samples_pf. Qed.
Print Assumptions C104_repeated_samples.

Example C104_hyps : let W := [[1; 2]; [3; 4]] in let L := ex_L1 Hyper (map (map Fin) W) in let L' := {| li_kind := Hyper; li_data := [("x"%string, map (map Fin) (map (copies 3) W))]; li_prior := None;
  li_noise := NaN; li_n := 2; li_samples := 6; li_maxu := PInf; li_max_variance := PInf |} in
  li_samples L' = (3 * li_samples L)%nat /\ weights_are ex_prob1 L [] W /\ positive_weights L W /\ weights_are ex_prob1 L' [] (map (copies 3) W).
Proof.
  intros W L L'. split; [reflexivity|]. split; [exists W; split; reflexivity|]. split; [split; [simpl; lia|repeat constructor; lra]|]. exists (map (copies 3) W). split; reflexivity.
Qed.

(** C104. The same for injections: k copies of every found injection, out of k times as many, give the same efficiency and a variance k times smaller. *)
Theorem C104_repeated_injections :
  forall bk inj inj' v v' parameters p q N k, (0 < k)%nat -> injections_are inj v parameters p q N ->
  injections_are inj' v' parameters (copies k p) (copies k q) (INR k * N) ->
  exists mu var, detection_efficiency bk inj v parameters = Ok (Fin mu, Fin var) /\ detection_efficiency bk inj' v' parameters = Ok (Fin mu, Fin (var / INR k)).
Proof. exact C104_repeated_injections_pf. Qed.
Print Assumptions C104_repeated_injections.

(** C104. Two injection sets combined: the efficiency is the average weighted by the numbers of injections, and the variance is that of the weighted average of independent
    estimates plus a term from their disagreement. *)
Theorem C104_pooled_injections :
  forall bk inj inj1 inj2 v v1 v2 parameters p1 q1 p2 q2 N1 N2,
  injections_are inj1 v1 parameters p1 q1 N1 -> injections_are inj2 v2 parameters p2 q2 N2 -> injections_are inj v parameters (p1 ++ p2) (q1 ++ q2) (N1 + N2) ->
  exists mu1 var1 mu2 var2,
    detection_efficiency bk inj1 v1 parameters = Ok (Fin mu1, Fin var1) /\ detection_efficiency bk inj2 v2 parameters = Ok (Fin mu2, Fin var2) /\
    detection_efficiency bk inj v parameters =
      Ok (Fin ((N1 * mu1 + N2 * mu2) / (N1 + N2)),
          Fin ((N1 / (N1 + N2)) ^ 2 * var1 + (N2 / (N1 + N2)) ^ 2 * var2 + N1 * N2 * (mu1 - mu2) ^ 2 / (N1 + N2) ^ 3)).
Proof. exact C104_pooled_injections_pf. Qed.
Print Assumptions C104_pooled_injections.

Definition ex_inj1 (d : dict (list xf)) (h : dict xf) : result (list xf) := dlookup "x" d.
Definition ex_v1 (p q : list R) (N : R) : resampling := {| rv_data := [("x"%string, map Fin p); ("prior"%string, map Fin q)]; rv_n_events := Fin 2; rv_total := Fin N; rv_time := Fin 1;
  rv_redshift := None; rv_marginalize := false; rv_enforce := true; rv_volume := None |}.
Example C104_injections_hyps : forall p q N, List.length p = List.length q -> Forall (fun x => x <> 0) q -> 0 < N -> INR (List.length q) <= N -> injections_are ex_inj1 (ex_v1 p q N) [] p q N.
Proof. intros. repeat split; auto. Qed.

(** C105. The variance of an event's log Bayes factor is 1/n_eff - 1/K, where n_eff = (sum w)^2 / (sum w^2) is the effective number of its K posterior samples, and lies between 1 and K. *)
Theorem C105_event_effective_samples :
  forall bk prob L parameters W, weights_are prob L parameters W -> positive_weights L W ->
  exists ln_bfs, per_event bk prob L parameters = Ok (ln_bfs, map (fun w => Fin (1 / n_effective w - 1 / INR (li_samples L))) W) /\
    Forall (fun w => 1 <= n_effective w <= INR (li_samples L)) W.
Proof. exact C105_event_effective_samples_pf. Qed.
Print Assumptions C105_event_effective_samples.

(** C105. Likewise the relative variance of the detection efficiency is 1/n_eff - 1/N, and for n > 0 events the efficiency counts as converged exactly if that is below 1/(4 n);
    in particular n_eff > 4 n is sufficient. *)
Theorem C105_injection_effective_samples :
  forall bk inj v parameters p q N n, injections_are inj v parameters p q N -> q <> [] -> Forall (fun x => 0 < x) (quotients p q) -> rv_n_events v = Fin n -> 0 < n ->
  exists mu var, detection_efficiency bk inj v parameters = Ok (Fin mu, Fin var) /\ 0 < mu /\
    var / mu ^ 2 = 1 / n_effective (quotients p q) - 1 / N /\
    (fst (check_convergence v (Fin mu) (Fin var)) = true <-> 1 / n_effective (quotients p q) - 1 / N < 1 / (4 * n)) /\
    (4 * n < n_effective (quotients p q) -> fst (check_convergence v (Fin mu) (Fin var)) = true).
Proof. exact C105_injection_effective_samples_pf. Qed.
Print Assumptions C105_injection_effective_samples.

Example C105_hyps : injections_are ex_inj1 (ex_v1 [1; 2; 3] [1; 1; 2] 10) [] [1; 2; 3] [1; 1; 2] 10 /\ Forall (fun x => 0 < x) (quotients [1; 2; 3] [1; 1; 2]).
Proof. split; [apply C104_injections_hyps; [reflexivity|repeat constructor; lra|lra|simpl; lra]|]. unfold quotients. simpl. repeat constructor; lra. Qed.

