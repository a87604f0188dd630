(** Property theorems (roundvar). Proofs are in [roundvar_thms]; the vocabulary is in [Spec]. *)
From Coq Require Import Reals Lra Lia Psatz ZArith Bool.
From Coquelicot Require Import Rcomplements.
From Flocq Require Import Core BinarySingleNaN Relative Plus_error.
From Coq Require Import List.
From Verif Require Import Xf Py Xf_facts Double Double_facts Rounded_model SpecRound SpecHyper Hyperpe_model hypera_thms hyperb_thms round_thms roundll_thms RoundedVariance_model.
Import ListNotations.
Local Open Scope R_scope.
From Verif Require Import roundvar_thms.

(** C140. The total variance of the log-likelihood computed in double precision, from the weights to the number compared with the threshold: the variances of the events, their sum in any
    order, the relative variance of the detection efficiency times the square of the number of events and the last addition. It is finite, and differs from the exact value by at most
    (1-u)^-k - 1 (k roundings) of 1/n_eff for every event, plus the same of n^2 (1/n_eff + 1/N) for the injections, n_eff being the effective sample sizes. So the uncertainty cut is decided as in
    exact arithmetic unless the exact variance is within that error of the threshold: below, the log-likelihood is returned unchanged; above, the lowest double is. *)
Theorem C140_total_variance :
  forall K N events injections injections2 tv,
  Forall (fun e => List.length (leaves (fst e)) = K /\ Forall moderate (leaves (fst e)) /\ adds_squares (fst e) (snd e)) events ->
  (Z.of_nat K <= 2 ^ 46)%Z -> (Z.of_nat (List.length events) <= 2 ^ 25)%Z ->
  (List.length (leaves injections) <= N)%nat -> (Z.of_nat N <= 2 ^ 46)%Z -> Forall moderate (leaves injections) -> adds_squares injections injections2 ->
  leaves tv = map (fun e => event_variance64 K (fst e) (snd e)) events ->
  let n := List.length events in
  let computed := total_variance64 tv n N injections injections2 in
  let efficiency := Rsum (values injections) / INR N in
  let efficiency_variance := Rsum (squares (values injections)) / INR N ^ 2 - efficiency ^ 2 / INR N in
  let exact := Rsum (map (fun e => mc_variance K (values (fst e))) events) + INR n ^ 2 * (efficiency_variance / efficiency ^ 2) in
  let n_eff := fun t => Rsum (values t) ^ 2 / Rsum (squares (values t)) in
  let error := fun k => / (1 - u64) ^ k - 1 in
  let bound := Rsum (map (fun e => error (2 * depth (fst e) + depth (snd e) + depth tv + 10)%nat / n_eff (fst e)) events)
               + error (4 * depth injections + depth injections2 + 14)%nat * (INR n ^ 2 * (/ n_eff injections + / INR N)) in
  is_finite computed = true /\ Rabs (B2R computed - exact) <= bound /\
  forall threshold ln_l, is_finite threshold = true -> is_finite ln_l = true -> Rabs (B2R ln_l) < 2 ^ 969 ->
    (exact + bound <= B2R threshold -> B2X (cut_b threshold ln_l computed) = Fin (B2R ln_l)) /\
    (B2R threshold < exact - bound -> B2X (cut_b threshold ln_l computed) = Fin (- MAXF)).
Proof. exact C140_total_variance_pf. Qed.
Print Assumptions C140_total_variance.

(** Two events with the weights 3 and 5 and four injections of which two were found. *)
Example C140_met : let w := int64 3 in let w' := int64 5 in let t := Add (One w) (One w') in let t2 := Add (One (square64 w)) (One (square64 w')) in
  let tv := Add (One (event_variance64 2 t t2)) (One (event_variance64 2 t t2)) in
  Forall (fun e => List.length (leaves (fst e)) = 2%nat /\ Forall moderate (leaves (fst e)) /\ adds_squares (fst e) (snd e)) [(t, t2); (t, t2)] /\
  leaves tv = map (fun e => event_variance64 2 (fst e) (snd e)) [(t, t2); (t, t2)] /\ (List.length (leaves t) <= 4)%nat /\
  B2R (total_variance64 tv 2 4 t t2) = 19 / 16.
Proof.
  assert (Q : forall n, (1 <= n <= 8)%nat -> moderate (int64 n)).
  { intros n H. destruct (int64_val n) as [F V]; [simpl; lia|]. split; [exact F|]. rewrite V. assert (1 <= INR n) by (change 1 with (INR 1); apply le_INR; lia). assert (INR n <= INR 8) by (apply le_INR; lia). simpl (INR 8) in *.
    assert (8 <= 2 ^ 400) by (replace 400%nat with (3 + 397)%nat by lia; rewrite pow_add; assert (1 <= 2 ^ 397) by (apply pow_R1_Rle; lra); simpl (2 ^ 3); lra).
    split; [|lra]. apply Rle_trans with (/ 1); [|lra]. apply Rinv_le_contravar; lra. }
  cbv zeta. assert (M : Forall moderate [int64 3; int64 5]) by (repeat (apply Forall_cons; [apply Q; lia|]); apply Forall_nil).
  split; [repeat (apply Forall_cons; [split; [reflexivity|split; [exact M|reflexivity]]|]); apply Forall_nil|]. split; [reflexivity|]. split; [cbn; lia|].
  set (x := total_variance64 _ _ _ _ _).
  assert (E : B2SF x = SpecFloat.S754_finite false 5348024557502464 (-52)) by (vm_compute; reflexivity).
  rewrite <- SF2R_B2SF, E. unfold SF2R, F2R. simpl. lra.
Qed.

