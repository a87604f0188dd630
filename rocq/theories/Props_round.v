(** Property theorems (round). Proofs are in [round_thms]; the vocabulary is in [Spec]. *)
From Coq Require Import Reals Lra Lia Psatz ZArith Bool.
From Coquelicot Require Import Rcomplements.
From Flocq Require Import Core BinarySingleNaN Relative Plus_error.
From Coq Require Import List.
From Verif Require Import Xf Py Xf_facts Double Double_facts Rounded_model SpecRound SpecHyper Hyperpe_model hypera_thms.
Import ListNotations.
Local Open Scope R_scope.
From Verif Require Import round_thms.

(** C110. A sum of non-negative doubles in any order: finite and within [depth] relative rounding errors of the exact sum. The depth is below the number of summands. *)
Theorem C110_sums :
  forall t, Forall nonneg_double (leaves t) -> Rsum (values t) < (1 - u64) ^ depth t * 2 ^ 1024 ->
  is_finite (sum64 t) = true /\ (1 - u64) ^ depth t * Rsum (values t) <= B2R (sum64 t) <= Rsum (values t) / (1 - u64) ^ depth t /\ (depth t < List.length (leaves t))%nat.
Proof. exact C110_sums_pf. Qed.
Print Assumptions C110_sums.

Example C110_sums_hyps : let w := int64 3 in Forall nonneg_double (leaves (Add (One w) (Add (One w) (One w)))) /\ Rsum (values (Add (One w) (Add (One w) (One w)))) < (1 - u64) ^ 2 * 2 ^ 1024.
Proof.
  cbv zeta. destruct (int64_val 3) as [F V]; [simpl; lia|]. split.
  - repeat constructor; auto; rewrite V; simpl; lra.
  - unfold values, Rsum. cbn [leaves app map]. rewrite V. assert (U := u64_pos). assert (1024 <= 2 ^ 1024). { replace 1024%nat with (10 + 1014)%nat by lia. rewrite pow_add. assert (1 <= 2 ^ 1014) by (apply pow_R1_Rle; lra). simpl (2 ^ 10). lra. }
    simpl (INR 3). simpl. nra.
Qed.

(** C110. The mean of an event's weights and the detection efficiency (the sum over the injections found, divided by the number generated): the logarithm of the double computed differs from that
    of the exact value by at most depth + 1 unit roundoffs (over 1 - u), whatever the order of the additions. *)
Theorem C110_means :
  forall N t, (List.length (leaves t) <= N)%nat -> (Z.of_nat N <= 2 ^ 50)%Z -> Forall moderate (leaves t) ->
  let exact := Rsum (values t) / INR N in
  mean64 N t = efficiency64 N t /\ is_finite (efficiency64 N t) = true /\ 0 < exact /\
  (1 - u64) ^ (depth t + 1) * exact <= B2R (efficiency64 N t) <= exact / (1 - u64) ^ (depth t + 1) /\
  Rabs (ln (B2R (efficiency64 N t)) - ln exact) <= INR (depth t + 1) * (u64 / (1 - u64)).
Proof. exact C110_means_pf. Qed.
Print Assumptions C110_means.

Example C110_means_hyps : let t := Add (One (int64 3)) (Add (One (int64 5)) (One (int64 7))) in
  (List.length (leaves t) <= 10)%nat /\ (Z.of_nat 10 <= 2 ^ 50)%Z /\ Forall moderate (leaves t) /\ B2R (efficiency64 10 t) = 3 / 2.
Proof.
  assert (Q : forall n, (1 <= n <= 8)%nat -> moderate (int64 n)).
  { intros n H. destruct (int64_val n) as [F V]; [simpl; lia|]. split; [exact F|]. rewrite V. assert (1 <= INR n) by (change 1 with (INR 1); apply le_INR; lia). assert (INR n <= INR 8) by (apply le_INR; lia). simpl (INR 8) in *.
    assert (8 <= 2 ^ 400) by (replace 400%nat with (3 + 397)%nat by lia; rewrite pow_add; assert (1 <= 2 ^ 397) by (apply pow_R1_Rle; lra); simpl (2 ^ 3); lra).
    split; [|lra]. apply Rle_trans with (/ 1); [|lra]. apply Rinv_le_contravar; lra. }
  cbv zeta. split; [cbn; lia|]. split; [simpl; lia|]. split; [cbn [leaves app]; repeat (apply Forall_cons; [apply Q; lia|]); apply Forall_nil|].
  assert (E : B2SF (efficiency64 10 (Add (One (int64 3)) (Add (One (int64 5)) (One (int64 7))))) = SpecFloat.S754_finite false 6755399441055744 (-52)) by (vm_compute; reflexivity).
  rewrite <- SF2R_B2SF, E. unfold SF2R, F2R. simpl. lra.
Qed.

(** C110. The log likelihood (C58) from the rounded means and the rounded detection efficiency, against the one from the exact means: the error is at most the number of
    rounding steps times u/(1-u), i.e. about 1.1e-16 per step. The logarithms and the sum over the events are exact here. *)
Theorem C110_log_likelihood :
  forall K N events injections,
  Forall (fun t => List.length (leaves t) = K /\ Forall moderate (leaves t)) events -> (Z.of_nat K <= 2 ^ 50)%Z ->
  (List.length (leaves injections) <= N)%nat -> (Z.of_nat N <= 2 ^ 50)%Z -> Forall moderate (leaves injections) ->
  let n := INR (List.length events) in
  let computed := Rsum (map (fun t => ln (B2R (mean64 K t))) events) - n * ln (B2R (efficiency64 N injections)) in
  let exact := Rsum (map (fun t => ln (mean (values t))) events) - n * ln (Rsum (values injections) / INR N) in
  let steps := Rsum (map (fun t => INR (depth t + 1)) events) + n * INR (depth injections + 1) in
  Rabs (computed - exact) <= steps * (u64 / (1 - u64)).
Proof. exact C110_log_likelihood_pf. Qed.
Print Assumptions C110_log_likelihood.

Example C110_log_likelihood_hyps : let t := Add (One (int64 3)) (One (int64 5)) in
  Forall (fun t => List.length (leaves t) = 2%nat /\ Forall moderate (leaves t)) [t; t] /\ (Z.of_nat 2 <= 2 ^ 50)%Z /\ (List.length (leaves t) <= 4)%nat.
Proof.
  assert (Q : forall n, (1 <= n <= 8)%nat -> moderate (int64 n)).
  { intros n H. destruct (int64_val n) as [F V]; [simpl; lia|]. split; [exact F|]. rewrite V. assert (1 <= INR n) by (change 1 with (INR 1); apply le_INR; lia). assert (INR n <= INR 8) by (apply le_INR; lia). simpl (INR 8) in *.
    assert (8 <= 2 ^ 400) by (replace 400%nat with (3 + 397)%nat by lia; rewrite pow_add; assert (1 <= 2 ^ 397) by (apply pow_R1_Rle; lra); simpl (2 ^ 3); lra).
    split; [|lra]. apply Rle_trans with (/ 1); [|lra]. apply Rinv_le_contravar; lra. }
  cbv zeta. split; [|split; [simpl; lia|cbn; lia]]. assert (M : Forall moderate [int64 3; int64 5]) by (repeat (apply Forall_cons; [apply Q; lia|]); apply Forall_nil).
  apply Forall_cons; [split; [reflexivity|exact M]|]. apply Forall_cons; [split; [reflexivity|exact M]|]. apply Forall_nil.
Qed.

(** C111. The computed variance of an event is within (1-u)^-n - 1 over the effective sample size of the exact one, where n counts the roundings. *)
Theorem C111_variance_error :
  forall K t t2, List.length (leaves t) = K -> (Z.of_nat K <= 2 ^ 48)%Z -> Forall moderate (leaves t) -> adds_squares t t2 ->
  let n := (2 * depth t + depth t2 + 9)%nat in
  let n_eff := Rsum (values t) ^ 2 / Rsum (squares (values t)) in
  is_finite (event_variance64 K t t2) = true /\ Rabs (B2R (event_variance64 K t t2) - mc_variance K (values t)) <= (/ (1 - u64) ^ n - 1) / n_eff.
Proof. exact C111_variance_error_pf. Qed.
Print Assumptions C111_variance_error.

Example C111_variance_error_hyps : let w := int64 3 in let w' := int64 5 in let t := Add (One w) (One w') in let t2 := Add (One (square64 w)) (One (square64 w')) in
  List.length (leaves t) = 2%nat /\ (Z.of_nat 2 <= 2 ^ 48)%Z /\ adds_squares t t2 /\ B2R (event_variance64 2 t t2) = / 32 /\ mc_variance 2 [3; 5] = / 32.
Proof.
  cbv zeta. split; [reflexivity|]. split; [simpl; lia|]. split; [reflexivity|]. split.
  - assert (E : B2SF (event_variance64 2 (Add (One (int64 3)) (One (int64 5))) (Add (One (square64 (int64 3))) (One (square64 (int64 5))))) = SpecFloat.S754_finite false 4503599627370496 (-57)) by (vm_compute; reflexivity).
    rewrite <- SF2R_B2SF, E. unfold SF2R, F2R. simpl. lra.
  - unfold mc_variance, mean, squares. cbn [map List.length]. rewrite !rs_cons. change (Rsum []) with 0. simpl (INR 2). field.
Qed.

(** C111. In exact arithmetic the variance of an event is never negative. *)
Theorem C111_exact :
  forall K w, (0 < K)%nat -> List.length w = K -> Forall (fun x => 0 < x) w -> 0 <= mc_variance K w.
Proof. exact C111_exact_pf. Qed.
Print Assumptions C111_exact.

(** C111. In doubles it is: three samples (or injections) of weight 0.1, added up in any order, have a negative variance, and the detection efficiency counts as converged even for the
    default of infinitely many events. *)
Theorem C111_negative_refuted :
  let w := Bdiv mode_NE (int64 1) (int64 10) in
  forall t t2, leaves t = [w; w; w] -> adds_squares t t2 ->
  positive_double w /\ B2R (event_variance64 3 t t2) < 0 /\ B2R (efficiency_variance64 3 t t2) < 0 /\
  mc_variance 3 (values t) = 0 /\ converged64 (B754_infinity false) (efficiency64 3 t) (efficiency_variance64 3 t t2) = true.
Proof. exact C111_negative_refuted_pf. Qed.
Print Assumptions C111_negative_refuted.

Example C111_negative_hyps : let w := Bdiv mode_NE (int64 1) (int64 10) in leaves (Add (One w) (Add (One w) (One w))) = [w; w; w] /\
  adds_squares (Add (One w) (Add (One w) (One w))) (Add (Add (One (square64 w)) (One (square64 w))) (One (square64 w))).
Proof. split; reflexivity. Qed.

(** C111. The variance of the detection efficiency, sum w^2 / N^2 - mu^2 / N: the computed value is within (1-u)^-n - 1 times the sum of the two terms of the exact one. *)
Theorem C111_efficiency_variance_error :
  forall N t t2, (List.length (leaves t) <= N)%nat -> (Z.of_nat N <= 2 ^ 48)%Z -> Forall moderate (leaves t) -> adds_squares t t2 ->
  let n := (2 * depth t + depth t2 + 8)%nat in
  let first := Rsum (squares (values t)) / INR N ^ 2 in
  let second := (Rsum (values t) / INR N) ^ 2 / INR N in
  is_finite (efficiency_variance64 N t t2) = true /\ Rabs (B2R (efficiency_variance64 N t t2) - (first - second)) <= (/ (1 - u64) ^ n - 1) * (first + second).
Proof. exact C111_efficiency_variance_error_pf. Qed.
Print Assumptions C111_efficiency_variance_error.

Example C111_efficiency_variance_error_hyps : let w := int64 2 in let w' := int64 6 in let t := Add (One w) (One w') in let t2 := Add (One (square64 w)) (One (square64 w')) in
  (List.length (leaves t) <= 4)%nat /\ (Z.of_nat 4 <= 2 ^ 48)%Z /\ Forall moderate (leaves t) /\ adds_squares t t2 /\ B2R (efficiency_variance64 4 t t2) = 3 / 2.
Proof.
  cbv zeta.
  assert (Q : forall n, (1 <= n <= 8)%nat -> moderate (int64 n)).
  { intros n N. destruct (int64_val n) as (I1 & I2); [simpl; lia|]. split; [exact I1|]. rewrite I2. assert (1 <= INR n) by (change 1 with (INR 1); apply le_INR; lia). assert (INR n <= 2 ^ 3) by (replace (2 ^ 3) with (INR 8) by (simpl; lra); apply le_INR; lia).
    split; [apply Rle_trans with 1; [|lra]; rewrite <- Rinv_1; apply Rinv_le_contravar; [lra|apply pow_R1_Rle; lra]|]. apply Rle_trans with (2 ^ 3); [lra|]. apply Rle_pow; [lra|lia]. }
  split; [simpl; lia|]. split; [simpl; lia|]. split; [apply Forall_cons; [apply Q; lia|apply Forall_cons; [apply Q; lia|apply Forall_nil]]|]. split; [reflexivity|].
  assert (E : B2SF (efficiency_variance64 4 (Add (One (int64 2)) (One (int64 6))) (Add (One (square64 (int64 2))) (One (square64 (int64 6))))) = SpecFloat.S754_finite false 6755399441055744 (-52)) by (vm_compute; reflexivity).
  rewrite <- SF2R_B2SF, E. unfold SF2R, F2R. simpl. lra.
Qed.

(** C111. The convergence test "mean squared > 4 n_events variance" is decided as in exact arithmetic unless the two sides agree to within two roundings; a variance that is zero or
    negative always passes, for any positive number of events. *)
Theorem C111_convergence_test :
  forall n (mu var : b64), (0 < n)%nat -> (Z.of_nat n <= 2 ^ 50)%Z -> is_finite mu = true -> / 2 ^ 500 <= B2R mu <= 2 ^ 500 -> is_finite var = true -> Rabs (B2R var) <= 2 ^ 900 ->
  (B2R var <= 0 -> converged64 (int64 n) mu var = true) /\
  (/ 2 ^ 1022 <= B2R var ->
     (4 * INR n * B2R var < (1 - u64) ^ 2 * B2R mu ^ 2 -> converged64 (int64 n) mu var = true) /\
     (B2R mu ^ 2 < (1 - u64) ^ 2 * (4 * INR n * B2R var) -> converged64 (int64 n) mu var = false)).
Proof. exact C111_convergence_test_pf. Qed.
Print Assumptions C111_convergence_test.

Example C111_convergence_test_hyps : (0 < 2)%nat /\ (Z.of_nat 2 <= 2 ^ 50)%Z /\ is_finite (int64 3) = true /\ B2R (int64 3) = 3 /\ is_finite (int64 1) = true /\ B2R (int64 1) = 1 /\
  4 * INR 2 * 1 < (1 - u64) ^ 2 * 3 ^ 2 /\ converged64 (int64 2) (int64 3) (int64 1) = true /\ 3 ^ 2 < (1 - u64) ^ 2 * (4 * INR 3 * 1) /\ converged64 (int64 3) (int64 3) (int64 1) = false.
Proof.
  destruct (int64_val 3) as (A1 & A2); [simpl; lia|]. destruct (int64_val 1) as (B1 & B2); [simpl; lia|]. simpl (INR _) in A2, B2. assert (U := u64_pos). assert (V : u64 <= / 1024) by (unfold u64; apply Rinv_le_contravar; simpl; lra).
  split; [lia|]. split; [simpl; lia|]. split; [exact A1|]. split; [lra|]. split; [exact B1|]. split; [lra|]. simpl (INR _). split; [nra|]. split; [vm_compute; reflexivity|]. split; [nra|]. vm_compute; reflexivity.
Qed.

(** C112. In exact arithmetic the variance of an event does not depend on the scale of its weights. *)
Theorem C112_exact :
  forall K c w, (0 < K)%nat -> List.length w = K -> Forall (fun x => 0 < x) w -> 0 < c -> mc_variance K (map (Rmult c) w) = mc_variance K w.
Proof. exact C112_exact_pf. Qed.
Print Assumptions C112_exact.

(** C112. In doubles it does: if every weight of an event is at most 2^-538 (about 1e-162) the computed variance is NaN, whatever the exact variance and the order of the additions, and
    then the total variance is NaN and log_likelihood_ratio accepts the sample at every threshold. *)
Theorem C112_underflow_refuted :
  forall K t t2, List.length (leaves t) = K -> (Z.of_nat K <= 2 ^ 53)%Z -> Forall (fun w => positive_double w /\ B2R w <= / 2 ^ 538) (leaves t) -> adds_squares t t2 ->
  event_variance64 K t t2 = B754_nan /\
  forall others threshold ln_l, is_finite ln_l = true ->
    let result := cut_b threshold ln_l (Bplus mode_NE others (event_variance64 K t t2)) in is_finite result = true /\ B2R result = B2R ln_l.
Proof. exact C112_underflow_refuted_pf. Qed.
Print Assumptions C112_underflow_refuted.

(** Two samples, one of which carries all the weight: the exact variance is almost 1/2. *)
Example C112_underflow_hyps :
  let pow (e : Z) : b64 := binary_normalize 53 1024 eq_refl eq_refl mode_NE 1 e false in let t := Add (One (pow (-540)%Z)) (One (pow (-600)%Z)) in
  List.length (leaves t) = 2%nat /\ Forall (fun w => positive_double w /\ B2R w <= / 2 ^ 538) (leaves t) /\ values t = [/ 2 ^ 540; / 2 ^ 600] /\ 49 / 100 < mc_variance 2 [/ 2 ^ 540; / 2 ^ 600].
Proof.
  cbv zeta.
  assert (Q : forall e, (-1074 <= e <= 0)%Z -> let x : b64 := binary_normalize 53 1024 eq_refl eq_refl mode_NE 1 e false in is_finite x = true /\ B2R x = bpow radix2 e).
  { intros e He x. assert (C := binary_normalize_correct 53 1024 eq_refl eq_refl mode_NE 1 e false). cbv zeta in C. fold x in C.
    assert (E : F2R (Float radix2 1 e) = bpow radix2 e) by (unfold F2R; simpl; ring). rewrite E in C.
    change (round radix2 (SpecFloat.fexp 53 1024) (round_mode mode_NE) (bpow radix2 e)) with (rnd64 (bpow radix2 e)) in C.
    assert (DB : is_double (bpow radix2 e)). { replace (bpow radix2 e) with (INR 1 * bpow radix2 e) by (simpl (INR 1); ring). apply int_bpow_double; simpl; lia. }
    rewrite (rnd_double _ DB) in C. rewrite Rlt_bool_true in C by apply DB. tauto. }
  destruct (Q (-540)%Z) as [A1 A2]; [lia|]. destruct (Q (-600)%Z) as [B1 B2]; [lia|].
  split; [reflexivity|]. split; [|split].
  - cbn [leaves app]. apply Forall_cons; [|apply Forall_cons; [|apply Forall_nil]].
    + split; [split; [exact A1|rewrite A2; apply bpow_gt_0]|]. rewrite A2, pow_bpow_inv. apply bpow_le; lia.
    + split; [split; [exact B1|rewrite B2; apply bpow_gt_0]|]. rewrite B2, pow_bpow_inv. apply bpow_le; lia.
  - unfold values. cbn [leaves app map]. rewrite A2, B2, !pow_bpow_inv. reflexivity.
  - unfold mc_variance, mean, squares. cbn [map List.length]. rewrite !rs_cons. change (Rsum []) with 0. simpl (INR 2).
    replace (/ 2 ^ 540) with (2 ^ 60 * / 2 ^ 600) by (replace 600%nat with (60 + 540)%nat by lia; rewrite (pow_add 2 60 540); field; split; apply Rgt_not_eq, pow2_pos).
    assert (P := pow2_inv_pos 600). set (x := / 2 ^ 600) in *. assert (Y : 1000 <= 2 ^ 60). { replace 60%nat with (10 + 50)%nat by lia. rewrite pow_add. assert (1 <= 2 ^ 50) by (apply pow_R1_Rle; lra). simpl (2 ^ 10). lra. } set (y := 2 ^ 60) in *.
    match goal with |- _ < ?a => replace a with ((y - 1) ^ 2 / (2 * (y + 1) ^ 2)) by (field; split; nra) end. clearbody x y. assert (D0 : 0 < 2 * (y + 1) ^ 2) by nra. apply (Rmult_lt_reg_r (2 * (y + 1) ^ 2)); [exact D0|]. unfold Rdiv. rewrite (Rmult_assoc ((y - 1) ^ 2)), Rinv_l by lra. assert (0 <= (y - 1000) * y) by nra. nra.
Qed.

(** C112. The same for weights of at least 2^512 (about 1.3e154). *)
Theorem C112_overflow_refuted :
  forall K t t2, List.length (leaves t) = K -> (Z.of_nat K <= 2 ^ 53)%Z -> Forall (fun w => is_finite w = true /\ 2 ^ 512 <= B2R w) (leaves t) -> adds_squares t t2 ->
  event_variance64 K t t2 = B754_nan /\
  forall others threshold ln_l, is_finite ln_l = true ->
    let result := cut_b threshold ln_l (Bplus mode_NE others (event_variance64 K t t2)) in is_finite result = true /\ B2R result = B2R ln_l.
Proof. exact C112_overflow_refuted_pf. Qed.
Print Assumptions C112_overflow_refuted.

Example C112_overflow_hyps : let w : b64 := binary_normalize 53 1024 eq_refl eq_refl mode_NE 1 600 false in let t := Add (One w) (One w) in
  List.length (leaves t) = 2%nat /\ Forall (fun w => is_finite w = true /\ 2 ^ 512 <= B2R w) (leaves t).
Proof.
  cbv zeta. split; [reflexivity|]. assert (C := binary_normalize_correct 53 1024 eq_refl eq_refl mode_NE 1 600 false). cbv zeta in C. set (x := binary_normalize 53 1024 eq_refl eq_refl mode_NE 1 600 false) in *.
  assert (E : F2R (Float radix2 1 600) = bpow radix2 600) by (unfold F2R; simpl; ring). rewrite E in C.
  change (round radix2 (SpecFloat.fexp 53 1024) (round_mode mode_NE) (bpow radix2 600)) with (rnd64 (bpow radix2 600)) in C.
  assert (DB : is_double (bpow radix2 600)). { replace (bpow radix2 600) with (INR 1 * bpow radix2 600) by (simpl (INR 1); ring). apply int_bpow_double; simpl; lia. }
  rewrite (rnd_double _ DB) in C. rewrite Rlt_bool_true in C by apply DB. destruct C as (C1 & C2 & _).
  assert (W : is_finite x = true /\ 2 ^ 512 <= B2R x) by (split; [exact C2|rewrite C1, pow_bpow; apply bpow_le; lia]). cbn [leaves app]. repeat (apply Forall_cons; [exact W|]). apply Forall_nil.
Qed.

