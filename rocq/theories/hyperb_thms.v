(** Proofs of the property theorems stated in [Props_hyperb]. *)
From Coq Require Import Reals ZArith Lra Lia Psatz String Bool.
From Coquelicot Require Import Coquelicot.
From Flocq Require Import Core BinarySingleNaN.
From Coq Require Import List.
From Verif Require Import Xf Py Xf_facts Py_facts Np Vt_model vt_thms Hyperpe_model SpecHyper Double Double_facts hypera_thms.
Import ListNotations.
Local Open Scope R_scope.

Lemma tie_value : rnd64 (- MAXF + bpow radix2 970) = - MAXF + bpow radix2 971.
Proof.
  assert (B := bpow_gt_0 radix2 970). assert (H971 := bpow_half).
  assert (E1024 : bpow radix2 1024 = IZR (2 ^ 54) * bpow radix2 970) by exact (bpow_plus radix2 54 970).
  assert (V : - MAXF + bpow radix2 970 = - (IZR (2 ^ 54 - 3) * bpow radix2 970)) by (rewrite MAXF_bpow, E1024, H971, minus_IZR; ring).
  assert (M : mag radix2 (- MAXF + bpow radix2 970) = 1024%Z :> Z).
  { apply mag_unique. rewrite V, Rabs_Ropp, Rabs_pos_eq by (apply Rmult_le_pos; [apply IZR_le; lia|lra]).
    replace (bpow radix2 (1024 - 1)) with (IZR (2 ^ 53) * bpow radix2 970) by (symmetry; exact (bpow_plus radix2 53 970)). rewrite E1024. split; [apply Rmult_le_compat_r|apply Rmult_lt_compat_r]; try lra; [apply IZR_le|apply IZR_lt]; lia. }
  unfold rnd64, round, scaled_mantissa, cexp. rewrite M. change (format64 1024) with 971%Z. unfold F2R, Fnum, Fexp.
  assert (SM : (- MAXF + bpow radix2 970) * bpow radix2 (- (971)) = IZR (- (2 ^ 53 - 1)) + / 2).
  { rewrite V. assert (P : bpow radix2 970 * bpow radix2 (- (971)) = / 2). { rewrite <- bpow_plus. reflexivity. }
    replace (- (IZR (2 ^ 54 - 3) * bpow radix2 970) * bpow radix2 (- (971))) with (- IZR (2 ^ 54 - 3) * (bpow radix2 970 * bpow radix2 (- (971)))) by ring. rewrite P.
    replace (IZR (2 ^ 54 - 3)) with (2 * IZR (2 ^ 53 - 1) - 1). 2:{ rewrite !minus_IZR. replace (IZR (2 ^ 54)) with (2 * IZR (2 ^ 53)) by (rewrite <- mult_IZR; reflexivity). lra. }
    rewrite opp_IZR. lra. }
  rewrite SM. unfold Znearest. 
  assert (FL : Zfloor (IZR (- (2 ^ 53 - 1)) + / 2) = (- (2 ^ 53 - 1))%Z). { apply Zfloor_imp. rewrite plus_IZR. lra. }
  rewrite FL. rewrite Rcompare_Eq by lra.
  assert (CE : Zceil (IZR (- (2 ^ 53 - 1)) + / 2) = (- (2 ^ 53 - 1) + 1)%Z). { apply Zceil_imp. rewrite plus_IZR. replace (- (2 ^ 53 - 1) + 1 - 1)%Z with (- (2 ^ 53 - 1))%Z by lia. lra. }
  rewrite CE. change (negb (Z.even (- (2 ^ 53 - 1)))) with true. cbv iota. rewrite plus_IZR, opp_IZR, minus_IZR, MAXF_bpow.
  replace (bpow radix2 1024) with (IZR (2 ^ 53) * bpow radix2 971) by (symmetry; exact (bpow_plus radix2 53 971)). ring.
Qed.
Lemma p970 : bpow radix2 970 = 2 ^ 970.
Proof. exact (bpow_powerRZ radix2 970). Qed.
Lemma cut_big u r v : flt u v = true -> bpow radix2 970 <= r -> exists x, cut u (Fin r) v = Fin x /\ - MAXF < x.
Proof.
  intros H [B|B]; rewrite cut_out by auto; cbn [nan_to_num_nan]; rewrite fsub_fin; cbn [xfl].
  - apply fl_above_max. lra.
  - subst r. replace (bpow radix2 970 - MAXF) with (- MAXF + bpow radix2 970) by ring. unfold fl. rewrite tie_value.
    assert (P := bpow_gt_0 radix2 971). assert (M := MAXF_pos).
    assert (L : bpow radix2 971 < MAXF). { rewrite MAXF_bpow. assert (E : bpow radix2 1024 = 2 * bpow radix2 1023) by exact (bpow_plus_1 radix2 1023). assert (bpow radix2 971 < bpow radix2 1023) by (apply bpow_lt; lia). lra. }
    destruct (Rlt_dec _ _) as [_|N].
    + eexists. split; [reflexivity|]. lra.
    + exfalso. apply N. rewrite Rabs_left by lra. destruct MAXF_double as [_ D]. rewrite Rabs_pos_eq in D by lra. lra.
Qed.
Lemma C60_exact_pf :
  forall bk prob sel conv L parameters x variance, ln_likelihood_and_variance bk prob sel conv L parameters = Ok (Fin x, variance) ->
  flt (li_maxu L) variance = true -> is_double x ->
  (log_likelihood_ratio bk prob sel conv L parameters = Ok (Fin (- MAXF)) <-> x < 2 ^ 970).
Proof.
  intros bk prob sel conv L p x v H U D. rewrite (llr_of _ _ _ _ _ _ _ _ H). cbn [xfl]. rewrite fl_double by auto. rewrite <- p970. split.
  - intros E. destruct (Rlt_le_dec x (bpow radix2 970)) as [B|B]; auto. destruct (cut_big (li_maxu L) x v U B) as (y & E' & Y). rewrite E' in E. injection E as E. lra.
  - intros B. f_equal. now apply cut_over.
Qed.

Lemma sel_hyper bk prob sel conv L p cp W s v : li_kind L = Hyper -> conv p = Ok cp -> weights_are prob L cp W -> positive_weights L W -> sel cp = Ok (ValueAndVariance s v) ->
  ln_likelihood_and_variance bk prob sel conv L p =
    Ok (fadd (Fin (Rsum (map (fun w => ln (mean w)) W))) (fmul (fopp (of_nat (li_n L))) (flog s)), fadd (Fin (Rsum (map (mc_variance (li_samples L)) W))) (fmul (fsq (of_nat (li_n L))) (fdiv v (fsq s)))).
Proof.
  intros K C H F S. unfold ln_likelihood_and_variance. rewrite C. cbn [bind]. rewrite (pe_val bk prob L cp W H F). cbn [bind].
  unfold selection_factor, selection_with_uncertainty. rewrite S. cbn [bind]. rewrite K. cbn [bind]. now rewrite !fsum_fins.
Qed.
Lemma flog_zero : flog (Fin 0) = NInf.
Proof. simpl. rewrite Rltb_false by lra. rewrite Reqb_refl. reflexivity. Qed.
Lemma neg_ninf n : (0 < n)%nat -> fmul (fopp (of_nat n)) NInf = PInf.
Proof. intros H. unfold of_nat. simpl. assert (0 < INR n) by now apply lt_0_INR. rewrite inf_of_sign_neg by lra. reflexivity. Qed.
Lemma neg_pinf n : (0 < n)%nat -> fmul (fopp (of_nat n)) PInf = NInf.
Proof. intros H. unfold of_nat. simpl. assert (0 < INR n) by now apply lt_0_INR. rewrite inf_of_sign_neg by lra. reflexivity. Qed.
Lemma C60_infinite_estimator_refuted_pf :
  forall bk prob sel conv L parameters converted W v u, li_kind L = Hyper -> (0 < li_n L)%nat -> conv parameters = Ok converted ->
  weights_are prob L converted W -> positive_weights L W -> sel converted = Ok (ValueAndVariance (Fin 0) (Fin v)) -> 0 < v -> li_maxu L = Fin u ->
  ln_likelihood_and_variance bk prob sel conv L parameters = Ok (PInf, PInf) /\ flt (li_maxu L) PInf = true /\
  log_likelihood_ratio bk prob sel conv L parameters = Ok (Fin 0).
Proof.
  intros bk prob sel conv L p cp W v u K N C H F S V U.
  assert (E : ln_likelihood_and_variance bk prob sel conv L p = Ok (PInf, PInf)).
  { rewrite (sel_hyper bk prob sel conv L p cp W (Fin 0) (Fin v)) by auto. rewrite flog_zero, neg_ninf by auto. rewrite fsq_fin, Rmult_0_l. unfold fdiv. rewrite Reqb_refl, inf_of_sign_pos by auto.
    unfold of_nat. rewrite fsq_fin, fmul_pos_PInf; [reflexivity|]. assert (0 < INR (li_n L)) by now apply lt_0_INR. now apply Rmult_lt_0_compat. }
  split; [exact E|]. rewrite U. split; [reflexivity|]. rewrite (llr_of _ _ _ _ _ _ _ _ E), U. rewrite cut_out by reflexivity. cbn [xfl nan_to_num_nan]. rewrite fsub_fin. cbn [xfl].
  replace (MAXF - MAXF) with 0 by ring. rewrite fl_double by apply zero_double. reflexivity.
Qed.

Lemma C61_standard_deviation_refuted_pf :
  forall bk prob sel conv L parameters x u, li_maxu L = Fin u -> 0 < u -> is_double x -> x < 2 ^ 970 ->
  (u < 1 -> ln_likelihood_and_variance bk prob sel conv L parameters = Ok (Fin x, Fin u) ->
     u < sqrt u /\ log_likelihood_ratio bk prob sel conv L parameters = Ok (Fin x)) /\
  (1 < u -> ln_likelihood_and_variance bk prob sel conv L parameters = Ok (Fin x, Fin (u ^ 2)) ->
     sqrt (u ^ 2) = u /\ log_likelihood_ratio bk prob sel conv L parameters = Ok (Fin (- MAXF))).
Proof.
  intros bk prob sel conv L p x u U P D B. split; intros Hu H; rewrite (llr_of _ _ _ _ _ _ _ _ H); cbn [xfl]; rewrite fl_double, U by auto.
  - split; [|f_equal; apply cut_good; auto; rewrite flt_fin; apply Rltb_false; lra]. rewrite <- (sqrt_square u) at 1 by lra. apply sqrt_lt_1_alt. nra.
  - split; [apply sqrt_pow2; lra|]. f_equal. apply cut_over; [rewrite flt_fin; apply Rltb_true; nra|]. now rewrite p970.
Qed.

Lemma C61_agreement_partial_pf :
  forall u, (forall r, u = Fin r -> 0 <= r) -> u <> NInf -> u <> NaN ->
  ((forall s, 0 <= s -> flt u (Fin s) = flt u (Fin (sqrt s))) <-> u = Fin 0 \/ u = Fin 1 \/ u = PInf).
Proof.
  intros u P N1 N2. split.
  - intros H. destruct u as [r| | |]; [|auto|congruence|congruence]. assert (R0 := P r eq_refl). destruct (Req_dec r 0) as [->|Z]; [auto|]. destruct (Req_dec r 1) as [->|O]; [auto|]. exfalso.
    destruct (Rlt_le_dec r 1) as [L|L].
    + assert (A := H r R0). rewrite !flt_fin in A. rewrite Rltb_false in A by lra. rewrite Rltb_true in A; [discriminate|]. rewrite <- (sqrt_square r) at 1 by lra. apply sqrt_lt_1_alt. nra.
    + assert (A := H (r * r) ltac:(nra)). rewrite !flt_fin, sqrt_square in A by lra. rewrite Rltb_true in A by nra. rewrite Rltb_false in A by lra. discriminate.
  - intros [->|[->| ->]] s Hs; [| |reflexivity]; rewrite !flt_fin.
    + destruct (Rle_lt_or_eq_dec 0 s Hs) as [L|<-]; [|now rewrite sqrt_0]. rewrite !Rltb_true; auto. now apply sqrt_lt_R0.
    + destruct (Rlt_le_dec 1 s) as [L|L].
      * rewrite !Rltb_true; auto. rewrite <- sqrt_1. apply sqrt_lt_1_alt. lra.
      * rewrite !Rltb_false; auto. rewrite <- sqrt_1. apply sqrt_le_1_alt. exact L.
Qed.

Lemma C62_nan_variance_refuted_pf :
  forall bk prob sel conv L parameters converted W, li_kind L = Hyper -> (0 < li_n L)%nat -> conv parameters = Ok converted ->
  weights_are prob L converted W -> positive_weights L W ->
  (sel converted = Ok (ValueAndVariance (Fin 0) (Fin 0)) \/ sel converted = Ok (Value (Fin 0))) ->
  ln_likelihood_and_variance bk prob sel conv L parameters = Ok (PInf, NaN) /\
  log_likelihood_ratio bk prob sel conv L parameters = Ok (Fin MAXF).
Proof.
  intros bk prob sel conv L p cp W K N C H F S.
  assert (E : ln_likelihood_and_variance bk prob sel conv L p = Ok (PInf, NaN)).
  { unfold ln_likelihood_and_variance. rewrite C. cbn [bind]. rewrite (pe_val bk prob L cp W H F). cbn [bind]. unfold selection_factor, selection_with_uncertainty.
    assert (SS : (s0 <- sel cp ;; match s0 with ValueAndVariance s v => Ok (s, v) | Value s => Ok (s, Fin 0) end) = Ok (Fin 0, Fin 0)) by (destruct S as [-> | ->]; reflexivity).
    rewrite SS. cbn [bind]. rewrite K. cbn [bind]. rewrite !fsum_fins, flog_zero, neg_ninf by auto. rewrite fsq_fin, Rmult_0_l. unfold fdiv. rewrite Reqb_refl, inf_of_sign_0, fmul_NaN_r. reflexivity. }
  split; [exact E|]. rewrite (llr_of _ _ _ _ _ _ _ _ E). rewrite cut_in by (destruct (li_maxu L); reflexivity). cbn [xfl nan_to_num_nan]. rewrite fl_double by apply MAXF_double. reflexivity.
Qed.

Lemma C62_nan_variance_ignored_refuted_pf :
  forall bk prob sel conv L parameters x, ln_likelihood_and_variance bk prob sel conv L parameters = Ok (Fin x, NaN) -> is_double x ->
  log_likelihood_ratio bk prob sel conv L parameters = Ok (Fin x).
Proof.
  intros bk prob sel conv L p x H D. rewrite (llr_of _ _ _ _ _ _ _ _ H). cbn [xfl]. rewrite fl_double by auto. f_equal. apply cut_good; auto. destruct (li_maxu L); reflexivity.
Qed.

Lemma C63_null_pf :
  forall bk prob sel conv L L0 parameters ln_l variance, li_kind L = Null ->
  L0 = {| li_kind := Hyper; li_data := li_data L; li_prior := li_prior L; li_noise := li_noise L; li_n := li_n L; li_samples := li_samples L; li_maxu := li_maxu L; li_max_variance := li_max_variance L |} ->
  ln_likelihood_and_variance bk prob sel conv L0 parameters = Ok (ln_l, variance) ->
  log_likelihood_ratio bk prob sel conv L parameters = Ok (Fin (if flt (li_maxu L) variance then - MAXF else 0)).
Proof.
  intros bk prob sel conv L L0 p l v K -> H.
  assert (E : ln_likelihood_and_variance bk prob sel conv L p = Ok (Fin 0, v)).
  { unfold ln_likelihood_and_variance in *. destruct (conv p) as [cp|]; [|discriminate]. cbn [bind] in *.
    change (per_event bk prob _ cp) with (per_event bk prob L cp) in H. destruct (per_event bk prob L cp) as [[a b]|]; [|discriminate]. cbn [bind] in *.
    unfold selection_factor in *. cbn [li_kind li_n] in H. destruct (selection_with_uncertainty sel cp) as [[s sv]|]; [|discriminate]. cbn [bind] in *. rewrite K. cbn [bind]. cbn [bind] in H. congruence. }
  rewrite (llr_of _ _ _ _ _ _ _ _ E). cbn [xfl]. rewrite fl_double by apply zero_double. f_equal. destruct (flt (li_maxu L) v) eqn:U.
  - apply cut_over; auto. apply bpow_gt_0.
  - apply cut_good; auto. apply zero_double.
Qed.

Lemma flt_nan_r x : flt x NaN = false. Proof. destruct x; reflexivity. Qed.
Lemma flt_nonneg_zero u : (forall r, u = Fin r -> 0 <= r) -> u <> NInf -> flt u (Fin 0) = false.
Proof. intros P N. destruct u as [r| | |]; try reflexivity; [|congruence]. rewrite flt_fin. apply Rltb_false. now apply P. Qed.
Lemma C63_accepts_unusable_refuted_pf :
  forall bk prob sel conv L parameters converted, li_kind L = Null -> conv parameters = Ok converted ->
  (forall W v, weights_are prob L converted W -> positive_weights L W -> sel converted = Ok (ValueAndVariance PInf (Fin v)) ->
     flt (li_maxu L) (Fin (Rsum (map (mc_variance (li_samples L)) W))) = false ->
     log_likelihood_ratio bk prob sel conv L parameters = Ok (Fin 0)) /\
  (forall w k s, event_weights bk prob L converted = Ok w -> In (repeat (Fin 0) k) w -> sel converted = Ok s ->
     log_likelihood_ratio bk prob sel conv L parameters = Ok (Fin 0)).
Proof.
  intros bk prob sel conv L p cp K C. split.
  - intros W v H F S U.
    assert (E : ln_likelihood_and_variance bk prob sel conv L p = Ok (Fin 0, Fin (Rsum (map (mc_variance (li_samples L)) W)))).
    { unfold ln_likelihood_and_variance. rewrite C. cbn [bind]. rewrite (pe_val bk prob L cp W H F). cbn [bind]. unfold selection_factor, selection_with_uncertainty. rewrite S. cbn [bind]. rewrite K. cbn [bind].
      rewrite fsum_fins. unfold of_nat. rewrite fsq_fin. change (fsq PInf) with PInf. change (fdiv (Fin v) PInf) with (Fin 0). rewrite fmul_fin, Rmult_0_r, fadd_fin, Rplus_0_r. reflexivity. }
    rewrite (llr_of _ _ _ _ _ _ _ _ E). cbn [xfl]. rewrite fl_double by apply zero_double. f_equal. apply cut_good; auto. apply zero_double.
  - intros w k s H I S.
    assert (NV : event_variance L (repeat (Fin 0) k) = NaN).
    { assert (Z : forall n, fsum (repeat (Fin 0) n) = Fin 0) by (induction n as [|n IH]; [reflexivity|]; cbn [repeat fsum fold_right]; unfold fsum in IH; rewrite IH, fadd_fin; f_equal; lra).
      assert (SQ : map fsq (repeat (Fin 0) k) = repeat (Fin 0) k) by (clear; induction k as [|k IH]; [reflexivity|]; cbn [repeat map]; rewrite IH, fsq_fin, Rmult_0_l; reflexivity).
      unfold event_variance. rewrite SQ. unfold fmean. rewrite Z, repeat_length. unfold of_nat. destruct (Req_dec (INR k) 0) as [E|E].
      - rewrite E. unfold fdiv at 2. rewrite Reqb_refl, inf_of_sign_0. reflexivity.
      - rewrite !fdiv_fin by auto. replace (0 / INR k) with 0 by (field; auto). rewrite fsq_fin, fsub_fin, fmul_fin. replace (INR (li_samples L) * (0 * 0)) with 0 by ring. unfold fdiv. rewrite Reqb_refl. replace (0 - 0 * 0) with 0 by ring. apply inf_of_sign_0. }
    assert (NS : fsum (map (event_variance L) w) = NaN).
    { clear -I NV. induction w as [|x w IH]; [destruct I|]. cbn [map fsum fold_right]. unfold fsum in *. destruct I as [->|I]; [now rewrite NV|]. rewrite (IH I). apply fadd_NaN_r. }
    destruct (selection_with_uncertainty sel cp) as [[s0 v0]|] eqn:SU; [|unfold selection_with_uncertainty in SU; rewrite S in SU; destruct s; discriminate].
    assert (E : ln_likelihood_and_variance bk prob sel conv L p = Ok (Fin 0, NaN)).
    { unfold ln_likelihood_and_variance. rewrite C. cbn [bind]. unfold per_event. rewrite H. cbn [bind]. unfold selection_factor. rewrite SU. cbn [bind]. rewrite K. cbn [bind]. rewrite NS. reflexivity. }
    rewrite (llr_of _ _ _ _ _ _ _ _ E). cbn [xfl]. rewrite fl_double by apply zero_double. f_equal. apply cut_good; [apply zero_double|]. apply flt_nan_r.
Qed.

Lemma unusable bk prob sel conv L p cp lb vs s v : li_kind L <> Null -> (0 < li_n L)%nat -> conv p = Ok cp -> per_event bk prob L cp = Ok (lb, vs) ->
  (li_kind L = Rate -> exists r, dget "rate" cp = Some (Fin r)) ->
  selection_with_uncertainty sel cp = Ok (s, v) -> s = PInf \/ s = NaN -> log_likelihood_ratio bk prob sel conv L p = Ok (Fin (- MAXF)).
Proof.
  intros K N C P RT S X.
  assert (E : exists l w, ln_likelihood_and_variance bk prob sel conv L p = Ok (l, w) /\ (l = NaN \/ l = NInf)).
  { unfold ln_likelihood_and_variance. rewrite C. cbn [bind]. rewrite P. cbn [bind]. unfold selection_factor. rewrite S. cbn [bind]. destruct (li_kind L) eqn:KK; [| |congruence].
    - cbn [bind]. do 2 eexists. split; [reflexivity|]. destruct X as [-> | ->].
      + change (flog PInf) with PInf. rewrite neg_pinf by auto. destruct (fsum lb); auto.
      + left. change (flog NaN) with NaN. rewrite fmul_NaN_r. destruct (fsum lb); reflexivity.
    - destruct (RT eq_refl) as [r R0]. rewrite (dlookup_ok _ _ _ R0). cbn [bind].
      assert (FD : exists q, float_div bk (fmul (fmul s (Fin r)) v) (fsq s) = Ok q) by (unfold float_div; destruct X as [-> | ->]; destruct (is_jax bk); cbn [feq fsq fmul]; eauto).
      destruct FD as [q FD]. rewrite FD. cbn [bind]. do 2 eexists. split; [reflexivity|].
      assert (Z : fadd (fopp (fmul s (Fin r))) (fmul (of_nat (li_n L)) (flog (Fin r))) = NaN \/ fadd (fopp (fmul s (Fin r))) (fmul (of_nat (li_n L)) (flog (Fin r))) = NInf).
      { destruct X as [-> | ->]; [|left; reflexivity]. destruct (Rtotal_order r 0) as [Hr|[->|Hr]].
        - left. cbn [flog]. rewrite Rltb_false by lra. rewrite Reqb_false by lra. rewrite fmul_NaN_r. apply fadd_NaN_r.
        - left. rewrite (fmul_comm PInf), fmul_0_PInf. reflexivity.
        - right. rewrite (fmul_comm PInf), fmul_pos_PInf by auto. rewrite flog_fin by auto. unfold of_nat. rewrite fmul_fin. reflexivity. }
      destruct Z as [-> | ->]; [left; apply fadd_NaN_r|destruct (fsum lb); auto]. }
  destruct E as (l & w & E & B). rewrite (llr_of _ _ _ _ _ _ _ _ E). f_equal. apply cut_bad. destruct B as [-> | ->]; auto.
Qed.
Lemma fadd_pinf_r x : fadd x PInf = PInf \/ fadd x PInf = NaN. Proof. destruct x; auto. Qed.
Lemma C54_unconverged_rejected_pf :
  forall bk prob vt_prob V conv L parameters converted ln_bfs variances mu var s,
  li_kind L <> Null -> (0 < li_n L)%nat -> conv parameters = Ok converted ->
  per_event bk prob L converted = Ok (ln_bfs, variances) ->
  (li_kind L = Rate -> exists r, dget "rate" converted = Some (Fin r)) ->
  detection_efficiency bk vt_prob V converted = Ok (mu, var) -> fst (check_convergence V mu var) = false ->
  (rv_enforce V = true \/ rv_marginalize V = true) -> resampling_call bk vt_prob V converted = Ok s ->
  log_likelihood_ratio bk prob (resampling_call bk vt_prob V) conv L parameters = Ok (Fin (- MAXF)).
Proof.
  intros bk prob vp V conv L p cp lb vs mu var s K N C P RT D U X S.
  assert (CC : snd (check_convergence V mu var) = PInf).
  { unfold check_convergence in *. cbn [fst snd] in *. rewrite U. cbn [of_bool]. rewrite fsub_fin, fmul_comm, fmul_pos_PInf by lra. reflexivity. }
  assert (Q : exists a b, selection_with_uncertainty (resampling_call bk vp V) cp = Ok (a, b) /\ (a = PInf \/ a = NaN)).
  { unfold selection_with_uncertainty. rewrite S. cbn [bind]. unfold resampling_call in S. destruct (rv_marginalize V).
    - unfold vt_factor in S. rewrite D in S. cbn [bind] in S. cbv zeta in S. rewrite CC in S. destruct (float_div bk (fsq mu) var) as [ne|]; cbn [bind rmap] in S; [|discriminate].
      destruct (float_div bk (fdiv (fadd (Fin 3) (rv_n_events V)) (Fin 2)) ne) as [e|]; cbn [bind rmap] in S; [|discriminate]. injection S as <-. do 2 eexists. split; [reflexivity|]. apply fadd_pinf_r.
    - rewrite D in S. cbn [bind] in S. cbv zeta in S. destruct X as [X|X]; [|discriminate]. rewrite X, CC in S. injection S as <-. do 2 eexists. split; [reflexivity|]. apply fadd_pinf_r. }
  destruct Q as (a & b & Q & A). exact (unusable bk prob _ conv L p cp lb vs a b K N C P RT Q A).
Qed.

Lemma C63_unconverged_resampling_accepted_refuted_pf :
  forall bk prob vt_prob V conv L parameters converted W mu var n, li_kind L = Null -> conv parameters = Ok converted ->
  weights_are prob L converted W -> positive_weights L W -> detection_efficiency bk vt_prob V converted = Ok (Fin mu, Fin var) ->
  rv_marginalize V = false -> rv_enforce V = true -> rv_n_events V = Fin n -> mu ^ 2 <= 4 * n * var ->
  flt (li_maxu L) (Fin (Rsum (map (mc_variance (li_samples L)) W))) = false ->
  log_likelihood_ratio bk prob (resampling_call bk vt_prob V) conv L parameters = Ok (Fin 0).
Proof.
  intros bk prob vp V conv L p cp W mu var n K C H F D M E N U A.
  refine (proj1 (C63_accepts_unusable_refuted_pf bk prob (resampling_call bk vp V) conv L p cp K C) W var H F _ A).
  unfold resampling_call. rewrite M, E, D. cbn [bind]. unfold check_convergence. cbn [fst snd]. rewrite N, !fmul_fin, fsq_fin, fgt_fin.
  rewrite Rltb_false by nra. cbn [of_bool]. rewrite fsub_fin, fmul_comm, fmul_pos_PInf by lra. reflexivity.
Qed.

Lemma B2X_max : B2X (Bmax_float : b64) = Fin MAXF.
Proof.
  assert (E : (Bmax_float : b64) = @B754_finite 53 1024 false 9007199254740991%positive 971 eq_refl) by (apply B2SF_inj; vm_compute; reflexivity). rewrite E. cbn [B2X B2R]. f_equal. rewrite MAXF_bpow. unfold F2R. cbn [Fnum Fexp cond_Zopp].
  replace (bpow radix2 1024) with (IZR (2 ^ 53) * bpow radix2 971) by (symmetry; exact (bpow_plus radix2 53 971)). replace (IZR (Z.pos 9007199254740991)) with (IZR (2 ^ 53) - 1) by (rewrite <- minus_IZR; reflexivity). ring.
Qed.
Lemma B2X_opp_max : B2X (Bopp Bmax_float : b64) = Fin (- MAXF).
Proof.
  assert (F : is_finite (Bopp Bmax_float : b64) = true) by (vm_compute; reflexivity). rewrite (B2X_fin _ F), B2R_Bopp. 
  assert (F' : is_finite (Bmax_float : b64) = true) by (vm_compute; reflexivity). assert (M := B2X_max). rewrite (B2X_fin _ F') in M. congruence.
Qed.
Lemma B2X_ntn n x : B2X (nan_to_num_b n x) = nan_to_num_nan (B2X n) (B2X x).
Proof. destruct x as [s|s| |s m e H]; try reflexivity. destruct s; cbn [nan_to_num_b B2X nan_to_num_nan]; [apply B2X_opp_max|apply B2X_max]. Qed.
Lemma B2X_lt (x y : b64) : Bltb x y = flt (B2X x) (B2X y).
Proof.
  destruct (is_finite x) eqn:Fx; [destruct (is_finite y) eqn:Fy|].
  - rewrite (B2X_fin x Fx), (B2X_fin y Fy), flt_fin. rewrite Bltb_correct by auto. unfold Rltb. destruct (Rlt_dec (B2R x) (B2R y)); [now apply Rlt_bool_true|apply Rlt_bool_false; lra].
  - destruct y as [s|s| |s m e H]; try discriminate; try destruct s; destruct x as [s'|s'| |s' m' e' H']; try discriminate; try destruct s'; reflexivity.
  - destruct x as [s|s| |s m e H]; try discriminate; try destruct s; destruct y as [s'|s'| |s' m' e' H']; try destruct s'; reflexivity.
Qed.
Lemma C60_ieee754_pf :
  forall u l v : b64, B2X (cut_b u l v) = cut (B2X u) (B2X l) (B2X v).
Proof.
  intros u l v. unfold cut_b, cut. rewrite B2X_ntn, Bminus_xfl, B2X_ntn. cbn [B2X B2R]. unfold nan_to_num. f_equal. f_equal. f_equal. rewrite B2X_lt. destruct (flt (B2X u) (B2X v)); cbn [of_bool].
  - rewrite B2X_max, fmul_comm, fmul_pos_PInf by lra. reflexivity.
  - rewrite fmul_comm, fmul_0_PInf. reflexivity.
Qed.

