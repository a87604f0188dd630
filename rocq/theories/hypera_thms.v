(** Proofs of the property theorems stated in [Props_hypera]. *)
From Coq Require Import Reals Lra Lia Psatz String Bool Permutation.
From Coquelicot Require Import Coquelicot.
From Flocq Require Import Core.
From Coq Require Import List.
From Verif Require Import Xf Py Xf_facts Py_facts Calc Np Vt_model vt_thms Hyperpe_model SpecHyper Double Double_facts.
Import ListNotations.
Local Open Scope R_scope.

Lemma ewt bk prob L p W : weights_are prob L p W -> event_weights bk prob L p = Ok (map (map Fin) W).
Proof.
  intros (P & E & H). unfold event_weights. rewrite E. cbn [bind]. unfold mdiv. destruct (li_prior L) as [q|].
  - destruct H as (Q & -> & NZ & S & ->). unfold same_shape. rewrite !map_map.
    assert (S' : map (fun x => List.length (map Fin x)) P = map (fun x => List.length (map Fin x)) Q).
    { rewrite (map_ext (fun x => List.length (map Fin x)) (@List.length R)) by (intros; apply map_length).
      rewrite (map_ext (fun x => List.length (map Fin x)) (@List.length R)) by (intros; apply map_length). exact S. }
    destruct (list_eq_dec _ _ _) as [_|N]; [|contradiction]. f_equal. clear -NZ. revert Q NZ. induction P as [|p0 P IH]; intros Q NZ; [reflexivity|]. destruct Q as [|q0 Q]; [reflexivity|].
    inversion NZ; subst. unfold zipWith in *. cbn [map combine fst snd]. f_equal; [|now apply IH]. apply (zip_quot p0 q0). assumption.
  - subst P. f_equal. rewrite map_map. apply map_ext. intros w. rewrite map_map. apply map_ext. intros x. rewrite fdiv_fin by lra. f_equal. field.
Qed.
Lemma mean_pos w : w <> [] -> Forall (fun x => 0 < x) w -> 0 < mean w.
Proof. intros N H. unfold mean. apply Rdiv_lt_0_compat; [now apply Rsum_pos|]. apply lt_0_INR. destruct w; [congruence|simpl; lia]. Qed.
Lemma row_ne K (w : list R) : (0 < K)%nat -> List.length w = K -> w <> [].
Proof. intros H L ->. simpl in L. lia. Qed.
Lemma fmean_fin w : w <> [] -> fmean (map Fin w) = Fin (mean w).
Proof. intros. now apply fmean_map_fin. Qed.
Lemma fsq_row w : map fsq (map Fin w) = map Fin (squares w).
Proof. unfold squares. rewrite !map_map. reflexivity. Qed.
Lemma evar L w : (0 < li_samples L)%nat -> List.length w = li_samples L -> mean w <> 0 -> event_variance L (map Fin w) = Fin (mc_variance (li_samples L) w).
Proof.
  intros K Lw M. assert (N := row_ne _ _ K Lw). assert (N' : squares w <> []) by (unfold squares; destruct w; [congruence|discriminate]). unfold event_variance. rewrite fsq_row, !fmean_fin by auto.
  rewrite fsq_fin, fsub_fin. unfold of_nat. rewrite fmul_fin, fdiv_fin; [reflexivity|]. assert (0 < INR (li_samples L)) by now apply lt_0_INR.
  apply Rmult_integral_contrapositive_currified; [lra|]. apply Rmult_integral_contrapositive_currified; auto.
Qed.
Lemma sum_sq_le w : Forall (fun x => 0 < x) w -> Rsum (squares w) <= Rsum w * Rsum w.
Proof.
  induction 1 as [|x w Hx H IH]; [simpl; lra|]. unfold squares in *. cbn [map Rsum fold_right] in *. change (fold_right Rplus 0 w) with (Rsum w) in *. change (fold_right Rplus 0 (map (fun x => x * x) w)) with (Rsum (map (fun x => x * x) w)) in *.
  assert (0 <= Rsum w) by (apply Rsum_nonneg; eapply Forall_impl; [|exact H]; simpl; intros; lra). assert (0 <= x * Rsum w) by (apply Rmult_le_pos; lra). lra.
Qed.
Lemma mean_squares K w : List.length w = K -> mean (squares w) = Rsum (squares w) / INR K.
Proof. intros <-. unfold mean, squares. now rewrite map_length. Qed.
Lemma pos3 a m : 0 < a -> 0 < m -> 0 < a * (m * m).
Proof. intros. repeat apply Rmult_lt_0_compat; auto. Qed.
Lemma pos4 a m : 0 < a -> 0 < m -> 0 < a * a * (m * m).
Proof. intros. repeat apply Rmult_lt_0_compat; auto. Qed.
(** Sum of squared deviations. *)
Lemma sum_dev (m : R) w : Rsum (map (fun x => (x - m) * (x - m)) w) = Rsum (squares w) - 2 * m * Rsum w + INR (List.length w) * m * m.
Proof.
  unfold squares. induction w as [|x w IH]; [simpl; lra|]. cbn [map Rsum fold_right List.length] in *. rewrite S_INR.
  change (fold_right Rplus 0 w) with (Rsum w) in *. change (fold_right Rplus 0 (map (fun x => x * x) w)) with (Rsum (map (fun x => x * x) w)) in *.
  change (fold_right Rplus 0 (map (fun x => (x - m) * (x - m)) w)) with (Rsum (map (fun x => (x - m) * (x - m)) w)) in *. rewrite IH. ring.
Qed.
Lemma mcv_dev K w : (0 < K)%nat -> List.length w = K -> mean w <> 0 ->
  mc_variance K w = Rsum (map (fun x => (x - mean w) * (x - mean w)) w) / (INR K * INR K * (mean w * mean w)).
Proof.
  intros HK L M. assert (P : 0 < INR K) by now apply lt_0_INR. unfold mc_variance. rewrite sum_dev, (mean_squares K w L), L.
  assert (S : Rsum w = INR K * mean w) by (unfold mean; rewrite L; field; lra). rewrite S. field. split; auto; lra.
Qed.
Lemma Rsum_zero_sq (f : R -> R) w : (forall x, 0 <= f x) -> Rsum (map f w) = 0 -> Forall (fun x => f x = 0) w.
Proof.
  intros H. induction w as [|x w IH]; [constructor|]. cbn [map Rsum fold_right]. change (fold_right Rplus 0 (map f w)) with (Rsum (map f w)). intros E.
  assert (0 <= Rsum (map f w)) by (apply Rsum_nonneg, Forall_map, Forall_forall; auto). assert (Hx := H x). constructor; [lra|]. apply IH. lra.
Qed.
Lemma mcv_bounds K w : (0 < K)%nat -> List.length w = K -> Forall (fun x => 0 < x) w ->
  0 <= mc_variance K w <= 1 - / INR K /\ (mc_variance K w = 0 <-> forall x y, In x w -> In y w -> x = y).
Proof.
  intros HK L P. assert (Kp : 0 < INR K) by now apply lt_0_INR. assert (N := row_ne _ _ HK L). assert (M := mean_pos w N P).
  assert (D : 0 < INR K * INR K * (mean w * mean w)) by (apply pos4; auto).
  assert (Q := mcv_dev K w HK L ltac:(lra)).
  assert (Z : 0 <= Rsum (map (fun x => (x - mean w) * (x - mean w)) w)) by (apply Rsum_nonneg, Forall_map, Forall_forall; intros; apply Rle_0_sqr).
  assert (S : Rsum w = INR K * mean w) by (unfold mean; rewrite L; field; lra).
  split; [split|].
  - rewrite Q. apply Rmult_le_pos; auto. left; now apply Rinv_0_lt_compat.
  - unfold mc_variance. assert (T := sum_sq_le w P). rewrite S in T. rewrite (mean_squares K w L).
    apply Rmult_le_reg_r with (INR K * (mean w * mean w)); [apply pos3; auto|]. unfold Rdiv. rewrite Rmult_assoc, Rinv_l, Rmult_1_r.
    2:{ assert (0 < INR K * (mean w * mean w)) by (apply pos3; auto). lra. }
    replace ((1 - / INR K) * (INR K * (mean w * mean w))) with (INR K * (mean w * mean w) - mean w * mean w) by (field; lra).
    assert (Rsum (squares w) * / INR K <= INR K * (mean w * mean w)); [|lra]. apply Rmult_le_reg_r with (INR K); auto. rewrite Rmult_assoc, Rinv_l by lra. lra.
  - rewrite Q. split.
    + intros E. assert (E' : Rsum (map (fun x => (x - mean w) * (x - mean w)) w) = 0).
      { apply Rmult_integral in E. destruct E as [E|E]; auto. exfalso. apply Rinv_neq_0_compat in E; lra. }
      apply Rsum_zero_sq in E'; [|intros; apply Rle_0_sqr]. rewrite Forall_forall in E'. intros x y Hx Hy. apply E' in Hx, Hy. apply Rsqr_eq_0 in Hx, Hy. lra.
    + intros E. destruct w as [|x0 w]; [congruence|]. 
      assert (MM : mean (x0 :: w) = x0).
      { assert (A : forall l, (forall x, In x l -> x = x0) -> Rsum l = INR (List.length l) * x0).
        { induction l as [|y l IH]; intros A; [simpl; lra|]. cbn [Rsum fold_right List.length]. rewrite S_INR. change (fold_right Rplus 0 l) with (Rsum l). rewrite IH by (intros; apply A; now right). rewrite (A y) by now left. ring. }
        unfold mean. rewrite (A (x0 :: w)) by (intros x Hx; apply E; [exact Hx|now left]). rewrite L. field. lra. }
      assert (Rsum (map (fun x => (x - mean (x0 :: w)) * (x - mean (x0 :: w))) (x0 :: w)) = 0); [|rewrite H; unfold Rdiv; ring].
      assert (A : forall l, (forall x, In x l -> x = x0) -> Rsum (map (fun x => (x - mean (x0 :: w)) * (x - mean (x0 :: w))) l) = 0).
      { rewrite MM. induction l as [|y l IH]; intros A; [reflexivity|]. cbn [map Rsum fold_right]. change (fold_right Rplus 0 (map (fun x => (x - x0) * (x - x0)) l)) with (Rsum (map (fun x => (x - x0) * (x - x0)) l)). rewrite IH by (intros; apply A; now right). rewrite (A y) by now left. ring. }
      apply A. intros x Hx. apply E; [exact Hx|now left].
Qed.
Lemma pe_val bk prob L p W : weights_are prob L p W -> positive_weights L W ->
  per_event bk prob L p = Ok (map (fun w => Fin (ln (mean w))) W, map (fun w => Fin (mc_variance (li_samples L) w)) W).
Proof.
  intros H [K F]. unfold per_event. rewrite (ewt bk prob L p W H). cbn [bind]. rewrite !map_map. rewrite Forall_forall in F. do 2 f_equal.
  - apply map_ext_in. intros w I. destruct (F w I) as [L1 L2]. assert (N := row_ne _ _ K L1). rewrite fmean_fin by auto. rewrite flog_fin by now apply mean_pos. reflexivity.
  - apply map_ext_in. intros w I. destruct (F w I) as [L1 L2]. assert (N := row_ne _ _ K L1). apply evar; auto. assert (M := mean_pos w N L2). lra.
Qed.

Lemma C57_per_event_pf :
  forall bk prob L parameters W, weights_are prob L parameters W -> positive_weights L W ->
  exists ln_bfs variances, per_event bk prob L parameters = Ok (map Fin ln_bfs, map Fin variances) /\
    ln_bfs = map (fun w => ln (mean w)) W /\
    variances = map (fun w => (mean (squares w) - mean w ^ 2) / (INR (li_samples L) * mean w ^ 2)) W /\
    Forall (fun v => 0 <= v <= 1 - / INR (li_samples L)) variances /\
    forall i, (i < List.length W)%nat -> (nth i variances 0 = 0 <-> forall x y, In x (nth i W []) -> In y (nth i W []) -> x = y).
Proof.
  intros bk prob L p W H F. rewrite (pe_val bk prob L p W H F). exists (map (fun w => ln (mean w)) W), (map (mc_variance (li_samples L)) W). rewrite !map_map. split; [reflexivity|]. split; [reflexivity|].
  destruct F as [K F]. rewrite Forall_forall in F. split; [|split].
  - apply map_ext_in. intros w I. unfold mc_variance. destruct (F w I) as [L1 L2]. assert (M := mean_pos w (row_ne _ _ K L1) L2). f_equal; [|f_equal]; ring.
  - apply Forall_map, Forall_forall. intros w I. destruct (F w I) as [L1 L2]. now apply mcv_bounds.
  - intros i Hi. assert (I := nth_In W [] Hi). destruct (F _ I) as [L1 L2].
    assert (E : nth i (map (mc_variance (li_samples L)) W) 0 = mc_variance (li_samples L) (nth i W [])).
    { rewrite (nth_indep _ 0 (mc_variance (li_samples L) [])) by now rewrite map_length. apply map_nth. }
    rewrite E. now apply mcv_bounds.
Qed.

Lemma C57_sample_permutation_pf :
  forall bk prob prob' L L' parameters w w', li_samples L = li_samples L' ->
  event_weights bk prob L parameters = Ok w -> event_weights bk prob' L' parameters = Ok w' -> Forall2 (@Permutation xf) w w' ->
  per_event bk prob L parameters = per_event bk prob' L' parameters.
Proof.
  intros bk prob prob' L L' p w w' K E E' H. unfold per_event. rewrite E, E'. cbn [bind]. clear E E'. do 2 f_equal; induction H as [|a b w w' P H IH]; try reflexivity; cbn [map]; f_equal; auto.
  all: assert (LEN := Permutation_length P); unfold event_variance, fmean; rewrite ?K, ?map_length, LEN, (fsum_perm _ _ P), ?(fsum_perm _ _ (Permutation_map fsq P)); reflexivity.
Qed.

Lemma mean_scale c w : mean (map (Rmult c) w) = c * mean w.
Proof. unfold mean. rewrite Rsum_scale, map_length. unfold Rdiv. ring. Qed.
Lemma squares_scale c w : squares (map (Rmult c) w) = map (Rmult (c * c)) (squares w).
Proof. unfold squares. rewrite !map_map. apply map_ext. intros; ring. Qed.
Lemma mcv_scale K c w : (0 < K)%nat -> c <> 0 -> mean w <> 0 -> mc_variance K (map (Rmult c) w) = mc_variance K w.
Proof.
  intros HK C M. assert (0 < INR K) by now apply lt_0_INR. unfold mc_variance. rewrite squares_scale, !mean_scale. field. repeat split; auto; lra.
Qed.
Lemma C57_scaling_pf :
  forall bk prob prob' L L' parameters W c, 0 < c -> li_samples L = li_samples L' ->
  weights_are prob L parameters W -> positive_weights L W -> weights_are prob' L' parameters (map (map (Rmult c)) W) ->
  exists ln_bfs variances, per_event bk prob L parameters = Ok (map Fin ln_bfs, map Fin variances) /\
    per_event bk prob' L' parameters = Ok (map Fin (map (fun l => l + ln c) ln_bfs), map Fin variances).
Proof.
  intros bk prob prob' L L' p W c C K H F H'. exists (map (fun w => ln (mean w)) W), (map (mc_variance (li_samples L)) W).
  rewrite (pe_val bk prob L p W H F), (pe_val bk prob' L' p (map (map (Rmult c)) W) H').
  - rewrite !map_map. split; [reflexivity|]. destruct F as [K0 F]. rewrite Forall_forall in F. do 2 f_equal; apply map_ext_in; intros w I; destruct (F w I) as [L1 L2]; assert (M := mean_pos w (row_ne _ _ K0 L1) L2); f_equal.
    + rewrite mean_scale, ln_mult by auto. lra.
    + rewrite <- K. apply mcv_scale; auto; lra.
  - destruct F as [K0 F]. rewrite K in *. split; [auto|]. apply Forall_map. eapply Forall_impl; [|exact F]. intros w [L1 L2]. split; [now rewrite map_length|].
    apply Forall_map. eapply Forall_impl; [|exact L2]. intros; simpl in *. now apply Rmult_lt_0_compat.
Qed.

Lemma fsum_fins {A} (f : A -> R) l : fsum (map (fun x => Fin (f x)) l) = Fin (Rsum (map f l)).
Proof. rewrite <- (map_map f Fin). apply fsum_map_fin. Qed.
Lemma C58_formula_pf :
  forall bk prob sel conv L parameters converted W s v result_of_selection, li_kind L = Hyper -> conv parameters = Ok converted ->
  weights_are prob L converted W -> positive_weights L W -> 0 < s ->
  sel converted = Ok result_of_selection ->
  (result_of_selection = ValueAndVariance (Fin s) (Fin v) \/ result_of_selection = Value (Fin s) /\ v = 0) ->
  ln_likelihood_and_variance bk prob sel conv L parameters =
    Ok (Fin (Rsum (map (fun w => ln (mean w)) W) - INR (li_n L) * ln s),
        Fin (Rsum (map (mc_variance (li_samples L)) W) + INR (li_n L) ^ 2 * (v / s ^ 2))).
Proof.
  intros bk prob sel conv L p cp W s v rs K C H F Hs S R0. unfold ln_likelihood_and_variance. rewrite C. cbn [bind]. rewrite (pe_val bk prob L cp W H F). cbn [bind].
  unfold selection_factor, selection_with_uncertainty. rewrite S. cbn [bind]. rewrite K.
  assert (E : match rs with ValueAndVariance s0 v0 => Ok (s0, v0) | Value s0 => Ok (s0, Fin 0) end = Ok (Fin s, Fin v)) by (destruct R0 as [->|[-> ->]]; reflexivity).
  rewrite E. cbn [bind]. rewrite !fsum_fins, flog_fin by auto. unfold of_nat. change (fopp (Fin (INR (li_n L)))) with (Fin (- INR (li_n L))). rewrite !fsq_fin, fdiv_fin, !fmul_fin, !fadd_fin.
  2:{ assert (0 < s * s) by now apply Rmult_lt_0_compat. lra. }
  do 3 f_equal; field; lra.
Qed.

Lemma C58_event_permutation_pf :
  forall bk prob prob' sel conv L L' parameters converted w w', conv parameters = Ok converted ->
  li_kind L = li_kind L' -> li_samples L = li_samples L' -> li_n L = li_n L' ->
  event_weights bk prob L converted = Ok w -> event_weights bk prob' L' converted = Ok w' -> Permutation w w' ->
  ln_likelihood_and_variance bk prob sel conv L parameters = ln_likelihood_and_variance bk prob' sel conv L' parameters.
Proof.
  intros bk prob prob' sel conv L L' p cp w w' C K S N E E' P. unfold ln_likelihood_and_variance, per_event. rewrite C. cbn [bind]. rewrite E, E'. cbn [bind]. 
  unfold selection_factor. rewrite <- K, <- N.
  assert (EV : forall x, event_variance L x = event_variance L' x) by (intros; unfold event_variance; now rewrite S). rewrite (map_ext _ _ EV).
  rewrite (fsum_perm _ _ (Permutation_map (event_variance L') P)), (fsum_perm _ _ (Permutation_map (fun e => flog (fmean e)) P)). reflexivity.
Qed.

Lemma cut_in u l v : flt u v = false -> cut u l v = nan_to_num (xfl (nan_to_num_nan NInf l)).
Proof.
  intros H. unfold cut. rewrite H. cbn [of_bool]. rewrite (fmul_comm PInf), fmul_0_PInf. cbn [nan_to_num_nan]. f_equal. f_equal.
  destruct (nan_to_num_nan NInf l); try reflexivity. rewrite fsub_fin. f_equal. lra.
Qed.
Lemma cut_out u l v : flt u v = true -> cut u l v = nan_to_num (xfl (fsub (nan_to_num_nan NInf l) (Fin MAXF))).
Proof.
  intros H. unfold cut. rewrite H. cbn [of_bool]. rewrite (fmul_comm PInf), fmul_pos_PInf by lra. reflexivity.
Qed.
Lemma ntn_fl r : exists x, nan_to_num (fl r) = Fin x /\ is_double x.
Proof.
  destruct (fl r) as [v| | |] eqn:E.
  - apply fl_fin in E. exists v. split; [reflexivity|tauto].
  - exists MAXF. split; [reflexivity|apply MAXF_double].
  - exists (- MAXF). split; [reflexivity|apply opp_double, MAXF_double].
  - destruct (fl_nan r E).
Qed.
Lemma cut_double u l v : exists x, cut u l v = Fin x /\ is_double x.
Proof.
  assert (NN : forall x, x = NInf \/ (exists r, x = Fin r) -> exists y, nan_to_num (xfl x) = Fin y /\ is_double y).
  { intros x [->|[r ->]]; [exists (- MAXF); split; [reflexivity|apply opp_double, MAXF_double]|]. apply ntn_fl. }
  assert (N : nan_to_num_nan NInf l = NInf \/ exists r, nan_to_num_nan NInf l = Fin r) by (destruct l; cbn; eauto).
  destruct (flt u v) eqn:E.
  - rewrite cut_out by auto. apply NN. destruct N as [->|[r ->]]; [left; reflexivity|right; rewrite fsub_fin; eauto].
  - rewrite cut_in by auto. now apply NN.
Qed.
Lemma cut_bad u l v : l = NaN \/ l = NInf -> cut u l v = Fin (- MAXF).
Proof.
  intros H. destruct (flt u v) eqn:E; [rewrite cut_out by auto|rewrite cut_in by auto]; destruct H as [->| ->]; cbn [nan_to_num_nan].
  - reflexivity.
  - rewrite fsub_fin. cbn [xfl]. apply fl_below_max. assert (P := MAXF_pos). assert (Q := bpow_gt_0 radix2 970). lra.
  - reflexivity.
  - cbn [xfl]. rewrite fl_double by apply opp_double, MAXF_double. reflexivity.
Qed.
Lemma cut_good u r v : is_double r -> flt u v = false -> cut u (Fin r) v = Fin r.
Proof. intros D H. rewrite cut_in by auto. cbn [nan_to_num_nan xfl]. now rewrite fl_double. Qed.
Lemma cut_over u r v : flt u v = true -> r < bpow radix2 970 -> cut u (Fin r) v = Fin (- MAXF).
Proof. intros H B. rewrite cut_out by auto. cbn [nan_to_num_nan]. rewrite fsub_fin. cbn [xfl]. apply fl_below_max. lra. Qed.
Lemma llr_of bk prob sel conv L p l v : ln_likelihood_and_variance bk prob sel conv L p = Ok (l, v) -> log_likelihood_ratio bk prob sel conv L p = Ok (cut (li_maxu L) (xfl l) v).
Proof. intros H. unfold log_likelihood_ratio. rewrite H. reflexivity. Qed.
Lemma C59_finite_double_pf :
  forall bk prob sel conv L parameters ln_l variance, ln_likelihood_and_variance bk prob sel conv L parameters = Ok (ln_l, variance) ->
  exists r, log_likelihood_ratio bk prob sel conv L parameters = Ok (Fin r) /\ is_double r /\ - MAXF <= r <= MAXF /\
    (forall x, ln_l = Fin x -> is_double x -> flt (li_maxu L) variance = false -> r = x) /\
    (ln_l = NaN \/ ln_l = NInf -> r = - MAXF).
Proof.
  intros bk prob sel conv L p l v H. rewrite (llr_of _ _ _ _ _ _ _ _ H). destruct (cut_double (li_maxu L) (xfl l) v) as (r & E & D). exists r. rewrite E. split; [reflexivity|]. split; [exact D|].
  split; [assert (B := double_le r D); apply Rabs_le_between; exact B|]. split.
  - intros x -> Dx U. cbn [xfl] in E. rewrite fl_double, cut_good in E by auto. congruence.
  - intros X. rewrite cut_bad in E by (destruct X as [->| ->]; auto). congruence.
Qed.

Lemma C60_rejected_partial_pf :
  forall bk prob sel conv L parameters ln_l variance, ln_likelihood_and_variance bk prob sel conv L parameters = Ok (ln_l, variance) ->
  flt (li_maxu L) variance = true ->
  (ln_l = NaN \/ ln_l = NInf \/ exists x, ln_l = Fin x /\ is_double x /\ x < 2 ^ 970) ->
  log_likelihood_ratio bk prob sel conv L parameters = Ok (Fin (- MAXF)).
Proof.
  intros bk prob sel conv L p l v H U X. rewrite (llr_of _ _ _ _ _ _ _ _ H). f_equal. destruct X as [->|[->|(x & -> & D & B)]].
  - apply cut_bad. now left.
  - apply cut_bad. now right.
  - cbn [xfl]. rewrite fl_double by auto. apply cut_over; auto. replace (bpow radix2 970) with (2 ^ 970); [exact B|]. rewrite <- (bpow_powerRZ radix2 970) || (symmetry; exact (bpow_powerRZ radix2 970)).
Qed.

