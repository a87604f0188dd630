(** Proofs of the property theorems stated in [Props_invar]. *)
From Coq Require Import Reals Lra Lia Psatz String Bool.
From Coquelicot Require Import Coquelicot.
From Coq Require Import List.
From Verif Require Import Xf Py Xf_facts Py_facts Calc Np Vt_model vt_thms Hyperpe_model SpecHyper hypera_thms SpecInvar.
Import ListNotations.
Local Open Scope R_scope.

Lemma quotients_scale c p q : quotients (map (Rmult c) p) q = map (Rmult c) (quotients p q).
Proof. apply quot_scale. Qed.
Lemma weights_scaled c prob prob' L h W : events_scaled c prob prob' -> weights_are prob L h W -> weights_are prob' L h (map (map (Rmult c)) W).
Proof.
  intros H (P & E & Q). exists (map (map (Rmult c)) P). split; [now apply H|]. destruct (li_prior L) as [q|]; [|now subst].
  destruct Q as (Q & -> & NZ & S & ->). exists Q. split; [reflexivity|]. split; [auto|]. split.
  - rewrite <- S, map_map. apply map_ext. intros; apply map_length.
  - clear. revert Q; induction P as [|p P IH]; intros [|q Q]; cbn [map combine fst snd]; auto. rewrite IH. f_equal. symmetry. apply quotients_scale.
Qed.
Lemma positive_scaled c L W : 0 < c -> positive_weights L W -> positive_weights L (map (map (Rmult c)) W).
Proof.
  intros C [K F]. split; auto. apply Forall_map. eapply Forall_impl; [|exact F]. cbn beta. intros w [A B]. split; [now rewrite map_length|].
  apply Forall_map. eapply Forall_impl; [|exact B]. cbn beta. intros x X. now apply Rmult_lt_0_compat.
Qed.
(** Mean and variance of the efficiency for the model's injections. *)
Definition dmu (w : list R) (N : R) := Rsum w / N.
Definition dvar (w : list R) (N : R) := Rsum (squares w) / (N * N) - dmu w N * dmu w N / N.
Lemma de_are bk prob v h p q N : injections_are prob v h p q N ->
  detection_efficiency bk prob v h = Ok (Fin (dmu (quotients p q) N), Fin (dvar (quotients p q) N)).
Proof.
  intros (A & B & C & D & F & G & I). rewrite (de_val bk prob v h p q N A B C D F ltac:(lra)). reflexivity.
Qed.
Lemma quotients_len p q : List.length p = List.length q -> List.length (quotients p q) = List.length q.
Proof. intros H. unfold quotients. rewrite map_length, combine_length, H. apply Nat.min_id. Qed.
Lemma dvar_nonneg p q N : List.length p = List.length q -> 0 < N -> INR (List.length q) <= N -> 0 <= dvar (quotients p q) N.
Proof. intros L HN H. apply (de_var_nonneg (quotients p q) N HN). now rewrite quotients_len. Qed.
Lemma dmu_scale c w N : dmu (map (Rmult c) w) N = c * dmu w N.
Proof. unfold dmu. rewrite Rsum_scale. unfold Rdiv. ring. Qed.
Lemma dvar_scale c w N : dvar (map (Rmult c) w) N = c * c * dvar w N.
Proof. unfold dvar. rewrite dmu_scale, squares_scale, Rsum_scale. unfold Rdiv. ring. Qed.
(** The two possible answers of a selection function before and after scaling by [c]. *)
Inductive scaled_selection (c : R) : result selection -> result selection -> Prop :=
| ss_var s v : 0 < s -> scaled_selection c (Ok (ValueAndVariance (Fin s) (Fin v))) (Ok (ValueAndVariance (Fin (c * s)) (Fin (c * c * v))))
| ss_inf v v' : scaled_selection c (Ok (ValueAndVariance PInf (Fin v))) (Ok (ValueAndVariance PInf (Fin v')))
| ss_val s : 0 < s -> scaled_selection c (Ok (Value (Fin s))) (Ok (Value (Fin (c * s))))
| ss_vinf : scaled_selection c (Ok (Value PInf)) (Ok (Value PInf))
| ss_nan : scaled_selection c (Ok (Value NaN)) (Ok (Value NaN))
| ss_err e : scaled_selection c (Err e) (Err e).
Lemma conv_scale v c mu var : 0 < c -> check_convergence v (Fin (c * mu)) (Fin (c * c * var)) = check_convergence v (Fin mu) (Fin var).
Proof.
  intros C. unfold check_convergence. assert (CC : 0 < c * c) by (apply Rmult_lt_0_compat; auto).
  assert (E : fgt (fsq (Fin (c * mu))) (fmul (fmul (Fin 4) (rv_n_events v)) (Fin (c * c * var))) = fgt (fsq (Fin mu)) (fmul (fmul (Fin 4) (rv_n_events v)) (Fin var))); [|now rewrite E].
  rewrite !fsq_fin. assert (I : inf_of_sign (c * c * var) = inf_of_sign var).
  { unfold inf_of_sign. destruct (Rltb_spec 0 var).
    - rewrite Rltb_true by (apply Rmult_lt_0_compat; auto). reflexivity.
    - rewrite Rltb_false by (assert (0 <= c * c * - var) by (apply Rmult_le_pos; lra); lra).
      destruct (Rltb_spec var 0).
      + rewrite Rltb_true; [reflexivity|]. assert (0 < c * c * - var) by (apply Rmult_lt_0_compat; lra). lra.
      + rewrite Rltb_false; [reflexivity|]. replace var with 0 by lra. lra. }
  destruct (rv_n_events v) as [n| | |].
  - rewrite !fmul_fin. unfold fgt. rewrite !flt_fin.
    destruct (Rltb_spec (4 * n * var) (mu * mu)) as [H|H].
    + apply Rltb_true. assert (c * c * (4 * n * var) < c * c * (mu * mu)) by (apply Rmult_lt_compat_l; auto). lra.
    + apply Rltb_false. assert (c * c * (mu * mu) <= c * c * (4 * n * var)) by (apply Rmult_le_compat_l; lra). lra.
  - rewrite fmul_pos_PInf by lra. cbn [fmul]. rewrite I. destruct (inf_of_sign var) eqn:E; try reflexivity.
    exfalso. unfold inf_of_sign in E. destruct (Rltb 0 var); [discriminate|]. destruct (Rltb var 0); discriminate.
  - change (fmul (Fin 4) NInf) with (fopp (inf_of_sign 4)). replace (inf_of_sign 4) with PInf by (unfold inf_of_sign; now rewrite Rltb_true by lra). cbn [fopp fmul]. rewrite I.
    destruct (inf_of_sign var) eqn:E; try reflexivity.
    exfalso. unfold inf_of_sign in E. destruct (Rltb 0 var); [discriminate|]. destruct (Rltb var 0); discriminate.
  - reflexivity.
Qed.
Lemma corr_cases v mu var : snd (check_convergence v mu var) = Fin 0 \/ snd (check_convergence v mu var) = PInf.
Proof.
  unfold check_convergence. cbn [snd]. destruct (fgt _ _); cbn [of_bool]; rewrite fsub_fin, fmul_comm.
  - left. replace (1 - 1) with 0 by ring. rewrite fmul_0_PInf. reflexivity.
  - right. rewrite fmul_pos_PInf by lra. reflexivity.
Qed.
Lemma call_scaled bk prob prob' v h p q N c : 0 < c -> injections_scaled c prob prob' -> injections_are prob v h p q N -> 0 < Rsum (quotients p q) ->
  (exists n, rv_n_events v = Fin n /\ 0 <= n) \/ rv_n_events v = PInf ->
  scaled_selection c (resampling_call bk prob v h) (resampling_call bk prob' v h).
Proof.
  intros C S A P Hn. assert (A' : injections_are prob' v h (map (Rmult c) p) q N).
  { destruct A as (A1 & A2 & A3 & A4 & A5 & A6 & A7). repeat split; auto. now rewrite map_length. }
  assert (D := de_are bk prob v h p q N A). assert (D' := de_are bk prob' v h _ q N A'). rewrite quotients_scale, dmu_scale, dvar_scale in D'.
  destruct A as (_ & _ & A3 & _ & _ & A6 & A7). assert (V := dvar_nonneg p q N A3 A6 A7).
  assert (M : 0 < dmu (quotients p q) N) by (apply Rdiv_lt_0_compat; auto).
  set (mu := dmu (quotients p q) N) in *. set (var := dvar (quotients p q) N) in *.
  assert (CM : 0 < c * mu) by (apply Rmult_lt_0_compat; auto). assert (CC : 0 < c * c) by (apply Rmult_lt_0_compat; auto).
  unfold resampling_call. destruct (rv_marginalize v).
  - unfold vt_factor. rewrite D, D'. cbn [bind]. cbv zeta. rewrite conv_scale by auto. rewrite !fsq_fin.
    destruct (Req_dec var 0) as [V0|V0].
    + rewrite V0, Rmult_0_r. unfold float_div. destruct (is_jax bk) eqn:J.
      * cbn [bind]. replace (fdiv (Fin (mu * mu)) (Fin 0)) with PInf.
        2:{ cbn [fdiv]. rewrite Reqb_true by auto. unfold inf_of_sign. rewrite Rltb_true; auto. apply Rmult_lt_0_compat; auto. }
        replace (fdiv (Fin (c * mu * (c * mu))) (Fin 0)) with PInf.
        2:{ cbn [fdiv]. rewrite Reqb_true by auto. unfold inf_of_sign. rewrite Rltb_true; auto. apply Rmult_lt_0_compat; auto. }
        destruct Hn as [(n & -> & Hn)| ->].
        -- rewrite fadd_fin, fdiv_fin by lra. cbn [fdiv bind]. rewrite fexp_fin, exp_0, !fdiv_fin by lra. unfold Rdiv. rewrite Rinv_1, !Rmult_1_r.
           destruct (corr_cases v (Fin mu) (Fin 0)) as [-> | ->]; [|apply ss_vinf]. rewrite !fadd_fin, !Rplus_0_r. now apply ss_val.
        -- replace (fadd (Fin 3) PInf) with PInf by reflexivity. replace (fdiv PInf (Fin 2)) with PInf by (cbn [fdiv]; now rewrite Rltb_false by lra).
           apply ss_nan.
      * rewrite feq_fin, Reqb_true by auto. apply ss_err.
    + assert (VP : 0 < var) by lra. assert (CV : 0 < c * c * var) by (apply Rmult_lt_0_compat; auto). assert (MM : 0 < mu * mu) by (apply Rmult_lt_0_compat; auto).
      unfold float_div. rewrite !feq_fin, !Reqb_false by lra. rewrite !fdiv_fin by lra.
      replace (c * mu * (c * mu) / (c * c * var)) with (mu * mu / var) by (field; lra).
      assert (NP : 0 < mu * mu / var) by (apply Rdiv_lt_0_compat; auto).
      replace (if is_jax bk then Ok (Fin (mu * mu / var)) else Ok (Fin (mu * mu / var))) with (@Ok xf (Fin (mu * mu / var))) by (destruct (is_jax bk); reflexivity).
      cbn [bind]. rewrite feq_fin, Reqb_false by lra.
      destruct Hn as [(n & E & Hn)|E]; rewrite E.
      * rewrite fadd_fin, !fdiv_fin by lra. set (e := (3 + n) / 2 / (mu * mu / var)).
        replace (if is_jax bk then Ok (Fin e) else Ok (Fin e)) with (@Ok xf (Fin e)) by (destruct (is_jax bk); reflexivity). cbn [bind].
        assert (X := exp_pos e). rewrite fexp_fin, !fdiv_fin by lra.
        destruct (corr_cases v (Fin mu) (Fin var)) as [-> | ->]; [|apply ss_vinf]. rewrite !fadd_fin, !Rplus_0_r.
        replace (c * mu / exp e) with (c * (mu / exp e)) by (unfold Rdiv; ring). apply ss_val. apply Rdiv_lt_0_compat; auto.
      * replace (fadd (Fin 3) PInf) with PInf by reflexivity. replace (fdiv PInf (Fin 2)) with PInf by (cbn [fdiv]; now rewrite Rltb_false by lra).
        replace (fdiv PInf (Fin (mu * mu / var))) with PInf by (cbn [fdiv]; now rewrite Rltb_false by lra).
        replace (if is_jax bk then Ok PInf else Ok PInf) with (@Ok xf PInf) by (destruct (is_jax bk); reflexivity). cbn [bind fexp fdiv].
        rewrite (C52_default_never_converges_pf v (Fin mu) (Fin var) E) by (left; exists var; split; auto; lra). apply ss_vinf.
  - rewrite D, D'. cbn [bind]. cbv zeta. rewrite conv_scale by auto. destruct (rv_enforce v); [|now apply ss_var].
    destruct (corr_cases v (Fin mu) (Fin var)) as [-> | ->]; [|apply ss_inf]. rewrite !fadd_fin, !Rplus_0_r. now apply ss_var.
Qed.
Lemma lnl_hyper bk prob sel conv L parameters converted W : li_kind L = Hyper -> conv parameters = Ok converted -> weights_are prob L converted W -> positive_weights L W ->
  ln_likelihood_and_variance bk prob sel conv L parameters =
    ('(s, v) <- selection_with_uncertainty sel converted ;;
     Ok (fadd (Fin (Rsum (map (fun w => ln (mean w)) W))) (fmul (fopp (of_nat (li_n L))) (flog s)),
         fadd (Fin (Rsum (map (mc_variance (li_samples L)) W))) (fmul (fsq (of_nat (li_n L))) (fdiv v (fsq s))))).
Proof.
  intros K C H P. unfold ln_likelihood_and_variance. rewrite C. cbn [bind]. rewrite (pe_val bk prob L converted W H P). cbn [bind].
  unfold selection_factor. rewrite K, !fsum_fins. destruct (selection_with_uncertainty sel converted) as [[s v]|]; reflexivity.
Qed.
Lemma lnl_rate bk prob sel conv L parameters converted W s v r : li_kind L = Rate -> conv parameters = Ok converted -> weights_are prob L converted W -> positive_weights L W ->
  selection_with_uncertainty sel converted = Ok (Fin s, Fin v) -> 0 < s -> dget "rate" converted = Some (Fin r) -> 0 < r ->
  ln_likelihood_and_variance bk prob sel conv L parameters =
    Ok (Fin (Rsum (map (fun w => ln (mean w)) W) + (- (s * r) + INR (li_n L) * ln r)),
        Fin (Rsum (map (mc_variance (li_samples L)) W) + s * r * v / (s * s))).
Proof.
  intros K C H P S Hs D Hr. unfold ln_likelihood_and_variance. rewrite C. cbn [bind]. rewrite (pe_val bk prob L converted W H P). cbn [bind].
  unfold selection_factor. rewrite K, !fsum_fins, S. cbn [bind]. rewrite (dlookup_ok _ _ _ D). cbn [bind]. cbv zeta.
  assert (0 < s * s) by (apply Rmult_lt_0_compat; auto).
  unfold float_div. rewrite flog_fin by auto. rewrite fsq_fin, !fmul_fin, feq_fin, Reqb_false by lra. rewrite fdiv_fin by lra.
  destruct (is_jax bk); cbn [bind fopp]; unfold of_nat; rewrite ?fmul_fin, ?fadd_fin; reflexivity.
Qed.
Lemma sum_ln_scale c W : 0 < c -> Forall (fun w => w <> [] /\ Forall (fun x => 0 < x) w) W ->
  Rsum (map (fun w => ln (mean w)) (map (map (Rmult c)) W)) = Rsum (map (fun w => ln (mean w)) W) + INR (List.length W) * ln c.
Proof.
  intros C. induction 1 as [|w W [N P] H IH]; [simpl; lra|]. cbn [map]. cbn [List.length]. rewrite S_INR. unfold Rsum in *. cbn [fold_right]. rewrite IH, mean_scale.
  rewrite ln_mult; auto; [ring|now apply mean_pos].
Qed.
Lemma pw_ne L W : positive_weights L W -> Forall (fun w => w <> [] /\ Forall (fun x => 0 < x) w) W.
Proof. intros [K F]. eapply Forall_impl; [|exact F]. cbn beta. intros w [A B]. split; auto. now apply (row_ne (li_samples L)). Qed.
Lemma mcv_rows_scale c L W : 0 < c -> positive_weights L W -> map (mc_variance (li_samples L)) (map (map (Rmult c)) W) = map (mc_variance (li_samples L)) W.
Proof.
  intros C [K F]. rewrite map_map. apply map_ext_in. intros w I. rewrite Forall_forall in F. destruct (F w I) as [A B].
  assert (M := mean_pos w (row_ne _ _ K A) B). apply mcv_scale; auto; lra.
Qed.
Lemma sfin (c s : R) : 0 < c -> 0 < s -> flog (Fin (c * s)) = Fin (ln c + ln s).
Proof. intros. rewrite flog_fin by now apply Rmult_lt_0_compat. now rewrite ln_mult. Qed.

Lemma C102_unnormalised_density_pf :
  forall bk prob prob' inj inj' conv L v parameters converted W p q N c, 0 < c -> events_scaled c prob prob' -> injections_scaled c inj inj' ->
  li_kind L = Hyper -> conv parameters = Ok converted ->
  weights_are prob L converted W -> positive_weights L W -> List.length W = li_n L ->
  injections_are inj v converted p q N -> 0 < Rsum (quotients p q) -> (exists n, rv_n_events v = Fin n /\ 0 <= n) \/ rv_n_events v = PInf ->
  ln_likelihood_and_variance bk prob' (resampling_call bk inj' v) conv L parameters =
  ln_likelihood_and_variance bk prob (resampling_call bk inj v) conv L parameters.
Proof.
  intros bk prob prob' inj inj' conv L v pr cv W p q N c C SE SI K Cv HW PW LW A P Hn.
  rewrite (lnl_hyper bk prob _ conv L pr cv W K Cv HW PW).
  rewrite (lnl_hyper bk prob' _ conv L pr cv _ K Cv (weights_scaled c _ _ L cv W SE HW) (positive_scaled c L W C PW)).
  rewrite sum_ln_scale by (auto; now apply (pw_ne L)). rewrite mcv_rows_scale by auto. rewrite LW.
  assert (S := call_scaled bk inj inj' v cv p q N c C SI A P Hn).
  unfold selection_with_uncertainty. destruct S as [s w Hs|w w'|s Hs| | |e]; cbn [bind].
  - rewrite sfin, (flog_fin s), !fsq_fin by auto. assert (0 < c * s) by now apply Rmult_lt_0_compat.
    assert (0 < s * s) by now apply Rmult_lt_0_compat. assert (0 < c * s * (c * s)) by now apply Rmult_lt_0_compat.
    rewrite !fdiv_fin by lra. unfold of_nat. cbn [fopp]. rewrite !fsq_fin, !fmul_fin, !fadd_fin. do 3 f_equal; [ring|]. field. split; lra.
  - cbn [flog]. replace (fsq PInf) with PInf by reflexivity. cbn [fdiv]. unfold of_nat. cbn [fopp fmul].
    unfold inf_of_sign. destruct (Rltb 0 _); [|destruct (Rltb _ 0)]; reflexivity.
  - rewrite sfin, (flog_fin s), !fsq_fin by auto. assert (0 < c * s) by now apply Rmult_lt_0_compat.
    assert (0 < s * s) by now apply Rmult_lt_0_compat. assert (0 < c * s * (c * s)) by now apply Rmult_lt_0_compat.
    rewrite !fdiv_fin by lra. unfold of_nat. cbn [fopp]. rewrite !fsq_fin, !fmul_fin, !fadd_fin. do 3 f_equal; [ring|]. unfold Rdiv. rewrite !Rmult_0_l. reflexivity.
  - cbn [flog]. replace (fsq PInf) with PInf by reflexivity. cbn [fdiv]. unfold of_nat. cbn [fopp fmul].
    unfold inf_of_sign. destruct (Rltb 0 _); [|destruct (Rltb _ 0)]; reflexivity.
  - cbn [flog]. unfold of_nat. cbn [fopp fmul fadd]. reflexivity.
  - reflexivity.
Qed.

Lemma C102_rate_absorbs_scale_pf :
  forall bk prob prob' sel sel' conv L parameters parameters' converted converted' W s v r c, 0 < c -> 0 < s -> 0 < r ->
  li_kind L = Rate -> conv parameters = Ok converted -> conv parameters' = Ok converted' ->
  dget "rate" converted = Some (Fin r) -> dget "rate" converted' = Some (Fin (r / c)) ->
  weights_are prob L converted W -> positive_weights L W -> List.length W = li_n L ->
  weights_are prob' L converted' (map (map (Rmult c)) W) ->
  sel converted = Ok (ValueAndVariance (Fin s) (Fin v)) -> sel' converted' = Ok (ValueAndVariance (Fin (c * s)) (Fin (c ^ 2 * v))) ->
  ln_likelihood_and_variance bk prob' sel' conv L parameters' = ln_likelihood_and_variance bk prob sel conv L parameters.
Proof.
  intros bk prob prob' sel sel' conv L pr pr' cv cv' W s v r c C Hs Hr K Cv Cv' D D' HW PW LW HW' S S'.
  assert (0 < c * s) by now apply Rmult_lt_0_compat. assert (RC : 0 < r / c) by now apply Rdiv_lt_0_compat.
  rewrite (lnl_rate bk prob sel conv L pr cv W s v r K Cv HW PW ltac:(unfold selection_with_uncertainty; rewrite S; reflexivity) Hs D Hr).
  rewrite (lnl_rate bk prob' sel' conv L pr' cv' _ (c * s) (c ^ 2 * v) (r / c) K Cv' HW' (positive_scaled c L W C PW) ltac:(unfold selection_with_uncertainty; rewrite S'; reflexivity) H D' RC).
  rewrite sum_ln_scale by (auto; now apply (pw_ne L)). rewrite mcv_rows_scale by auto. rewrite LW. unfold Rdiv at 2. rewrite ln_mult, ln_Rinv by (auto; now apply Rinv_0_lt_compat).
  do 3 f_equal; [field; lra|]. field. split; lra.
Qed.

Lemma swu_val sel h s v r : sel h = Ok r -> (r = ValueAndVariance (Fin s) (Fin v) \/ r = Value (Fin s) /\ v = 0) -> selection_with_uncertainty sel h = Ok (Fin s, Fin v).
Proof. intros E [-> | [-> ->]]; unfold selection_with_uncertainty; rewrite E; reflexivity. Qed.

Lemma C103_catalogues_add_pf :
  forall bk prob prob1 prob2 sel conv L L1 L2 parameters converted W1 W2 s v r, li_kind L = Hyper ->
  li_kind L1 = li_kind L -> li_kind L2 = li_kind L ->
  li_samples L1 = li_samples L -> li_samples L2 = li_samples L -> li_n L = (li_n L1 + li_n L2)%nat -> conv parameters = Ok converted ->
  weights_are prob1 L1 converted W1 -> positive_weights L1 W1 -> weights_are prob2 L2 converted W2 -> positive_weights L2 W2 -> weights_are prob L converted (W1 ++ W2) ->
  sel converted = Ok r -> (r = ValueAndVariance (Fin s) (Fin v) \/ r = Value (Fin s) /\ v = 0) -> 0 < s ->
  exists l1 l2 var1 var2,
    ln_likelihood_and_variance bk prob1 sel conv L1 parameters = Ok (Fin l1, Fin var1) /\
    ln_likelihood_and_variance bk prob2 sel conv L2 parameters = Ok (Fin l2, Fin var2) /\
    ln_likelihood_and_variance bk prob sel conv L parameters =
      Ok (Fin (l1 + l2), Fin (var1 + var2 + 2 * INR (li_n L1) * INR (li_n L2) * (v / s ^ 2))).
Proof.
  intros bk prob prob1 prob2 sel conv L L1 L2 pr cv W1 W2 s v r K K1 K2 S1 S2 LN Cv HW1 P1 HW2 P2 HW S E Hs.
  assert (P : positive_weights L (W1 ++ W2)).
  { destruct P1 as [A B], P2 as [A' B']. rewrite S1 in *. rewrite S2 in *. split; auto. apply Forall_app. split; auto. }
  assert (U := swu_val sel cv s v r S E). assert (SS : 0 < s * s) by now apply Rmult_lt_0_compat.
  rewrite (lnl_hyper bk prob sel conv L pr cv _ K Cv HW P), (lnl_hyper bk prob1 sel conv L1 pr cv _ (eq_trans K1 K) Cv HW1 P1), (lnl_hyper bk prob2 sel conv L2 pr cv _ (eq_trans K2 K) Cv HW2 P2).
  rewrite U. cbn [bind]. rewrite flog_fin, fsq_fin, fdiv_fin by (auto; lra). unfold of_nat. cbn [fopp]. rewrite !fsq_fin, !fmul_fin, !fadd_fin, S1, S2, LN, plus_INR, !map_app, !Rsum_app.
  do 4 eexists. split; [reflexivity|]. split; [reflexivity|]. do 3 f_equal; [ring|]. field. lra.
Qed.

Lemma C103_catalogues_add_rate_pf :
  forall bk prob prob1 prob2 sel conv L L1 L2 parameters converted W1 W2 s v r rate, li_kind L = Rate -> dget "rate" converted = Some (Fin rate) -> 0 < rate ->
  li_kind L1 = li_kind L -> li_kind L2 = li_kind L ->
  li_samples L1 = li_samples L -> li_samples L2 = li_samples L -> li_n L = (li_n L1 + li_n L2)%nat -> conv parameters = Ok converted ->
  weights_are prob1 L1 converted W1 -> positive_weights L1 W1 -> weights_are prob2 L2 converted W2 -> positive_weights L2 W2 -> weights_are prob L converted (W1 ++ W2) ->
  sel converted = Ok r -> (r = ValueAndVariance (Fin s) (Fin v) \/ r = Value (Fin s) /\ v = 0) -> 0 < s ->
  exists l1 l2 var1 var2,
    ln_likelihood_and_variance bk prob1 sel conv L1 parameters = Ok (Fin l1, Fin var1) /\
    ln_likelihood_and_variance bk prob2 sel conv L2 parameters = Ok (Fin l2, Fin var2) /\
    ln_likelihood_and_variance bk prob sel conv L parameters = Ok (Fin (l1 + l2 + s * rate), Fin (var1 + var2 - rate * v / s)).
Proof.
  intros bk prob prob1 prob2 sel conv L L1 L2 pr cv W1 W2 s v r rate K D Hr K1 K2 S1 S2 LN Cv HW1 P1 HW2 P2 HW S E Hs.
  assert (P : positive_weights L (W1 ++ W2)).
  { destruct P1 as [A B], P2 as [A' B']. rewrite S1 in *. rewrite S2 in *. split; auto. apply Forall_app. split; auto. }
  assert (U := swu_val sel cv s v r S E). assert (SS : 0 < s * s) by now apply Rmult_lt_0_compat.
  rewrite (lnl_rate bk prob sel conv L pr cv _ s v rate K Cv HW P U Hs D Hr), (lnl_rate bk prob1 sel conv L1 pr cv _ s v rate (eq_trans K1 K) Cv HW1 P1 U Hs D Hr),
    (lnl_rate bk prob2 sel conv L2 pr cv _ s v rate (eq_trans K2 K) Cv HW2 P2 U Hs D Hr).
  rewrite S1, S2, LN, plus_INR, !map_app, !Rsum_app.
  do 4 eexists. split; [reflexivity|]. split; [reflexivity|]. do 3 f_equal; [ring|]. field. lra.
Qed.

Lemma copies_S {A} k (l : list A) : copies (S k) l = (l ++ copies k l)%list.
Proof. reflexivity. Qed.
Lemma copies_len {A} k (l : list A) : List.length (copies k l) = (k * List.length l)%nat.
Proof. induction k as [|k IH]; [reflexivity|]. rewrite copies_S, app_length, IH. simpl. lia. Qed.
Lemma copies_sum k l : Rsum (copies k l) = INR k * Rsum l.
Proof. induction k as [|k IH]; [unfold copies; simpl; ring|]. rewrite copies_S, Rsum_app, IH, S_INR. ring. Qed.
Lemma copies_map {A B} (f : A -> B) k l : map f (copies k l) = copies k (map f l).
Proof. induction k as [|k IH]; [reflexivity|]. rewrite !copies_S, map_app, IH. reflexivity. Qed.
Lemma combine_app {A B} (a a' : list A) (b b' : list B) : List.length a = List.length b -> combine (a ++ a') (b ++ b') = (combine a b ++ combine a' b')%list.
Proof. revert b; induction a as [|x a IH]; intros [|y b] H; try discriminate; auto. cbn [combine app]. f_equal. apply IH. now injection H. Qed.
Lemma quotients_app a a' b b' : List.length a = List.length b -> quotients (a ++ a') (b ++ b') = (quotients a b ++ quotients a' b')%list.
Proof. intros H. unfold quotients. rewrite combine_app by auto. apply map_app. Qed.
Lemma quotients_copies k a b : List.length a = List.length b -> quotients (copies k a) (copies k b) = copies k (quotients a b).
Proof. intros H. induction k as [|k IH]; [reflexivity|]. rewrite !copies_S, quotients_app, IH by auto. reflexivity. Qed.
Lemma squares_copies k l : squares (copies k l) = copies k (squares l).
Proof. apply copies_map. Qed.
Lemma mean_copies k l : (0 < k)%nat -> mean (copies k l) = mean l.
Proof.
  intros H. unfold mean. rewrite copies_sum, copies_len, mult_INR. assert (0 < INR k) by now apply lt_0_INR.
  destruct (Nat.eq_dec (List.length l) 0) as [E|E].
  - rewrite E. apply length_zero_iff_nil in E. subst l. simpl. unfold Rdiv. ring.
  - assert (0 < INR (List.length l)) by (apply lt_0_INR; lia). field. split; lra.
Qed.

Lemma C104_repeated_samples_pf :
  forall bk prob prob' L L' parameters W k, (0 < k)%nat -> li_samples L' = (k * li_samples L)%nat ->
  weights_are prob L parameters W -> positive_weights L W -> weights_are prob' L' parameters (map (copies k) W) ->
  exists ln_bfs variances, per_event bk prob L parameters = Ok (map Fin ln_bfs, map Fin variances) /\
    per_event bk prob' L' parameters = Ok (map Fin ln_bfs, map Fin (map (fun v => v / INR k) variances)).
Proof.
  intros bk prob prob' L L' h W k Hk S HW P HW'. destruct P as [K F]. assert (KP : 0 < INR k) by now apply lt_0_INR. assert (SP : 0 < INR (li_samples L)) by now apply lt_0_INR.
  assert (P' : positive_weights L' (map (copies k) W)).
  { split; [rewrite S; lia|]. apply Forall_map. eapply Forall_impl; [|exact F]. cbn beta. intros w [A B]. split; [rewrite copies_len, A, S; reflexivity|].
    apply Forall_forall. intros x I. unfold copies in I. apply in_concat in I. destruct I as (l & I & J). apply repeat_spec in I. subst l. rewrite Forall_forall in B. now apply B. }
  rewrite (pe_val bk prob L h W HW (conj K F)), (pe_val bk prob' L' h _ HW' P'). exists (map (fun w => ln (mean w)) W), (map (mc_variance (li_samples L)) W). rewrite !map_map. split; [reflexivity|].
  do 2 f_equal.
  - apply map_ext. intros w. now rewrite mean_copies.
  - apply map_ext_in. intros w I. rewrite Forall_forall in F. destruct (F w I) as [A B]. assert (M := mean_pos w (row_ne _ _ K A) B).
    f_equal. unfold mc_variance. rewrite squares_copies, !mean_copies by auto. rewrite S, mult_INR. field. repeat split; lra.
Qed.

Lemma C104_repeated_injections_pf :
  forall bk inj inj' v v' parameters p q N k, (0 < k)%nat -> injections_are inj v parameters p q N ->
  injections_are inj' v' parameters (copies k p) (copies k q) (INR k * N) ->
  exists mu var, detection_efficiency bk inj v parameters = Ok (Fin mu, Fin var) /\ detection_efficiency bk inj' v' parameters = Ok (Fin mu, Fin (var / INR k)).
Proof.
  intros bk inj inj' v v' h p q N k Hk A A'. assert (KP : 0 < INR k) by now apply lt_0_INR.
  rewrite (de_are bk inj v h p q N A), (de_are bk inj' v' h _ _ _ A'). destruct A as (_ & _ & A3 & _ & _ & A6 & _).
  do 2 eexists. split; [reflexivity|]. rewrite quotients_copies by auto. unfold dvar, dmu. rewrite squares_copies, !copies_sum. do 3 f_equal; [field; lra|]. field. lra.
Qed.

Lemma C104_pooled_injections_pf :
  forall bk inj inj1 inj2 v v1 v2 parameters p1 q1 p2 q2 N1 N2,
  injections_are inj1 v1 parameters p1 q1 N1 -> injections_are inj2 v2 parameters p2 q2 N2 -> injections_are inj v parameters (p1 ++ p2) (q1 ++ q2) (N1 + N2) ->
  exists mu1 var1 mu2 var2,
    detection_efficiency bk inj1 v1 parameters = Ok (Fin mu1, Fin var1) /\ detection_efficiency bk inj2 v2 parameters = Ok (Fin mu2, Fin var2) /\
    detection_efficiency bk inj v parameters =
      Ok (Fin ((N1 * mu1 + N2 * mu2) / (N1 + N2)),
          Fin ((N1 / (N1 + N2)) ^ 2 * var1 + (N2 / (N1 + N2)) ^ 2 * var2 + N1 * N2 * (mu1 - mu2) ^ 2 / (N1 + N2) ^ 3)).
Proof.
  intros bk inj inj1 inj2 v v1 v2 h p1 q1 p2 q2 N1 N2 A1 A2 A.
  rewrite (de_are bk inj1 v1 h _ _ _ A1), (de_are bk inj2 v2 h _ _ _ A2), (de_are bk inj v h _ _ _ A).
  destruct A1 as (_ & _ & L1 & _ & _ & P1 & _), A2 as (_ & _ & L2 & _ & _ & P2 & _).
  do 4 eexists. split; [reflexivity|]. split; [reflexivity|]. rewrite quotients_app by auto. unfold dvar, dmu. unfold squares. rewrite map_app, !Rsum_app. do 3 f_equal; [field; lra|]. field. lra.
Qed.

Lemma sq_sum_pos w : w <> [] -> Forall (fun x => 0 < x) w -> 0 < Rsum (squares w).
Proof.
  intros N H. apply Rsum_pos; [unfold squares; destruct w; [congruence|discriminate]|]. apply Forall_map. eapply Forall_impl; [|exact H]. cbn beta. intros. now apply Rmult_lt_0_compat.
Qed.

Lemma C105_event_effective_samples_pf :
  forall bk prob L parameters W, weights_are prob L parameters W -> positive_weights L W ->
  exists ln_bfs, per_event bk prob L parameters = Ok (ln_bfs, map (fun w => Fin (1 / n_effective w - 1 / INR (li_samples L))) W) /\
    Forall (fun w => 1 <= n_effective w <= INR (li_samples L)) W.
Proof.
  intros bk prob L h W HW [K F]. rewrite (pe_val bk prob L h W HW (conj K F)). eexists. assert (KP : 0 < INR (li_samples L)) by now apply lt_0_INR. split.
  - do 2 f_equal. apply map_ext_in. intros w I. rewrite Forall_forall in F. destruct (F w I) as [A B]. assert (N := row_ne _ _ K A).
    assert (Q := sq_sum_pos w N B). assert (SP := Rsum_pos w N B). f_equal. unfold mc_variance, n_effective. rewrite (mean_squares (li_samples L) w A). unfold mean. rewrite A. field. lra.
  - eapply Forall_impl; [|exact F]. cbn beta. intros w [A B]. assert (N := row_ne _ _ K A). assert (Q := sq_sum_pos w N B). assert (SP := Rsum_pos w N B).
    unfold n_effective. split.
    + apply Rmult_le_reg_r with (Rsum (squares w)); auto. replace (Rsum w ^ 2 / Rsum (squares w) * Rsum (squares w)) with (Rsum w * Rsum w) by (field; lra). assert (X := sum_sq_le w B). lra.
    + apply Rmult_le_reg_r with (Rsum (squares w)); auto. replace (Rsum w ^ 2 / Rsum (squares w) * Rsum (squares w)) with (Rsum w * Rsum w) by (field; lra). assert (X := cauchy w). rewrite A in X. exact X.
Qed.

Lemma C105_injection_effective_samples_pf :
  forall bk inj v parameters p q N n, injections_are inj v parameters p q N -> q <> [] -> Forall (fun x => 0 < x) (quotients p q) -> rv_n_events v = Fin n -> 0 < n ->
  exists mu var, detection_efficiency bk inj v parameters = Ok (Fin mu, Fin var) /\ 0 < mu /\
    var / mu ^ 2 = 1 / n_effective (quotients p q) - 1 / N /\
    (fst (check_convergence v (Fin mu) (Fin var)) = true <-> 1 / n_effective (quotients p q) - 1 / N < 1 / (4 * n)) /\
    (4 * n < n_effective (quotients p q) -> fst (check_convergence v (Fin mu) (Fin var)) = true).
Proof.
  intros bk inj v h p q N n A Q P Hn Np. rewrite (de_are bk inj v h _ _ _ A). destruct A as (_ & _ & L & _ & _ & HN & _).
  set (w := quotients p q) in *. assert (Nw : w <> []).
  { intros E. assert (X := quotients_len p q L). fold w in X. rewrite E in X. simpl in X. destruct q; [congruence|discriminate]. }
  assert (S2 := sq_sum_pos w Nw P). assert (S1 := Rsum_pos w Nw P). exists (dmu w N), (dvar w N). split; [reflexivity|].
  assert (M : 0 < dmu w N) by (now apply Rdiv_lt_0_compat). assert (MM : 0 < dmu w N * dmu w N) by now apply Rmult_lt_0_compat. split; [auto|].
  assert (V : dvar w N / dmu w N ^ 2 = 1 / n_effective w - 1 / N) by (unfold dvar, dmu, n_effective; field; lra). split; [auto|].
  assert (NE : 0 < n_effective w). { unfold n_effective. apply Rdiv_lt_0_compat; auto. apply pow_lt; auto. }
  assert (C : fst (check_convergence v (Fin (dmu w N)) (Fin (dvar w N))) = true <-> 1 / n_effective w - 1 / N < 1 / (4 * n)).
  { unfold check_convergence. cbn [fst]. rewrite Hn, !fmul_fin, fsq_fin. unfold fgt. rewrite flt_fin, <- V.
    assert (D : dvar w N = dvar w N / dmu w N ^ 2 * (dmu w N * dmu w N)) by (field; lra). set (x := dvar w N / dmu w N ^ 2) in *. rewrite D.
    destruct (Rltb_spec (4 * n * (x * (dmu w N * dmu w N))) (dmu w N * dmu w N)) as [H|H].
    - split; auto. intros _. apply Rmult_lt_reg_r with (4 * n); [lra|]. replace (1 / (4 * n) * (4 * n)) with 1 by (field; lra).
      apply Rmult_lt_reg_r with (dmu w N * dmu w N); auto. lra.
    - split; [discriminate|]. intros X. exfalso. apply H. assert (Y : x * (4 * n) < 1 / (4 * n) * (4 * n)) by (apply Rmult_lt_compat_r; lra).
      replace (1 / (4 * n) * (4 * n)) with 1 in Y by (field; lra). assert (Z : x * (4 * n) * (dmu w N * dmu w N) < 1 * (dmu w N * dmu w N)) by (apply Rmult_lt_compat_r; auto). lra. }
  split; [exact C|]. intros H. apply C. assert (1 / n_effective w < 1 / (4 * n)) by (unfold Rdiv; rewrite !Rmult_1_l; apply Rinv_lt_contravar; [apply Rmult_lt_0_compat; lra|auto]).
  assert (0 < 1 / N) by (apply Rdiv_lt_0_compat; lra). lra.
Qed.

