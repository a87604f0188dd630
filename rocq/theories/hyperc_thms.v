(** Proofs of the property theorems stated in [Props_hyperc]. *)
From Coq Require Import Reals ZArith Lra Lia Psatz String Bool.
From Coquelicot Require Import Coquelicot.
From Coq Require Import List.
From Verif Require Import Xf Py Xf_facts Py_facts Calc Np Interp_model Interp_facts Vt_model Hyperpe_model SpecHyper hypera_thms.
Import ListNotations.
Local Open Scope R_scope.

Lemma rate_val bk prob sel conv L p cp W s v r : li_kind L = Rate -> conv p = Ok cp -> weights_are prob L cp W -> positive_weights L W ->
  selection_with_uncertainty sel cp = Ok (Fin s, Fin v) -> s <> 0 -> dget "rate"%string cp = Some (Fin r) -> 0 < r ->
  ln_likelihood_and_variance bk prob sel conv L p =
    Ok (Fin (Rsum (map (fun w => ln (mean w)) W) + (- (s * r) + INR (li_n L) * ln r)), Fin (Rsum (map (mc_variance (li_samples L)) W) + s * r * v / (s * s))).
Proof.
  intros K C H F S P R0 R1. unfold ln_likelihood_and_variance. rewrite C. cbn [bind]. rewrite (pe_val bk prob L cp W H F). cbn [bind]. unfold selection_factor. rewrite S. cbn [bind]. rewrite K.
  rewrite (dlookup_ok _ _ _ R0). cbn [bind]. cbv zeta. rewrite flog_fin by auto. rewrite fsq_fin, !fmul_fin. unfold float_div.
  assert (SS : s * s <> 0) by (intros Z; apply Rmult_integral in Z; destruct Z; auto).
  rewrite fdiv_fin by auto. cbn [feq]. rewrite Reqb_false by auto.
  replace (if is_jax bk then Ok (Fin (s * r * v / (s * s))) else Ok (Fin (s * r * v / (s * s)))) with (@Ok xf (Fin (s * r * v / (s * s)))) by now destruct (is_jax bk).
  cbn [bind]. rewrite !fsum_fins. unfold of_nat. cbn [fopp]. rewrite fmul_fin, !fadd_fin. reflexivity.
Qed.
Lemma hyper_val bk prob sel conv L p cp W s v : li_kind L = Hyper -> conv p = Ok cp -> weights_are prob L cp W -> positive_weights L W ->
  selection_with_uncertainty sel cp = Ok (Fin s, Fin v) -> 0 < s ->
  ln_likelihood_and_variance bk prob sel conv L p =
    Ok (Fin (Rsum (map (fun w => ln (mean w)) W) - INR (li_n L) * ln s), Fin (Rsum (map (mc_variance (li_samples L)) W) + INR (li_n L) ^ 2 * (v / s ^ 2))).
Proof.
  intros K C H F S P. unfold ln_likelihood_and_variance. rewrite C. cbn [bind]. rewrite (pe_val bk prob L cp W H F). cbn [bind]. unfold selection_factor. rewrite S. cbn [bind]. rewrite K. cbn [bind].
  assert (SS : 0 < s * s) by now apply Rmult_lt_0_compat.
  rewrite flog_fin by auto. unfold of_nat. cbn [fopp]. rewrite !fsq_fin, fdiv_fin by lra. rewrite !fmul_fin, !fsum_fins, !fadd_fin. do 3 f_equal; [ring|]. f_equal. replace (s ^ 2) with (s * s) by ring. ring.
Qed.
Lemma swu sel cp s v : sel cp = Ok (ValueAndVariance s v) \/ sel cp = Ok (Value s) /\ v = Fin 0 -> selection_with_uncertainty sel cp = Ok (s, v).
Proof. intros [H|[H ->]]; unfold selection_with_uncertainty; rewrite H; reflexivity. Qed.
Lemma C64_formula_pf :
  forall bk prob sel conv L parameters converted W s v r, li_kind L = Rate -> conv parameters = Ok converted ->
  weights_are prob L converted W -> positive_weights L W ->
  (sel converted = Ok (ValueAndVariance (Fin s) (Fin v)) \/ sel converted = Ok (Value (Fin s)) /\ v = 0) -> s <> 0 ->
  dget "rate"%string converted = Some (Fin r) -> 0 < r ->
  ln_likelihood_and_variance bk prob sel conv L parameters =
    Ok (Fin (Rsum (map (fun w => ln (mean w)) W) - r * s + INR (li_n L) * ln r),
        Fin (Rsum (map (mc_variance (li_samples L)) W) + r * s * v / s ^ 2)).
Proof.
  intros bk prob sel conv L p cp W s v r K C H F S P R0 R1. rewrite (rate_val bk prob sel conv L p cp W s v r) by (auto; apply swu; destruct S as [S|[S ->]]; auto).
  do 3 f_equal; [ring|]. f_equal. replace (s * s) with (s ^ 2) by ring. f_equal. ring.
Qed.

Lemma ln_le_sub x : 0 < x -> ln x <= x - 1.
Proof. intros H. destruct (Rle_lt_dec (ln x) (x - 1)) as [L|L]; auto. exfalso. apply exp_increasing in L. rewrite exp_ln in L by auto. assert (E := exp_ineq1_le (x - 1)). lra. Qed.
Lemma ln_eq_sub x : 0 < x -> ln x = x - 1 -> x = 1.
Proof.
  intros H E. destruct (Req_dec x 1) as [|N]; auto. exfalso. assert (D : x - 1 <> 0) by (intros Z; apply N; lra). assert (I := exp_ineq1 (x - 1) D). rewrite <- E, exp_ln in I by auto. lra.
Qed.
Lemma rate_max N s r : (0 < N)%nat -> 0 < s -> 0 < r ->
  - (s * r) + INR N * ln r <= - (INR N * ln s) + INR N * ln (INR N) - INR N /\
  (- (s * r) + INR N * ln r = - (INR N * ln s) + INR N * ln (INR N) - INR N <-> r = INR N / s).
Proof.
  intros HN HS HR. assert (P : 0 < INR N) by now apply lt_0_INR. set (x := r * s / INR N).
  assert (X : 0 < x) by (apply Rdiv_lt_0_compat; auto; now apply Rmult_lt_0_compat).
  assert (LX : ln x = ln r + ln s - ln (INR N)). { unfold x, Rdiv. rewrite (ln_mult (r * s) (/ INR N) (Rmult_lt_0_compat _ _ HR HS) (Rinv_0_lt_compat _ P)), (ln_mult r s HR HS), (ln_Rinv _ P). lra. }
  assert (A := ln_le_sub x X).
  assert (D : - (INR N * ln s) + INR N * ln (INR N) - INR N - (- (s * r) + INR N * ln r) = INR N * (x - 1 - ln x)). { rewrite LX. unfold x. field. lra. }
  split.
  - assert (0 <= INR N * (x - 1 - ln x)) by (apply Rmult_le_pos; lra). lra.
  - split; intros E.
    + assert (Z : INR N * (x - 1 - ln x) = 0) by lra. apply Rmult_integral in Z. destruct Z as [Z|Z]; [lra|]. assert (O : x = 1) by (apply ln_eq_sub; auto; lra).
      unfold x in O. apply (Rmult_eq_reg_r s); [|lra]. replace (INR N / s * s) with (INR N) by (field; lra). replace (r * s) with (r * s / INR N * INR N) by (field; lra). rewrite O. ring.
    + assert (O : x = 1) by (unfold x; rewrite E; field; split; lra). rewrite O, ln_1 in D. lra.
Qed.
(** Antiderivative of [x^n exp (- s x)]. *)
Fixpoint gprim (s : R) (n : nat) (x : R) : R :=
  match n with
  | 0%nat => - (exp (- (s * x)) / s)
  | S m => - (x ^ S m * exp (- (s * x)) / s) + INR (S m) / s * gprim s m x
  end.
Lemma gprim_d s n x : s <> 0 -> is_derive (gprim s n) x (x ^ n * exp (- (s * x))).
Proof.
  intros Z. revert x. induction n as [|m IH]; intros x.
  - cbn [gprim]. auto_derive; auto. eqR. simpl. field. auto.
  - cbn [gprim]. evar_last.
    { apply (is_derive_plus (fun x => - (x ^ S m * exp (- (s * x)) / s)) (fun x => INR (S m) / s * gprim s m x)).
      - auto_derive; [auto|]. reflexivity.
      - apply is_derive_scal. apply IH. }
    unfold plus; simpl AbelianGroup.plus; match goal with |- ?a = ?b => change (a = b :> R) end. cbn [pow Init.Nat.pred]. idtac. field. auto.
Qed.
Lemma gprim_0 s n : s <> 0 -> gprim s n 0 = - (INR (fact n) / s ^ S n).
Proof.
  intros Z. induction n as [|m IH]; cbn [gprim].
  - rewrite Rmult_0_r, Ropp_0, exp_0. simpl. field. auto.
  - rewrite IH, pow_i by lia. rewrite fact_simpl, mult_INR. cbn [pow]. field. split; [apply pow_nonzero|]; auto.
Qed.
Lemma gprim_cont s n x : s <> 0 -> continuous (gprim s n) x.
Proof. intros Z. apply (ex_derive_continuous (gprim s n) x). eexists. now apply gprim_d. Qed.
Lemma exp_pow_n y n : exp y ^ n = exp (INR n * y).
Proof. induction n as [|n IH]; [simpl; rewrite Rmult_0_l, exp_0; reflexivity|]. cbn [pow]. rewrite IH, <- exp_plus, S_INR. f_equal. ring. Qed.
Lemma pow_exp_bound s n x : 0 < s -> 0 < x -> 0 <= x ^ n * exp (- (s * x)) <= (INR (S n) / s) ^ S n * / x.
Proof.
  intros S0 X. assert (E := exp_pos (- (s * x))). assert (PX := pow_lt x n X). assert (P : 0 < INR (S n)) by (apply lt_0_INR; lia). split; [apply Rmult_le_pos; lra|].
  set (y := s * x / INR (S n)). assert (Y : 0 < y) by (apply Rdiv_lt_0_compat; auto; now apply Rmult_lt_0_compat).
  assert (B : y ^ S n <= exp (s * x)).
  { replace (exp (s * x)) with (exp y ^ S n). 2:{ rewrite exp_pow_n. f_equal. unfold y. field. lra. }
    apply pow_incr. split; [lra|]. assert (Q := exp_ineq1_le y). lra. }
  assert (YY : y ^ S n * exp (- (s * x)) <= 1). { replace 1 with (exp (s * x) * exp (- (s * x))) by (rewrite <- exp_plus, Rplus_opp_r; apply exp_0). apply Rmult_le_compat_r; lra. }
  assert (YE : y ^ S n = (s / INR (S n)) ^ S n * (x * x ^ n)). { unfold y. replace (s * x / INR (S n)) with (s / INR (S n) * x) by (field; lra). rewrite Rpow_mult_distr. f_equal. }
  set (c := (s / INR (S n)) ^ S n) in *. assert (C0 : 0 < c) by (apply pow_lt, Rdiv_lt_0_compat; auto).
  replace ((INR (S n) / s) ^ S n) with (/ c). 2:{ unfold c. rewrite <- pow_inv. f_equal. field. split; lra. }
  apply (Rmult_le_reg_l (c * x)); [now apply Rmult_lt_0_compat|]. replace (c * x * (/ c * / x)) with 1 by (field; split; lra). rewrite YE in YY. lra.
Qed.
Lemma pow_exp_lim s n : 0 < s -> is_lim (fun x => x ^ n * exp (- (s * x))) p_infty 0.
Proof.
  intros S0. apply (is_lim_le_le_loc (fun _ => 0) (fun x => (INR (S n) / s) ^ S n * / x)).
  - exists 0. intros x X. exact (pow_exp_bound s n x S0 X).
  - apply is_lim_const.
  - replace (Finite 0) with (Rbar_mult ((INR (S n) / s) ^ S n) 0) by (simpl; now rewrite Rmult_0_r). apply is_lim_scal_l. change (Finite 0) with (Rbar_inv p_infty). apply is_lim_inv; [apply is_lim_id|discriminate].
Qed.
Lemma gprim_lim s n : 0 < s -> is_lim (gprim s n) p_infty 0.
Proof.
  intros S0. induction n as [|m IH]; cbn [gprim].
  - apply (is_lim_ext (fun x => - / s * (x ^ 0 * exp (- (s * x))))); [intros y; simpl; field; lra|].
    replace (Finite 0) with (Rbar_mult (- / s) 0) by (simpl; now rewrite Rmult_0_r). apply is_lim_scal_l. now apply pow_exp_lim.
  - apply (is_lim_ext (fun x => - / s * (x ^ S m * exp (- (s * x))) + INR (S m) / s * gprim s m x)); [intros y; field; lra|].
    replace (Finite 0) with (Rbar_plus (Rbar_mult (- / s) 0) (Rbar_mult (INR (S m) / s) 0)) by (simpl; rewrite !Rmult_0_r, Rplus_0_r; reflexivity).
    eapply is_lim_plus; [apply is_lim_scal_l; now apply pow_exp_lim|apply is_lim_scal_l, IH|]. unfold is_Rbar_plus. simpl. rewrite !Rmult_0_r, Rplus_0_r. reflexivity.
Qed.
Lemma gamma_int s n : 0 < s -> is_RInt_gen (fun x => x ^ n * exp (- (s * x))) (at_right 0) (Rbar_locally p_infty) (INR (fact n) / s ^ S n).
Proof.
  intros S0.
  assert (FTC : forall a b, is_RInt (fun x => x ^ n * exp (- (s * x))) a b (gprim s n b - gprim s n a)).
  { intros a b. apply (is_RInt_derive (gprim s n)); intros x _; [apply gprim_d; lra|]. apply (ex_derive_continuous (fun x => x ^ n * exp (- (s * x)))). auto_derive. auto. }
  replace (INR (fact n) / s ^ S n) with (minus (0 : R) (gprim s n 0)) by (rewrite gprim_0 by lra; unfold minus, plus, opp; simpl; ring).
  assert (L0 : filterlim (gprim s n) (at_right 0) (locally (gprim s n 0))).
  { eapply filterlim_filter_le_1; [|apply gprim_cont; lra]. apply filter_le_within. }
  assert (L1 : filterlim (gprim s n) (Rbar_locally p_infty) (locally (0 : R))) by (apply (gprim_lim s n S0)).
  unfold is_RInt_gen, filterlimi. intros P HP.
  assert (G : filterlim (fun ab => minus (gprim s n (snd ab)) (gprim s n (fst ab))) (filter_prod (at_right 0) (Rbar_locally p_infty)) (locally (minus (0 : R) (gprim s n 0)))).
  { eapply (filterlim_comp_2 (fun ab => gprim s n (snd ab)) (fun ab => opp (gprim s n (fst ab))) plus).
    - eapply filterlim_comp; [apply filterlim_snd|apply L1].
    - eapply filterlim_comp; [eapply filterlim_comp; [apply filterlim_fst|apply L0]|exact (filterlim_opp (gprim s n 0 : R_NormedModule))].
    - exact (filterlim_plus (0 : R_NormedModule) (opp (gprim s n 0 : R_NormedModule))). }
  specialize (G P HP). unfold filtermap in G. unfold filtermapi. eapply filter_imp; [|exact G]. intros [a b] Q. exists (minus (gprim s n b) (gprim s n a)). split; [apply FTC|exact Q].
Qed.
Definition hyper_of (L : likelihood) : likelihood :=
  {| li_kind := Hyper; li_data := li_data L; li_prior := li_prior L; li_noise := li_noise L; li_n := li_n L; li_samples := li_samples L; li_maxu := li_maxu L; li_max_variance := li_max_variance L |}.
Lemma C64_relation_pf :
  forall bk prob sel conv L L0 (parameters converted : R -> dict xf) W s v, li_kind L = Rate ->
  L0 = {| li_kind := Hyper; li_data := li_data L; li_prior := li_prior L; li_noise := li_noise L; li_n := li_n L; li_samples := li_samples L; li_maxu := li_maxu L; li_max_variance := li_max_variance L |} ->
  (0 < li_n L)%nat -> positive_weights L W -> 0 < s ->
  (forall r, 0 < r -> conv (parameters r) = Ok (converted r) /\ dget "rate"%string (converted r) = Some (Fin r) /\ weights_are prob L (converted r) W /\
                      sel (converted r) = Ok (ValueAndVariance (Fin s) (Fin v))) ->
  exists (f : R -> R) (h : R),
    (forall r, 0 < r -> exists var, ln_likelihood_and_variance bk prob sel conv L (parameters r) = Ok (Fin (f r), var)) /\
    (forall r, 0 < r -> exists var, ln_likelihood_and_variance bk prob sel conv L0 (parameters r) = Ok (Fin h, var)) /\
    (forall r, 0 < r -> f r <= h + INR (li_n L) * ln (INR (li_n L)) - INR (li_n L) /\
                        (f r = h + INR (li_n L) * ln (INR (li_n L)) - INR (li_n L) <-> r = INR (li_n L) / s)) /\
    is_RInt_gen (fun r => exp (f r) / r) (at_right 0) (Rbar_locally p_infty) (INR (fact (li_n L - 1)) * exp h).
Proof.
  intros bk prob sel conv L L0 p cp W s v K -> HN F S0 H. set (N := li_n L) in *. set (B := Rsum (map (fun w => ln (mean w)) W)).
  exists (fun r => B + (- (s * r) + INR N * ln r)), (B - INR N * ln s). split; [|split; [|split]].
  - intros r R0. destruct (H r R0) as (C & D & Wt & S). eexists. unfold B, N. refine (rate_val bk prob sel conv L (p r) (cp r) W s v r K C Wt F _ _ D R0); [apply swu; auto|lra].
  - intros r R0. destruct (H r R0) as (C & D & Wt & S). eexists. unfold B, N. refine (hyper_val bk prob sel conv (hyper_of L) (p r) (cp r) W s v eq_refl C Wt F _ S0). apply swu; auto.
  - intros r R0. destruct (rate_max N s r HN S0 R0) as [A1 A2]. split; [lra|]. rewrite <- A2. split; intros; lra.
  - assert (G := gamma_int s (N - 1) S0). apply (is_RInt_gen_scal _ (exp B)) in G.
    replace (INR (fact (N - 1)) * exp (B - INR N * ln s)) with (scal (exp B) (INR (fact (N - 1)) / s ^ S (N - 1)) : R).
    2:{ assert (SN : s ^ S (N - 1) = exp (INR N * ln s)) by (replace (S (N - 1)) with N by lia; symmetry; exact (Rpower_pow N s S0)).
        rewrite SN. unfold Rminus. rewrite exp_plus, exp_Ropp. change (scal (exp B) (INR (fact (N - 1)) / exp (INR N * ln s)) : R) with (exp B * (INR (fact (N - 1)) / exp (INR N * ln s))). unfold Rdiv. ring. }
    eapply is_RInt_gen_ext; [|exact G]. exists (fun x => 0 < x) (fun x => 0 < x); [exists (mkposreal 1 Rlt_0_1); auto|exists 0; auto|].
    intros a b A1 B1 x Hx. cbn [fst snd] in *. assert (X : 0 < x). { destruct Hx as [Hx _]. assert (0 < Rmin a b) by now apply Rmin_glb_lt. lra. }
    change (exp B * (x ^ (N - 1) * exp (- (s * x))) = exp (B + (- (s * x) + INR N * ln x)) / x). rewrite !exp_plus.
    assert (XN : exp (INR N * ln x) = x * x ^ (N - 1)) by (rewrite tech_pow_Rmult; replace (S (N - 1)) with N by lia; exact (Rpower_pow N x X)).
    rewrite XN. field. lra.
Qed.

Lemma C65_rate_required_pf :
  forall bk prob sel conv L parameters converted per s v, li_kind L = Rate -> conv parameters = Ok converted ->
  per_event bk prob L converted = Ok per ->
  (sel converted = Ok (ValueAndVariance s v) \/ sel converted = Ok (Value s) /\ v = Fin 0) ->
  (ln_likelihood_and_variance bk prob sel conv L parameters = Err (KeyError "rate"%string) <-> dget "rate"%string converted = None) /\
  ((forall x, s = Fin x -> x <> 0) -> dget "rate"%string converted <> None -> exists out, ln_likelihood_and_variance bk prob sel conv L parameters = Ok out) /\
  (forall volume draw r, dget "rate"%string parameters = Some r -> generate_rate_posterior_sample sel volume draw L parameters = Ok r) /\
  (forall volume draw, dget "rate"%string parameters = None -> generate_rate_posterior_sample sel volume draw L parameters = Err (KeyError "rate"%string)).
Proof.
  intros bk prob sel conv L p cp [lb vs] s v K C P S. apply swu in S.
  assert (E : ln_likelihood_and_variance bk prob sel conv L p = (rate <- dlookup "rate"%string cp ;; tv <- float_div bk (fmul (fmul s rate) v) (fsq s) ;;
     Ok (fadd (fsum lb) (fadd (fopp (fmul s rate)) (fmul (of_nat (li_n L)) (flog rate))), fadd (fsum vs) tv))).
  { unfold ln_likelihood_and_variance. rewrite C. cbn [bind]. rewrite P. cbn [bind]. unfold selection_factor. rewrite S. cbn [bind]. rewrite K. destruct (dlookup "rate"%string cp) as [r|]; [|reflexivity]. cbn [bind]. cbv zeta.
    destruct (float_div bk (fmul (fmul s r) v) (fsq s)); reflexivity. }
  rewrite E. split; [|split; [|split]].
  - destruct (dget "rate"%string cp) as [r|] eqn:D.
    + rewrite (dlookup_ok _ _ _ D). cbn [bind]. split; [|discriminate]. unfold float_div. destruct (is_jax bk); [|destruct (feq _ _)]; cbn [bind]; discriminate.
    + rewrite (dlookup_err _ _ D). cbn [bind]. split; auto.
  - intros NZ D. destruct (dget "rate"%string cp) as [r|] eqn:D'; [|congruence]. rewrite (dlookup_ok _ _ _ D'). cbn [bind]. unfold float_div. destruct (is_jax bk); [cbn [bind]; eauto|].
    assert (Q : feq (fsq s) (Fin 0) = false). { destruct s as [x| | |]; try reflexivity. rewrite fsq_fin. cbn [feq]. apply Reqb_false. intros M. apply Rmult_integral in M. assert (A := NZ x eq_refl). tauto. }
    rewrite Q. cbn [bind]. eauto.
  - intros vol d r D. unfold generate_rate_posterior_sample. rewrite K. now apply dlookup_ok.
  - intros vol d D. unfold generate_rate_posterior_sample. rewrite K. now apply dlookup_err.
Qed.

Lemma lnbf_var i j : ("ln_bf_" ++ str_nat i)%string <> ("var_" ++ str_nat j)%string.
Proof. intros E. discriminate E. Qed.
Lemma store_get_ln lb : forall ii vs sample i, List.length lb = List.length vs -> (i < List.length lb)%nat ->
  dget ("ln_bf_" ++ str_nat (ii + i)) (store_events ii lb vs sample) = Some (nth i lb NaN).
Proof.
  assert (Old : forall lb ii vs sample i, (i < ii)%nat -> dget ("ln_bf_" ++ str_nat i) (store_events ii lb vs sample) = dget ("ln_bf_" ++ str_nat i) sample).
  { clear. induction lb as [|l lb IH]; intros ii vs sample i Hi; [reflexivity|]. destruct vs as [|v vs]; [reflexivity|]. cbn [store_events]. rewrite IH by lia.
    rewrite dget_dset_other by apply lnbf_var. apply dget_dset_other. intros E. apply append_inj_l, str_nat_inj in E. lia. }
  induction lb as [|l lb IH]; intros ii vs sample i HL Hi; [simpl in Hi; lia|]. destruct vs as [|v vs]; [discriminate|]. cbn [store_events]. destruct i as [|i].
  - rewrite Nat.add_0_r, Old by lia. rewrite dget_dset_other by apply lnbf_var. apply dget_dset_same.
  - replace (ii + S i)%nat with (S ii + i)%nat by lia. rewrite IH; auto; [simpl in Hi; lia].
Qed.
Lemma store_get_var lb : forall ii vs sample i, List.length lb = List.length vs -> (i < List.length lb)%nat ->
  dget ("var_" ++ str_nat (ii + i)) (store_events ii lb vs sample) = Some (nth i vs NaN).
Proof.
  assert (Old : forall lb ii vs sample i, (i < ii)%nat -> dget ("var_" ++ str_nat i) (store_events ii lb vs sample) = dget ("var_" ++ str_nat i) sample).
  { clear. induction lb as [|l lb IH]; intros ii vs sample i Hi; [reflexivity|]. destruct vs as [|v vs]; [reflexivity|]. cbn [store_events]. rewrite IH by lia.
    rewrite dget_dset_other by (intros E; apply append_inj_l, str_nat_inj in E; lia). apply dget_dset_other. intros E. exact (lnbf_var _ _ (eq_sym E)). }
  induction lb as [|l lb IH]; intros ii vs sample i HL Hi; [simpl in Hi; lia|]. destruct vs as [|v vs]; [discriminate|]. cbn [store_events]. destruct i as [|i].
  - rewrite Nat.add_0_r, Old by lia. apply dget_dset_same.
  - replace (ii + S i)%nat with (S ii + i)%nat by lia. rewrite IH; auto; [simpl in Hi; lia].
Qed.
Lemma store_other lb : forall ii vs sample k, (forall i, (ii <= i < ii + List.length lb)%nat -> k <> ("ln_bf_" ++ str_nat i)%string /\ k <> ("var_" ++ str_nat i)%string) ->
  dget k (store_events ii lb vs sample) = dget k sample.
Proof.
  induction lb as [|l lb IH]; intros ii vs sample k H; [reflexivity|]. destruct vs as [|v vs]; [reflexivity|]. cbn [store_events]. cbn [List.length] in H. rewrite IH by (intros i Hi; apply H; lia).
  destruct (H ii) as [A B]; [lia|]. rewrite !dget_dset_other by auto. reflexivity.
Qed.
Lemma extra_eq bk prob sel conv L sample cp lb vs s v : conv sample = Ok cp -> per_event bk prob L cp = Ok (lb, vs) -> selection_with_uncertainty sel cp = Ok (s, v) ->
  (is_jax bk = true \/ feq (fsq s) (Fin 0) = false) ->
  generate_extra_statistics bk prob sel conv L sample =
    Ok (dset "variance" (fadd (fsum vs) (fmul (fdiv v (fsq s)) (fsq (of_nat (li_n L))))) (dset "selection_variance" (fdiv v (fsq s)) (dset "selection" s (store_events 0 lb vs sample))))%string.
Proof.
  intros C P S Z. unfold generate_extra_statistics. rewrite C. cbn [bind]. rewrite P. cbn [bind]. rewrite S. cbn [bind]. unfold float_div. destruct Z as [-> | ->]; [|destruct (is_jax bk)]; reflexivity.
Qed.
Lemma pe_lengths bk prob L cp lb vs : per_event bk prob L cp = Ok (lb, vs) -> List.length lb = List.length vs.
Proof. unfold per_event. destruct (event_weights bk prob L cp); [|discriminate]. cbn [bind]. intros E. injection E as <- <-. now rewrite !map_length. Qed.
Lemma C66_extra_statistics_pf :
  forall bk prob sel conv L L0 sample converted ln_bfs variances s v, conv sample = Ok converted ->
  per_event bk prob L converted = Ok (ln_bfs, variances) -> List.length ln_bfs = li_n L ->
  (sel converted = Ok (ValueAndVariance s v) \/ sel converted = Ok (Value s) /\ v = Fin 0) -> (is_jax bk = true \/ feq (fsq s) (Fin 0) = false) ->
  L0 = {| li_kind := Hyper; li_data := li_data L; li_prior := li_prior L; li_noise := li_noise L; li_n := li_n L; li_samples := li_samples L; li_maxu := li_maxu L; li_max_variance := li_max_variance L |} ->
  exists d ln_l variance, generate_extra_statistics bk prob sel conv L sample = Ok d /\
    ln_likelihood_and_variance bk prob sel conv L0 sample = Ok (ln_l, variance) /\
    (forall i, (i < li_n L)%nat -> dget ("ln_bf_" ++ str_nat i)%string d = Some (nth i ln_bfs NaN) /\ dget ("var_" ++ str_nat i)%string d = Some (nth i variances NaN)) /\
    dget "selection"%string d = Some s /\ dget "variance"%string d = Some variance /\
    ln_l = fadd (fsum ln_bfs) (fmul (fopp (of_nat (li_n L))) (flog s)) /\
    (forall k, k <> "selection"%string -> k <> "selection_variance"%string -> k <> "variance"%string ->
       (forall i, (i < li_n L)%nat -> k <> ("ln_bf_" ++ str_nat i)%string /\ k <> ("var_" ++ str_nat i)%string) -> dget k d = dget k sample).
Proof.
  intros bk prob sel conv L L0 sample cp lb vs s v C P N S Z ->. apply swu in S. assert (LL := pe_lengths _ _ _ _ _ _ P).
  do 3 eexists. split; [exact (extra_eq bk prob sel conv L sample cp lb vs s v C P S Z)|]. split.
  { unfold ln_likelihood_and_variance. rewrite C. cbn [bind]. change (per_event bk prob _ cp) with (per_event bk prob L cp). rewrite P. cbn [bind]. unfold selection_factor. rewrite S. reflexivity. }
  cbn [li_n]. split; [|split; [|split; [|split]]].
  - intros i Hi. split; (rewrite !dget_dset_other by discriminate; apply (store_get_ln lb 0) || apply (store_get_var lb 0)); auto; lia.
  - rewrite !dget_dset_other by discriminate. apply dget_dset_same.
  - rewrite dget_dset_same. do 2 f_equal. apply fmul_comm.
  - reflexivity.
  - intros k A1 A2 A3 A4. rewrite !dget_dset_other by auto. apply store_other. intros i Hi. apply A4. lia.
Qed.

Lemma C66_selection_variance_refuted_pf :
  forall bk prob sel conv L sample converted W s v r, conv sample = Ok converted -> weights_are prob L converted W -> positive_weights L W ->
  sel converted = Ok (ValueAndVariance (Fin s) (Fin v)) -> 0 < s -> v <> 0 ->
  exists d, generate_extra_statistics bk prob sel conv L sample = Ok d /\
    dget "selection_variance"%string d = Some (Fin (v / s ^ 2)) /\ (v / s ^ 2 = v <-> s = 1) /\
    dget "total_variance"%string d = dget "total_variance"%string sample /\
    (li_kind L = Rate -> dget "rate"%string converted = Some (Fin r) -> 0 < r ->
      exists stored used ln_l, dget "variance"%string d = Some (Fin stored) /\ ln_likelihood_and_variance bk prob sel conv L sample = Ok (ln_l, Fin used) /\
        (stored = used <-> r * s = INR (li_n L) ^ 2)).
Proof.
  intros bk prob sel conv L sample cp W s v r C H F S P NV. assert (SS : 0 < s * s) by now apply Rmult_lt_0_compat.
  assert (SW := swu sel cp (Fin s) (Fin v) (or_introl S)). assert (PV := pe_val bk prob L cp W H F).
  eexists. split; [refine (extra_eq bk prob sel conv L sample cp _ _ _ _ C PV SW _); right; rewrite fsq_fin; cbn [feq]; apply Reqb_false; lra|].
  rewrite !fsq_fin, !fdiv_fin by lra. unfold of_nat. rewrite fsq_fin, fmul_fin, fsum_fins, fadd_fin. split; [|split; [|split]].
  - rewrite dget_dset_other by discriminate. rewrite dget_dset_same. do 2 f_equal. simpl. f_equal. ring.
  - split; intros E.
    + assert (E' : v / s ^ 2 * s ^ 2 = v) by (field; lra). rewrite E in E'. assert (Q : v * (s ^ 2 - 1) = 0) by lra. apply Rmult_integral in Q. destruct Q as [Q|Q]; [lra|]. nra.
    + rewrite E. field.
  - rewrite !dget_dset_other by discriminate. apply store_other. intros i _. split; discriminate.
  - intros K R0 R1. do 3 eexists. split; [apply dget_dset_same|]. split; [refine (rate_val bk prob sel conv L sample cp W s v r K C H F SW _ R0 R1); lra|].
    assert (A1 : v / (s * s) * (INR (li_n L) * INR (li_n L)) - s * r * v / (s * s) = (v / (s * s)) * (INR (li_n L) ^ 2 - r * s)) by (field; lra).
    split; intros E.
    + assert (Q : v / (s * s) * (INR (li_n L) ^ 2 - r * s) = 0) by lra. apply Rmult_integral in Q. destruct Q as [Q|Q]; [|lra]. exfalso. apply NV. replace v with (v / (s * s) * (s * s)) by (field; lra). rewrite Q. ring.
    + rewrite <- E in A1. lra.
Qed.

Lemma C88_rate_variance_refuted_pf :
  forall bk prob sel conv L parameters converted W s v r, li_kind L = Rate -> conv parameters = Ok converted ->
  weights_are prob L converted W -> positive_weights L W -> sel converted = Ok (ValueAndVariance (Fin s) (Fin v)) -> 0 < s -> v <> 0 ->
  dget "rate"%string converted = Some (Fin r) -> 0 < r ->
  exists ln_l variance, ln_likelihood_and_variance bk prob sel conv L parameters = Ok (ln_l, Fin variance) /\
    (variance = Rsum (map (mc_variance (li_samples L)) W) + r ^ 2 * v <-> r * s = 1).
Proof.
  intros bk prob sel conv L p cp W s v r K C H F S P NV R0 R1. assert (SS : 0 < s * s) by now apply Rmult_lt_0_compat.
  do 2 eexists. split; [refine (rate_val bk prob sel conv L p cp W s v r K C H F (swu _ _ _ _ (or_introl S)) _ R0 R1); lra|].
  assert (A1 : r ^ 2 * v - s * r * v / (s * s) = v * r * / s * (r * s - 1)) by (field; lra).
  assert (NZ : v * r * / s <> 0). { apply Rmult_integral_contrapositive_currified; [apply Rmult_integral_contrapositive_currified; [auto|lra]|]. apply Rinv_neq_0_compat. lra. }
  split; intros E.
  - assert (Q : v * r * / s * (r * s - 1) = 0) by lra. apply Rmult_integral in Q. destruct Q as [Q|Q]; [tauto|lra].
  - rewrite E in A1. replace (1 - 1) with 0 in A1 by ring. lra.
Qed.

Lemma C70_noise_pf :
  forall bk prob sel conv c rows posteriors hp evidences max_samples u L parameters ratio,
  likelihood_init c rows posteriors hp (Some (map Fin evidences)) max_samples u = Ok L ->
  log_likelihood_ratio bk prob sel conv L parameters = Ok (Fin ratio) ->
  noise_log_likelihood L = Fin (Rsum evidences) /\ log_likelihood bk prob sel conv L parameters = Ok (Fin (Rsum evidences + ratio)).
Proof.
  intros bk prob sel conv c rows ps hp ev ms u L p q I E. unfold likelihood_init in I. destruct (resample_posteriors rows ps ms) as [[k d]|]; [|discriminate]. cbn [bind] in I.
  assert (N : noise_log_likelihood L = Fin (Rsum ev)). { destruct hp; try discriminate; injection I as <-; unfold noise_log_likelihood; cbn [li_noise]; rewrite (fsum_fins (fun x => x)), map_id; reflexivity. }
  split; [exact N|]. unfold log_likelihood. rewrite E, N. cbn [bind]. now rewrite fadd_fin.
Qed.

Lemma C70_default_refuted_pf :
  forall bk prob sel conv c rows posteriors hp max_samples u L, likelihood_init c rows posteriors hp None max_samples u = Ok L ->
  noise_log_likelihood L = NaN /\
  forall parameters ratio, log_likelihood_ratio bk prob sel conv L parameters = Ok ratio -> log_likelihood bk prob sel conv L parameters = Ok NaN.
Proof.
  intros bk prob sel conv c rows ps hp ms u L I. unfold likelihood_init in I. destruct (resample_posteriors rows ps ms) as [[k d]|]; [|discriminate]. cbn [bind] in I.
  assert (N : noise_log_likelihood L = NaN) by (destruct hp; try discriminate; injection I as <-; reflexivity).
  split; [exact N|]. intros p q E. unfold log_likelihood. rewrite E, N. reflexivity.
Qed.

Lemma C71_rate_sample_pf :
  forall sel L parameters draw, li_kind L <> Rate ->
  (forall methods e var h, vm_efficiency methods parameters = Ok (Fin e, var) -> vm_hypervolume methods parameters = Ok (Fin h) -> e * h <> 0 ->
     generate_rate_posterior_sample sel (Some methods) (Fin draw) L parameters = Ok (Fin (draw / (e * h))) /\ (0 < draw -> 0 < e * h -> 0 < draw / (e * h))) /\
  (forall s, sel parameters = Ok (Value (Fin s)) -> s <> 0 ->
     generate_rate_posterior_sample sel None (Fin draw) L parameters = Ok (Fin (draw / s)) /\ (0 < draw -> 0 < s -> 0 < draw / s)).
Proof.
  intros sel L p g K. split.
  - intros m e var h E H Z. unfold generate_rate_posterior_sample. rewrite E, H. cbn [bind]. rewrite fmul_fin, fdiv_fin by auto. split; [destruct (li_kind L); congruence|]. intros. now apply Rdiv_lt_0_compat.
  - intros s E Z. unfold generate_rate_posterior_sample. rewrite E. cbn [bind]. rewrite fdiv_fin by auto. split; [destruct (li_kind L); congruence|]. intros. now apply Rdiv_lt_0_compat.
Qed.

Lemma C71_variance_refuted_pf :
  forall bk prob sel conv L parameters s v draw, li_kind L = Hyper -> conv parameters = Ok parameters -> sel parameters = Ok (ValueAndVariance s v) ->
  (forall per, per_event bk prob L parameters = Ok per -> exists out, ln_likelihood_and_variance bk prob sel conv L parameters = Ok out) /\
  generate_rate_posterior_sample sel None draw L parameters = Err TypeError.
Proof.
  intros bk prob sel conv L p s v g K C S. split.
  - intros [a b] P. unfold ln_likelihood_and_variance. rewrite C. cbn [bind]. rewrite P. cbn [bind]. unfold selection_factor, selection_with_uncertainty. rewrite S. cbn [bind]. rewrite K. cbn [bind]. eauto.
  - unfold generate_rate_posterior_sample. rewrite K, S. reflexivity.
Qed.

Lemma C85_conversion_refuted_pf :
  forall bk prob sel conv L parameters converted k s v per draw, li_kind L = Hyper -> conv parameters = Ok converted ->
  per_event bk prob L converted = Ok per -> sel converted = Ok (ValueAndVariance s v) \/ sel converted = Ok (Value s) /\ v = Fin 0 -> sel parameters = Err (KeyError k) ->
  (exists out, ln_likelihood_and_variance bk prob sel conv L parameters = Ok out) /\
  generate_rate_posterior_sample sel None draw L parameters = Err (KeyError k).
Proof.
  intros bk prob sel conv L p cp k s v [a b] g K C P S S'. apply swu in S. split.
  - unfold ln_likelihood_and_variance. rewrite C. cbn [bind]. rewrite P. cbn [bind]. unfold selection_factor. rewrite S. cbn [bind]. rewrite K. cbn [bind]. eauto.
  - unfold generate_rate_posterior_sample. rewrite K, S'. reflexivity.
Qed.

