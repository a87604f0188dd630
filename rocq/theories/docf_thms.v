(** Proofs of the property theorems stated in [Props_docf]. *)
From Coq Require Import Reals Lra Lia Psatz String Bool.
From Coquelicot Require Import Coquelicot.
From Coq Require Import List.
From Verif Require Import Xf Py Xf_facts Py_facts Calc Special Gauss_facts Spec SpecDoc Utils_model Powerlaw_facts Truncnorm_facts Beta_facts Utils_facts
  utils_thms Mass_model Mass_facts mass_thms Np Smoothed_model SpecSmooth smoothed_thms smooth2_thms Cosmo_model Redshift_model redshift_thms.
Import ListNotations.
Local Open Scope R_scope.

Lemma C107_beta_documented_refuted_pf :
  forall bk kw alpha beta scale x, 0 < alpha -> 0 < beta -> 0 < scale -> 0 < x < scale ->
    exists B r, is_beta_function alpha beta B /\ 0 < B /\
      returns (beta_dist bk kw (Fin x) (Fin alpha) (Fin beta) (Fin scale)) r /\
      r = scale * scale * documented_beta B alpha beta scale x /\
      (r = documented_beta B alpha beta scale x <-> scale = 1).
Proof.
  intros bk kw a b s x Ha Hb Hs Hx. destruct (Beta_exists a b Ha Hb) as [HB HI].
  exists (Beta_fun a b), (bpdf a b s x). split; [exact HI|]. split; [exact HB|]. split.
  { red. rewrite beta_dist_ok by auto. now rewrite beta_dist_body_in. }
  assert (D : 0 < documented_beta (Beta_fun a b) a b s x).
  { unfold documented_beta. apply Rdiv_lt_0_compat; apply Rmult_lt_0_compat; auto; apply Rpower_pos. }
  assert (E : bpdf a b s x = s * s * documented_beta (Beta_fun a b) a b s x).
  { unfold bpdf, documented_beta. replace (a + b + 1) with ((a + b - 1) + (1 + 1)) by ring. rewrite (Rpower_plus (a + b - 1)), (Rpower_plus 1 1), !Rpower_1 by auto.
    assert (P := Rpower_pos s (a + b - 1)). field. lra. }
  split; [exact E|]. rewrite E. split.
  - intros Q. assert (s * s = 1).
    { apply (Rmult_eq_reg_r (documented_beta (Beta_fun a b) a b s x)); lra. }
    assert ((s - 1) * (s + 1) = 0) by lra. destruct (Rmult_integral _ _ H0); lra.
  - intros ->. ring.
Qed.

Lemma erf_Phi z : erf (z / sqrt 2) = 2 * Phi z - 1.
Proof.
  assert (S2 : 0 < sqrt 2) by (apply sqrt_lt_R0; lra). assert (SP : 0 < sqrt PI) by (apply sqrt_lt_R0, PI_RGT_0).
  assert (SS : sqrt 2 * sqrt 2 = 2) by (apply sqrt_sqrt; lra).
  assert (I : is_RInt (fun t => exp (- (t * t))) 0 (z / sqrt 2) (sqrt PI * (Phi z - Phi 0))).
  { assert (H := Phi_int 0 z). apply (is_RInt_scal _ _ _ (sqrt PI)) in H.
    assert (G : is_RInt (fun y => scal (sqrt 2) ((fun t => sqrt PI * gauss t) (sqrt 2 * y + 0))) 0 (z / sqrt 2) (sqrt PI * (Phi z - Phi 0))).
    { apply (is_RInt_comp_lin (fun t => sqrt PI * gauss t) (sqrt 2) 0 0 (z / sqrt 2)).
      replace (sqrt 2 * 0 + 0) with 0 by ring. replace (sqrt 2 * (z / sqrt 2) + 0) with z by (field; lra). exact H. }
    revert G. apply is_RInt_ext. intros y _. unfold scal; simpl; unfold mult; simpl. eqR. unfold gauss. rewrite sqrt_mult by (try lra; left; apply PI_RGT_0).
    replace (- ((sqrt 2 * y + 0) * (sqrt 2 * y + 0)) / 2) with (- (y * y)).
    2:{ replace ((sqrt 2 * y + 0) * (sqrt 2 * y + 0)) with ((sqrt 2 * sqrt 2) * (y * y)) by ring. rewrite SS. field. }
    field. lra. }
  unfold erf. rewrite (is_RInt_unique (V := R_CompleteNormedModule) _ _ _ _ I).
  assert (P0 : Phi 0 = 1 / 2). { assert (H := Phi_sym 0). rewrite Ropp_0 in H. lra. }
  rewrite P0. field. lra.
Qed.
Lemma doc_tn mu sigma high low x : 0 < sigma -> low < high ->
  documented_truncnorm mu sigma high low x = gauss ((x - mu) / sigma) / sigma / Zab (low - mu) (high - mu).
Proof.
  intros Hs Hlh. assert (HZ := Zab_pos (low - mu) (high - mu) ltac:(lra)). unfold documented_truncnorm. rewrite !erf_Phi.
  replace (mu - low) with (- (low - mu)) by ring. rewrite Phi_sym. unfold Zab in *.
  assert (SP := s2pi_pos). assert (PP := PI_RGT_0).
  assert (E : sqrt (2 / (PI * (sigma * sigma))) = 2 / (sigma * sqrt (2 * PI))).
  { apply sqrt_lem_1.
    - apply Rlt_le, Rdiv_lt_0_compat; [lra|]. apply Rmult_lt_0_compat; auto. now apply Rmult_lt_0_compat.
    - apply Rlt_le, Rdiv_lt_0_compat; [lra|]. now apply Rmult_lt_0_compat.
    - assert (Q : sqrt (2 * PI) * sqrt (2 * PI) = 2 * PI) by (apply sqrt_sqrt; lra).
      replace (2 / (sigma * sqrt (2 * PI)) * (2 / (sigma * sqrt (2 * PI)))) with (4 / (sigma * sigma * (sqrt (2 * PI) * sqrt (2 * PI)))) by (field; lra).
      rewrite Q. field. lra. }
  rewrite E. unfold gauss.
  replace (- ((x - mu) / sigma * ((x - mu) / sigma)) / 2) with (- ((mu - x) * (mu - x)) / (2 * (sigma * sigma))) by (field; lra).
  field. lra.
Qed.

Lemma C107_truncnorm_documented_refuted_pf :
  forall bk kw mu sigma high low x, 0 < sigma -> low < high -> low <= x <= high ->
    exists r, returns (truncnorm bk kw (Fin x) (Fin mu) (Fin sigma) (Fin high) (Fin low)) r /\
      (sigma = 1 -> r = documented_truncnorm mu sigma high low x) /\
      (low <= mu <= high -> 1 < sigma -> documented_truncnorm mu sigma high low x < r) /\
      (low <= mu <= high -> sigma < 1 -> r < documented_truncnorm mu sigma high low x).
Proof.
  intros bk kw mu sigma high low x Hs Hlh Hx. exists (tnpdf mu sigma high low x). split.
  { red. rewrite truncnorm_ok by auto. now rewrite truncnorm_body_in. }
  rewrite doc_tn by auto. unfold tnpdf. assert (G : 0 < gauss ((x - mu) / sigma) / sigma) by (apply Rdiv_lt_0_compat; auto; apply gauss_pos).
  assert (Z1 := Zab_pos (low - mu) (high - mu) ltac:(lra)).
  assert (Z2 := Zab_pos ((low - mu) / sigma) ((high - mu) / sigma) ltac:(apply div_lt; lra)).
  split; [|split].
  - intros ->. unfold Zab. now rewrite !Rdiv_1.
  - intros Hm H1. unfold Rdiv at 1 3. apply Rmult_lt_compat_l; auto. apply Rinv_lt_contravar; [now apply Rmult_lt_0_compat|].
    unfold Zab. assert (A : Phi (low - mu) <= Phi ((low - mu) / sigma)).
    { destruct (Req_dec low mu) as [->|N]. - replace (mu - mu) with 0 by ring. unfold Rdiv. rewrite Rmult_0_l. lra.
      - left. apply Phi_incr. apply (Rmult_lt_reg_r sigma); auto. unfold Rdiv. rewrite Rmult_assoc, Rinv_l by lra. nra. }
    assert (B : Phi ((high - mu) / sigma) <= Phi (high - mu)).
    { destruct (Req_dec high mu) as [->|N]. - replace (mu - mu) with 0 by ring. unfold Rdiv. rewrite Rmult_0_l. lra.
      - left. apply Phi_incr. apply (Rmult_lt_reg_r sigma); auto. unfold Rdiv. rewrite Rmult_assoc, Rinv_l by lra. nra. }
    destruct (Req_dec low mu) as [->|N].
    + assert (Phi ((high - mu) / sigma) < Phi (high - mu)); [|lra]. apply Phi_incr. apply (Rmult_lt_reg_r sigma); auto. unfold Rdiv. rewrite Rmult_assoc, Rinv_l by lra. nra.
    + assert (Phi (low - mu) < Phi ((low - mu) / sigma)); [|lra]. apply Phi_incr. apply (Rmult_lt_reg_r sigma); auto. unfold Rdiv. rewrite Rmult_assoc, Rinv_l by lra. nra.
  - intros Hm H1. unfold Rdiv at 1 3. apply Rmult_lt_compat_l; auto. apply Rinv_lt_contravar; [now apply Rmult_lt_0_compat|].
    unfold Zab. assert (A : Phi ((low - mu) / sigma) <= Phi (low - mu)).
    { destruct (Req_dec low mu) as [->|N]. - replace (mu - mu) with 0 by ring. unfold Rdiv. rewrite Rmult_0_l. lra.
      - left. apply Phi_incr. apply (Rmult_lt_reg_r sigma); auto. unfold Rdiv. rewrite Rmult_assoc, Rinv_l by lra. nra. }
    assert (B : Phi (high - mu) <= Phi ((high - mu) / sigma)).
    { destruct (Req_dec high mu) as [->|N]. - replace (mu - mu) with 0 by ring. unfold Rdiv. rewrite Rmult_0_l. lra.
      - left. apply Phi_incr. apply (Rmult_lt_reg_r sigma); auto. unfold Rdiv. rewrite Rmult_assoc, Rinv_l by lra. nra. }
    destruct (Req_dec low mu) as [->|N].
    + assert (Phi (high - mu) < Phi ((high - mu) / sigma)); [|lra]. apply Phi_incr. apply (Rmult_lt_reg_r sigma); auto. unfold Rdiv. rewrite Rmult_assoc, Rinv_l by lra. nra.
    + assert (Phi ((low - mu) / sigma) < Phi (low - mu)); [|lra]. apply Phi_incr. apply (Rmult_lt_reg_r sigma); auto. unfold Rdiv. rewrite Rmult_assoc, Rinv_l by lra. nra.
Qed.

Lemma C107_window_documented_refuted_pf :
  forall bk mmin mmax delta_m m, 0 < delta_m ->
    mmin + delta_m / 1000000 <= m <= mmin + delta_m - delta_m / 1000000 -> m <= mmax ->
    exists r, smoothing bk (Fin m) (Fin mmin) (Fin mmax) (Fin delta_m) = Fin r /\ r <> documented_window delta_m (m - mmin) /\
      r = / (exp (delta_m / (m - mmin) + delta_m / (m - mmin - delta_m)) + 1).
Proof.
  intros bk mn mx d m Hd Hm Hx. destruct (C28_closed_form_pf bk mn mx d Hd) as (s & V & C & _).
  exists (s m). split; [apply V|]. rewrite (C m Hm Hx). split; [|reflexivity].
  unfold documented_window. set (f := d / (m - mn) + d / (m - mn - d)). assert (P := exp_pos f). assert (Q := exp_ineq1_le f).
  intros E. destruct (Req_dec (f + 1) 0) as [Z|N].
  - rewrite Z, Rinv_0 in E. assert (0 < / (exp f + 1)) by (apply Rinv_0_lt_compat; lra). lra.
  - assert (E2 : / / (exp f + 1) = / / (f + 1)) by now rewrite E. rewrite !Rinv_involutive in E2 by lra. lra.
Qed.

Lemma C107_madau_documented_refuted_pf :
  forall gamma kappa z_peak z parameters, dget "gamma"%string parameters = Some (Fin gamma) -> dget "kappa"%string parameters = Some (Fin kappa) ->
    dget "z_peak"%string parameters = Some (Fin z_peak) -> -1 < z_peak -> -1 < z ->
    exists r, returns (madau_psi (Fin z) parameters) r /\ documented_madau gamma kappa z_peak z < r /\
      r = documented_madau gamma kappa z_peak z * (1 + Rpower (1 + z_peak) (- kappa)).
Proof.
  intros g k zp z p G K Z Hp Hz. exists (md g k zp z). split; [red; now apply madau_val|].
  assert (A := rpower_pos (1 + z) g). assert (B := rpower_pos ((1 + z) / (1 + zp)) k). assert (C := rpower_pos (1 + zp) (- k)).
  assert (D : 0 < documented_madau g k zp z) by (unfold documented_madau; apply Rdiv_lt_0_compat; lra).
  assert (E : md g k zp z = documented_madau g k zp z * (1 + Rpower (1 + zp) (- k))) by reflexivity.
  split; [|exact E]. rewrite E. nra.
Qed.

Lemma Rpower_inj_exp x a b : 0 < x -> Rpower x a = Rpower x b -> a = b \/ x = 1.
Proof.
  intros Hx E. apply exp_inv in E. destruct (Req_dec (ln x) 0) as [L|L].
  - right. rewrite <- (exp_ln x Hx), L. apply exp_0.
  - left. apply (Rmult_eq_reg_r (ln x)); auto.
Qed.

Lemma C107_broken_power_law_documented_refuted_pf :
  forall bk alpha_1 alpha_2 mmin mmax delta, 0 < mmin < mmax -> 0 < delta < 1 -> (bk = Jax \/ (alpha_1 <> -1 /\ alpha_2 <> -1)) ->
    exists p : R -> R,
      (forall m, 0 < m -> returns (double_power_law_primary_mass bk (Fin m) (Fin alpha_1) (Fin alpha_2) (Fin mmin) (Fin mmax) (Fin delta)) (p m)) /\
      (documented_broken_power_law p alpha_1 alpha_2 mmin mmax delta <-> alpha_1 = alpha_2 \/ mmin + delta * (mmax - mmin) = 1) /\
      0 < p mmax.
Proof.
  intros bk a1 a2 mn mx bf Hm Hb Ha. exists (dplval a1 a2 mn mx bf).
  assert (HB := mbr_in mn mx bf Hm Hb). set (b := mbr mn mx bf) in *. assert (EB : mn + bf * (mx - mn) = b) by reflexivity.
  assert (CP := corr_pos a1 a2 mn mx bf Hm Hb). set (k := corr a1 a2 mn mx bf) in *.
  split; [|split].
  - intros m Hx. red. apply dpl_val; auto.
  - set (c1 := plnorm (- a1) b mn * k / (1 + k)). set (c2 := plnorm (- a2) mx b / (1 + k)).
    assert (P1 : 0 < c1). { unfold c1. apply Rdiv_lt_0_compat; [|lra]. apply Rmult_lt_0_compat; auto. apply plnorm_pos; lra. }
    assert (P2 : 0 < c2). { unfold c2. apply Rdiv_lt_0_compat; [|lra]. apply plnorm_pos; lra. }
    assert (L : forall m, mn <= m <= b -> dplval a1 a2 mn mx bf m = c1 * Rpower m (- a1)).
    { intros m H. rewrite dplval_low by auto. fold k. unfold pl, plpdf, c1. fold b. field. lra. }
    assert (H : forall m, b <= m <= mx -> dplval a1 a2 mn mx bf m = c2 * Rpower m (- a2)).
    { intros m H. rewrite dplval_high by auto. fold k. unfold ph, plpdf, c2. fold b. field. lra. }
    assert (C : c1 * Rpower b (- a1) = c2 * Rpower b (- a2)). { rewrite <- L, <- H by lra. reflexivity. }
    unfold documented_broken_power_law. rewrite EB. split.
    + intros (c & A & B). assert (X : c1 = c).
      { assert (Q := A mn ltac:(lra)). rewrite L in Q by lra. apply (Rmult_eq_reg_r (Rpower mn (- a1))); auto. apply Rgt_not_eq, Rpower_pos. }
      assert (Y : c2 = c).
      { assert (Q := B b ltac:(lra)). rewrite H in Q by lra. apply (Rmult_eq_reg_r (Rpower b (- a2))); auto. apply Rgt_not_eq, Rpower_pos. }
      rewrite X, Y in C. assert (E : Rpower b (- a1) = Rpower b (- a2)) by (apply (Rmult_eq_reg_l c); lra).
      apply Rpower_inj_exp in E; [|lra]. destruct E as [E|E]; [left; lra|now right].
    + intros E. assert (Q : Rpower b (- a1) = Rpower b (- a2)).
      { destruct E as [->|E]; auto. rewrite E. unfold Rpower. now rewrite ln_1, !Rmult_0_r. }
      assert (CC : c1 = c2). { rewrite Q in C. apply (Rmult_eq_reg_r (Rpower b (- a2))); auto. apply Rgt_not_eq, Rpower_pos. }
      exists c1. split; intros m X; [apply L; lra|]. rewrite H by lra. now rewrite CC.
  - apply dplval_pos; auto; lra.
Qed.

Lemma C107_mass_ratio_documented_refuted_pf :
  forall bk m1 q alpha beta mmin mmax, 0 < mmin < mmax -> (bk = Jax \/ alpha <> -1) -> mmin < m1 <= mmax -> 0 < q ->
    ~ (m1 / mmin <= q <= 1) /\
    exists r, returns (power_law_primary_mass_ratio bk (Fin m1) (Fin q) (Fin alpha) (Fin beta) (Fin mmin) (Fin mmax)) r /\
      0 <= r /\ (0 < r <-> mmin / m1 <= q <= 1).
Proof.
  intros bk m1 q al be mn mx Hm Ha H1 Hq. split.
  { intros [A B]. assert (1 < m1 / mn) by (apply (Rmult_lt_reg_r mn); [lra|]; unfold Rdiv; rewrite Rmult_assoc, Rinv_l; lra). lra. }
  rewrite plpr_joint by (auto; lra). assert (Hd : m1 <> mn) by lra. destruct (ratio_fin bk m1 q be mn) as (r & E & Z & V & N); try lra. rewrite E. unfold joint. cbn [bind].
  rewrite fmul_fin. exists (plval (- al) mx mn m1 * r). split; [reflexivity|].
  assert (P : 0 < plval (- al) mx mn m1) by (rewrite plval_in by lra; apply plpdf_pos; (lra || tauto)).
  split; [apply Rmult_le_pos; lra|]. rewrite V in * by lra.
  assert (LB : 0 < mn / m1 < 1). { split; [apply Rdiv_lt_0_compat; lra|]. apply (Rmult_lt_reg_r m1); [lra|]. unfold Rdiv. rewrite Rmult_assoc, Rinv_l; lra. }
  split.
  - intros X. destruct (Rlt_dec q (mn / m1)) as [C|C]; [rewrite (plval_out be) in X by auto; lra|].
    destruct (Rlt_dec 1 q) as [D|D]; [rewrite (plval_out be) in X by auto; lra|]. lra.
  - intros X. apply Rmult_lt_0_compat; auto. rewrite plval_in by auto. apply plpdf_pos; (lra || tauto).
Qed.

