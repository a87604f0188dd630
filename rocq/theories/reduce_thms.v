(** Proofs of the property theorems stated in [Props_reduce]. *)
From Coq Require Import Reals Lra Lia Psatz String Bool.
From Coquelicot Require Import Coquelicot.
From Coq Require Import List.
From Verif Require Import Xf Py Xf_facts Py_facts Calc Special Spec Utils_model Powerlaw_facts Gauss_facts Truncnorm_facts Beta_facts Mass_model Mass_facts Spin_model.
Import ListNotations.
Local Open Scope R_scope.

Lemma plnorm_inv_add a lo mid hi : 0 < lo < mid -> mid < hi ->
  / plnorm a mid lo + / plnorm a hi mid = / plnorm a hi lo.
Proof.
  intros H1 H2. unfold plnorm. destruct (Reqb_spec a (-1)) as [->|Ha].
  - rewrite !Rinv_inv. rewrite <- ln_mult by (apply Rdiv_lt_0_compat; lra). f_equal. field; lra.
  - assert (K : forall x y, 0 < x < y -> Rpower y (1 + a) - Rpower x (1 + a) <> 0).
    { intros x y Hxy. destruct (Rlt_dec (-1) a).
      - assert (P := Rpower_strict_incr x y (1 + a) Hxy ltac:(lra)). lra.
      - assert (P := Rpower_strict_decr x y (1 + a) Hxy ltac:(lra)). lra. }
    assert (K1 := K lo mid H1). assert (K2 := K mid hi ltac:(lra)). assert (K3 := K lo hi ltac:(lra)).
    field. repeat split; auto; lra.
Qed.

Lemma dplval_equal a mmin mmax bf x : 0 < mmin < mmax -> 0 < bf < 1 ->
  dplval a a mmin mmax bf x = plval (- a) mmax mmin x.
Proof.
  intros Hm Hb. assert (Hbr := mbr_in mmin mmax bf Hm Hb).
  set (mb := mbr mmin mmax bf) in *.
  assert (N1 := plnorm_pos (- a) mb mmin ltac:(lra)).
  assert (N2 := plnorm_pos (- a) mmax mb ltac:(lra)).
  assert (N3 := plnorm_pos (- a) mmax mmin ltac:(lra)).
  assert (NA := plnorm_inv_add (- a) mmin mb mmax ltac:(lra) ltac:(lra)).
  assert (C : corr a a mmin mmax bf = plnorm (- a) mmax mb / plnorm (- a) mb mmin).
  { unfold corr, ph, pl, plpdf. fold mb. field. split; [lra|apply Rpower_neq0]. }
  assert (E : plnorm (- a) mmax mmin = plnorm (- a) mb mmin * plnorm (- a) mmax mb / (plnorm (- a) mb mmin + plnorm (- a) mmax mb)).
  { rewrite <- (Rinv_inv (plnorm (- a) mmax mmin)), <- NA. field. lra. }
  destruct (Rlt_dec x mmin); [rewrite dplval_out, plval_out by auto; reflexivity|].
  destruct (Rlt_dec mmax x); [rewrite dplval_out, plval_out by auto; reflexivity|].
  rewrite (plval_in _ _ _ x) by lra. unfold plpdf at 1. rewrite E.
  destruct (Rle_dec x mb).
  - rewrite dplval_low by (auto; fold mb; lra). rewrite C. unfold pl, plpdf. fold mb. field. lra.
  - rewrite dplval_high by (auto; fold mb; lra). rewrite C. unfold ph, plpdf. fold mb. field. lra.
Qed.

Lemma C96_equal_slopes_pf :
  forall bk alpha mmin mmax bf m,
    0 < mmin < mmax -> 0 < bf < 1 -> (bk = Jax \/ alpha <> -1) -> 0 < m ->
    double_power_law_primary_mass bk (Fin m) (Fin alpha) (Fin alpha) (Fin mmin) (Fin mmax) (Fin bf)
    = power_law_mass bk (Fin m) (Fin alpha) (Fin mmin) (Fin mmax).
Proof.
  intros bk a mmin mmax bf m Hm Hb Ha Hx. rewrite dpl_val, plm_val; auto; [|tauto].
  now rewrite dplval_equal.
Qed.

Lemma nan_mul_l x : fmul NaN x = NaN. Proof. reflexivity. Qed.

Lemma powerlaw_degenerate bk kw a m x : 0 < m -> 0 < x -> alpha_ok bk kw a ->
  powerlaw bk kw (Fin x) (Fin a) (Fin m) (Fin m) =
    Ok (if Reqb x m then fmul (Fin (Rpower x a)) (if Reqb a (-1) then PInf else inf_of_sign (1 + a)) else NaN).
Proof.
  intros Hm Hx Ha. rewrite powerlaw_ok by (lra || auto). f_equal. unfold powerlaw_body.
  rewrite powerlaw_norm_degenerate, fpow_fin by auto. rewrite fle_fin, fge_fin.
  assert (P := Rpower_pos x a).
  destruct (Reqb_spec x m) as [->|N].
  - rewrite Rleb_true by lra. simpl andb. rewrite of_bool_true. apply fmul_1_r.
  - assert (B : Rleb x m && Rleb m x = false).
    { destruct (Rleb_spec x m), (Rleb_spec m x); auto. lra. }
    rewrite B, of_bool_false.
    destruct (Reqb_spec a (-1)) as [->|Na].
    + rewrite fmul_pos_PInf by auto. rewrite fmul_comm. apply fmul_0_PInf.
    + destruct (Rlt_dec 0 (1 + a)).
      * rewrite inf_of_sign_pos by auto. rewrite fmul_pos_PInf by auto. rewrite fmul_comm. apply fmul_0_PInf.
      * rewrite inf_of_sign_neg by lra. rewrite fmul_pos_NInf by auto. rewrite fmul_comm. apply fmul_0_NInf.
Qed.

Lemma deg_inf x a : exists s, (s = PInf \/ s = NInf) /\
  fmul (Fin (Rpower x a)) (if Reqb a (-1) then PInf else inf_of_sign (1 + a)) = s.
Proof.
  assert (P := Rpower_pos x a). destruct (Reqb_spec a (-1)) as [->|Na].
  - exists PInf. split; auto. now apply fmul_pos_PInf.
  - destruct (Rlt_dec 0 (1 + a)).
    + rewrite inf_of_sign_pos by auto. exists PInf. split; auto. now apply fmul_pos_PInf.
    + rewrite inf_of_sign_neg by lra. exists NInf. split; auto. now apply fmul_pos_NInf.
Qed.
Lemma inf_zero s : s = PInf \/ s = NInf -> fmul s (Fin 0) = NaN.
Proof. intros [->| ->]; rewrite fmul_comm; [apply fmul_0_PInf|apply fmul_0_NInf]. Qed.
Lemma zero_inf s : s = PInf \/ s = NInf -> fmul (Fin 0) s = NaN.
Proof. intros H. rewrite fmul_comm. now apply inf_zero. Qed.

Lemma C96_break_at_an_end_refuted_pf :
  forall bk a1 a2 mmin mmax bf m,
    0 < mmin < mmax -> bf = 0 \/ bf = 1 -> (bk = Jax \/ (a1 <> -1 /\ a2 <> -1)) -> 0 < m ->
    double_power_law_primary_mass bk (Fin m) (Fin a1) (Fin a2) (Fin mmin) (Fin mmax) (Fin bf) = Ok NaN /\
    (mmin <= m <= mmax -> exists r, 0 < r /\
       returns (power_law_mass bk (Fin m) (Fin (if Reqb bf 0 then a2 else a1)) (Fin mmin) (Fin mmax)) r).
Proof.
  intros bk a1 a2 mmin mmax bf m Hm Hbf Ha Hx. split.
  - unfold double_power_law_primary_mass. autorewrite with xf.
    assert (A1 : alpha_ok bk pl_kw (- a1)) by (apply alpha_ok_kw; tauto).
    assert (A2 : alpha_ok bk pl_kw (- a2)) by (apply alpha_ok_kw; tauto).
    destruct Hbf as [->| ->].
    + replace (mmin + 0 * (mmax - mmin)) with mmin by ring.
      rewrite !(powerlaw_val bk pl_kw (- a2)) by (auto; lra).
      rewrite !powerlaw_degenerate by (auto; lra). rewrite Reqb_refl. cbn [bind]. cbv zeta.
      rewrite fge_fin. unfold flt. destruct (deg_inf mmin (- a1)) as [s [Hs Es]].
      assert (K : fmul (if Reqb m mmin then fmul (Fin (Rpower m (- a1))) (if Reqb (- a1) (-1) then PInf else inf_of_sign (1 + - a1)) else NaN)
                    (of_bool (Rltb m mmin)) = NaN).
      { destruct (Reqb_spec m mmin) as [->|]; auto. rewrite Es, Rltb_false by lra. simpl of_bool. now apply inf_zero. }
      rewrite K. reflexivity.
    + replace (mmin + 1 * (mmax - mmin)) with mmax by ring.
      rewrite !(powerlaw_val bk pl_kw (- a1)) by (auto; lra).
      rewrite !powerlaw_degenerate by (auto; lra). rewrite Reqb_refl. cbn [bind]. cbv zeta.
      rewrite fge_fin. destruct (deg_inf mmax (- a2)) as [s [Hs Es]]. rewrite Es.
      destruct (Reqb_spec m mmax) as [->|N].
      * unfold flt. rewrite Rltb_false by lra. simpl of_bool. rewrite fmul_fin, Rmult_0_r.
        assert (P : 0 < plval (- a1) mmax mmin mmax) by (rewrite plval_in by lra; apply plpdf_pos; lra).
        assert (D : fdiv s (Fin (plval (- a1) mmax mmin mmax)) = s).
        { destruct Hs as [->| ->]; simpl; unfold fdiv; simpl; try rewrite Reqb_false by lra;
            try rewrite inf_of_sign_pos by lra; try rewrite inf_of_sign_neg by lra; try rewrite Rltb_true by lra; try rewrite Rltb_false by lra; reflexivity. }
        rewrite D, (zero_inf s Hs). reflexivity.
      * rewrite nan_mul_l, fadd_NaN_r. reflexivity.
  - intros Hin. exists (plval (- (if Reqb bf 0 then a2 else a1)) mmax mmin m). split.
    + rewrite plval_in by lra. apply plpdf_pos; lra.
    + apply plm_val; auto. destruct Ha; auto. destruct (Reqb bf 0); tauto.
Qed.

Lemma C96_mixtures_pf :
  forall bk alpha mmin mmax bf lam lam_1 mpp_1 sigpp_1 mpp_2 sigpp_2 gmax m,
    0 < mmin < mmax -> 0 < bf < 1 -> mmin < gmax -> 0 < sigpp_1 -> 0 < sigpp_2 ->
    (bk = Jax \/ alpha <> -1) -> 0 < m ->
    let two l mu s := two_component_single bk (Fin m) (Fin alpha) (Fin mmin) (Fin mmax) (Fin l) (Fin mu) (Fin s) (Fin gmax) in
    let three l l1 mu1 s1 mu2 s2 :=
      three_component_single bk (Fin m) (Fin alpha) (Fin mmin) (Fin mmax) (Fin l) (Fin l1) (Fin mu1) (Fin s1) (Fin mu2) (Fin s2) (Fin gmax) in
    let double l mu s :=
      double_power_law_peak_primary_mass bk (Fin m) (Fin alpha) (Fin alpha) (Fin mmin) (Fin mmax) (Fin bf) (Fin l) (Fin mu) (Fin s) (Fin gmax) in
    two 0 mpp_1 sigpp_1 = power_law_mass bk (Fin m) (Fin alpha) (Fin mmin) (Fin mmax) /\
    two 1 mpp_1 sigpp_1 = truncnorm bk ["mu"; "sigma"; "high"; "low"]%string (Fin m) (Fin mpp_1) (Fin sigpp_1) (Fin gmax) (Fin mmin) /\
    three lam 1 mpp_1 sigpp_1 mpp_2 sigpp_2 = two lam mpp_1 sigpp_1 /\
    three lam 0 mpp_1 sigpp_1 mpp_2 sigpp_2 = two lam mpp_2 sigpp_2 /\
    three lam lam_1 mpp_1 sigpp_1 mpp_1 sigpp_1 = two lam mpp_1 sigpp_1 /\
    three lam lam_1 mpp_1 sigpp_1 mpp_2 sigpp_2 = three lam (1 - lam_1) mpp_2 sigpp_2 mpp_1 sigpp_1 /\
    double lam mpp_1 sigpp_1 = two lam mpp_1 sigpp_1.
Proof.
  intros bk a mmin mmax bf lam lam_1 mu1 s1 mu2 s2 gmax m Hm Hb Hg H1 H2 Ha Hx. cbv beta zeta.
  rewrite !two_val, !three_val, dpeak_val, plm_val, truncnorm_val; auto; [|tauto].
  unfold twoval, threeval, dpeakval. rewrite dplval_equal by auto.
  repeat split; do 2 f_equal; ring.
Qed.

Lemma fbetaln_sym a b : fbetaln a b = fbetaln b a.
Proof.
  destruct a as [a| | |], b as [b| | |]; simpl; auto.
  destruct (Rltb_spec 0 a), (Rltb_spec 0 b); simpl; auto. now rewrite Beta_sym.
Qed.

Lemma beta_body_reflect a b s x :
  beta_dist_body (Fin x) a b (Fin s) = beta_dist_body (Fin (s - x)) b a (Fin s).
Proof.
  unfold beta_dist_body. rewrite !fsub_fin. replace (s - (s - x)) with x by ring.
  rewrite (fadd_comm (fmul (fsub b (Fin 1)) _)), (fbetaln_sym b a), (fadd_comm b a).
  f_equal. rewrite !fge_fin, !fle_fin. rewrite (fmul_comm (of_bool (Rleb 0 (s - x)))).
  f_equal; f_equal.
  - destruct (Rleb_spec 0 x), (Rleb_spec (s - x) s); auto; lra.
  - destruct (Rleb_spec x s), (Rleb_spec 0 (s - x)); auto; lra.
Qed.

Lemma Beta_11 : Beta_fun 1 1 = 1.
Proof.
  destruct (Beta_exists 1 1 ltac:(lra) ltac:(lra)) as [HB HI].
  assert (H1 : is_RInt_gen (Beta_integrand 1 1) (at_right 0) (at_left 1) 1).
  { apply (is_RInt_gen_ext (fun _ => 1)).
    - apply filter_forall. intros p x _. unfold Beta_integrand. replace (1 - 1) with 0 by ring.
      unfold Rpower. rewrite !Rmult_0_l, exp_0. eqR. ring.
    - intros P [e HP]. assert (He := cond_pos e).
      assert (H2 : 0 < e / 2) by lra.
      exists (fun u => 0 < u < e / 2) (fun v => 1 - e / 2 < v < 1).
      + exists (mkposreal _ H2). intros y Hy H0. change (Rabs (y - 0) < e / 2) in Hy. rewrite Rabs_pos_eq in Hy; lra.
      + exists (mkposreal _ H2). intros y Hy H0. change (Rabs (y - 1) < e / 2) in Hy. rewrite Rabs_left in Hy; lra.
      + intros u v Hu Hv. exists (v - u). split.
        * evar_last; [apply (is_RInt_const u v 1)|]. unfold scal; simpl; unfold mult; simpl. eqR. ring.
        * apply HP. change (Rabs (v - u - 1) < e). apply Rabs_def1; lra. }
  rewrite <- (is_RInt_gen_unique _ _ HI). apply is_RInt_gen_unique, H1.
Qed.

Lemma C97_reflection_pf :
  forall bk alpha beta scale x,
    beta_dist bk ["scale"]%string (Fin x) alpha beta (Fin scale)
    = beta_dist bk ["scale"]%string (Fin (scale - x)) beta alpha (Fin scale).
Proof.
  intros. rewrite !beta_dist_cases. simpl kw_in. rewrite (beta_body_reflect alpha beta scale x). reflexivity.
Qed.

Lemma C97_uniform_pf :
  forall bk kw scale x, 0 < x < scale ->
    returns (beta_dist bk kw (Fin x) (Fin 1) (Fin 1) (Fin scale)) (1 / scale).
Proof.
  intros bk kw s x Hx. unfold returns. rewrite beta_dist_ok by lra. f_equal. rewrite beta_dist_body_in by lra.
  f_equal. unfold bpdf. rewrite Beta_11. replace (1 - 1) with 0 by ring. replace (1 + 1 - 1) with 1 by ring.
  rewrite !Rpower_O, Rpower_1 by lra. field. lra.
Qed.

Lemma C97_scaling_pf :
  forall bk kw alpha beta scale x c r,
    0 < alpha -> 0 < beta -> 0 < x < scale -> 0 < c ->
    returns (beta_dist bk kw (Fin x) (Fin alpha) (Fin beta) (Fin scale)) r ->
    returns (beta_dist bk kw (Fin (c * x)) (Fin alpha) (Fin beta) (Fin (c * scale))) (r / c).
Proof.
  intros bk kw a b s x c r Ha Hb Hx Hc. unfold returns. rewrite !beta_dist_ok by nra.
  rewrite !beta_dist_body_in by (auto; nra). intros E. injection E as <-. do 2 f_equal. unfold bpdf.
  destruct (Beta_exists a b Ha Hb) as [HB _].
  replace (c * s - c * x) with (c * (s - x)) by ring.
  rewrite <- !Rpower_mult_distr by lra.
  assert (EC : Rpower c (a + b - 1) = Rpower c (a - 1) * Rpower c (b - 1) * c).
  { rewrite <- (Rpower_1 c) at 4 by auto. rewrite <- !Rpower_plus. f_equal. ring. }
  rewrite EC. field. repeat split; try lra; try apply Rpower_neq0.
Qed.

Lemma bpdf_reflect a b s x : 0 < a -> 0 < b -> bpdf a b s x = bpdf b a s (s - x).
Proof.
  intros Ha Hb. unfold bpdf. rewrite (Beta_sym b a) by auto. replace (s - (s - x)) with x by ring.
  replace (b + a - 1) with (a + b - 1) by ring. f_equal. ring.
Qed.

Lemma bpdf_diverges a b s : 0 < a < 1 -> 0 < b -> 0 < s ->
  forall M, exists d, 0 < d /\ forall x, 0 < x < d -> M < bpdf a b s x.
Proof.
  intros Ha Hb Hs M. destruct (Beta_exists a b (proj1 Ha) Hb) as [HB _].
  set (K := Rmin (Rpower s (b - 1)) (Rpower (s / 2) (b - 1))).
  assert (HK : 0 < K) by (apply Rmin_pos; apply Rpower_pos).
  assert (HK2 : forall x, 0 < x < s / 2 -> K <= Rpower (s - x) (b - 1)).
  { intros x Hx. unfold K. destruct (Rle_dec 1 b).
    - eapply Rle_trans; [apply Rmin_r|]. destruct (Req_dec b 1) as [->|].
      + replace (1 - 1) with 0 by ring. rewrite !Rpower_O by lra. lra.
      + left. apply Rpower_strict_incr; lra.
    - eapply Rle_trans; [apply Rmin_l|]. left. apply Rpower_strict_decr; lra. }
  set (D := Beta_fun a b * Rpower s (a + b - 1)).
  assert (HD : 0 < D) by (apply Rmult_lt_0_compat; [auto|apply Rpower_pos]).
  set (M' := Rmax (M * D / K) 1). set (d := Rpower M' (/ (a - 1))).
  assert (HM : 0 < M') by (unfold M'; eapply Rlt_le_trans; [|apply Rmax_r]; lra).
  assert (Hd : 0 < d) by apply Rpower_pos.
  exists (Rmin (s / 2) d). split; [apply Rmin_pos; lra|]. intros x [Hx0 Hx].
  assert (Hx1 : x < s / 2) by (eapply Rlt_le_trans; [apply Hx|apply Rmin_l]).
  assert (Hx2 : x < d) by (eapply Rlt_le_trans; [apply Hx|apply Rmin_r]).
  assert (P : M' < Rpower x (a - 1)).
  { replace M' with (Rpower d (a - 1)).
    - apply Rpower_strict_decr; lra.
    - unfold d. rewrite Rpower_mult. replace (/ (a - 1) * (a - 1)) with 1 by (field; lra). now apply Rpower_1. }
  assert (P1 : M * D / K < Rpower x (a - 1)) by (eapply Rle_lt_trans; [|apply P]; apply Rmax_l).
  unfold bpdf. fold D. apply (Rmult_lt_reg_r D); auto. unfold Rdiv at 1. rewrite Rmult_assoc, Rinv_l, Rmult_1_r by lra.
  apply Rlt_le_trans with (Rpower x (a - 1) * K).
  - apply (Rmult_lt_compat_r K) in P1; auto. replace (M * D / K * K) with (M * D) in P1 by (field; lra). exact P1.
  - apply Rmult_le_compat_l; [left; apply Rpower_pos|]. apply HK2; lra.
Qed.

Lemma beta_edge_zero a b s : 0 < a < 1 -> 0 < b -> 0 < s ->
  beta_dist_body (Fin 0) (Fin a) (Fin b) (Fin s) = Fin MAXF.
Proof.
  intros Ha Hb Hs. unfold beta_dist_body, fbetaln. rewrite !Rltb_true by lra. simpl andb. cbv iota.
  rewrite flog_zero. autorewrite with xf. rewrite !flog_fin by lra. autorewrite with xf.
  assert (E : fmul (Fin (a - 1)) NInf = PInf).
  { simpl. unfold inf_of_sign. rewrite (Rltb_false 0 (a - 1)), (Rltb_true (a - 1) 0) by lra. reflexivity. }
  rewrite E. rewrite fge_fin, fle_fin, !Rleb_true by lra. simpl. f_equal. ring.
Qed.

Lemma C08_beta_dist_diverging_edges_pf :
  forall bk kw alpha beta scale, 0 < alpha -> 0 < beta -> 0 < scale ->
    exists f : R -> R,
      (forall x, 0 < x < scale -> returns (beta_dist bk kw (Fin x) (Fin alpha) (Fin beta) (Fin scale)) (f x)) /\
      (alpha < 1 -> filterlim f (at_right 0) (Rbar_locally p_infty) /\
                    returns (beta_dist bk kw (Fin 0) (Fin alpha) (Fin beta) (Fin scale)) MAXF) /\
      (beta < 1 -> filterlim f (at_left scale) (Rbar_locally p_infty) /\
                   returns (beta_dist bk kw (Fin scale) (Fin alpha) (Fin beta) (Fin scale)) MAXF).
Proof.
  intros bk kw a b s Ha Hb Hs. exists (bpdf a b s). repeat split.
  - intros x Hx. unfold returns. rewrite beta_dist_ok, beta_dist_body_in; auto.
  - intros P [M HM]. destruct (bpdf_diverges a b s ltac:(lra) Hb Hs M) as [d [Hd Hf]].
    exists (mkposreal d Hd). intros y Hy H0. apply HM, Hf. change (Rabs (y - 0) < d) in Hy.
    rewrite Rabs_pos_eq in Hy; lra.
  - unfold returns. rewrite beta_dist_ok, beta_edge_zero; auto.
  - intros P [M HM]. destruct (bpdf_diverges b a s ltac:(lra) Ha Hs M) as [d [Hd Hf]].
    exists (mkposreal d Hd). intros y Hy H0. apply HM. rewrite bpdf_reflect by auto. apply Hf.
    change (Rabs (y - s) < d) in Hy. rewrite Rabs_left in Hy; lra.
  - unfold returns. rewrite beta_dist_ok by auto. rewrite beta_body_reflect. replace (s - s) with 0 by ring.
    rewrite beta_edge_zero; auto.
Qed.

Lemma C08_beta_dist_unit_exponent_refuted_pf :
  forall bk kw other scale, 0 < other -> 0 < scale ->
    exists (f g : R -> R) (L : R),
      0 < L /\
      (forall x, 0 < x < scale ->
         returns (beta_dist bk kw (Fin x) (Fin 1) (Fin other) (Fin scale)) (f x) /\
         returns (beta_dist bk kw (Fin x) (Fin other) (Fin 1) (Fin scale)) (g x)) /\
      filterlim f (at_right 0) (locally L) /\
      returns (beta_dist bk kw (Fin 0) (Fin 1) (Fin other) (Fin scale)) 0 /\
      filterlim g (at_left scale) (locally L) /\
      returns (beta_dist bk kw (Fin scale) (Fin other) (Fin 1) (Fin scale)) 0.
Proof.
  intros bk kw b s Hb Hs.
  set (h := fun x => Rpower (s - x) (b - 1) / (Beta_fun 1 b * Rpower s (1 + b - 1))).
  destruct (Beta_exists 1 b ltac:(lra) Hb) as [HB _].
  assert (HD : 0 < Beta_fun 1 b * Rpower s (1 + b - 1)) by (apply Rmult_lt_0_compat; [auto|apply Rpower_pos]).
  assert (E1 : forall x, 0 < x < s -> bpdf 1 b s x = h x).
  { intros x Hx. unfold bpdf, h. replace (1 - 1) with 0 by ring. rewrite Rpower_O by lra. f_equal. ring. }
  assert (C : forall x, x < s -> continuous h x).
  { intros x Hx. unfold h. apply (ex_derive_continuous (V := R_NormedModule)).
    unfold Rpower. auto_derive. lra. }
  assert (Z : forall x, x = 0 -> beta_dist_body (Fin x) (Fin 1) (Fin b) (Fin s) = Fin 0).
  { intros x ->. unfold beta_dist_body, fbetaln. rewrite !Rltb_true by lra. simpl andb; cbv iota. autorewrite with xf.
    rewrite flog_zero. replace (1 - 1) with 0 by ring. rewrite fmul_0_NInf. simpl.
    destruct (fge _ _), (fle _ _); simpl; f_equal; ring. }
  exists h, (fun x => h (s - x)), (h 0). split; [|split; [|split; [|split; [|split]]]].
  - unfold h. apply Rdiv_lt_0_compat; [apply Rpower_pos|exact HD].
  - intros x Hx. split; unfold returns; rewrite beta_dist_ok by lra; f_equal.
    + rewrite beta_dist_body_in, E1 by lra. reflexivity.
    + rewrite beta_body_reflect, beta_dist_body_in, E1 by lra. reflexivity.
  - apply (filterlim_filter_le_1 (F := locally 0)); [|apply (C 0); lra].
    intros P [d Hd]. exists d. auto.
  - unfold returns. rewrite beta_dist_ok by lra. now rewrite Z.
  - apply (filterlim_comp _ _ _ (fun x => s - x) h _ (at_right 0)).
    + intros P [d Hd]. exists d. intros y Hy H0. apply Hd; [|lra].
      change (Rabs (y - s) < d) in Hy. change (Rabs (s - y - 0) < d). rewrite <- Rabs_Ropp.
      now replace (- (s - y - 0)) with (y - s) by ring.
    + apply (filterlim_filter_le_1 (F := locally 0)); [|apply (C 0); lra].
      intros P [d Hd]. exists d. auto.
  - unfold returns. rewrite beta_dist_ok by lra. rewrite beta_body_reflect, Z by ring. reflexivity.
Qed.

Lemma inf_of_sign_mul a b : inf_of_sign (a * b) = fmul (Fin a) (inf_of_sign b).
Proof.
  destruct (Rtotal_order b 0) as [Hb|[->|Hb]].
  - rewrite (inf_of_sign_neg b) by auto. simpl.
    destruct (Rtotal_order a 0) as [Ha|[->|Ha]].
    + rewrite inf_of_sign_pos by nra. unfold inf_of_sign. now rewrite (Rltb_false 0 a), (Rltb_true a 0) by lra.
    + rewrite Rmult_0_l. now rewrite inf_of_sign_0.
    + rewrite (inf_of_sign_neg (a * b)) by nra. unfold inf_of_sign. now rewrite (Rltb_true 0 a) by lra.
  - rewrite Rmult_0_r, inf_of_sign_0. reflexivity.
  - rewrite (inf_of_sign_pos b) by auto. simpl.
    destruct (Rtotal_order a 0) as [Ha|[->|Ha]].
    + rewrite !inf_of_sign_neg by nra. reflexivity.
    + now rewrite Rmult_0_l.
    + rewrite !inf_of_sign_pos by nra. reflexivity.
Qed.
Lemma fopp_inf a : fopp (inf_of_sign a) = inf_of_sign (- a).
Proof.
  destruct (Rtotal_order a 0) as [Ha|[->|Ha]].
  - rewrite inf_of_sign_neg, inf_of_sign_pos by lra. reflexivity.
  - rewrite Ropp_0, inf_of_sign_0. reflexivity.
  - rewrite inf_of_sign_pos, inf_of_sign_neg by lra. reflexivity.
Qed.
Lemma fmul_PInf a : fmul (Fin a) PInf = inf_of_sign a. Proof. reflexivity. Qed.
Lemma fmul_NInf a : fmul (Fin a) NInf = inf_of_sign (- a).
Proof. rewrite <- fopp_inf. reflexivity. Qed.
Lemma PInf_inf_of_sign a : fmul PInf (inf_of_sign a) = inf_of_sign a.
Proof. unfold inf_of_sign. destruct (Rltb 0 a), (Rltb a 0); reflexivity. Qed.
Lemma NInf_inf_of_sign a : fmul NInf (inf_of_sign a) = inf_of_sign (- a).
Proof. rewrite <- fopp_inf. unfold inf_of_sign. destruct (Rltb 0 a), (Rltb a 0); reflexivity. Qed.
Lemma fmul_swap3 a b c : fmul (fmul a b) c = fmul (fmul a c) b.
Proof.
  assert (F : forall x a b, x = PInf \/ x = NInf -> fmul (fmul (Fin a) (Fin b)) x = fmul (fmul (Fin a) x) (Fin b)).
  { intros x u v [->| ->]; rewrite fmul_fin, (fmul_comm _ (Fin v)).
    - rewrite !fmul_PInf, Rmult_comm. apply inf_of_sign_mul.
    - rewrite !fmul_NInf. rewrite <- inf_of_sign_mul. f_equal. ring. }
  destruct a as [a| | |], b as [b| | |], c as [c| | |]; auto;
    try (rewrite !fmul_fin; f_equal; ring); try (apply F; auto); try (symmetry; apply F; auto);
    rewrite ?(fmul_comm PInf (Fin _)), ?(fmul_comm NInf (Fin _)), ?fmul_PInf, ?fmul_NInf;
    rewrite ?(fmul_comm (inf_of_sign _) PInf), ?(fmul_comm (inf_of_sign _) NInf), ?PInf_inf_of_sign, ?NInf_inf_of_sign;
    rewrite ?(fmul_comm (inf_of_sign _) (Fin _)), <- ?inf_of_sign_mul; simpl;
    rewrite <- ?fopp_inf, ?fmul_PInf, ?fmul_NInf, <- ?fopp_inf; try reflexivity.
  all: try (f_equal; ring).
  all: rewrite ?fmul_NaN_r; auto.
  all: rewrite !fopp_inf, Ropp_involutive; reflexivity.
Qed.

Lemma C98_iid_exchange_pf :
  forall bk a_1 a_2 t_1 t_2 xi sigma mu amax alpha beta,
    iid_spin_magnitude_beta bk a_1 a_2 amax alpha beta = iid_spin_magnitude_beta bk a_2 a_1 amax alpha beta /\
    iid_spin bk a_1 a_2 t_1 t_2 xi sigma amax alpha beta = iid_spin bk a_2 a_1 t_2 t_1 xi sigma amax alpha beta /\
    iid_spin_orientation_gaussian_isotropic bk t_1 t_2 xi sigma mu
      = iid_spin_orientation_gaussian_isotropic bk t_2 t_1 xi sigma mu.
Proof.
  assert (M : forall bk a_1 a_2 amax alpha beta,
    iid_spin_magnitude_beta bk a_1 a_2 amax alpha beta = iid_spin_magnitude_beta bk a_2 a_1 amax alpha beta).
  { intros. unfold iid_spin_magnitude_beta, independent_spin_magnitude_beta. rewrite !beta_dist_cases.
    simpl kw_in. destruct (is_jax bk); cbn [bind andb]; [now rewrite fmul_comm|].
    destruct (fgt amax (Fin 0)); cbn [bind andb negb]; auto. now rewrite fmul_comm. }
  assert (O : forall bk t_1 t_2 xi sigma mu,
    iid_spin_orientation_gaussian_isotropic bk t_1 t_2 xi sigma mu
      = iid_spin_orientation_gaussian_isotropic bk t_2 t_1 xi sigma mu).
  { intros. unfold iid_spin_orientation_gaussian_isotropic, independent_spin_orientation_gaussian_isotropic.
    rewrite !truncnorm_cases. simpl kw_in. destruct (is_jax bk); cbn [bind andb]; now rewrite fmul_swap3. }
  intros. split; [apply M|]. split; [|apply O]. unfold iid_spin. now rewrite O, M.
Qed.

Lemma C98_independent_exchange_pf :
  forall bk a_1 a_2 t_1 t_2 xi s_1 s_2 mu_1 mu_2 al_1 al_2 be_1 be_2 max_1 max_2,
    independent_spin_magnitude_beta bk a_1 a_2 al_1 al_2 be_1 be_2 max_1 max_2
      = independent_spin_magnitude_beta bk a_2 a_1 al_2 al_1 be_2 be_1 max_2 max_1 /\
    independent_spin_orientation_gaussian_isotropic bk t_1 t_2 xi s_1 s_2 mu_1 mu_2
      = independent_spin_orientation_gaussian_isotropic bk t_2 t_1 xi s_2 s_1 mu_2 mu_1.
Proof.
  intros. split.
  - unfold independent_spin_magnitude_beta. rewrite !beta_dist_cases. simpl kw_in.
    destruct (is_jax bk); cbn [bind andb]; [now rewrite fmul_comm|].
    destruct (fgt max_1 (Fin 0)), (fgt max_2 (Fin 0)); cbn [bind andb negb]; auto. now rewrite fmul_comm.
  - unfold independent_spin_orientation_gaussian_isotropic. rewrite !truncnorm_cases. simpl kw_in.
    destruct (is_jax bk); cbn [bind andb]; now rewrite fmul_swap3.
Qed.

Lemma C98_isotropic_pf :
  forall bk t_1 t_2 s_1 s_2 mu_1 mu_2,
    returns (independent_spin_orientation_gaussian_isotropic bk (Fin t_1) (Fin t_2) (Fin 0) s_1 s_2 mu_1 mu_2) (1 / 4).
Proof.
  intros. unfold returns, independent_spin_orientation_gaussian_isotropic. rewrite !truncnorm_cases. simpl kw_in.
  destruct (truncnorm_body_nonneg mu_1 s_1 (Fin 1) (Fin (-1)) t_1) as [r [E _]].
  destruct (truncnorm_body_nonneg mu_2 s_2 (Fin 1) (Fin (-1)) t_2) as [q [F _]]. rewrite E, F.
  destruct (is_jax bk); cbn [bind andb]; rewrite fsub_fin, fdiv_fin, !fmul_fin, fadd_fin by lra; do 2 f_equal; field.
Qed.

