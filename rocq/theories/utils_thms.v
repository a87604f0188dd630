(** Proofs of the property theorems stated in [Props_utils]. *)
From Coq Require Import Reals Lra Lia Psatz String Bool ZArith.
From Coquelicot Require Import Coquelicot.
From Coq Require Import List.
From Verif Require Import Xf Py Xf_facts Py_facts Calc Special Gauss_facts Spec SpecU Utils_model
  Powerlaw_facts Truncnorm_facts Beta_facts Trap_facts Utils_facts.
Import ListNotations.
Local Open Scope R_scope.

Lemma C01_powerlaw_density_pf :
  forall bk kw alpha high low,
    0 < low < high -> (bk = Jax \/ ~ In "alpha"%string kw \/ alpha <> 1) ->
    let f := fun x => powerlaw bk kw (Fin x) (Fin alpha) (Fin high) (Fin low) in
    positive_on f low high /\ integrates_to f low high 1 /\
    zero_outside f (fun x => 0 < x) low high.
Proof. intros; apply powerlaw_density; auto. Qed.

Lemma C01_powerlaw_shape_pf :
  forall bk kw alpha high low x y,
    0 < low < high -> (bk = Jax \/ ~ In "alpha"%string kw \/ alpha <> 1) ->
    low <= x <= high -> low <= y <= high ->
    exists px py,
      returns (powerlaw bk kw (Fin x) (Fin alpha) (Fin high) (Fin low)) px /\
      returns (powerlaw bk kw (Fin y) (Fin alpha) (Fin high) (Fin low)) py /\
      px * Rpower y alpha = py * Rpower x alpha.
Proof.
  intros bk kw alpha high low x y Hlh Hok Hx Hy.
  exists (plpdf alpha high low x), (plpdf alpha high low y). repeat split.
  - red. rewrite powerlaw_ok, powerlaw_body_in; auto; lra.
  - red. rewrite powerlaw_ok, powerlaw_body_in; auto; lra.
  - unfold plpdf; ring.
Qed.

Lemma C02_powerlaw_limit_pf :
  forall bk kw high low x,
    0 < low < high -> low <= x <= high ->
    exists g : R -> R,
      (forall alpha, alpha <> 1 ->
         returns (powerlaw bk kw (Fin x) (Fin alpha) (Fin high) (Fin low)) (g alpha)) /\
      is_lim g (-1) (g (-1)).
Proof.
  intros bk kw high low x Hlh Hx. exists (fun a => plpdf a high low x). split.
  - intros a Ha. red. rewrite powerlaw_ok, powerlaw_body_in; auto; [lra|right; right; auto].
  - apply plpdf_lim; lra.
Qed.

Lemma C03_powerlaw_outside_partial_pf :
  forall bk kw alpha high low x,
    0 < low < high -> (bk = Jax \/ ~ In "alpha"%string kw \/ alpha <> 1) ->
    (x < low \/ high < x) ->
    let good := 0 < x \/ (x = 0 /\ 0 <= alpha) \/ (x < 0 /\ exists z, alpha = IZR z) in
    (good -> returns (powerlaw bk kw (Fin x) (Fin alpha) (Fin high) (Fin low)) 0) /\
    (~ good -> powerlaw bk kw (Fin x) (Fin alpha) (Fin high) (Fin low) = Ok NaN).
Proof.
  intros bk kw alpha high low x Hlh Hok Ho good. unfold good, returns. clear good.
  rewrite powerlaw_ok by (auto; lra). split.
  - intros [H|[[-> H]|[H [z ->]]]]; f_equal.
    + now apply powerlaw_body_out.
    + now apply powerlaw_body_zero_nonneg.
    + now apply powerlaw_body_neg_int.
  - intros N. f_equal. destruct (Rtotal_order x 0) as [H|[H|H]].
    + apply powerlaw_body_neg_nonint; auto. intros z Hz. apply N. right; right; eauto.
    + subst x. apply powerlaw_body_zero_neg; auto. apply Rnot_le_lt. intros Ha. apply N; auto.
    + exfalso; apply N; auto.
Qed.

Lemma C03_powerlaw_outside_refuted_pf :
  exists alpha high low x, 0 < low < high /\ x < low /\
    powerlaw Numpy [] (Fin x) (Fin alpha) (Fin high) (Fin low) = Ok NaN.
Proof.
  exists (-2), 80, 5, 0. repeat split; try lra.
  rewrite powerlaw_ok by (try lra; right; left; auto). f_equal.
  apply powerlaw_body_zero_neg; lra.
Qed.

Lemma C04_truncnorm_density_pf :
  forall bk kw mu sigma high low,
    0 < sigma -> low < high ->
    let f := fun x => truncnorm bk kw (Fin x) (Fin mu) (Fin sigma) (Fin high) (Fin low) in
    positive_on f low high /\ integrates_to f low high 1 /\
    zero_outside f (fun _ => True) low high.
Proof. intros; now apply truncnorm_density. Qed.

Lemma C04_truncnorm_formula_pf :
  forall bk kw mu sigma high low x,
    0 < sigma -> low <= x <= high -> low < high ->
    let normal := fun t => exp (- ((t - mu) * (t - mu)) / (2 * (sigma * sigma))) / (sigma * sqrt (2 * PI)) in
    exists mass, is_RInt normal low high mass /\ 0 < mass /\
      returns (truncnorm bk kw (Fin x) (Fin mu) (Fin sigma) (Fin high) (Fin low)) (normal x / mass).
Proof.
  intros bk kw mu sigma high low x Hs Hx Hlh normal.
  exists (Zab ((low - mu) / sigma) ((high - mu) / sigma)).
  assert (Hz := Zab_pos ((low - mu) / sigma) ((high - mu) / sigma) ltac:(apply div_lt; lra)).
  assert (S := s2pi_pos).
  assert (N : forall t, normal t = tnpdf mu sigma high low t * Zab ((low - mu) / sigma) ((high - mu) / sigma)).
  { intros t. unfold normal, tnpdf, gauss.
    replace (- ((t - mu) / sigma * ((t - mu) / sigma)) / 2)
      with (- ((t - mu) * (t - mu)) / (2 * (sigma * sigma))) by (field; lra).
    field. repeat split; lra. }
  repeat split; auto.
  - apply (is_RInt_ext (fun t => tnpdf mu sigma high low t * Zab ((low - mu) / sigma) ((high - mu) / sigma))).
    { intros t _. symmetry; apply N. }
    evar_last. apply is_RInt_scal_r. now apply tnpdf_int. eqR; ring.
  - red. rewrite truncnorm_ok, truncnorm_body_in by auto. f_equal. f_equal.
    rewrite N. field. lra.
Qed.

Lemma C05_truncnorm_finite_pf :
  forall bk kw x mu sigma high low, 0 < sigma ->
    exists r, returns (truncnorm bk kw (Fin x) (Fin mu) (Fin sigma) (Fin high) (Fin low)) r /\
      0 <= r /\ (high < low -> r = 0).
Proof.
  intros bk kw x mu sigma high low Hs.
  unfold returns. rewrite truncnorm_ok by auto.
  destruct (truncnorm_body_nonneg (Fin mu) (Fin sigma) (Fin high) (Fin low) x) as [r [E Hr]].
  exists r. rewrite E. repeat split; auto.
  intros H. rewrite truncnorm_body_out in E; [injection E; auto|].
  destruct (Rlt_dec x low); [auto|right; lra].
Qed.

Lemma C06_truncnorm_shift_pf :
  forall bk kw c x mu sigma high low,
    truncnorm bk kw (Fin (x + c)) (Fin (mu + c)) (Fin sigma) (Fin (high + c)) (Fin (low + c))
    = truncnorm bk kw (Fin x) (Fin mu) (Fin sigma) (Fin high) (Fin low).
Proof. intros; apply truncnorm_shift. Qed.

Lemma C06_truncnorm_scale_pf :
  forall bk kw s x mu sigma high low r, 0 < s -> 0 < sigma -> low < high ->
    returns (truncnorm bk kw (Fin x) (Fin mu) (Fin sigma) (Fin high) (Fin low)) r ->
    returns (truncnorm bk kw (Fin (s * x)) (Fin (s * mu)) (Fin (s * sigma)) (Fin (s * high)) (Fin (s * low))) (r / s).
Proof.
  unfold returns. intros bk kw s x mu sigma high low r Hs Hsg Hlh.
  assert (0 < s * sigma) by nra. assert (s * low < s * high) by nra.
  rewrite !truncnorm_ok, !truncnorm_body_val by auto. intros E; injection E as <-.
  f_equal. f_equal. unfold tnval. rewrite tnpdf_scale by auto.
  destruct (Rleb_spec low x), (Rleb_spec (s * low) (s * x)); try (exfalso; nra);
  destruct (Rleb_spec x high), (Rleb_spec (s * x) (s * high)); try (exfalso; nra); simpl; auto; field; lra.
Qed.

Lemma C06_truncnorm_reflect_pf :
  forall bk kw x mu sigma high low, 0 < sigma -> low < high ->
    truncnorm bk kw (Fin (- x)) (Fin (- mu)) (Fin sigma) (Fin (- low)) (Fin (- high))
    = truncnorm bk kw (Fin x) (Fin mu) (Fin sigma) (Fin high) (Fin low).
Proof.
  intros bk kw x mu sigma high low Hs Hlh.
  rewrite !truncnorm_ok, !truncnorm_body_val by (auto; lra).
  f_equal. f_equal. unfold tnval. rewrite tnpdf_reflect by auto.
  destruct (Rleb_spec low x), (Rleb_spec (- x) (- low)); try (exfalso; lra);
  destruct (Rleb_spec x high), (Rleb_spec (- high) (- x)); try (exfalso; lra); simpl; auto.
Qed.

Lemma C07_beta_dist_density_pf :
  forall bk kw alpha beta scale, 0 < alpha -> 0 < beta -> 0 < scale ->
    let f := fun x => beta_dist bk kw (Fin x) (Fin alpha) (Fin beta) (Fin scale) in
    (exists B, 0 < B /\
       is_RInt_gen (fun t => Rpower t (alpha - 1) * Rpower (1 - t) (beta - 1)) (at_right 0) (at_left 1) B /\
       forall x, 0 < x < scale ->
         returns (f x) (Rpower x (alpha - 1) * Rpower (scale - x) (beta - 1)
                        / (B * Rpower scale (alpha + beta - 1)))) /\
    integrates_to_open f 0 scale 1 /\
    zero_outside f (fun _ => True) 0 scale.
Proof.
  intros bk kw alpha beta scale Ha Hb Hs f. subst f; cbv beta. repeat split.
  - destruct (Beta_exists alpha beta Ha Hb) as [HB HI].
    exists (Beta_fun alpha beta). repeat split; auto.
    intros x Hx. red. rewrite beta_dist_ok, beta_dist_body_in; auto.
  - exists (bpdf alpha beta scale). split; [|now apply bpdf_int].
    intros x Hx. red. rewrite beta_dist_ok, beta_dist_body_in; auto.
  - intros x _ Ho. red. rewrite beta_dist_ok, beta_dist_body_out; auto.
Qed.

Lemma C08_beta_dist_edges_partial_pf :
  forall bk kw alpha beta scale x, 0 < alpha -> 0 < beta -> 0 < scale ->
    (exists r, returns (beta_dist bk kw (Fin x) (Fin alpha) (Fin beta) (Fin scale)) r /\ 0 <= r) /\
    (1 < alpha -> returns (beta_dist bk kw (Fin 0) (Fin alpha) (Fin beta) (Fin scale)) 0) /\
    (1 < beta -> returns (beta_dist bk kw (Fin scale) (Fin alpha) (Fin beta) (Fin scale)) 0).
Proof.
  intros bk kw alpha beta scale x Ha Hb Hs. unfold returns. rewrite !beta_dist_ok by auto.
  destruct (Beta_exists alpha beta Ha Hb) as [HB _].
  repeat split.
  - destruct (beta_dist_body_nonneg (Fin alpha) (Fin beta) (Fin scale) x) as [r [-> Hr]]. eauto.
  - intros H1. f_equal. unfold beta_dist_body, fbetaln. rewrite !Rltb_true by auto. simpl andb; cbv iota.
    autorewrite with xf. rewrite flog_zero, !flog_fin by lra. autorewrite with xf.
    rewrite fmul_pos_NInf by lra. simpl. destruct (fge _ _), (fle _ _); simpl; f_equal; ring.
  - intros H1. f_equal. unfold beta_dist_body, fbetaln. rewrite !Rltb_true by auto. simpl andb; cbv iota.
    autorewrite with xf. replace (scale - scale) with 0 by ring. rewrite flog_zero, !flog_fin by lra.
    autorewrite with xf.
    rewrite fmul_pos_NInf by lra. simpl. destruct (fge _ _), (fle _ _); simpl; f_equal; ring.
Qed.

Lemma C08_beta_dist_edges_refuted_pf :
  exists alpha beta scale,
    0 < alpha /\ 0 < beta /\ 0 < scale /\
    returns (beta_dist Numpy [] (Fin 0) (Fin alpha) (Fin beta) (Fin scale)) 0 /\
    returns (beta_dist Numpy [] (Fin scale) (Fin alpha) (Fin beta) (Fin scale)) 0 /\
    exists c, 0 < c /\
      forall x, 0 < x < scale -> returns (beta_dist Numpy [] (Fin x) (Fin alpha) (Fin beta) (Fin scale)) c.
Proof.
  exists 1, 1, 1. destruct (Beta_exists 1 1 ltac:(lra) ltac:(lra)) as [HB _].
  repeat split; try lra.
  - red. rewrite beta_dist_ok by lra. f_equal. unfold beta_dist_body, fbetaln.
    rewrite !Rltb_true by lra. simpl andb; cbv iota. autorewrite with xf.
    rewrite flog_zero. replace (1 - 1) with 0 by ring. rewrite fmul_0_NInf. simpl.
    destruct (fge _ _), (fle _ _); simpl; f_equal; ring.
  - red. rewrite beta_dist_ok by lra. f_equal. unfold beta_dist_body, fbetaln.
    rewrite !Rltb_true by lra. simpl andb; cbv iota. autorewrite with xf.
    replace (1 - 1) with 0 by ring. rewrite flog_zero, flog_fin, fmul_0_NInf, fadd_NaN_r by lra. simpl.
    destruct (fge _ _), (fle _ _); simpl; f_equal; ring.
  - exists (/ Beta_fun 1 1). split; [now apply Rinv_0_lt_compat|].
    intros x Hx. red. rewrite beta_dist_ok, beta_dist_body_in by lra. f_equal. f_equal.
    unfold bpdf. replace (1 - 1) with 0 by ring. rewrite !Rpower_O by lra.
    unfold Rpower. rewrite ln_1, Rmult_0_r, exp_0. field. lra.
Qed.

Lemma C09_von_mises_density_pf :
  forall mu kappa, 0 <= kappa ->
    let f := fun x => Ok (von_mises (Fin x) (Fin mu) (Fin kappa)) in
    (forall a, integrates_to f a (a + 2 * PI) 1) /\
    (forall x, exists r, returns (f x) r /\ 0 < r) /\
    (forall x, f (x + 2 * PI) = f x) /\
    (forall d, f (mu - d) = f (mu + d)) /\
    (forall x r m, returns (f x) r -> returns (f mu) m -> r <= m).
Proof.
  intros mu k Hk f. unfold f, returns. repeat split.
  - intros a. exists (vmpdf mu k). split.
    + intros x _. red. now rewrite von_mises_val.
    + evar_last. apply vmpdf_int. rewrite Rabs_pos_eq by auto. eqR. field.
      apply Rgt_not_eq, exp_pos.
  - intros x. rewrite von_mises_val. eexists; split; [reflexivity|]. apply vmpdf_pos.
  - intros x. rewrite !von_mises_val, vmpdf_periodic. auto.
  - intros d. rewrite !von_mises_val, vmpdf_sym. auto.
  - intros x r m. rewrite !von_mises_val. intros E1 E2. injection E1 as <-; injection E2 as <-.
    now apply vmpdf_max.
Qed.

Lemma C09_von_mises_negative_kappa_refuted_pf :
  forall mu kappa a, kappa < 0 ->
    integrates_to (fun x => Ok (von_mises (Fin x) (Fin mu) (Fin kappa))) a (a + 2 * PI) (exp (-2 * kappa)) /\
    1 < exp (-2 * kappa).
Proof.
  intros mu k a Hk. split.
  - exists (vmpdf mu k). split.
    + intros x _. red. now rewrite von_mises_val.
    + evar_last. apply vmpdf_int. rewrite Rabs_left by auto. eqR.
      unfold Rdiv. rewrite <- exp_Ropp, <- exp_plus. f_equal. ring.
  - rewrite <- exp_0. apply exp_increasing. lra.
Qed.

Lemma C10_2d_gaussian_power_partial_pf :
  forall x y mu_x mu_y sx sy rho p q s,
    0 < sx -> 0 < sy -> -1 < rho < 1 ->
    inverse2 (sx * sx) (rho * sx * sy) (sy * sy) p q s ->
    let dx := x - mu_x in let dy := y - mu_y in
    let documented := exp (- (p * dx * dx + 2 * q * dx * dy + s * dy * dy) / 2) in
    unnormalized_2d_gaussian (Fin x) (Fin y) (Fin mu_x) (Fin mu_y) (Fin sx) (Fin sy) (Fin rho)
      = Fin (Rpower documented (1 + rho)).
Proof.
  intros x y mx my sx sy rho p q s Hx Hy Hr [E1 [E2 [E3 E4]]] dx dy documented.
  rewrite g2_val by lra. f_equal. unfold documented, Rpower. rewrite ln_exp. f_equal.
  assert (D : 0 < 1 - rho * rho) by nra.
  assert (S1 : 0 < sx * sx) by nra. assert (S2 : 0 < sy * sy) by nra.
  assert (Q : sy * q = - rho * sx * p) by (apply (Rmult_eq_reg_l sy); lra).
  assert (Hp : p = / (sx * sx * (1 - rho * rho))).
  { apply (Rmult_eq_reg_l (sx * sx * (1 - rho * rho))).
    2:{ apply Rmult_integral_contrapositive; split; lra. }
    rewrite Rinv_r.
    2:{ apply Rmult_integral_contrapositive; split; lra. }
    replace (rho * sx * sy * q) with (rho * sx * (sy * q)) in E1 by ring. rewrite Q in E1. lra. }
  assert (Hq : q = - rho / (sx * sy * (1 - rho * rho))).
  { apply (Rmult_eq_reg_l sy); [|lra]. rewrite Q, Hp. field. repeat split; lra. }
  assert (Hs : s = / (sy * sy * (1 - rho * rho))).
  { apply (Rmult_eq_reg_l (sy * sy)); [|lra].
    transitivity (1 - rho * sx * sy * q); [lra|]. rewrite Hq. field. repeat split; lra. }
  rewrite Hp, Hq, Hs. unfold g2exponent, dx, dy.
  replace (1 - rho * rho) with ((1 - rho) * (1 + rho)) by ring.
  field. repeat split; lra.
Qed.

Lemma C10_2d_gaussian_rho0_partial_pf :
  forall x y mu_x mu_y sx sy, 0 < sx -> 0 < sy ->
    unnormalized_2d_gaussian (Fin x) (Fin y) (Fin mu_x) (Fin mu_y) (Fin sx) (Fin sy) (Fin 0)
    = Fin (exp (- ((x - mu_x) / sx) ^ 2 / 2) * exp (- ((y - mu_y) / sy) ^ 2 / 2)).
Proof.
  intros. rewrite g2_val by lra. f_equal. rewrite <- exp_plus. f_equal. unfold g2exponent. field. lra.
Qed.

Lemma C10_2d_gaussian_refuted_pf :
  exists rho p q s, -1 < rho < 1 /\ inverse2 1 rho 1 p q s /\
    unnormalized_2d_gaussian (Fin 1) (Fin 0) (Fin 0) (Fin 0) (Fin 1) (Fin 1) (Fin rho) = Fin (exp (-1)) /\
    exp (-1) <> exp (- p / 2).
Proof.
  exists (1/2), (4/3), (-2/3), (4/3). repeat split; try lra.
  - rewrite g2_val by lra. f_equal. f_equal. unfold g2exponent. field.
  - intros E. apply exp_inv in E. lra.
Qed.

Lemma C11_2d_gaussian_shape_pf :
  forall x y mu_x mu_y sx sy rho, 0 < sx -> 0 < sy -> -1 < rho < 1 ->
    let g x y := unnormalized_2d_gaussian (Fin x) (Fin y) (Fin mu_x) (Fin mu_y) (Fin sx) (Fin sy) (Fin rho) in
    (exists r, g x y = Fin r /\ 0 < r <= 1 /\ (r = 1 <-> x = mu_x /\ y = mu_y)) /\
    g (2 * mu_x - x) (2 * mu_y - y) = g x y /\
    unnormalized_2d_gaussian (Fin y) (Fin x) (Fin mu_y) (Fin mu_x) (Fin sy) (Fin sx) (Fin rho) = g x y.
Proof.
  intros x y mx my sx sy rho Hx Hy Hr g. unfold g. rewrite !g2_val by lra. unfold g2exponent.
  set (u := (x - mx) / sx). set (v := (y - my) / sy).
  destruct (quad_form u v rho Hr) as [Q QZ].
  assert (D : 0 < 1 - rho) by lra.
  split; [|split].
  - eexists; split; [reflexivity|]. split; [split; [apply exp_pos|]|].
    + apply Rle_trans with (exp 0); [|rewrite exp_0; lra]. apply exp_le_.
      replace (- (u ^ 2 + v ^ 2 - 2 * rho * u * v) / 2 / (1 - rho))
        with (- ((u ^ 2 + v ^ 2 - 2 * rho * u * v) / (2 * (1 - rho)))) by (field; lra).
      rewrite <- Ropp_0. apply Ropp_le_contravar.
      apply Rmult_le_pos; [exact Q|]. left; apply Rinv_0_lt_compat; lra.
    + split.
      * intros E. assert (E' : exp (- (u ^ 2 + v ^ 2 - 2 * rho * u * v) / 2 / (1 - rho)) = exp 0) by (rewrite exp_0; exact E).
        apply exp_inv in E'. clear E. rename E' into E.
        assert (Z : u ^ 2 + v ^ 2 - 2 * rho * u * v = 0).
        { apply (Rmult_eq_reg_r (- / (2 * (1 - rho)))).
          - rewrite Rmult_0_l, <- E. field. lra.
          - apply Ropp_neq_0_compat, Rinv_neq_0_compat. lra. }
        destruct (QZ Z) as [Hu Hv]. unfold u, v in *.
        split.
        -- apply (Rmult_eq_compat_r sx) in Hu. unfold Rdiv in Hu. rewrite Rmult_assoc, Rinv_l in Hu; lra.
        -- apply (Rmult_eq_compat_r sy) in Hv. unfold Rdiv in Hv. rewrite Rmult_assoc, Rinv_l in Hv; lra.
      * intros [-> ->]. transitivity (exp 0); [|apply exp_0]. f_equal. unfold u, v. field. lra.
  - f_equal. f_equal. unfold u, v. field. lra.
  - f_equal. f_equal. unfold u, v. field. lra.
Qed.

Lemma C12_apply_conditions_pf :
  forall A bk conds kwargs (func : result A),
    (bk = Jax -> apply_conditions bk conds kwargs func = func) /\
    (bk <> Jax -> (exists key c value, In (key, c) conds /\ dget key kwargs = Some value /\ violates c value) ->
       apply_conditions bk conds kwargs func = Err ValueError) /\
    (bk <> Jax -> ~ (exists key c value, In (key, c) conds /\ dget key kwargs = Some value /\ violates c value) ->
       apply_conditions bk conds kwargs func = func).
Proof.
  intros A bk conds kwargs func. unfold apply_conditions. repeat split.
  - intros ->. reflexivity.
  - intros H E. destruct bk; try congruence; simpl;
    (destruct (check_conditions_spec conds kwargs) as [[-> N]|[-> _]]; auto;
     destruct E as [k [c [v [H1 [H2 H3]]]]]; exfalso; eapply N; eauto).
  - intros H E. destruct bk; try congruence; simpl;
    (destruct (check_conditions_spec conds kwargs) as [[-> N]|[-> [k [c [v [H1 [H2 H3]]]]]]]; auto;
     exfalso; apply E; eauto 10).
Qed.

Lemma C12_nan_and_positional_pf :
  (forall val, violates (COp (Some fgt) val) [NaN] /\ violates (COp (Some fge) val) [NaN]) /\
  (forall bk x a b c, exists v, beta_dist bk [] x a b c = Ok v) /\
  (forall bk x a b c, exists v, powerlaw bk [] x a b c = Ok v) /\
  (forall bk x a b c d, exists v, truncnorm bk [] x a b c d = Ok v).
Proof.
  split; [|split; [|split]].
  - intros val; split; exists NaN; split; simpl; auto; destruct val; reflexivity.
  - intros. rewrite beta_dist_cases. simpl. destruct (is_jax bk); eauto.
  - intros. rewrite powerlaw_cases. simpl. destruct (is_jax bk); eauto.
  - intros. rewrite truncnorm_cases. simpl. destruct (is_jax bk); eauto.
Qed.

Lemma C13_trapezoid_linear_pf :
  forall c d y z x, List.length y = List.length x -> List.length z = List.length x ->
    exists ry rz,
      trapezoid (map Fin y) (map Fin x) = Fin ry /\ trapezoid (map Fin z) (map Fin x) = Fin rz /\
      trapezoid (map Fin (lin c d y z)) (map Fin x) = Fin (c * ry + d * rz).
Proof.
  intros c d y z x Hy Hz. exists (Rtrap y x), (Rtrap z x). rewrite !trapezoid_fin, Rtrap_linear; auto.
Qed.

Lemma C13_trapezoid_affine_pf :
  forall a b x0 x,
    trapezoid (map (fun t => Fin (a * t + b)) (x0 :: x)) (map Fin (x0 :: x))
    = Fin (RInt (fun t => a * t + b) x0 (last x x0)).
Proof.
  intros a b x0 x. rewrite <- (map_map (fun t => a * t + b) Fin), trapezoid_fin, Rtrap_affine. f_equal.
  symmetry. apply is_RInt_unique.
  apply (is_RInt_FTC (fun t => a * t ^ 2 / 2 + b * t)).
  - intros t _. auto_derive; auto. field.
  - intros t _. apply (ex_derive_continuous (fun t => a * t + b)). auto_derive; auto.
Qed.

Lemma C13_trapezoid_concat_pf :
  forall y1 ym y2 x1 xm x2, List.length y1 = List.length x1 ->
    trapezoid (map Fin (y1 ++ ym :: y2)) (map Fin (x1 ++ xm :: x2)) =
    fadd (trapezoid (map Fin (y1 ++ [ym])) (map Fin (x1 ++ [xm])))
         (trapezoid (map Fin (ym :: y2)) (map Fin (xm :: x2))).
Proof. intros. rewrite !trapezoid_fin, Rtrap_concat by auto. reflexivity. Qed.

Lemma C13_trapezoid_reverse_pf :
  forall y x, List.length y = List.length x ->
    trapezoid (map Fin (rev y)) (map Fin (rev x)) = fopp (trapezoid (map Fin y) (map Fin x)).
Proof. intros. rewrite !trapezoid_fin, Rtrap_rev by auto. reflexivity. Qed.

Lemma C13_trapezoid_monotone_pf :
  forall y z x, List.length y = List.length x -> increasing x -> Forall2 Rle y z ->
    exists ry rz, trapezoid (map Fin y) (map Fin x) = Fin ry /\
                  trapezoid (map Fin z) (map Fin x) = Fin rz /\ ry <= rz.
Proof.
  intros y z x E Hx H. exists (Rtrap y x), (Rtrap z x). rewrite !trapezoid_fin. repeat split.
  now apply Rtrap_monotone.
Qed.

Lemma C13_trapezoid_interpolant_pf :
  forall p y x0 x, List.length y = List.length (x0 :: x) -> strictly_increasing (x0 :: x) ->
    interpolates_linearly p y (x0 :: x) ->
    exists r, trapezoid (map Fin y) (map Fin (x0 :: x)) = Fin r /\ is_RInt p x0 (last x x0) r.
Proof.
  intros p y x0 x E Hx Hp. exists (Rtrap y (x0 :: x)). rewrite trapezoid_fin. split; auto.
  now apply Rtrap_interpolant.
Qed.

