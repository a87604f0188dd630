(** The Gaussian integral and properties of [Phi]. *)
From Coq Require Import Reals Lra Lia Psatz.
From Coquelicot Require Import Coquelicot.
From Verif Require Import Xf Calc Special.
Local Open Scope R_scope.

Lemma exp_le_ x y : x <= y -> exp x <= exp y.
Proof. intros [H| ->]; [left; now apply exp_increasing|right; auto]. Qed.

Definition eg (t : R) : R := exp (- (t * t) / 2).
Definition Gi (x : R) : R := RInt eg 0 x.
Definition hk (x t : R) : R := 2 * exp (- (x * x) * (1 + t * t) / 2) / (1 + t * t).
Definition Hi (x : R) : R := RInt (fun t => hk x t) 0 1.

Lemma cont_of_deriv (f : R -> R) x : ex_derive f x -> continuous f x.
Proof. apply (ex_derive_continuous f). Qed.

Lemma eg_cont x : continuous eg x.
Proof. apply cont_of_deriv. unfold eg. auto_derive; auto. Qed.
Lemma eg_pos x : 0 < eg x. Proof. apply exp_pos. Qed.

Lemma ex_RInt_cont (f : R -> R) a b : (forall x, continuous f x) -> ex_RInt f a b.
Proof. intros H. apply (ex_RInt_continuous f). auto. Qed.

Lemma Gi_derive x : is_derive Gi x (eg x).
Proof.
  apply (is_derive_RInt eg Gi 0 x).
  - exists (mkposreal 1 Rlt_0_1). intros y _. apply (RInt_correct eg 0 y), ex_RInt_cont, eg_cont.
  - apply eg_cont.
Qed.

Lemma sq1_pos t : 0 < 1 + t * t. Proof. nra. Qed.

Lemma hk_deriv x t : is_derive (fun u => hk u t) x (-2 * x * exp (- (x * x) * (1 + t * t) / 2)).
Proof.
  assert (H := sq1_pos t).
  unfold hk, Rdiv. auto_derive; [lra|]. field. lra.
Qed.

Lemma hk_cont x t : continuous (fun t => hk x t) t.
Proof. apply cont_of_deriv. unfold hk. auto_derive. assert (H := sq1_pos t). lra. Qed.

Lemma hk_cont2 x t : continuity_2d_pt (fun u v => Derive (fun z => hk z v) u) x t.
Proof.
  apply (continuity_2d_pt_ext (fun u v => -2 * u * exp (- (u * u) * (1 + v * v) / 2))).
  { intros u v. symmetry. apply is_derive_unique, hk_deriv. }
  apply continuity_2d_pt_mult.
  - apply continuity_2d_pt_mult; [apply continuity_2d_pt_const|apply continuity_2d_pt_id1].
  - apply (continuity_1d_2d_pt_comp exp (fun u v => - (u * u) * (1 + v * v) / 2)).
    + apply derivable_continuous_pt, derivable_pt_exp.
    + apply (continuity_2d_pt_ext (fun u v => (- (u * u) * (1 + v * v)) * / 2)); [intros; reflexivity|].
      apply continuity_2d_pt_mult; [|apply continuity_2d_pt_const].
      apply continuity_2d_pt_mult.
      * apply continuity_2d_pt_opp. apply continuity_2d_pt_mult; apply continuity_2d_pt_id1.
      * apply continuity_2d_pt_plus; [apply continuity_2d_pt_const|].
        apply continuity_2d_pt_mult; apply continuity_2d_pt_id2.
Qed.

Lemma Hi_derive x : is_derive Hi x (RInt (fun t => Derive (fun u => hk u t) x) 0 1).
Proof.
  apply (is_derive_RInt_param hk 0 1 x).
  - exists (mkposreal 1 Rlt_0_1). intros y _ t _. eexists; apply hk_deriv.
  - intros t _. apply hk_cont2.
  - exists (mkposreal 1 Rlt_0_1). intros y _. apply ex_RInt_cont. intros; apply hk_cont.
Qed.

Lemma Gi_scaled x : is_RInt (fun t => x * eg (x * t)) 0 1 (Gi x).
Proof.
  apply (is_RInt_ext (fun t => scal x (eg (x * t + 0)))).
  - intros; unfold scal; simpl; unfold mult; simpl. now rewrite Rplus_0_r.
  - apply (is_RInt_comp_lin eg x 0 0 1).
    rewrite Rmult_0_r, Rplus_0_l, Rmult_1_r, Rplus_0_r.
    apply (RInt_correct eg 0 x), ex_RInt_cont, eg_cont.
Qed.

Lemma Hi_derive' x : is_derive Hi x (- 2 * eg x * Gi x).
Proof.
  evar_last. apply Hi_derive.
  apply is_RInt_unique.
  apply (is_RInt_ext (fun t => scal (-2 * eg x) (x * eg (x * t)))).
  - intros t _. transitivity (-2 * x * exp (- (x * x) * (1 + t * t) / 2));
      [|symmetry; apply is_derive_unique, hk_deriv].
    unfold scal; simpl; unfold mult; simpl. unfold eg.
    replace (- (x * x) * (1 + t * t) / 2) with (- (x * x) / 2 + - (x * t * (x * t)) / 2) by field.
    rewrite exp_plus. ring.
  - apply @is_RInt_scal. apply Gi_scaled.
Qed.

Lemma gauss_identity x : Gi x * Gi x + Hi x = PI / 2.
Proof.
  assert (D : forall y, is_derive (fun x => Gi x * Gi x + Hi x) y 0).
  { intros y. evar_last.
    apply @is_derive_plus; [|apply Hi_derive'].
    apply (is_derive_mult Gi Gi y (eg y) (eg y)); [apply Gi_derive|apply Gi_derive|].
    intros; unfold mult; simpl; ring.
    unfold plus, mult; simpl. ring. }
  assert (C : Gi x * Gi x + Hi x = Gi 0 * Gi 0 + Hi 0).
  { destruct (Rtotal_order x 0) as [H|[->|H]]; auto.
    - apply (eq_is_derive (fun x => Gi x * Gi x + Hi x)); auto.
    - symmetry. apply (eq_is_derive (fun x => Gi x * Gi x + Hi x)); auto. }
  rewrite C. unfold Gi at 1 2. rewrite RInt_point. unfold zero; simpl. rewrite Rmult_0_l, Rplus_0_l.
  unfold Hi. apply is_RInt_unique.
  replace (PI / 2) with (2 * atan 1 - 2 * atan 0) by (rewrite atan_1, atan_0; field).
  apply (is_RInt_FTC (fun t => 2 * atan t)).
  - intros t _. unfold hk.
    replace (- (0 * 0) * (1 + t * t) / 2) with 0 by field. rewrite exp_0.
    assert (H := sq1_pos t).
    evar_last. apply is_derive_scal. apply is_derive_atan. unfold Rsqr. simpl. field.
    repeat split; nra.
  - intros t _. apply hk_cont.
Qed.

Lemma Hi_pos x : 0 < Hi x.
Proof.
  apply RInt_gt_0; [lra| |].
  - intros t _. unfold hk. assert (H := sq1_pos t).
    apply Rdiv_lt_0_compat; auto. assert (E := exp_pos (- (x * x) * (1 + t * t) / 2)). lra.
  - intros t _. apply hk_cont.
Qed.

Lemma Hi_le x : Hi x <= PI / 2 * exp (- (x * x) / 2).
Proof.
  assert (I : is_RInt (fun t => 2 * / (1 + t * t) * exp (- (x * x) / 2)) 0 1 (PI / 2 * exp (- (x * x) / 2))).
  { apply is_RInt_scal_r.
    replace (PI / 2) with (2 * atan 1 - 2 * atan 0) by (rewrite atan_1, atan_0; field).
    apply (is_RInt_FTC (fun t => 2 * atan t)).
    - intros t _. assert (H := sq1_pos t).
      evar_last. apply is_derive_scal. apply is_derive_atan. unfold Rsqr. simpl. field.
      repeat split; nra.
    - intros t _. apply cont_of_deriv. auto_derive. assert (H := sq1_pos t). lra. }
  rewrite <- (is_RInt_unique _ _ _ _ I). apply RInt_le; [lra| | |].
  - apply ex_RInt_cont. intros; apply hk_cont.
  - eexists; apply I.
  - intros t _. unfold hk, Rdiv. assert (H := sq1_pos t).
    assert (0 < / (1 + t * t)) by (now apply Rinv_0_lt_compat).
    assert (exp (- (x * x) * (1 + t * t) * / 2) <= exp (- (x * x) * / 2)).
    { apply exp_le_. nra. }
    nra.
Qed.

Lemma s2pi_pos : 0 < sqrt (2 * PI).
Proof. apply sqrt_lt_R0. assert (H := PI_RGT_0). lra. Qed.
Lemma s2pi_sq : sqrt (2 * PI) * sqrt (2 * PI) = 2 * PI.
Proof. apply sqrt_sqrt. assert (H := PI_RGT_0). lra. Qed.

Lemma gauss_pos x : 0 < gauss x.
Proof. unfold gauss. apply Rdiv_lt_0_compat; [apply exp_pos|apply s2pi_pos]. Qed.
Lemma gauss_even x : gauss (- x) = gauss x.
Proof. unfold gauss. f_equal. f_equal. field. Qed.
Lemma gauss_cont x : continuous gauss x.
Proof. apply cont_of_deriv. unfold gauss. assert (H := s2pi_pos). auto_derive; lra. Qed.

Lemma Phi_int a b : is_RInt gauss a b (Phi b - Phi a).
Proof.
  unfold Phi.
  replace (1 / 2 + RInt gauss 0 b - (1 / 2 + RInt gauss 0 a)) with (- RInt gauss 0 a + RInt gauss 0 b) by ring.
  apply (is_RInt_Chasles gauss a 0 b).
  - apply @is_RInt_swap. apply (RInt_correct gauss 0 a), ex_RInt_cont, gauss_cont.
  - apply (RInt_correct gauss 0 b), ex_RInt_cont, gauss_cont.
Qed.

Lemma Phi_derive x : is_derive Phi x (gauss x).
Proof.
  unfold Phi. evar_last.
  apply @is_derive_plus; [apply is_derive_const|].
  apply (is_derive_RInt gauss (fun x => RInt gauss 0 x) 0 x).
  - exists (mkposreal 1 Rlt_0_1). intros y _. apply (RInt_correct gauss 0 y), ex_RInt_cont, gauss_cont.
  - apply gauss_cont.
  - unfold plus, zero; simpl. ring.
Qed.
Lemma Phi_cont x : continuous Phi x.
Proof. apply cont_of_deriv. eexists; apply Phi_derive. Qed.

Lemma Phi_incr a b : a < b -> Phi a < Phi b.
Proof.
  intros H. assert (I := Phi_int a b).
  assert (0 < RInt gauss a b).
  { apply RInt_gt_0; auto; intros; [apply gauss_pos|apply gauss_cont]. }
  rewrite (is_RInt_unique _ _ _ _ I) in H0. lra.
Qed.

Lemma Phi_sym x : Phi (- x) = 1 - Phi x.
Proof.
  unfold Phi. assert (E : RInt gauss 0 (- x) = - RInt gauss 0 x); [|lra].
  apply is_RInt_unique.
  apply (is_RInt_ext (fun t => - (scal (-1) (gauss (-1 * t + 0))))).
  - intros t _. unfold scal; simpl; unfold mult; simpl.
    replace (-1 * t + 0) with (- t) by ring. rewrite gauss_even. ring.
  - apply @is_RInt_opp. apply (is_RInt_comp_lin gauss (-1) 0 0 (- x)).
    replace (-1 * 0 + 0) with 0 by ring. replace (-1 * - x + 0) with x by ring.
    apply (RInt_correct gauss 0 x), ex_RInt_cont, gauss_cont.
Qed.

Lemma Phi_Gi x : Phi x = 1 / 2 + Gi x / sqrt (2 * PI).
Proof.
  unfold Phi. f_equal. apply is_RInt_unique. unfold gauss, Rdiv.
  apply is_RInt_scal_r. apply (RInt_correct eg 0 x), ex_RInt_cont, eg_cont.
Qed.

Lemma Phi_lt_1 x : Phi x < 1.
Proof.
  rewrite Phi_Gi. assert (I := gauss_identity x). assert (H := Hi_pos x).
  assert (P := s2pi_pos). assert (Q := s2pi_sq).
  assert (2 * Gi x < sqrt (2 * PI)) by nra.
  assert (Gi x / sqrt (2 * PI) < 1 / 2); [|lra].
  apply (Rmult_lt_reg_r (sqrt (2 * PI))); auto. field_simplify; lra.
Qed.
Lemma Phi_gt_0 x : 0 < Phi x.
Proof. assert (H := Phi_lt_1 (- x)). rewrite Phi_sym in H. lra. Qed.

(** [4 Gi^2 = 2 pi - 4 Hi], so [1 - Phi x <= exp(-x^2/2)] for [x >= 0]. *)
Lemma Phi_tail x : 0 <= x -> 1 - Phi x <= exp (- (x * x) / 2).
Proof.
  intros Hx. rewrite Phi_Gi. assert (I := gauss_identity x). assert (H := Hi_le x).
  assert (P := s2pi_pos). assert (Q := s2pi_sq).
  assert (G : 0 <= Gi x).
  { unfold Gi. apply RInt_ge_0; auto. apply ex_RInt_cont, eg_cont. intros; left; apply eg_pos. }
  set (s := sqrt (2 * PI)) in *. set (e := exp _) in *.
  assert (E0 : 0 < e) by apply exp_pos.
  assert (PP := PI_RGT_0).
  apply (Rmult_le_reg_r s); auto. 
  replace ((1 - (1 / 2 + Gi x / s)) * s) with (s / 2 - Gi x) by (field; lra).
  (* s/2 - G = (s^2/4 - G^2)/(s/2+G) = H/(s/2+G) <= (PI/2 e)/(s/2) *)
  assert ((s / 2 - Gi x) * (s / 2 + Gi x) <= e * s * (s / 2)).
  { replace ((s / 2 - Gi x) * (s / 2 + Gi x)) with (s * s / 4 - Gi x * Gi x) by field.
    replace (e * s * (s / 2)) with (e * (s * s) / 2) by field. nra. }
  assert (s / 2 <= s / 2 + Gi x) by lra. 
  apply Rnot_lt_le. intros C.
  assert (e * s * (s / 2) < (s / 2 - Gi x) * (s / 2 + Gi x)); [|lra].
  assert (0 < e * s) by (apply Rmult_lt_0_compat; auto).
  nra.
Qed.

Lemma Phi_lim_p : is_lim Phi p_infty 1.
Proof.
  apply (is_lim_le_le_loc (fun x => 1 - exp (- x)) (fun _ => 1)).
  - exists 2. intros x Hx. split; [|left; apply Phi_lt_1].
    assert (H := Phi_tail x ltac:(lra)).
    assert (exp (- (x * x) / 2) <= exp (- x)) by (apply exp_le_; nra). lra.
  - replace (Finite 1) with (Rbar_plus 1 (- 0)) by (simpl; f_equal; ring).
    apply is_lim_minus with 1 0.
    + apply is_lim_const.
    + apply (is_lim_comp exp (fun x => - x) p_infty 0 m_infty).
      * apply is_lim_exp_m.
      * apply (is_lim_opp (fun x => x) p_infty p_infty). apply is_lim_id.
      * exists 0. intros; discriminate.
    + simpl. unfold is_Rbar_minus, is_Rbar_plus; simpl. f_equal.
  - apply is_lim_const.
Qed.
Lemma Phi_lim_m : is_lim Phi m_infty 0.
Proof.
  apply (is_lim_ext (fun x => 1 - Phi (- x))).
  { intros x. rewrite Phi_sym. ring. }
  replace (Finite 0) with (Rbar_plus 1 (- 1)) by (simpl; f_equal; ring).
  apply is_lim_minus with 1 1.
  - apply is_lim_const.
  - apply (is_lim_comp Phi (fun x => - x) m_infty 1 p_infty).
    + apply Phi_lim_p.
    + apply (is_lim_opp (fun x => x) m_infty m_infty). apply is_lim_id.
    + exists 0. intros; discriminate.
  - simpl. unfold is_Rbar_minus, is_Rbar_plus; simpl. f_equal.
Qed.
