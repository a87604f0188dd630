(** The Beta integral and proofs about [beta_dist]. *)
From Coq Require Import Reals Lra Lia Psatz String Bool.
From Coquelicot Require Import Coquelicot.
From Coq Require Import List.
From Verif Require Import Xf Py Xf_facts Py_facts Calc Special Gauss_facts Spec Utils_model Powerlaw_facts Truncnorm_facts.
Import ListNotations.
Local Open Scope R_scope.

(** ** Improper integrals of non-negative functions *)
Lemma monotone_lim_right (G : R -> R) a c M : a < c ->
  (forall x y, a < x -> x <= y -> y <= c -> G y <= G x) ->
  (forall x, a < x -> x <= c -> G x <= M) ->
  exists L, filterlim G (at_right a) (locally L) /\ (forall x, a < x -> x <= c -> G x <= L).
Proof.
  intros Hc Hm Hb.
  destruct (completeness (fun v => exists x, a < x /\ x <= c /\ v = G x)) as [L [Lub Llub]].
  - exists M. intros v [x [H1 [H2 ->]]]. now apply Hb.
  - exists (G c). exists c. repeat split; lra.
  - exists L. assert (U : forall x, a < x -> x <= c -> G x <= L).
    { intros x H1 H2. apply Lub. exists x; auto. }
    split; auto.
    intros P [eps HP].
    assert (exists x, a < x /\ x <= c /\ L - eps < G x).
    { apply Classical_Prop.NNPP. intros N.
      assert (L <= L - eps); [|destruct eps; simpl in *; lra].
      apply Llub. intros v [x [H1 [H2 ->]]]. apply Rnot_lt_le. intros C. apply N. exists x; auto. }
    destruct H as [x0 [H1 [H2 H3]]].
    unfold filtermap, at_right, within.
    assert (Hd : 0 < x0 - a) by lra.
    exists (mkposreal _ Hd). intros y Hy Hay. apply HP.
    change (Rabs (y - a) < x0 - a) in Hy. rewrite Rabs_pos_eq in Hy by lra.
    change (Rabs (G y - L) < eps).
    assert (G x0 <= G y) by (apply Hm; lra).
    assert (G y <= L) by (apply U; lra).
    rewrite Rabs_left1 by lra. lra.
Qed.

Lemma is_RInt_gen_left (f : R -> R) a c L : a < c ->
  (forall x, a < x -> x <= c -> ex_RInt f x c) ->
  filterlim (fun x => RInt f x c) (at_right a) (locally L) ->
  is_RInt_gen f (at_right a) (at_point c) L.
Proof.
  intros Hac Hex Hl P HP. unfold filtermapi.
  exists (fun x => (a < x /\ x <= c) /\ P (RInt f x c)) (fun y => y = c).
  - apply filter_and.
    + assert (Hd : 0 < c - a) by lra. exists (mkposreal _ Hd). intros y Hy Hay.
      change (Rabs (y - a) < c - a) in Hy. rewrite Rabs_pos_eq in Hy by lra. lra.
    + apply Hl, HP.
  - reflexivity.
  - intros x y [[H1 H2] H3] ->. simpl. exists (RInt f x c). split; auto.
    apply (RInt_correct f), Hex; auto.
Qed.

(** Reflection [x -> 1 - x]. *)
Lemma is_RInt_gen_reflect (f : R -> R) (c L : R) :
  is_RInt_gen f (at_right 0) (at_point c) L ->
  is_RInt_gen (fun x => f (1 - x)) (at_point (1 - c)) (at_left 1) L.
Proof.
  intros H P HP. destruct (H P HP) as [Q T HQ HR HQR].
  exists (fun y => y = 1 - c) (fun x => Q (1 - x)).
  - reflexivity.
  - destruct HQ as [d Hd]. exists d. intros y Hy Hy1. apply Hd.
    + change (Rabs (1 - y - 0) < d). change (Rabs (y - 1) < d) in Hy.
      rewrite Rminus_0_r. now rewrite Rabs_minus_sym.
    + lra.
  - intros x y -> Hy. simpl. destruct (HQR (1 - y) c Hy) as [v [Hv1 Hv2]].
    { unfold at_point in HR. auto. }
    exists v; split; auto. simpl in Hv1.
    apply (is_RInt_ext (fun x => opp (scal (-1) (f (-1 * x + 1))))).
    { intros t _. unfold opp, scal; simpl; unfold mult; simpl.
      replace (-1 * t + 1) with (1 - t) by ring. ring. }
    rewrite <- (opp_opp v).
    assert (E1 : -1 * (1 - c) + 1 = c :> R) by ring. assert (E2 : -1 * y + 1 = 1 - y :> R) by (simpl; ring).
    apply @is_RInt_opp. apply (is_RInt_comp_lin f (-1) 1).
    rewrite E1, E2.
    apply @is_RInt_swap. exact Hv1.
Qed.

Lemma is_RInt_gen_scale (f : R -> R) s L : 0 < s ->
  is_RInt_gen f (at_right 0) (at_left 1) L ->
  is_RInt_gen (fun x => / s * f (x / s)) (at_right 0) (at_left s) L.
Proof.
  intros Hs H P HP. destruct (H P HP) as [Q T HQ HR HQR].
  exists (fun x => Q (x / s)) (fun y => T (y / s)).
  - destruct HQ as [d Hd]. assert (Hds : 0 < s * d) by (destruct d; simpl; nra).
    exists (mkposreal _ Hds). intros y Hy Hy0. apply Hd.
    + change (Rabs (y / s - 0) < d). change (Rabs (y - 0) < s * d) in Hy.
      rewrite Rminus_0_r in *. unfold Rdiv. rewrite Rabs_mult, (Rabs_pos_eq (/ s)).
      2:{ left; now apply Rinv_0_lt_compat. }
      apply (Rmult_lt_reg_r s); auto. rewrite Rmult_assoc, Rinv_l by lra. lra.
    + apply Rdiv_lt_0_compat; auto.
  - destruct HR as [d Hd]. assert (Hds : 0 < s * d) by (destruct d; simpl; nra).
    exists (mkposreal _ Hds). intros y Hy Hy0. apply Hd.
    + change (Rabs (y / s - 1) < d). change (Rabs (y - s) < s * d) in Hy.
      replace (y / s - 1) with ((y - s) * / s) by (field; lra).
      rewrite Rabs_mult, (Rabs_pos_eq (/ s)).
      2:{ left; now apply Rinv_0_lt_compat. }
      apply (Rmult_lt_reg_r s); auto. rewrite Rmult_assoc, Rinv_l by lra. lra.
    + apply (Rmult_lt_reg_r s); auto. unfold Rdiv. rewrite Rmult_assoc, Rinv_l by lra. lra.
  - intros x y Hx Hy. destruct (HQR _ _ Hx Hy) as [v [Hv1 Hv2]]. simpl in *.
    exists v; split; auto.
    apply (is_RInt_ext (fun x => scal (/ s) (f (/ s * x + 0)))).
    { intros t _. unfold scal; simpl; unfold mult; simpl. f_equal. f_equal. field. lra. }
    apply (is_RInt_comp_lin f (/ s) 0).
    replace (/ s * x + 0) with (x / s) by (field; lra).
    replace (/ s * y + 0) with (y / s) by (field; lra). exact Hv1.
Qed.

Lemma is_RInt_gen_scal_r (f : R -> R) Fa Fb {FFa : Filter Fa} {FFb : Filter Fb} k l :
  is_RInt_gen f Fa Fb l -> is_RInt_gen (fun x => f x * k) Fa Fb (l * k).
Proof.
  intros H. replace (l * k) with (scal k l) by (unfold scal; simpl; unfold mult; simpl; ring).
  apply (is_RInt_gen_ext (fun x => scal k (f x))).
  - apply filter_forall. intros ab x _. unfold scal; simpl; unfold mult; simpl; ring.
  - now apply @is_RInt_gen_scal.
Qed.

(** ** The Beta integral *)
Lemma Beta_integrand_cont a b t : 0 < t < 1 -> continuous (Beta_integrand a b) t.
Proof.
  intros Ht. unfold Beta_integrand.
  apply (continuous_mult (fun t => Rpower t (a - 1)) (fun t => Rpower (1 - t) (b - 1))).
  - apply continuous_Rpower; lra.
  - apply (continuous_comp (fun t => 1 - t) (fun u => Rpower u (b - 1))).
    + apply cont_of_deriv. auto_derive; auto.
    + apply continuous_Rpower; lra.
Qed.
Lemma Beta_integrand_pos a b t : 0 < Beta_integrand a b t.
Proof. apply Rmult_lt_0_compat; apply Rpower_pos. Qed.
Lemma Beta_integrand_ex a b x y : 0 < x -> x <= y -> y < 1 -> ex_RInt (Beta_integrand a b) x y.
Proof.
  intros. apply (ex_RInt_continuous (Beta_integrand a b)). intros z.
  rewrite Rmin_left, Rmax_right by auto. intros. apply Beta_integrand_cont; lra.
Qed.
Lemma Beta_integrand_reflect a b t : Beta_integrand a b (1 - t) = Beta_integrand b a t.
Proof. unfold Beta_integrand. replace (1 - (1 - t)) with t by ring. ring. Qed.

Lemma Rpower_bound_half p t : 1 / 2 <= t <= 1 -> Rpower t p <= Rpower 2 (Rabs p).
Proof.
  intros Ht. unfold Rpower. apply exp_le_.
  assert (0 <= - ln t <= ln 2).
  { split.
    - assert (ln t <= ln 1) by (destruct (proj2 Ht) as [H| ->]; [left; apply ln_increasing; lra|right; auto]).
      rewrite ln_1 in H; lra.
    - rewrite <- ln_Rinv by lra.
      assert (/ t <= 2). { apply (Rmult_le_reg_r t); [lra|]. rewrite Rinv_l; lra. }
      destruct H as [H| ->]; [left; apply ln_increasing; [apply Rinv_0_lt_compat; lra|auto]|right; auto]. }
  replace (p * ln t) with ((- p) * (- ln t)) by ring.
  apply Rle_trans with (Rabs p * (- ln t)).
  - apply Rmult_le_compat_r; [lra|]. rewrite <- Rabs_Ropp. apply Rle_abs.
  - apply Rmult_le_compat_l; [apply Rabs_pos|lra].
Qed.

Lemma Beta_left a b : 0 < a ->
  exists L, 0 < L /\ is_RInt_gen (Beta_integrand a b) (at_right 0) (at_point (1/2)) L.
Proof.
  intros Ha. set (f := Beta_integrand a b).
  assert (EX : forall x y, 0 < x -> x <= y -> y < 1 -> ex_RInt f x y) by (intros; now apply Beta_integrand_ex).
  destruct (monotone_lim_right (fun x => RInt f x (1/2)) 0 (1/2)
              (Rpower (1/2) a / a * Rpower 2 (Rabs (b - 1)))) as [L [HL HU]]; [lra| | |].
  - intros x y Hx Hxy Hy. simpl.
    rewrite <- (RInt_Chasles f x y (1/2)) by (apply EX; lra).
    unfold plus; simpl.
    assert (0 <= RInt f x y); [|lra].
    apply RInt_ge_0; auto. { apply EX; lra. } intros; left; apply Beta_integrand_pos.
  - intros x Hx Hx2.
    assert (I : is_RInt (fun t => Rpower t (a - 1) * Rpower 2 (Rabs (b - 1))) x (1/2)
       ((Rpower (1/2) a - Rpower x a) / a * Rpower 2 (Rabs (b - 1)))).
    { apply is_RInt_scal_r. evar_last. apply is_RInt_Rpower; lra.
      replace (1 + (a - 1)) with a by ring. reflexivity. }
    apply Rle_trans with (RInt (fun t => Rpower t (a - 1) * Rpower 2 (Rabs (b - 1))) x (1/2)).
    + apply RInt_le; auto. { apply EX; lra. } { eexists; apply I. }
      intros t Ht. unfold f, Beta_integrand. apply Rmult_le_compat_l; [left; apply Rpower_pos|].
      apply Rpower_bound_half. lra.
    + rewrite (is_RInt_unique _ _ _ _ I).
      apply Rmult_le_compat_r; [left; apply Rpower_pos|].
      unfold Rdiv. apply Rmult_le_compat_r; [left; now apply Rinv_0_lt_compat|].
      assert (H := Rpower_pos x a). lra.
  - exists L. split.
    + apply Rlt_le_trans with (RInt f (1/4) (1/2)); [|apply HU; lra].
      apply RInt_gt_0; [lra| |].
      * intros; apply Beta_integrand_pos.
      * intros; apply Beta_integrand_cont; lra.
    + apply is_RInt_gen_left; auto; [lra|]. intros; apply EX; lra.
Qed.

Lemma Beta_exists a b : 0 < a -> 0 < b ->
  0 < Beta_fun a b /\ is_RInt_gen (Beta_integrand a b) (at_right 0) (at_left 1) (Beta_fun a b).
Proof.
  intros Ha Hb.
  destruct (Beta_left a b Ha) as [L1 [P1 H1]]. destruct (Beta_left b a Hb) as [L2 [P2 H2]].
  assert (H2' : is_RInt_gen (Beta_integrand a b) (at_point (1/2)) (at_left 1) L2).
  { apply is_RInt_gen_reflect in H2. replace (1 - 1/2) with (1/2) in H2 by field.
    revert H2. apply is_RInt_gen_ext.
    apply filter_forall. intros ab x _. apply Beta_integrand_reflect. }
  assert (H : is_RInt_gen (Beta_integrand a b) (at_right 0) (at_left 1) (plus L1 L2)).
  { eapply (@is_RInt_gen_Chasles R_NormedModule _ _ _ _ _ (1/2)); eauto. }
  unfold Beta_fun. rewrite (is_RInt_gen_unique _ _ H). split; auto.
  unfold plus; simpl. lra.
Qed.

Lemma Beta_sym a b : 0 < a -> 0 < b -> Beta_fun a b = Beta_fun b a.
Proof.
  intros Ha Hb.
  destruct (Beta_left a b Ha) as [L1 [P1 H1]]. destruct (Beta_left b a Hb) as [L2 [P2 H2]].
  assert (RR : forall a b L, is_RInt_gen (Beta_integrand b a) (at_right 0) (at_point (1/2)) L ->
       is_RInt_gen (Beta_integrand a b) (at_point (1/2)) (at_left 1) L).
  { clear. intros a b L H2. apply is_RInt_gen_reflect in H2. replace (1 - 1/2) with (1/2) in H2 by field.
    revert H2. apply is_RInt_gen_ext.
    apply filter_forall. intros ab x _. apply Beta_integrand_reflect. }
  assert (E1 : is_RInt_gen (Beta_integrand a b) (at_right 0) (at_left 1) (plus L1 L2)).
  { eapply (@is_RInt_gen_Chasles R_NormedModule _ _ _ _ _ (1/2)); eauto. }
  assert (E2 : is_RInt_gen (Beta_integrand b a) (at_right 0) (at_left 1) (plus L2 L1)).
  { eapply (@is_RInt_gen_Chasles R_NormedModule _ _ _ _ _ (1/2)); eauto. }
  unfold Beta_fun. rewrite (is_RInt_gen_unique _ _ E1), (is_RInt_gen_unique _ _ E2).
  unfold plus; simpl; ring.
Qed.

(** ** beta_dist *)
Lemma beta_dist_cases bk kw xx alpha beta scale :
  beta_dist bk kw xx alpha beta scale =
    if is_jax bk then Ok (beta_dist_body xx alpha beta scale)
    else if kw_in "alpha" kw && negb (fgt alpha (Fin 0)) then Err ValueError
    else if kw_in "beta" kw && negb (fgt beta (Fin 0)) then Err ValueError
    else if kw_in "scale" kw && negb (fgt scale (Fin 0)) then Err ValueError
    else Ok (beta_dist_body xx alpha beta scale).
Proof.
  unfold beta_dist, apply_conditions. destruct (is_jax bk); auto.
  unfold kwargs_of, beta_dist_conds. cbn [filter fst]. unfold kw_in.
  destruct (existsb (String.eqb "xx") kw), (existsb (String.eqb "alpha") kw),
    (existsb (String.eqb "beta") kw),
    (existsb (String.eqb "scale") kw); simpl;
    destruct (fgt alpha (Fin 0)), (fgt beta (Fin 0)), (fgt scale (Fin 0)); reflexivity.
Qed.

Lemma beta_dist_ok bk kw xx alpha beta scale : 0 < alpha -> 0 < beta -> 0 < scale ->
  beta_dist bk kw xx (Fin alpha) (Fin beta) (Fin scale)
  = Ok (beta_dist_body xx (Fin alpha) (Fin beta) (Fin scale)).
Proof.
  intros. rewrite beta_dist_cases. rewrite !fgt_fin, !Rltb_true by auto.
  rewrite !andb_false_r. now destruct (is_jax bk).
Qed.

Definition bpdf (a b s x : R) : R :=
  Rpower x (a - 1) * Rpower (s - x) (b - 1) / (Beta_fun a b * Rpower s (a + b - 1)).

Lemma beta_dist_body_in a b s x : 0 < a -> 0 < b -> 0 < s -> 0 < x < s ->
  beta_dist_body (Fin x) (Fin a) (Fin b) (Fin s) = Fin (bpdf a b s x).
Proof.
  intros Ha Hb Hs Hx. unfold beta_dist_body.
  destruct (Beta_exists a b Ha Hb) as [HB _].
  unfold fbetaln. rewrite !Rltb_true by auto. simpl andb. cbv iota.
  autorewrite with xf. rewrite !flog_fin by lra. autorewrite with xf.
  rewrite fge_fin, fle_fin, !Rleb_true by lra. autorewrite with xf. f_equal.
  unfold bpdf, Rpower, Rminus, Rdiv. rewrite !exp_plus, !exp_Ropp, exp_ln by auto.
  field. split; apply Rgt_not_eq; auto. apply exp_pos.
Qed.

Lemma beta_dist_body_out a b s x : x < 0 \/ s < x ->
  beta_dist_body (Fin x) a b (Fin s) = Fin 0.
Proof.
  intros Ho. unfold beta_dist_body.
  match goal with |- fmul ?v _ = _ => destruct (nan_to_num_fin (fexp (fsub
       (fsub (fadd (fmul (fsub a (Fin 1)) (flog (Fin x))) (fmul (fsub b (Fin 1)) (flog (fsub (Fin s) (Fin x)))))
          (fbetaln a b)) (fmul (fsub (fadd a b) (Fin 1)) (flog (Fin s)))))) as [r E] end.
  rewrite E. rewrite fge_fin, fle_fin.
  destruct Ho; [rewrite (Rleb_false 0 x) by lra | rewrite (Rleb_false x s) by lra].
  - destruct (Rleb x s); autorewrite with xf; f_equal; ring.
  - destruct (Rleb 0 x); autorewrite with xf; f_equal; ring.
Qed.

Lemma beta_dist_body_nonneg a b s x :
  exists r, beta_dist_body (Fin x) a b s = Fin r /\ 0 <= r.
Proof.
  unfold beta_dist_body.
  match goal with |- context [nan_to_num (fexp ?v)] => destruct (nan_to_num_exp_fin v) as [r [-> Hr]] end.
  destruct (fge (Fin x) (Fin 0)), (fle (Fin x) s); simpl; eexists; split; try reflexivity; nra.
Qed.

Lemma bpdf_pos a b s x : 0 < a -> 0 < b -> 0 < bpdf a b s x.
Proof.
  intros Ha Hb. destruct (Beta_exists a b Ha Hb) as [HB _]. unfold bpdf.
  apply Rdiv_lt_0_compat; apply Rmult_lt_0_compat; auto; apply Rpower_pos.
Qed.

Lemma bpdf_int a b s : 0 < a -> 0 < b -> 0 < s ->
  is_RInt_gen (bpdf a b s) (at_right 0) (at_left s) 1.
Proof.
  intros Ha Hb Hs. destruct (Beta_exists a b Ha Hb) as [HB HI].
  apply (is_RInt_gen_scale _ s) in HI; auto.
  apply (is_RInt_gen_scal_r _ _ _ (/ Beta_fun a b)) in HI.
  rewrite Rinv_r in HI by lra.
  revert HI. apply is_RInt_gen_ext.
  exists (fun x => 0 < x < s) (fun y => 0 < y < s).
  - exists (mkposreal s Hs). intros y Hy H0. change (Rabs (y - 0) < s) in Hy.
    rewrite Rabs_pos_eq in Hy; lra.
  - exists (mkposreal s Hs). intros y Hy H0. change (Rabs (y - s) < s) in Hy.
    rewrite Rabs_left in Hy; lra.
  - intros x y Hx Hy t Ht. simpl in Ht.
    assert (0 < t < s). { split.
      - apply Rlt_trans with (Rmin x y); [apply Rmin_glb_lt; lra|lra].
      - apply Rlt_trans with (Rmax x y); [lra|apply Rmax_lub_lt; lra]. }
    unfold Beta_integrand, bpdf.
    replace (1 - t / s) with ((s - t) / s) by (field; lra).
    rewrite !Rpower_div by lra.
    assert (E : Rpower s (a + b - 1) = s * Rpower s (a - 1) * Rpower s (b - 1)).
    { rewrite <- (Rpower_1 s) at 2 by auto. rewrite <- !Rpower_plus. f_equal; ring. }
    rewrite E. match goal with |- ?x = ?y => change (@eq R x y) end.
    field. repeat split; try lra; apply Rpower_neq0.
Qed.
