(** Proofs of the property theorems stated in [Props_unb]. *)
From Coq Require Import Reals Lra Lia Psatz String Bool.
From Coquelicot Require Import Coquelicot.
From Coq Require Import List.
From Verif Require Import Xf Py Xf_facts Py_facts Calc Special Gauss_facts Spec SpecUnb Utils_model Powerlaw_facts Truncnorm_facts.
Import ListNotations.
Local Open Scope R_scope.

(** Improper integrals from a primitive. *)
Lemma gen_prim (f F : R -> R) (Fa Fb : (R -> Prop) -> Prop) {HFa : Filter Fa} {HFb : Filter Fb} (la lb : R) :
  filter_prod Fa Fb (fun ab => is_RInt f (fst ab) (snd ab) (F (snd ab) - F (fst ab))) ->
  filterlim F Fa (locally la) -> filterlim F Fb (locally lb) ->
  is_RInt_gen f Fa Fb (lb - la).
Proof.
  intros HI HA HB. unfold is_RInt_gen, filterlimi, filter_le, filtermapi. intros P HP.
  assert (L : filterlim (fun ab : R * R => F (snd ab) - F (fst ab)) (filter_prod Fa Fb) (locally (lb - la))).
  { apply (filterlim_comp_2 (F := filter_prod Fa Fb) (G := locally lb) (H := locally (- la)) (I := locally (lb - la)) (fun ab : R * R => F (snd ab)) (fun ab : R * R => - F (fst ab)) Rplus).
    - eapply filterlim_comp; [apply filterlim_snd|exact HB].
    - eapply filterlim_comp; [eapply filterlim_comp; [apply filterlim_fst|exact HA]|]. apply (filterlim_opp (V := R_NormedModule) la).
    - apply (filterlim_plus (V := R_NormedModule) lb (- la)). }
  specialize (L P HP). unfold filtermap in L.
  generalize (filter_and _ _ HI L). apply filter_imp. intros [a b] [H1 H2]. cbn [fst snd] in *. eauto.
Qed.
Lemma at_point_lim (F : R -> R) a : filterlim F (at_point a) (locally (F a)).
Proof. intros P HP. unfold filtermap, at_point. now apply locally_singleton. Qed.
Lemma gen_ap {T} (P : R * R -> Prop) (Fb : (R -> Prop) -> Prop) a (Q : R -> Prop) : Fb Q -> (forall b, Q b -> P (a, b)) -> T -> filter_prod (at_point a) Fb P.
Proof. intros H1 H2 _. apply Filter_prod with (fun x => x = a) Q; [reflexivity|auto|]. intros x y -> Hy; auto. Qed.

(** The normal distribution. *)
Definition Nd mu sigma := fun x => Phi ((x - mu) / sigma).
Lemma nd_val mu sigma x : 0 < sigma -> normal_density mu sigma x = gauss ((x - mu) / sigma) / sigma.
Proof.
  intros H. unfold normal_density, gauss.
  replace (- ((x - mu) / sigma * ((x - mu) / sigma)) / 2) with (- ((x - mu) * (x - mu)) / (2 * (sigma * sigma))) by (field; lra).
  assert (SP := s2pi_pos). field. repeat split; lra.
Qed.
Lemma nd_pos mu sigma x : 0 < sigma -> 0 < normal_density mu sigma x.
Proof. intros H. rewrite nd_val by auto. apply Rdiv_lt_0_compat; auto. apply gauss_pos. Qed.
Lemma nd_int mu sigma a b : 0 < sigma -> is_RInt (normal_density mu sigma) a b (Nd mu sigma b - Nd mu sigma a).
Proof.
  intros Hs. unfold Nd. apply (is_RInt_ext (fun x => scal (/ sigma) (gauss (/ sigma * x + - mu / sigma)))).
  { intros x _. rewrite nd_val by auto. unfold scal; simpl; unfold mult; simpl.
    replace (/ sigma * x + - mu / sigma) with ((x - mu) / sigma) by (field; lra). unfold Rdiv; ring. }
  replace ((b - mu) / sigma) with (/ sigma * b + - mu / sigma) by (field; lra).
  replace ((a - mu) / sigma) with (/ sigma * a + - mu / sigma) by (field; lra).
  apply (is_RInt_comp_lin gauss). apply Phi_int.
Qed.
Lemma lin_p mu sigma : 0 < sigma -> filterlim (fun x => (x - mu) / sigma) (Rbar_locally p_infty) (Rbar_locally p_infty).
Proof.
  intros Hs P [M HM]. exists (sigma * M + mu). intros x Hx. apply HM.
  apply (Rmult_lt_reg_r sigma); auto. unfold Rdiv. rewrite Rmult_assoc, Rinv_l by lra. lra.
Qed.
Lemma lin_m mu sigma : 0 < sigma -> filterlim (fun x => (x - mu) / sigma) (Rbar_locally m_infty) (Rbar_locally m_infty).
Proof.
  intros Hs P [M HM]. exists (sigma * M + mu). intros x Hx. apply HM.
  apply (Rmult_lt_reg_r sigma); auto. unfold Rdiv. rewrite Rmult_assoc, Rinv_l by lra. lra.
Qed.
Lemma id_p (G : R -> R) l : is_lim G p_infty l -> filterlim G (Rbar_locally p_infty) (Rbar_locally l).
Proof. auto. Qed.
Lemma nd_lim_p mu sigma : 0 < sigma -> filterlim (Nd mu sigma) (Rbar_locally p_infty) (locally 1).
Proof.
  intros H. unfold Nd. eapply filterlim_comp; [now apply lin_p|]. intros P HP. exact (Phi_lim_p P HP).
Qed.
Lemma nd_lim_m mu sigma : 0 < sigma -> filterlim (Nd mu sigma) (Rbar_locally m_infty) (locally 0).
Proof.
  intros H. unfold Nd. eapply filterlim_comp; [now apply lin_m|]. intros P HP. exact (Phi_lim_m P HP).
Qed.
Lemma allR (Fa Fb : (R -> Prop) -> Prop) {HFa : Filter Fa} {HFb : Filter Fb} (P : R * R -> Prop) : (forall x, P x) -> filter_prod Fa Fb P.
Proof. intros H. apply filter_forall. auto. Qed.
Lemma nd_line mu sigma : 0 < sigma -> is_RInt_gen (normal_density mu sigma) (Rbar_locally m_infty) (Rbar_locally p_infty) 1.
Proof.
  intros H. replace 1 with (1 - 0) by ring. apply (gen_prim _ (Nd mu sigma)); try typeclasses eauto.
  - apply allR; try typeclasses eauto. intros [a b]. now apply nd_int.
  - now apply nd_lim_m.
  - now apply nd_lim_p.
Qed.
Lemma nd_above mu sigma a : 0 < sigma -> is_RInt_gen (normal_density mu sigma) (at_point a) (Rbar_locally p_infty) (1 - Nd mu sigma a).
Proof.
  intros H. apply (gen_prim _ (Nd mu sigma)); try typeclasses eauto.
  - apply allR; try typeclasses eauto. intros [x b]. now apply nd_int.
  - apply at_point_lim.
  - now apply nd_lim_p.
Qed.
Lemma nd_below mu sigma b : 0 < sigma -> is_RInt_gen (normal_density mu sigma) (Rbar_locally m_infty) (at_point b) (Nd mu sigma b).
Proof.
  intros H. replace (Nd mu sigma b) with (Nd mu sigma b - 0) by ring. apply (gen_prim _ (Nd mu sigma)); try typeclasses eauto.
  - apply allR; try typeclasses eauto. intros [a x]. now apply nd_int.
  - now apply nd_lim_m.
  - apply at_point_lim.
Qed.
Lemma Nd_bounds mu sigma x : 0 < Nd mu sigma x < 1.
Proof. unfold Nd. split; [apply Phi_gt_0|apply Phi_lt_1]. Qed.

(** The value of [truncnorm] once its log normalisation is known. *)
Lemma tn_val mu sigma aa bb low high x Z : 0 < sigma -> 0 < Z ->
  fdiv (fsub low (Fin mu)) (Fin sigma) = aa -> fdiv (fsub high (Fin mu)) (Fin sigma) = bb ->
  truncnorm_log_norm aa bb = Fin (ln Z) -> fge (Fin x) low = true -> fle (Fin x) high = true ->
  truncnorm_body (Fin x) (Fin mu) (Fin sigma) high low = Fin (normal_density mu sigma x / Z).
Proof.
  intros Hs HZ Ea Eb El Hl Hh. unfold truncnorm_body. rewrite Ea, Eb, El, Hl, Hh. autorewrite with xf.
  rewrite !(fdiv_fin _ sigma) by lra. rewrite flog_fin by auto. autorewrite with xf. rewrite fdiv_fin by lra. autorewrite with xf.
  cbn [of_bool]. rewrite ?nan_to_num_Fin. cbn [of_bool]. rewrite ?fmul_fin. f_equal. rewrite nd_val by auto. rewrite !Rmult_1_r.
  unfold gauss, Rdiv, Rminus. set (zz := (x + - mu) * / sigma).
  assert (E : exp (- (zz * zz) * / 2 + - (ln (2 * PI) * / 2) + - ln sigma + - ln Z)
          = exp (- (zz * zz) * / 2) * (/ exp (ln (2 * PI) * / 2)) * / sigma * / Z).
  { rewrite !exp_plus, !exp_Ropp. rewrite !exp_ln by auto. ring. }
  rewrite E. f_equal. f_equal. f_equal. f_equal.
  replace (ln (2 * PI) * / 2) with (/ 2 * ln (2 * PI)) by ring.
  change (exp (/ 2 * ln (2 * PI))) with (Rpower (2 * PI) (/ 2)).
  apply Rpower_sqrt. assert (H := PI_RGT_0). lra.
Qed.
Lemma fdiv_PInf s : 0 < s -> fdiv PInf (Fin s) = PInf.
Proof. intros H. simpl. now rewrite Rltb_false by lra. Qed.
Lemma fdiv_NInf s : 0 < s -> fdiv NInf (Fin s) = NInf.
Proof. intros H. simpl. now rewrite Rltb_false by lra. Qed.

Lemma ln_norm_line : truncnorm_log_norm NInf PInf = Fin (ln 1).
Proof.
  unfold truncnorm_log_norm, fselect.
  change (fle PInf (Fin 0)) with false. change (fgt NInf (Fin 0)) with false. change (fgt PInf (Fin 0)) with true. cbn iota.
  unfold flog1p. cbn [fndtr fopp]. autorewrite with xf. rewrite flog_fin by lra. do 2 f_equal. ring.
Qed.
Lemma ln_norm_above a : truncnorm_log_norm (Fin a) PInf = Fin (ln (1 - Phi a)).
Proof.
  assert (0 < 1 - Phi a) by (assert (X := Phi_lt_1 a); lra).
  unfold truncnorm_log_norm, fselect. cbn [fle fgt flt fopp fndtr flog_ndtr]. rewrite fgt_fin.
  destruct (Rltb_spec 0 a).
  - change (fle PInf (Fin 0)) with false. cbn iota. unfold logsubexp. cbn [flog_ndtr fopp fsub fadd fexp].
    autorewrite with xf. rewrite flog_fin by lra. rewrite fadd_fin. f_equal. rewrite Phi_sym. replace (1 + - 0) with 1 by ring. rewrite ln_1. ring.
  - change (fle PInf (Fin 0)) with false. change (fgt PInf (Fin 0)) with true. cbn iota. unfold flog1p. autorewrite with xf.
    rewrite flog_fin by lra. do 2 f_equal. ring.
Qed.
Lemma ln_norm_below b : truncnorm_log_norm NInf (Fin b) = Fin (ln (Phi b)).
Proof.
  assert (P := Phi_gt_0 b).
  unfold truncnorm_log_norm, fselect. rewrite fle_fin. rewrite fgt_fin.
  destruct (Rleb_spec b 0).
  - unfold logsubexp. cbn [flog_ndtr fopp fsub fadd fexp].
    autorewrite with xf. rewrite flog_fin by lra. rewrite fadd_fin. f_equal. replace (1 + - 0) with 1 by ring. rewrite ln_1. ring.
  - change (fgt NInf (Fin 0)) with false. rewrite Rltb_true by lra. cbn iota. unfold flog1p. cbn [fndtr fopp]. autorewrite with xf.
    rewrite Phi_sym. rewrite flog_fin by lra. do 2 f_equal. ring.
Qed.

Lemma C106_normal_pf :
  forall bk kw mu sigma, 0 < sigma ->
    let f := fun x => truncnorm bk kw (Fin x) (Fin mu) (Fin sigma) PInf NInf in
    (forall x, returns (f x) (normal_density mu sigma x)) /\ integrates_line f 1.
Proof.
  intros bk kw mu sigma Hs f. assert (V : forall x, returns (f x) (normal_density mu sigma x)).
  { intros x. subst f; cbv beta. red. rewrite truncnorm_ok by auto.
    rewrite (tn_val mu sigma NInf PInf NInf PInf x 1); try reflexivity; try lra.
    - f_equal. f_equal. field.
    - now apply fdiv_NInf.
    - now apply fdiv_PInf.
    - apply ln_norm_line. }
  split; auto. exists (normal_density mu sigma). split; auto. now apply nd_line.
Qed.

Lemma C106_half_normal_above_pf :
  forall bk kw mu sigma low, 0 < sigma ->
    let f := fun x => truncnorm bk kw (Fin x) (Fin mu) (Fin sigma) PInf (Fin low) in
    integrates_above f low 1 /\ (forall x, x < low -> returns (f x) 0) /\
    exists mass, 0 < mass < 1 /\ is_RInt_gen (normal_density mu sigma) (at_point low) (Rbar_locally p_infty) mass /\
      forall x, low <= x -> returns (f x) (normal_density mu sigma x / mass).
Proof.
  intros bk kw mu sigma low Hs f. assert (B := Nd_bounds mu sigma low).
  assert (V : forall x, low <= x -> returns (f x) (normal_density mu sigma x / (1 - Nd mu sigma low))).
  { intros x Hx. subst f; cbv beta. red. rewrite truncnorm_ok by auto. f_equal.
    apply (tn_val mu sigma (Fin ((low - mu) / sigma)) PInf); try reflexivity; try lra.
    - rewrite fsub_fin, fdiv_fin by lra. reflexivity.
    - now apply fdiv_PInf.
    - apply ln_norm_above.
    - rewrite fge_fin, Rleb_true; auto. }
  split; [|split].
  - exists (fun x => normal_density mu sigma x / (1 - Nd mu sigma low)). split; auto.
    assert (H := nd_above mu sigma low Hs).
    apply (is_RInt_gen_scal _ (/ (1 - Nd mu sigma low))) in H. unfold scal in H; simpl in H; unfold mult in H; simpl in H.
    rewrite Rinv_l in H by lra. revert H. apply is_RInt_gen_ext. apply allR; try typeclasses eauto. intros ab x _. unfold Rdiv. apply Rmult_comm.
  - intros x Hx. subst f; cbv beta. red. rewrite truncnorm_ok by auto. f_equal. unfold truncnorm_body.
    rewrite fge_fin, Rleb_false by auto. cbn [of_bool].
    destruct (nan_to_num_fin (fexp (fsub (fsub (fsub (fdiv (fopp (fsq (fdiv (fsub (Fin x) (Fin mu)) (Fin sigma)))) (Fin 2))
        (Fin (ln (2 * PI) / 2))) (flog (Fin sigma)))
     (truncnorm_log_norm (fdiv (fsub (Fin low) (Fin mu)) (Fin sigma)) (fdiv (fsub PInf (Fin mu)) (Fin sigma)))))) as [r ->].
    rewrite fmul_fin. destruct (fle (Fin x) PInf); cbn [of_bool]; rewrite fmul_fin; f_equal; ring.
  - exists (1 - Nd mu sigma low). split; [lra|]. split; auto. now apply nd_above.
Qed.

Lemma C106_half_normal_below_pf :
  forall bk kw mu sigma high, 0 < sigma ->
    let f := fun x => truncnorm bk kw (Fin x) (Fin mu) (Fin sigma) (Fin high) NInf in
    integrates_below f high 1 /\ (forall x, high < x -> returns (f x) 0) /\
    exists mass, 0 < mass < 1 /\ is_RInt_gen (normal_density mu sigma) (Rbar_locally m_infty) (at_point high) mass /\
      forall x, x <= high -> returns (f x) (normal_density mu sigma x / mass).
Proof.
  intros bk kw mu sigma high Hs f. assert (B := Nd_bounds mu sigma high).
  assert (V : forall x, x <= high -> returns (f x) (normal_density mu sigma x / Nd mu sigma high)).
  { intros x Hx. subst f; cbv beta. red. rewrite truncnorm_ok by auto. f_equal.
    apply (tn_val mu sigma NInf (Fin ((high - mu) / sigma))); try reflexivity; try lra.
    - now apply fdiv_NInf.
    - rewrite fsub_fin, fdiv_fin by lra. reflexivity.
    - apply ln_norm_below.
    - rewrite fle_fin, Rleb_true; auto. }
  split; [|split].
  - exists (fun x => normal_density mu sigma x / Nd mu sigma high). split; auto.
    assert (H := nd_below mu sigma high Hs).
    apply (is_RInt_gen_scal _ (/ Nd mu sigma high)) in H. unfold scal in H; simpl in H; unfold mult in H; simpl in H.
    rewrite Rinv_l in H by lra. revert H. apply is_RInt_gen_ext. apply allR; try typeclasses eauto. intros ab x _. unfold Rdiv. apply Rmult_comm.
  - intros x Hx. subst f; cbv beta. red. rewrite truncnorm_ok by auto. f_equal. unfold truncnorm_body.
    rewrite fle_fin, Rleb_false by auto. cbn [of_bool].
    destruct (nan_to_num_fin (fexp (fsub (fsub (fsub (fdiv (fopp (fsq (fdiv (fsub (Fin x) (Fin mu)) (Fin sigma)))) (Fin 2))
        (Fin (ln (2 * PI) / 2))) (flog (Fin sigma)))
     (truncnorm_log_norm (fdiv (fsub NInf (Fin mu)) (Fin sigma)) (fdiv (fsub (Fin high) (Fin mu)) (Fin sigma)))))) as [r ->].
    destruct (fge (Fin x) NInf); cbn [of_bool]; rewrite !fmul_fin; f_equal; ring.
  - exists (Nd mu sigma high). split; [lra|]. split; auto. now apply nd_below.
Qed.

(** Power laws with an infinite upper or a zero lower bound. *)
Definition Pw (a : R) := fun x => Rpower x (1 + a) / (1 + a).
Lemma pw_int a x y : 0 < x -> 0 < y -> 1 + a <> 0 -> is_RInt (fun t => Rpower t a) x y (Pw a y - Pw a x).
Proof.
  intros Hx Hy Ha.
  assert (D : forall t, 0 < t -> is_derive (Pw a) t (Rpower t a)).
  { intros t Ht. unfold Pw, Rpower. auto_derive; auto. replace ((1 + a) * ln t) with (a * ln t + ln t) by ring. rewrite exp_plus, exp_ln by auto. field. lra. }
  assert (M : forall t, Rmin x y <= t <= Rmax x y -> 0 < t).
  { intros t [H1 _]. eapply Rlt_le_trans; [|exact H1]. now apply Rmin_glb_lt. }
  apply (is_RInt_derive (Pw a) (fun t => Rpower t a) x y).
  - intros t Ht. apply D, M, Ht.
  - intros t Ht. now apply continuous_Rpower, M.
Qed.
Lemma pow_lim_p b : b < 0 -> filterlim (fun x => Rpower x b) (Rbar_locally p_infty) (locally 0).
Proof.
  intros Hb. unfold Rpower.
  eapply (filterlim_comp _ _ _ (fun x => b * ln x) exp _ (Rbar_locally m_infty)).
  - intros P [M HM]. exists (Rmax 1 (exp (M / b))). intros x Hx. apply HM.
    assert (E : M / b < ln x).
    { rewrite <- (ln_exp (M / b)). apply ln_increasing; [apply exp_pos|]. eapply Rle_lt_trans; [apply Rmax_r|exact Hx]. }
    apply Ropp_lt_cancel. replace (- M) with ((- b) * (M / b)) by (field; lra). replace (- (b * ln x)) with ((- b) * ln x) by ring.
    apply Rmult_lt_compat_l; lra.
  - intros P HP. exact (is_lim_exp_m P HP).
Qed.
Lemma pow_lim_0 b : 0 < b -> filterlim (fun x => Rpower x b) (at_right 0) (locally 0).
Proof.
  intros Hb. unfold Rpower.
  eapply (filterlim_comp _ _ _ (fun x => b * ln x) exp _ (Rbar_locally m_infty)).
  - intros P [M HM]. exists (mkposreal (exp (M / b)) (exp_pos _)). intros x Hx H0. apply HM.
    assert (E : ln x < M / b).
    { rewrite <- (ln_exp (M / b)). apply ln_increasing; auto. unfold ball in Hx; simpl in Hx; unfold AbsRing_ball, abs, minus, plus, opp in Hx; simpl in Hx.
      rewrite Rabs_right in Hx; lra. }
    replace M with (b * (M / b)) by (field; lra). apply Rmult_lt_compat_l; auto.
  - intros P HP. exact (is_lim_exp_m P HP).
Qed.
Lemma lim_scal (F : R -> R) Fa {HF : Filter Fa} k : filterlim F Fa (locally 0) -> filterlim (fun x => F x / k) Fa (locally 0).
Proof.
  intros H. eapply filterlim_ext; [|eapply filterlim_comp; [exact H|]].
  2: { replace 0 with (scal (/ k) (0 : R)) at 2 by (unfold scal; simpl; unfold mult; simpl; ring). apply (filterlim_scal_r (V := R_NormedModule) (/ k) 0). }
  intros x. unfold scal; simpl; unfold mult; simpl. unfold Rdiv. ring.
Qed.
Lemma fpow_PInf_neg b : b < 0 -> fpow PInf (Fin b) = Fin 0.
Proof. intros H. unfold fpow. rewrite feq_fin, Reqb_false by lra. cbn. now rewrite Rltb_false by lra. Qed.
Lemma fpow_PInf_pos b : 0 < b -> fpow PInf (Fin b) = PInf.
Proof. intros H. unfold fpow. rewrite feq_fin, Reqb_false by lra. cbn. now rewrite Rltb_true by lra. Qed.
Lemma fdiv_by_PInf a : fdiv (Fin a) PInf = Fin 0.
Proof. reflexivity. Qed.

Lemma C106_pareto_pf :
  forall bk kw alpha low, 0 < low -> alpha < -1 ->
    let f := fun x => powerlaw bk kw (Fin x) (Fin alpha) PInf (Fin low) in
    integrates_above f low 1 /\ (forall x, 0 < x < low -> returns (f x) 0) /\
    (forall x, low <= x -> returns (f x) ((- (1 + alpha) / low) * Rpower (x / low) alpha)).
Proof.
  intros bk kw alpha low Hl Ha f.
  assert (N : powerlaw_norm (Fin alpha) PInf (Fin low) = Fin (- (1 + alpha) / Rpower low (1 + alpha))).
  { assert (P := Rpower_pos low (1 + alpha)). unfold powerlaw_norm. rewrite feq_fin, Reqb_false by lra. rewrite fadd_fin, fpow_PInf_neg by lra. rewrite fpow_fin by auto. rewrite fsub_fin, fdiv_fin by lra.
    f_equal. field. lra. }
  assert (V : forall x, low <= x -> returns (f x) ((- (1 + alpha) / low) * Rpower (x / low) alpha)).
  { intros x Hx. subst f; cbv beta. red. rewrite powerlaw_ok; [|lra|right; right; lra]. unfold powerlaw_body. rewrite N, fpow_fin by lra.
    rewrite fge_fin, Rleb_true by auto. change (fle (Fin x) PInf) with true. cbn [andb of_bool]. rewrite !fmul_fin. do 2 f_equal.
    assert (P := Rpower_pos low alpha). assert (Hx0 : 0 < x) by lra.
    unfold Rdiv at 3. rewrite <- Rpower_mult_distr; auto; [|now apply Rinv_0_lt_compat].
    rewrite Rpower_plus, Rpower_1 by auto.
    assert (E : Rpower (/ low) alpha = / Rpower low alpha) by (unfold Rpower; rewrite ln_Rinv by auto; rewrite <- exp_Ropp; f_equal; ring).
    rewrite E. field. lra. }
  split; [|split; auto].
  - exists (fun x => (- (1 + alpha) / low) * Rpower (x / low) alpha). split; auto.
    assert (P := Rpower_pos low (1 + alpha)). assert (Pa := Rpower_pos low alpha).
    assert (H : is_RInt_gen (fun t => Rpower t alpha) (at_point low) (Rbar_locally p_infty) (0 - Pw alpha low)).
    { apply (gen_prim _ (Pw alpha)); try typeclasses eauto.
      - apply (gen_ap (T := True) _ _ low (fun b => low < b)); auto.
        + exists low; auto.
        + intros b Hb. cbn [fst snd]. apply pw_int; lra.
      - apply at_point_lim.
      - unfold Pw. apply lim_scal; [typeclasses eauto|]. apply pow_lim_p; lra. }
    apply (is_RInt_gen_scal _ (- (1 + alpha) / Rpower low (1 + alpha))) in H. unfold scal in H; simpl in H; unfold mult in H; simpl in H.
    replace (- (1 + alpha) / Rpower low (1 + alpha) * (0 - Pw alpha low)) with 1 in H by (unfold Pw; field; lra).
    revert H. apply is_RInt_gen_ext. apply (gen_ap (T := True) _ _ low (fun b => low < b)); auto.
    + exists low; auto.
    + intros b Hb x Hx. cbn [fst snd] in Hx. rewrite Rmin_left in Hx by lra. rewrite Rmax_right in Hx by lra.
      unfold Rdiv at 3. rewrite <- Rpower_mult_distr; [|lra|now apply Rinv_0_lt_compat].
      rewrite Rpower_plus, Rpower_1 by auto.
      assert (E : Rpower (/ low) alpha = / Rpower low alpha) by (unfold Rpower; rewrite ln_Rinv by auto; rewrite <- exp_Ropp; f_equal; ring).
      rewrite E. eqR. field. lra.
  - intros x Hx. subst f; cbv beta. red. rewrite powerlaw_ok; [|lra|right; right; lra]. unfold powerlaw_body. rewrite N, fpow_fin by lra.
    rewrite fge_fin, Rleb_false by lra. rewrite andb_false_r. cbn [of_bool]. rewrite !fmul_fin. do 2 f_equal. ring.
Qed.

Lemma C106_no_pareto_pf :
  forall bk kw alpha low x, 0 < low -> 0 < x -> -1 <= alpha -> (bk = Jax \/ ~ In "alpha"%string kw \/ alpha <> 1) ->
    returns (powerlaw bk kw (Fin x) (Fin alpha) PInf (Fin low)) 0.
Proof.
  intros bk kw alpha low x Hl Hx Ha Ho. red. rewrite powerlaw_ok; [|lra|auto]. unfold powerlaw_body.
  assert (N : powerlaw_norm (Fin alpha) PInf (Fin low) = Fin 0).
  { unfold powerlaw_norm. rewrite feq_fin. destruct (Reqb_spec alpha (-1)).
    - rewrite fdiv_PInf by auto. reflexivity.
    - rewrite fadd_fin, fpow_PInf_pos by lra. rewrite fpow_fin by auto. reflexivity. }
  rewrite N, fpow_fin by auto. rewrite fmul_fin. rewrite Rmult_0_r.
  destruct (fle (Fin x) PInf && fge (Fin x) (Fin low)); cbn [of_bool]; rewrite fmul_fin; do 2 f_equal; ring.
Qed.

Lemma C106_from_zero_pf :
  forall bk kw alpha high, 0 < high -> -1 < alpha -> (bk = Jax \/ ~ In "alpha"%string kw \/ alpha <> 1) ->
    let f := fun x => powerlaw bk kw (Fin x) (Fin alpha) (Fin high) (Fin 0) in
    integrates_from_zero f high 1 /\ (forall x, high < x -> returns (f x) 0) /\
    (forall x, 0 < x <= high -> returns (f x) ((1 + alpha) / high * Rpower (x / high) alpha)).
Proof.
  intros bk kw alpha high Hh Ha Ho f.
  assert (N : powerlaw_norm (Fin alpha) (Fin high) (Fin 0) = Fin ((1 + alpha) / Rpower high (1 + alpha))).
  { assert (P := Rpower_pos high (1 + alpha)). unfold powerlaw_norm. rewrite feq_fin, Reqb_false by lra. rewrite fadd_fin, fpow_zero_pos by lra. rewrite fpow_fin by auto. rewrite fsub_fin, fdiv_fin by lra.
    f_equal. field. lra. }
  assert (W : forall x, 0 < x -> Rpower x alpha * ((1 + alpha) / Rpower high (1 + alpha)) = (1 + alpha) / high * Rpower (x / high) alpha).
  { intros x Hx. assert (P := Rpower_pos high alpha).
    unfold Rdiv at 3. rewrite <- Rpower_mult_distr; auto; [|now apply Rinv_0_lt_compat].
    rewrite Rpower_plus, Rpower_1 by auto.
    assert (E : Rpower (/ high) alpha = / Rpower high alpha) by (unfold Rpower; rewrite ln_Rinv by auto; rewrite <- exp_Ropp; f_equal; ring).
    rewrite E. field. lra. }
  assert (V : forall x, 0 < x <= high -> returns (f x) ((1 + alpha) / high * Rpower (x / high) alpha)).
  { intros x Hx. subst f; cbv beta. red. rewrite powerlaw_ok; [|lra|auto]. unfold powerlaw_body. rewrite N, fpow_fin by lra.
    rewrite fge_fin, fle_fin, !Rleb_true by lra. cbn [andb of_bool]. rewrite !fmul_fin. do 2 f_equal. rewrite W by lra. ring. }
  split; [|split; auto].
  - exists (fun x => (1 + alpha) / high * Rpower (x / high) alpha). split; auto.
    assert (P := Rpower_pos high (1 + alpha)).
    assert (H : is_RInt_gen (fun t => Rpower t alpha) (at_right 0) (at_point high) (Pw alpha high - 0)).
    { apply (gen_prim _ (Pw alpha)); try typeclasses eauto.
      - apply Filter_prod with (fun x => 0 < x) (fun x => x = high); [|reflexivity|].
        + exists (mkposreal 1 Rlt_0_1). intros y _ Hy; exact Hy.
        + intros x y X ->. cbn [fst snd]. apply pw_int; lra.
      - unfold Pw. apply lim_scal; [typeclasses eauto|]. apply pow_lim_0; lra.
      - apply at_point_lim. }
    apply (is_RInt_gen_scal _ ((1 + alpha) / Rpower high (1 + alpha))) in H. unfold scal in H; simpl in H; unfold mult in H; simpl in H.
    replace ((1 + alpha) / Rpower high (1 + alpha) * (Pw alpha high - 0)) with 1 in H by (unfold Pw; field; lra).
    revert H. apply is_RInt_gen_ext. apply Filter_prod with (fun x => 0 < x) (fun x => x = high); [|reflexivity|].
    + exists (mkposreal 1 Rlt_0_1). intros y _ Hy; exact Hy.
    + intros a b A -> x Hx. cbn [fst snd] in Hx. rewrite <- W; [eqR; ring|].
      destruct Hx as [Hx _]. eapply Rlt_trans; [|exact Hx]. now apply Rmin_glb_lt.
  - intros x Hx. subst f; cbv beta. red. rewrite powerlaw_ok; [|lra|auto]. unfold powerlaw_body. rewrite N, fpow_fin by lra.
    rewrite fle_fin, Rleb_false by lra. cbn [andb of_bool]. rewrite !fmul_fin. do 2 f_equal. ring.
Qed.

Lemma C106_no_density_from_zero_pf :
  forall bk kw alpha high x, 0 < high -> 0 < x -> alpha <= -1 ->
    returns (powerlaw bk kw (Fin x) (Fin alpha) (Fin high) (Fin 0)) 0.
Proof.
  intros bk kw alpha high x Hh Hx Ha. red. rewrite powerlaw_ok; [|lra|right; right; lra]. unfold powerlaw_body.
  assert (N : powerlaw_norm (Fin alpha) (Fin high) (Fin 0) = Fin 0).
  { unfold powerlaw_norm. rewrite feq_fin. destruct (Reqb_spec alpha (-1)).
    - simpl fdiv. rewrite Reqb_refl, inf_of_sign_pos by auto. reflexivity.
    - rewrite fadd_fin, fpow_zero_neg by lra. rewrite fpow_fin by auto. reflexivity. }
  rewrite N, fpow_fin by auto. rewrite fmul_fin. rewrite Rmult_0_r.
  destruct (fle (Fin x) (Fin high) && fge (Fin x) (Fin 0)); cbn [of_bool]; rewrite fmul_fin; do 2 f_equal; ring.
Qed.

