(** Proofs about [powerlaw]. *)
From Coq Require Import Reals Lra Lia Psatz String Bool.
From Coquelicot Require Import Coquelicot.
From Coq Require Import List.
From Verif Require Import Xf Py Xf_facts Py_facts Calc Special Spec Utils_model.
Import ListNotations.
Local Open Scope R_scope.

(** ** The guard *)
Definition kw_in (k : string) (kw : list string) : bool := existsb (String.eqb k) kw.

Lemma powerlaw_cases bk kw xx alpha high low :
  powerlaw bk kw xx alpha high low =
    if is_jax bk then Ok (powerlaw_body xx alpha high low)
    else if kw_in "low" kw && negb (fge low (Fin 0)) then Err ValueError
    else if kw_in "alpha" kw && feq alpha (Fin 1) then Err ValueError
    else Ok (powerlaw_body xx alpha high low).
Proof.
  unfold powerlaw, apply_conditions. destruct (is_jax bk); auto.
  unfold kwargs_of, powerlaw_conds. cbn [filter fst].
  unfold kw_in.
  destruct (existsb (String.eqb "xx") kw), (existsb (String.eqb "alpha") kw),
    (existsb (String.eqb "high") kw), (existsb (String.eqb "low") kw); simpl;
    unfold fne; destruct (fge low (Fin 0)), (feq alpha (Fin 1)); reflexivity.
Qed.

Definition alpha_ok (bk : backend) (kw : list string) (alpha : R) : Prop :=
  bk = Jax \/ ~ In "alpha"%string kw \/ alpha <> 1.

Lemma kw_in_In k kw : kw_in k kw = true <-> In k kw.
Proof.
  unfold kw_in; rewrite existsb_exists; split.
  - intros [x [H E]]; apply String.eqb_eq in E; subst; auto.
  - intros H; exists k; split; auto; apply String.eqb_refl.
Qed.

Lemma powerlaw_ok bk kw xx alpha high low : 0 <= low -> alpha_ok bk kw alpha ->
  powerlaw bk kw xx (Fin alpha) high (Fin low) = Ok (powerlaw_body xx (Fin alpha) high (Fin low)).
Proof.
  intros Hl Ha. rewrite powerlaw_cases.
  destruct Ha as [->|Ha]; simpl is_jax; cbn iota; auto.
  destruct (is_jax bk); auto.
  rewrite fge_fin, Rleb_true by auto. rewrite andb_false_r.
  rewrite feq_fin.
  destruct Ha as [Ha|Ha].
  - destruct (kw_in "alpha" kw) eqn:E; [apply kw_in_In in E; tauto|auto].
  - rewrite Reqb_false by auto. now rewrite andb_false_r.
Qed.

(** ** Normalisation constant *)
Definition plnorm (alpha high low : R) : R :=
  if Reqb alpha (-1) then / ln (high / low)
  else (1 + alpha) / (Rpower high (1 + alpha) - Rpower low (1 + alpha)).

Lemma plnorm_pos alpha high low : 0 < low < high -> 0 < plnorm alpha high low.
Proof.
  intros [Hl Hh]. unfold plnorm.
  destruct (Reqb_spec alpha (-1)).
  - apply Rinv_0_lt_compat. rewrite <- ln_1. apply ln_increasing; [lra|].
    apply (Rmult_lt_reg_r low); auto. field_simplify; lra.
  - destruct (Rlt_dec (-1) alpha).
    + apply Rdiv_lt_0_compat; [lra|].
      assert (Rpower low (1+alpha) < Rpower high (1+alpha)) by (apply Rpower_strict_incr; lra). lra.
    + assert (Rpower high (1+alpha) < Rpower low (1+alpha)) by (apply Rpower_strict_decr; lra).
      replace ((1 + alpha) / (Rpower high (1 + alpha) - Rpower low (1 + alpha)))
        with ((- (1 + alpha)) / (Rpower low (1 + alpha) - Rpower high (1 + alpha))) by (field; lra).
      apply Rdiv_lt_0_compat; lra.
Qed.

Lemma ln_ratio_pos low high : 0 < low < high -> 0 < ln (high / low).
Proof.
  intros [Hl Hh]. rewrite <- ln_1. apply ln_increasing; [lra|].
  apply (Rmult_lt_reg_r low); auto. field_simplify; lra.
Qed.

Lemma powerlaw_norm_fin alpha high low : 0 < low < high ->
  powerlaw_norm (Fin alpha) (Fin high) (Fin low) = Fin (plnorm alpha high low).
Proof.
  intros [Hl Hh]. unfold powerlaw_norm, plnorm. rewrite feq_fin.
  destruct (Reqb_spec alpha (-1)).
  - rewrite fdiv_fin by lra. rewrite flog_fin by (apply Rdiv_lt_0_compat; lra).
    rewrite fdiv_fin.
    + f_equal; unfold Rdiv; ring.
    + apply Rgt_not_eq, ln_ratio_pos; lra.
  - simpl fadd. rewrite !fpow_fin by lra. simpl fsub. unfold fsub; simpl fopp; simpl fadd.
    rewrite fdiv_fin; auto.
    destruct (Rlt_dec (-1) alpha).
    + assert (Rpower low (1+alpha) < Rpower high (1+alpha)) by (apply Rpower_strict_incr; lra). lra.
    + assert (Rpower high (1+alpha) < Rpower low (1+alpha)) by (apply Rpower_strict_decr; lra). lra.
Qed.

(** [low = high]: the normalisation is infinite or NaN (used for the mass-ratio edge). *)
Lemma powerlaw_norm_degenerate alpha m : 0 < m ->
  powerlaw_norm (Fin alpha) (Fin m) (Fin m) =
  if Reqb alpha (-1) then PInf else inf_of_sign (1 + alpha).
Proof.
  intros Hm. unfold powerlaw_norm. rewrite feq_fin.
  destruct (Reqb_spec alpha (-1)).
  - rewrite fdiv_fin by lra. replace (m / m) with 1 by (field; lra).
    rewrite flog_fin, ln_1 by lra. simpl. rewrite Reqb_refl. apply inf_of_sign_pos; lra.
  - simpl fadd. rewrite !fpow_fin by lra. unfold fsub; simpl.
    rewrite Reqb_true by lra. auto.
Qed.

Definition plpdf (alpha high low x : R) : R := Rpower x alpha * plnorm alpha high low.

Lemma powerlaw_body_in alpha high low x : 0 < low < high -> low <= x <= high ->
  powerlaw_body (Fin x) (Fin alpha) (Fin high) (Fin low) = Fin (plpdf alpha high low x).
Proof.
  intros Hlh Hx. unfold powerlaw_body. rewrite powerlaw_norm_fin by auto.
  rewrite fpow_fin by lra. rewrite fle_fin, fge_fin, !Rleb_true by lra. simpl.
  f_equal; unfold plpdf; ring.
Qed.

Lemma powerlaw_body_out alpha high low x : 0 < low < high -> 0 < x -> x < low \/ high < x ->
  powerlaw_body (Fin x) (Fin alpha) (Fin high) (Fin low) = Fin 0.
Proof.
  intros Hlh Hx Ho. unfold powerlaw_body. rewrite powerlaw_norm_fin by auto.
  rewrite fpow_fin by lra. rewrite fle_fin, fge_fin.
  destruct Ho; [rewrite (Rleb_false low x) by auto | rewrite (Rleb_false x high) by auto];
    rewrite ?andb_false_r; simpl; f_equal; ring.
Qed.

Lemma plpdf_pos alpha high low x : 0 < low < high -> 0 < plpdf alpha high low x.
Proof. intros; unfold plpdf; apply Rmult_lt_0_compat; [apply Rpower_pos|now apply plnorm_pos]. Qed.

Lemma plpdf_int alpha high low : 0 < low < high -> is_RInt (plpdf alpha high low) low high 1.
Proof.
  intros Hlh. unfold plpdf.
  assert (Hp := plnorm_pos alpha _ _ Hlh). unfold plnorm in *.
  destruct (Reqb_spec alpha (-1)) as [->|Hn].
  - evar_last. apply is_RInt_scal_r. apply is_RInt_Rpower_m1; lra.
    assert (H := ln_ratio_pos _ _ Hlh). rewrite <- ln_div by lra. field; lra.
  - evar_last. apply is_RInt_scal_r. apply is_RInt_Rpower; lra.
    field. split; [|lra]. intros E. rewrite E in Hp. unfold Rdiv in Hp.
    rewrite Rinv_0, Rmult_0_r in Hp. lra.
Qed.

Lemma plpdf_continuous alpha high low x : 0 < x -> continuous (plpdf alpha high low) x.
Proof.
  intros Hx. unfold plpdf.
  apply (continuous_mult (fun x => Rpower x alpha) (fun _ => plnorm alpha high low)).
  - now apply continuous_Rpower.
  - apply continuous_const.
Qed.

Lemma powerlaw_density bk kw alpha high low : 0 < low < high -> alpha_ok bk kw alpha ->
  let f := fun x => powerlaw bk kw (Fin x) (Fin alpha) (Fin high) (Fin low) in
  positive_on f low high /\ integrates_to f low high 1 /\ zero_outside f (fun x => 0 < x) low high.
Proof.
  intros Hlh Hok f. subst f; cbv beta. repeat split.
  - intros x Hx. exists (plpdf alpha high low x); split; [|now apply plpdf_pos].
    red. rewrite powerlaw_ok by (lra || auto). now rewrite powerlaw_body_in.
  - exists (plpdf alpha high low); split; [|now apply plpdf_int].
    intros x Hx. red. rewrite powerlaw_ok by (lra || auto). now rewrite powerlaw_body_in.
  - intros x Hx Ho. red. rewrite powerlaw_ok by (lra || auto). now rewrite powerlaw_body_out.
Qed.

(** ** Limit at alpha = -1 *)
Lemma is_lim_diffquot_Rpower h l : 0 < h -> 0 < l ->
  is_lim (fun s => (Rpower h s - Rpower l s) / s) 0 (ln h - ln l).
Proof.
  intros Hh Hl.
  assert (D : is_derive (fun s => Rpower h s - Rpower l s) 0 (ln h - ln l)).
  { unfold Rpower. auto_derive; auto. rewrite !Rmult_0_l, exp_0; ring. }
  apply is_derive_Reals in D.
  apply is_lim_spec. intros eps. destruct (D eps (cond_pos eps)) as [d Hd].
  exists d. intros y Hy Hy0. simpl in Hy0.
  specialize (Hd y Hy0). change (Rabs (y - 0) < d) in Hy. rewrite Rminus_0_r in Hy.
  specialize (Hd Hy). rewrite Rplus_0_l in Hd. rewrite !Rpower_O in Hd by lra.
  simpl. replace (Rpower h y - Rpower l y) with (Rpower h y - Rpower l y - (1 - 1)) by ring. exact Hd.
Qed.

Lemma plnorm_lim high low : 0 < low < high ->
  is_lim (fun a => plnorm a high low) (-1) (plnorm (-1) high low).
Proof.
  intros Hlh.
  assert (Hp := ln_ratio_pos _ _ Hlh). rewrite ln_div in Hp by lra.
  assert (L : is_lim (fun s => / ((Rpower high s - Rpower low s) / s)) 0 (/ (ln high - ln low))).
  { apply (is_lim_inv _ _ (Finite (ln high - ln low))).
    - apply is_lim_diffquot_Rpower; lra.
    - intros E; injection E; lra. }
  replace (plnorm (-1) high low) with (/ (ln high - ln low)).
  2:{ unfold plnorm. rewrite Reqb_refl. rewrite ln_div; lra. }
  apply is_lim_spec in L. apply is_lim_spec. intros eps. destruct (L eps) as [d Hd].
  exists d. intros y Hy Hne. simpl in Hne.
  unfold plnorm. rewrite (Reqb_false y (-1)) by auto.
  assert (B : ball 0 d (1 + y)).
  { change (Rabs (y - -1) < d) in Hy. change (Rabs (1 + y - 0) < d).
    replace (1 + y - 0) with (y - -1) by ring. exact Hy. }
  specialize (Hd _ B). simpl in Hd.
  replace ((1 + y) / (Rpower high (1 + y) - Rpower low (1 + y)))
    with (/ ((Rpower high (1 + y) - Rpower low (1 + y)) / (1 + y))).
  - apply Hd; lra.
  - field. split; [|lra]. intros E.
    destruct (Rlt_dec (-1) y).
    + assert (Rpower low (1+y) < Rpower high (1+y)) by (apply Rpower_strict_incr; lra). lra.
    + assert (Rpower high (1+y) < Rpower low (1+y)) by (apply Rpower_strict_decr; lra). lra.
Qed.

Lemma plpdf_lim high low x : 0 < low < high -> 0 < x ->
  is_lim (fun a => plpdf a high low x) (-1) (plpdf (-1) high low x).
Proof.
  intros Hlh Hx. unfold plpdf.
  apply (is_lim_mult (fun a => Rpower x a) (fun a => plnorm a high low) (-1)
           (Finite (Rpower x (-1))) (Finite (plnorm (-1) high low))).
  - apply (is_lim_continuity (fun a => Rpower x a) (-1)).
    apply derivable_continuous_pt. unfold Rpower.
    apply ex_derive_Reals_0. auto_derive; auto.
  - now apply plnorm_lim.
  - simpl; auto.
Qed.

(** ** Outside the support *)
Lemma powerlaw_body_zero_nonneg alpha high low : 0 < low < high -> 0 <= alpha ->
  powerlaw_body (Fin 0) (Fin alpha) (Fin high) (Fin low) = Fin 0.
Proof.
  intros Hlh Ha. unfold powerlaw_body. rewrite powerlaw_norm_fin by auto.
  rewrite fle_fin, fge_fin, (Rleb_false low 0) by lra. rewrite andb_false_r. simpl of_bool.
  destruct Ha as [Ha|<-].
  - rewrite fpow_zero_pos by auto. simpl; f_equal; ring.
  - rewrite fpow_zero_zero. simpl; f_equal; ring.
Qed.

Lemma powerlaw_body_zero_neg alpha high low : 0 < low < high -> alpha < 0 ->
  powerlaw_body (Fin 0) (Fin alpha) (Fin high) (Fin low) = NaN.
Proof.
  intros Hlh Ha. unfold powerlaw_body. rewrite powerlaw_norm_fin by auto.
  rewrite fle_fin, fge_fin, (Rleb_false low 0) by lra. rewrite andb_false_r. simpl of_bool.
  rewrite fpow_zero_neg by auto. simpl. rewrite inf_of_sign_pos by (now apply plnorm_pos).
  simpl. apply inf_of_sign_0.
Qed.

Lemma powerlaw_body_neg_nonint alpha high low x : x < 0 -> (forall z, alpha <> IZR z) ->
  powerlaw_body (Fin x) (Fin alpha) (Fin high) (Fin low) = NaN.
Proof. intros Hx Hz. unfold powerlaw_body. rewrite fpow_neg_nonint by auto. reflexivity. Qed.

Lemma is_int_IZR z : is_int (IZR z) = true.
Proof.
  unfold is_int, Int_part. rewrite <- (tech_up (IZR z) (z + 1)%Z).
  - replace (z + 1 - 1)%Z with z by lia. apply Reqb_refl.
  - rewrite plus_IZR; lra.
  - rewrite plus_IZR; lra.
Qed.

Lemma powerlaw_body_neg_int (z : Z) high low x : 0 < low < high -> x < 0 ->
  powerlaw_body (Fin x) (Fin (IZR z)) (Fin high) (Fin low) = Fin 0.
Proof.
  intros Hlh Hx. unfold powerlaw_body. rewrite powerlaw_norm_fin by auto.
  rewrite fle_fin, fge_fin, (Rleb_false low x) by lra. rewrite andb_false_r. simpl of_bool.
  unfold fpow. rewrite !feq_fin.
  destruct (Reqb_spec (IZR z) 0); [simpl; f_equal; ring|].
  rewrite (Reqb_false x 1), (Reqb_false x 0), (Rltb_false 0 x) by lra.
  rewrite is_int_IZR. simpl; f_equal; ring.
Qed.
