(** Facts about binary64 rounding ([Double.v]) and its agreement with Flocq's IEEE-754 formalisation. *)
From Coq Require Import Reals ZArith Lra Lia Bool.
From Flocq Require Import Core BinarySingleNaN.
From Verif Require Import Xf Xf_facts Double.
Local Open Scope R_scope.

Global Instance prec64 : Prec_gt_0 53 := eq_refl.
Lemma valid64 : Valid_exp format64.
Proof. apply FLT_exp_valid. exact prec64. Qed.
Local Existing Instance valid64.
Lemma mono64 : Monotone_exp format64.
Proof. apply FLT_exp_monotone. Qed.
Local Existing Instance mono64.

(** The largest double. *)
Lemma MAXF_bpow : MAXF = bpow radix2 1024 - bpow radix2 971.
Proof. Transparent MAXF. unfold MAXF. Opaque MAXF. unfold MAXZ. rewrite minus_IZR. reflexivity. Qed.
Lemma bpow_half : bpow radix2 971 = 2 * bpow radix2 970.
Proof. exact (bpow_plus_1 radix2 970). Qed.
Lemma MAXF_format : generic_format radix2 format64 MAXF.
Proof.
  apply generic_format_FLT. exists (Float radix2 (2 ^ 53 - 1) 971).
  - unfold F2R, Fnum, Fexp. rewrite MAXF_bpow, minus_IZR. replace (IZR (2 ^ 53)) with (bpow radix2 53) by (symmetry; exact (IZR_Zpower radix2 53 ltac:(lia))). rewrite Rmult_minus_distr_r, <- bpow_plus. change (53 + 971)%Z with 1024%Z. lra.
  - simpl. lia.
  - simpl. lia.
Qed.
Lemma MAXF_pos' : 0 < MAXF.
Proof. rewrite MAXF_bpow. apply Rlt_Rminus. apply bpow_lt. lia. Qed.
Lemma MAXF_double : is_double MAXF.
Proof. split; [apply MAXF_format|]. rewrite Rabs_pos_eq by (left; apply MAXF_pos'). rewrite MAXF_bpow. assert (H := bpow_gt_0 radix2 971). lra. Qed.
Lemma opp_double r : is_double r -> is_double (- r).
Proof. intros [F B]. split; [now apply generic_format_opp|now rewrite Rabs_Ropp]. Qed.
Lemma zero_double : is_double 0.
Proof. split; [apply generic_format_0|]. rewrite Rabs_R0. apply bpow_gt_0. Qed.
Lemma MAXF_mag : mag radix2 MAXF = 1024%Z :> Z.
Proof.
  apply mag_unique. rewrite Rabs_pos_eq by (left; apply MAXF_pos'). rewrite MAXF_bpow. assert (H := bpow_gt_0 radix2 971).
  assert (E : bpow radix2 1024 = 2 * bpow radix2 (1024 - 1)) by exact (bpow_plus_1 radix2 1023).
  assert (L : bpow radix2 971 < bpow radix2 (1024 - 1)) by (apply bpow_lt; lia). split; lra.
Qed.
(** Every finite double is at most the largest one. *)
Lemma double_le r : is_double r -> Rabs r <= MAXF.
Proof.
  intros [F B]. rewrite <- (Rabs_pos_eq MAXF) by (left; apply MAXF_pos').
  assert (G : generic_format radix2 format64 (bpow radix2 1024)) by (apply generic_format_bpow; unfold format64, FLT_exp; lia).
  assert (P := pred_ge_gt radix2 format64 (Rabs r) (bpow radix2 1024) (generic_format_abs _ _ _ F) G B).
  rewrite pred_bpow in P. change (format64 1024) with 971%Z in P. rewrite (Rabs_pos_eq MAXF) by (left; apply MAXF_pos'). rewrite MAXF_bpow. exact P.
Qed.
Lemma rnd_double r : is_double r -> rnd64 r = r.
Proof. intros [F _]. apply round_generic; auto. apply valid_rnd_N. Qed.
Lemma fl_double r : is_double r -> fl r = Fin r.
Proof. intros D. unfold fl. rewrite (rnd_double r D). destruct (Rlt_dec _ _) as [_|N]; [reflexivity|]. destruct D as [_ B]. contradiction. Qed.
Lemma fl_fin r v : fl r = Fin v -> is_double v /\ v = rnd64 r.
Proof.
  unfold fl. destruct (Rlt_dec _ _) as [B|B]; [|unfold inf_of_sign; destruct (Rltb 0 r); [discriminate|]; destruct (Rltb r 0); discriminate].
  intros E. injection E as <-. split; [|reflexivity]. split; [|exact B]. apply generic_format_round; [apply valid64|apply valid_rnd_N].
Qed.
Lemma fl_nan r : fl r <> NaN.
Proof.
  unfold fl. destruct (Rlt_dec _ _) as [B|B]; [discriminate|]. unfold inf_of_sign. destruct (Rltb 0 r) eqn:E; [discriminate|]. destruct (Rltb r 0) eqn:E'; [discriminate|].
  exfalso. apply B. assert (r = 0). { revert E E'. unfold Rltb. destruct (Rlt_dec 0 r), (Rlt_dec r 0); try discriminate. intros; lra. }
  subst r. unfold rnd64. rewrite round_0 by apply valid_rnd_N. rewrite Rabs_R0. apply bpow_gt_0.
Qed.
Lemma rnd_le a b : a <= b -> rnd64 a <= rnd64 b.
Proof. intros. apply round_le; auto. apply valid64. apply valid_rnd_N. Qed.
Lemma fl_pos_not_ninf r : 0 <= r -> fl r <> NInf.
Proof.
  unfold fl. destruct (Rlt_dec _ _) as [B|B]; [discriminate|]. intros H. unfold inf_of_sign. destruct (Rltb 0 r); [discriminate|]. rewrite Rltb_false by auto. discriminate.
Qed.
Lemma fl_neg_not_pinf r : r <= 0 -> fl r <> PInf.
Proof.
  unfold fl. destruct (Rlt_dec _ _) as [B|B]; [discriminate|]. intros H. unfold inf_of_sign. rewrite Rltb_false by auto. destruct (Rltb r 0); discriminate.
Qed.
(** Subtracting the largest double. *)
Lemma succ_neg_max : succ radix2 format64 (- MAXF) = - MAXF + bpow radix2 971.
Proof.
  rewrite succ_opp. rewrite pred_eq_pos by (left; apply MAXF_pos'). unfold pred_pos. rewrite MAXF_mag.
  rewrite Req_bool_false. 2:{ rewrite MAXF_bpow. assert (E : bpow radix2 1024 = 2 * bpow radix2 (1024 - 1)) by exact (bpow_plus_1 radix2 1023). assert (L : bpow radix2 971 < bpow radix2 (1024 - 1)) by (apply bpow_lt; lia). lra. }
  rewrite ulp_neq_0 by (assert (H := MAXF_pos'); lra). unfold cexp. rewrite MAXF_mag. change (format64 1024) with 971%Z. lra.
Qed.
Lemma rnd_below_max x : x < - MAXF + bpow radix2 970 -> rnd64 x <= - MAXF.
Proof.
  intros H. apply round_N_le_midp; [apply valid64|apply generic_format_opp, MAXF_format|]. rewrite succ_neg_max, bpow_half. lra.
Qed.
Lemma rnd_above_max x : - MAXF + bpow radix2 970 < x -> - MAXF < rnd64 x.
Proof.
  intros H. assert (B := bpow_gt_0 radix2 970). apply Rlt_le_trans with (succ radix2 format64 (- MAXF)); [rewrite succ_neg_max, bpow_half; lra|].
  apply round_N_ge_midp; [apply valid64|apply generic_format_succ; [apply valid64|apply generic_format_opp, MAXF_format]|].
  rewrite pred_succ; [|apply valid64|apply generic_format_opp, MAXF_format]. rewrite succ_neg_max, bpow_half. lra.
Qed.
Lemma fl_below_max x : x < - MAXF + bpow radix2 970 -> nan_to_num (fl x) = Fin (- MAXF).
Proof.
  intros H. assert (Hx : x < 0). { assert (bpow radix2 970 < MAXF); [|lra]. rewrite MAXF_bpow. assert (E : bpow radix2 1024 = 2 * bpow radix2 (1024 - 1)) by exact (bpow_plus_1 radix2 1023).
    assert (L : bpow radix2 971 < bpow radix2 (1024 - 1)) by (apply bpow_lt; lia). assert (L' : bpow radix2 970 < bpow radix2 (1024 - 1)) by (apply bpow_lt; lia). lra. }
  assert (R0 := rnd_below_max x H). destruct (fl x) as [v| | |] eqn:E.
  - apply fl_fin in E. destruct E as [D E]. assert (B := double_le v D). simpl. f_equal. rewrite E in *. rewrite Rabs_left1 in B; [lra|]. assert (P := MAXF_pos'). lra.
  - destruct (fl_neg_not_pinf x); [lra|exact E].
  - reflexivity.
  - destruct (fl_nan x E).
Qed.
Lemma fl_above_max x : - MAXF + bpow radix2 970 < x -> exists v, nan_to_num (fl x) = Fin v /\ - MAXF < v.
Proof.
  intros H. assert (R0 := rnd_above_max x H). assert (P := MAXF_pos'). destruct (fl x) as [v| | |] eqn:E.
  - apply fl_fin in E. destruct E as [D E]. exists v. split; [reflexivity|]. now rewrite E.
  - exists MAXF. split; [reflexivity|lra].
  - exfalso. unfold fl in E. destruct (Rlt_dec _ _) as [B|B]; [discriminate|]. unfold inf_of_sign in E. destruct (Rltb 0 x) eqn:E1; [discriminate|]. destruct (Rltb x 0) eqn:E2; [|discriminate].
    apply B. destruct (Rle_dec 0 (rnd64 x)) as [Q|Q].
    + assert (x <= 0) by (unfold Rltb in E1; destruct (Rlt_dec 0 x); [discriminate|lra]). assert (rnd64 x <= 0). { replace 0 with (rnd64 0) by (apply round_0, valid_rnd_N). now apply rnd_le. }
      replace (rnd64 x) with 0 by lra. rewrite Rabs_R0. apply bpow_gt_0.
    + rewrite Rabs_left by lra. destruct MAXF_double as [_ M]. rewrite Rabs_pos_eq in M by lra. lra.
  - destruct (fl_nan x E).
Qed.

(** ** Agreement with Flocq's binary64 *)
Notation b64 := (binary_float 53 1024).
Global Instance emax64 : Prec_lt_emax 53 1024 := eq_refl.
Definition B2X (x : b64) : xf :=
  match x with
  | B754_infinity false => PInf
  | B754_infinity true => NInf
  | B754_nan => NaN
  | _ => Fin (B2R x)
  end.
Lemma B2X_fin (x : b64) : is_finite x = true -> B2X x = Fin (B2R x).
Proof. destruct x as [s|s| |s m e H]; try destruct s; simpl; intros; congruence || reflexivity. Qed.
Lemma B2R_double (x : b64) : is_double (B2R x).
Proof. split; [exact (generic_format_B2R 53 1024 x)|exact (abs_B2R_lt_emax 53 1024 x)]. Qed.
Lemma B2R_sign (x : b64) : is_finite x = true -> if Bsign x then B2R x <= 0 else 0 <= B2R x.
Proof.
  destruct x as [s|s| |s m e H]; simpl; intros F; try discriminate; destruct s; simpl; try lra.
  - unfold F2R; simpl. assert (P := bpow_gt_0 radix2 e). assert (Q := Pos2Z.neg_is_neg m). apply IZR_lt in Q. nra.
  - unfold F2R; simpl. assert (P := bpow_gt_0 radix2 e). assert (Q := Pos2Z.is_pos m). apply IZR_lt in Q. nra.
Qed.
Lemma Bminus_xfl (x y : b64) : B2X (Bminus mode_NE x y) = xfl (fsub (B2X x) (B2X y)).
Proof.
  destruct (is_finite x) eqn:Fx; [destruct (is_finite y) eqn:Fy|].
  - rewrite (B2X_fin x Fx), (B2X_fin y Fy), fsub_fin. cbn [xfl]. assert (C := Bminus_correct 53 1024 _ _ mode_NE x y Fx Fy). unfold fl.
    change (round radix2 (SpecFloat.fexp 53 1024) (round_mode mode_NE) (B2R x - B2R y)) with (rnd64 (B2R x - B2R y)) in C.
    destruct (Rlt_bool_spec (Rabs (rnd64 (B2R x - B2R y))) (bpow radix2 1024)) as [L|L].
    + destruct C as (C1 & C2 & _). rewrite (B2X_fin _ C2), C1. destruct (Rlt_dec _ _); [reflexivity|contradiction].
    + destruct C as (C1 & C2). destruct (Rlt_dec _ _); [exfalso; lra|]. assert (Sx := B2R_sign x Fx). assert (Sy := B2R_sign y Fy).
      assert (NZ : B2R x - B2R y <> 0). { intros E. apply n. rewrite E. unfold rnd64. rewrite round_0 by apply valid_rnd_N. rewrite Rabs_R0. apply bpow_gt_0. }
      assert (BO : B2X (Bminus mode_NE x y) = if Bsign x then NInf else PInf).
      { destruct (Bminus mode_NE x y) as [s|s| |s m e H]; cbn [B2SF] in C1; unfold binary_overflow in C1; cbn [overflow_to_inf] in C1; try discriminate. injection C1 as ->. destruct (Bsign x); reflexivity. }
      rewrite BO. destruct (Bsign x), (Bsign y); cbn in C2; try discriminate.
      * rewrite inf_of_sign_neg by lra. reflexivity.
      * rewrite inf_of_sign_pos by lra. reflexivity.
  - destruct y as [s|s| |s m e H]; try discriminate; try destruct s; destruct x as [s'|s'| |s' m' e' H']; try discriminate; try destruct s'; reflexivity.
  - destruct x as [s|s| |s m e H]; try discriminate; try destruct s; destruct y as [s'|s'| |s' m' e' H']; try destruct s'; reflexivity.
Qed.
