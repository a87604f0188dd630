(** Proofs of the property theorems stated in [Props_roundwin]. *)
From Coq Require Import Reals ZArith Lra Lia Psatz Bool.
From Coquelicot Require Import Rcomplements.
From Flocq Require Import Core BinarySingleNaN Relative.
From Coq Require Import List.
From Verif Require Import Xf Py Xf_facts Smoothed_model Smoothed_facts Double Double_facts Rounded_model SpecRound SpecHyper RoundedPl_model RoundedWindow_model SpecRoundWindow round_thms roundpl_thms.
Import ListNotations.
Local Open Scope R_scope.
Lemma bd e : (-1074 <= e <= 900)%Z -> is_double (bpow radix2 e).
Proof. intros H. split; [apply generic_format_bpow; unfold format64, FLT_exp; lia|]. rewrite Rabs_pos_eq by apply bpow_ge_0. apply bpow_lt; lia. Qed.
Lemma b20 : bpow radix2 (-20) = / 1048576. Proof. reflexivity. Qed.
Lemma b19 : bpow radix2 (-19) = / 524288. Proof. reflexivity. Qed.
Lemma om20 : is_double (1 - / 1048576).
Proof.
  split; [|rewrite Rabs_pos_eq by lra; apply Rlt_le_trans with (bpow radix2 1); [change (bpow radix2 1) with 2; lra|apply bpow_le; lia]].
  replace (1 - / 1048576) with (F2R (Float radix2 1048575 (-20))) by (unfold F2R; cbn [Fnum Fexp]; rewrite b20; lra).
  apply generic_format_F2R. intros _. unfold cexp, format64, FLT_exp. rewrite mag_F2R by discriminate. change (mag radix2 (IZR 1048575) + -20 - 53)%Z with (mag radix2 (IZR 1048575) + -20 - 53)%Z.
  assert (M : (mag radix2 (IZR 1048575) <= 20)%Z). { apply mag_le_bpow; [lra|]. rewrite Rabs_pos_eq by lra. change (bpow radix2 20) with (IZR 1048576). apply IZR_lt. lia. } lia.
Qed.
Lemma om19 : is_double (1 - / 524288).
Proof.
  split; [|rewrite Rabs_pos_eq by lra; apply Rlt_le_trans with (bpow radix2 1); [change (bpow radix2 1) with 2; lra|apply bpow_le; lia]].
  replace (1 - / 524288) with (F2R (Float radix2 524287 (-19))) by (unfold F2R; cbn [Fnum Fexp]; rewrite b19; lra).
  apply generic_format_F2R. intros _. unfold cexp, format64, FLT_exp. rewrite mag_F2R by discriminate.
  assert (M : (mag radix2 (IZR 524287) <= 19)%Z). { apply mag_le_bpow; [lra|]. rewrite Rabs_pos_eq by lra. change (bpow radix2 19) with (IZR 524288). apply IZR_lt. lia. } lia.
Qed.
Lemma million_val : is_finite (square64 (int64 1000)) = true /\ B2R (square64 (int64 1000)) = 1000000.
Proof.
  destruct (int64_val 1000 ltac:(lia)) as (A & B). assert (V : INR 1000 = 1000) by (rewrite INR_IZR_INZ; reflexivity). rewrite V in B.
  assert (D : is_double 1000000).
  { split; [|rewrite Rabs_pos_eq by lra; apply Rlt_le_trans with (bpow radix2 20); [change (bpow radix2 20) with 1048576; lra|apply bpow_le; lia]].
    replace 1000000 with (F2R (Float radix2 1000000 0)) by (unfold F2R; cbn [Fnum Fexp]; change (bpow radix2 0) with 1; lra).
    apply generic_format_F2R. intros _. unfold cexp, format64, FLT_exp. rewrite mag_F2R by discriminate.
    assert (M : (mag radix2 (IZR 1000000) <= 20)%Z). { apply mag_le_bpow; [lra|]. rewrite Rabs_pos_eq by lra. change (bpow radix2 20) with (IZR 1048576). apply IZR_lt. lia. } lia. }
  unfold square64. destruct (Bmult_fin (int64 1000) (int64 1000) A A) as (F & W); rewrite B in *; replace (1000 * 1000) with 1000000 in * by lra; rewrite (rnd_double _ D) in *; [apply D|]. now split.
Qed.
Lemma one_fin : Rabs (rnd64 1) < bpow radix2 1024.
Proof. rewrite (rnd_double _ one_double). apply one_double. Qed.
Lemma small1 x : 0 <= x -> x <= bpow radix2 400 -> Rabs (rnd64 x) < bpow radix2 1024.
Proof. intros A B. apply small_lt; [exact A|]. eapply Rle_trans; [exact B|]. apply bpow_le. lia. Qed.
Lemma small2 x : Rabs x <= bpow radix2 900 -> Rabs (rnd64 x) < bpow radix2 1024.
Proof.
  intros H. assert (D := bd 900 ltac:(lia)). apply Rabs_le_between in H. apply Rle_lt_trans with (bpow radix2 900); [|apply bpow_lt; lia]. apply Rabs_le_between. split.
  - apply rnd_lower; [apply opp_double, D|lra].
  - apply rnd_upper; [exact D|lra].
Qed.
Lemma clip_low_val : is_finite clip_low64 = true /\ B2R clip_low64 = rnd64 (/ 1000000) /\ / 1048576 <= B2R clip_low64 <= / 524288.
Proof.
  destruct million_val as (A & B). destruct one_val as (O1 & O2). unfold clip_low64. destruct (Bdiv_fin one64 (square64 (int64 1000)) O1) as (F & V); [rewrite B; lra| |].
  { rewrite O2, B. apply small1; [lra|]. apply Rle_trans with (bpow radix2 0); [change (bpow radix2 0) with 1; lra|apply bpow_le; lia]. }
  rewrite O2, B in V. replace (1 / 1000000) with (/ 1000000) in V by lra. split; [exact F|]. split; [exact V|]. rewrite V. rewrite <- b20, <- b19. split.
  - apply rnd_lower; [apply bd; lia|rewrite b20; lra].
  - apply rnd_upper; [apply bd; lia|rewrite b19; lra].
Qed.
Lemma clip_high_val : is_finite clip_high64 = true /\ 1 - / 524288 <= B2R clip_high64 <= 1 - / 1048576.
Proof.
  destruct clip_low_val as (A & B & C). destruct one_val as (O1 & O2). unfold clip_high64. destruct (Bminus_fin one64 clip_low64 O1 A) as (F & V).
  { rewrite O2. apply small1; [lra|]. apply Rle_trans with (bpow radix2 0); [change (bpow radix2 0) with 1; lra|apply bpow_le; lia]. }
  split; [exact F|]. rewrite V, O2. split; [apply rnd_lower; [apply om19|lra]|apply rnd_upper; [apply om20|lra]].
Qed.
Definition rclip (x : R) : R := Rmin (B2R clip_high64) (Rmax (B2R clip_low64) x).
Lemma rclip_bounds x : / 1048576 <= rclip x <= 1 - / 1048576.
Proof. destruct clip_low_val as (_ & _ & L). destruct clip_high_val as (_ & H). unfold rclip, Rmin, Rmax. destruct (Rle_dec _ x); destruct (Rle_dec _ _); lra. Qed.
Lemma rclip_mono x y : x <= y -> rclip x <= rclip y.
Proof. intros H. unfold rclip, Rmin, Rmax. destruct (Rle_dec _ x), (Rle_dec _ y); repeat destruct (Rle_dec _ _); lra. Qed.
Lemma ltb_fin (x y : b64) : is_finite x = true -> is_finite y = true -> Bltb x y = if Rlt_dec (B2R x) (B2R y) then true else false.
Proof. intros Fx Fy. rewrite Bltb_correct by auto. destruct (Rlt_bool_spec (B2R x) (B2R y)); destruct (Rlt_dec (B2R x) (B2R y)); auto; lra. Qed.
Lemma clip64_val (x : b64) : is_finite x = true -> is_finite (clip64 clip_low64 clip_high64 x) = true /\ B2R (clip64 clip_low64 clip_high64 x) = rclip (B2R x).
Proof.
  intros F. destruct clip_low_val as (A & _ & L). destruct clip_high_val as (B & H). unfold clip64, rclip, Rmin, Rmax. rewrite !ltb_fin by assumption.
  destruct (Rlt_dec (B2R x) (B2R clip_low64)).
  - split; [exact A|]. destruct (Rle_dec (B2R clip_low64) (B2R x)); [lra|]. destruct (Rle_dec _ _); lra.
  - destruct (Rle_dec (B2R clip_low64) (B2R x)); [|lra]. destruct (Rlt_dec (B2R clip_high64) (B2R x)); (split; [assumption|]); destruct (Rle_dec _ _); lra.
Qed.
(** The real number the window is computed as, from the clipped shifted mass. *)
Definition rexp_ (s : R) : R := rnd64 (rnd64 (/ s) - rnd64 (/ rnd64 (1 - s))).
Definition rwin (s : R) : R := rnd64 (/ (1 + exp (rexp_ s))).
Lemma one_minus s : / 1048576 <= s <= 1 - / 1048576 -> / 1048576 <= rnd64 (1 - s) <= 1 - / 1048576.
Proof. intros H. split; [rewrite <- b20; apply rnd_lower; [apply bd; lia|rewrite b20; lra]|apply rnd_upper; [apply om20|lra]]. Qed.
Lemma inv_range s : / 1048576 <= s <= 1 - / 1048576 -> 1 <= / s <= 1048576.
Proof. intros H. split; [rewrite <- Rinv_1; apply Rinv_le_contravar; lra|]. replace 1048576 with (/ / 1048576) by (apply Rinv_involutive; lra). apply Rinv_le_contravar; lra. Qed.
Lemma d20 : is_double 1048576.
Proof. change 1048576 with (bpow radix2 20). apply bd; lia. Qed.
Lemma rinv_range s : / 1048576 <= s <= 1 - / 1048576 -> 1 <= rnd64 (/ s) <= 1048576.
Proof. intros H. assert (R := inv_range s H). split; [apply rnd_lower; [apply one_double|lra]|apply rnd_upper; [apply d20|lra]]. Qed.
Lemma le400 x : x <= 1048576 -> x <= bpow radix2 400.
Proof. intros H. eapply Rle_trans; [exact H|]. change 1048576 with (bpow radix2 20). apply bpow_le; lia. Qed.
Lemma body_val expit (s : b64) : nearest_expit expit -> is_finite s = true -> / 1048576 <= B2R s <= 1 - / 1048576 ->
  let e := Bminus mode_NE (Bdiv mode_NE one64 s) (Bdiv mode_NE one64 (Bminus mode_NE one64 s)) in
  is_finite (expit (Bopp e)) = true /\ B2R (expit (Bopp e)) = rwin (B2R s).
Proof.
  intros X F H e. destruct one_val as (O1 & O2). assert (IR := inv_range _ H). assert (RI := rinv_range _ H). assert (OM := one_minus _ H). assert (IR' := inv_range _ OM). assert (RI' := rinv_range _ OM).
  destruct (Bdiv_fin one64 s O1) as (A1 & A2); [lra| |]. { rewrite O2. replace (1 / B2R s) with (/ B2R s) by lra. apply small1; [lra|apply le400; lra]. }
  rewrite O2 in A2. replace (1 / B2R s) with (/ B2R s) in A2 by lra.
  destruct (Bminus_fin one64 s O1 F) as (B1 & B2). { rewrite O2. apply small1; [lra|apply le400; lra]. } rewrite O2 in B2.
  destruct (Bdiv_fin one64 (Bminus mode_NE one64 s) O1) as (C1 & C2); [rewrite B2; lra| |]. { rewrite O2, B2. replace (1 / rnd64 (1 - B2R s)) with (/ rnd64 (1 - B2R s)) by lra. apply small1; [lra|apply le400; lra]. }
  rewrite O2, B2 in C2. replace (1 / rnd64 (1 - B2R s)) with (/ rnd64 (1 - B2R s)) in C2 by lra.
  destruct (Bminus_fin _ _ A1 C1) as (E1 & E2). { rewrite A2, C2. apply small2. apply Rle_trans with 1048576; [apply Rabs_le_between; lra|]. change 1048576 with (bpow radix2 20). apply bpow_le; lia. }
  rewrite A2, C2 in E2. fold e in E1, E2. fold (rexp_ (B2R s)) in E2.
  destruct (X (Bopp e)) as (W1 & W2); [now rewrite is_finite_Bopp|]. split; [exact W1|]. rewrite W2, B2R_Bopp, E2, Ropp_involutive. reflexivity.
Qed.
Lemma rwin_range s : 0 <= rwin s <= 1.
Proof.
  unfold rwin. set (x := rexp_ s). assert (P := exp_pos x). assert (Q : 0 < / (1 + exp x) <= 1). { split; [apply Rinv_0_lt_compat; lra|]. rewrite <- Rinv_1 at 2. apply Rinv_le_contravar; lra. }
  split; [apply rnd_nonneg; lra|apply rnd_upper; [apply one_double|lra]].
Qed.
Lemma rexp_mono s u : / 1048576 <= s <= 1 - / 1048576 -> / 1048576 <= u <= 1 - / 1048576 -> s <= u -> rexp_ u <= rexp_ s.
Proof.
  intros S U H. assert (OS := one_minus _ S). assert (OU := one_minus _ U). unfold rexp_. apply rnd_le.
  assert (rnd64 (/ u) <= rnd64 (/ s)) by (apply rnd_le, Rinv_le_contravar; lra).
  assert (rnd64 (1 - u) <= rnd64 (1 - s)) by (apply rnd_le; lra).
  assert (rnd64 (/ rnd64 (1 - s)) <= rnd64 (/ rnd64 (1 - u))) by (apply rnd_le, Rinv_le_contravar; lra). lra.
Qed.
Lemma rwin_mono s u : / 1048576 <= s <= 1 - / 1048576 -> / 1048576 <= u <= 1 - / 1048576 -> s <= u -> rwin s <= rwin u.
Proof.
  intros S U H. assert (E := rexp_mono s u S U H). unfold rwin. apply rnd_le. assert (P := exp_pos (rexp_ u)). apply Rinv_le_contravar; [lra|]. apply Rplus_le_compat_l.
  destruct E as [E|E]; [left; now apply exp_increasing|rewrite E; lra].
Qed.
(** The shifted mass. *)
Definition rshift (m mn d : R) : R := rnd64 (rnd64 (m - mn) / d).
Lemma rshift_mono m m' mn d : 0 < d -> m <= m' -> rshift m mn d <= rshift m' mn d.
Proof. intros D H. unfold rshift. apply rnd_le. unfold Rdiv. apply Rmult_le_compat_r; [left; now apply Rinv_0_lt_compat|]. apply rnd_le. lra. Qed.
Lemma ntn_fin (n x : b64) : is_finite x = true -> nan_to_num_b n x = x.
Proof. destruct x as [s|s| |s m e H]; intros F; try discriminate; reflexivity. Qed.
Lemma smoothing64_val jax expit m mn mx d : nearest_expit expit -> window_arguments m mn mx d ->
  is_finite (smoothing64 jax expit m mn mx d) = true /\
  B2R (smoothing64 jax expit m mn mx d) = if Rle_dec (B2R mn) (B2R m) then if Rle_dec (B2R m) (B2R mx) then rwin (rclip (rshift (B2R m) (B2R mn) (B2R d))) else 0 else 0.
Proof.
  intros X (Fm & Fn & Fx & Bm & Bn & Fd & Bd'). assert (PQ := pow2_inv_pos 400). assert (E400 : 2 ^ 400 = bpow radix2 400) by apply (pow_bpow 400).
  unfold smoothing64. assert (LT : Bltb zero64 d = true). { rewrite ltb_fin; [|reflexivity|exact Fd]. cbn [B2R zero64]. destruct (Rlt_dec 0 (B2R d)); [reflexivity|lra]. }
  rewrite LT, orb_true_r. apply Rabs_le_between in Bm. apply Rabs_le_between in Bn. cbv zeta.
  assert (T401 : bpow radix2 401 = 2 * bpow radix2 400) by (change 401%Z with (1 + 400)%Z; rewrite bpow_plus; reflexivity).
  assert (G := bpow_gt_0 radix2 400).
  destruct (Bminus_fin m mn Fm Fn) as (D1 & D2). { apply small2. apply Rle_trans with (bpow radix2 401); [apply Rabs_le_between; lra|apply bpow_le; lia]. }
  assert (DB : Rabs (rnd64 (B2R m - B2R mn)) <= bpow radix2 401). { assert (Q := bd 401 ltac:(lia)). apply Rabs_le_between. split; [apply rnd_lower; [now apply opp_double|lra]|apply rnd_upper; [exact Q|lra]]. }
  assert (ID : 0 < / B2R d <= bpow radix2 400). { split; [apply Rinv_0_lt_compat; lra|]. rewrite <- E400. replace (2 ^ 400) with (/ / 2 ^ 400) by (apply Rinv_involutive; lra). apply Rinv_le_contravar; lra. }
  destruct (Bdiv_fin (Bminus mode_NE m mn) d D1) as (Q1 & Q2); [lra| |].
  { rewrite D2. apply small2. unfold Rdiv. rewrite Rabs_mult, (Rabs_pos_eq (/ B2R d)) by lra. apply Rle_trans with (bpow radix2 401 * bpow radix2 400); [apply Rmult_le_compat; try apply Rabs_pos; lra|]. rewrite <- bpow_plus. apply bpow_le; lia. }
  rewrite D2 in Q2. fold (rshift (B2R m) (B2R mn) (B2R d)) in Q2.
  rewrite (ntn_fin zero64 _ Q1). destruct (clip64_val _ Q1) as (C1 & C2). rewrite Q2 in C2.
  assert (RB := rclip_bounds (rshift (B2R m) (B2R mn) (B2R d))).
  destruct (body_val expit _ X C1) as (W1 & W2); [rewrite C2; exact RB|]. cbv zeta in W1, W2. rewrite C2 in W2. set (w := expit _) in *.
  assert (WR := rwin_range (rclip (rshift (B2R m) (B2R mn) (B2R d)))). destruct one_val as (O1 & O2). rewrite !leb_fin by assumption.
  assert (M1 : is_finite (Bmult mode_NE w one64) = true /\ B2R (Bmult mode_NE w one64) = B2R w).
  { destruct (Bmult_fin w one64 W1 O1) as (M1 & M2); rewrite O2, Rmult_1_r, (rnd_double _ (B2R_double w)) in *; [apply (B2R_double w)|]. now split. }
  assert (M0 : is_finite (Bmult mode_NE w zero64) = true /\ B2R (Bmult mode_NE w zero64) = 0).
  { destruct (Bmult_fin w zero64 W1 eq_refl) as (M1' & M2); cbn [B2R zero64] in *; rewrite Rmult_0_r, ?rnd0 in *; [rewrite Rabs_R0; apply bpow_gt_0|]. now split. }
  destruct (Rle_dec (B2R mn) (B2R m)), (Rle_dec (B2R m) (B2R mx)); cbn [andb]; [rewrite <- W2; exact M1|exact M0|exact M0|exact M0].
Qed.
Lemma C122_range_and_monotone_pf :
  forall jax expit m mmin mmax delta_m, nearest_expit expit -> window_arguments m mmin mmax delta_m ->
  is_finite (smoothing64 jax expit m mmin mmax delta_m) = true /\ 0 <= B2R (smoothing64 jax expit m mmin mmax delta_m) <= 1 /\
  (B2R m < B2R mmin \/ B2R mmax < B2R m -> B2R (smoothing64 jax expit m mmin mmax delta_m) = 0) /\
  forall m', window_arguments m' mmin mmax delta_m -> B2R mmin <= B2R m -> B2R m <= B2R m' -> B2R m' <= B2R mmax ->
    B2R (smoothing64 jax expit m mmin mmax delta_m) <= B2R (smoothing64 jax expit m' mmin mmax delta_m).
Proof.
  intros jax expit m mn mx d X A. destruct (smoothing64_val jax expit m mn mx d X A) as (F & V). split; [exact F|]. rewrite V. assert (WR := rwin_range (rclip (rshift (B2R m) (B2R mn) (B2R d)))).
  split; [destruct (Rle_dec (B2R mn) (B2R m)); [destruct (Rle_dec (B2R m) (B2R mx))|]; lra|].
  split; [intros H; destruct (Rle_dec (B2R mn) (B2R m)); [destruct (Rle_dec (B2R m) (B2R mx))|]; lra|].
  intros m' A' H1 H2 H3. destruct (smoothing64_val jax expit m' mn mx d X A') as (_ & V'). rewrite V'.
  destruct (Rle_dec (B2R mn) (B2R m)); [|lra]. destruct (Rle_dec (B2R m) (B2R mx)); [|lra]. destruct (Rle_dec (B2R mn) (B2R m')); [|lra]. destruct (Rle_dec (B2R m') (B2R mx)); [|lra].
  apply rwin_mono; [apply rclip_bounds|apply rclip_bounds|]. apply rclip_mono, rshift_mono; [|exact H2]. destruct A as (_ & _ & _ & _ & _ & _ & D). assert (P := pow2_inv_pos 400). lra.
Qed.

Lemma exp_pow x n : exp (INR n * x) = exp x ^ n.
Proof. induction n as [|n IH]; [simpl; rewrite Rmult_0_l; apply exp_0|]. rewrite S_INR. replace ((INR n + 1) * x) with (x + INR n * x) by ring. rewrite exp_plus, IH. reflexivity. Qed.
Lemma pw_le a b n : 0 <= a -> a <= b -> a ^ n <= b ^ n.
Proof. intros. apply pow_incr. lra. Qed.
Lemma exp_ge_two x : 7 / 10 <= x -> 2 <= exp x.
Proof.
  intros H. assert (E : exp x = exp (x / 64) ^ 64). { rewrite <- exp_pow. f_equal. rewrite INR_IZR_INZ. change (IZR (Z.of_nat 64)) with 64. field. }
  rewrite E. assert (L := exp_ineq1_le (x / 64)). apply Rle_trans with ((1 + 7 / 640) ^ 64); [|apply pw_le; lra].
  replace 64%nat with (2 * (2 * (2 * (2 * (2 * 2)))))%nat by lia. rewrite !pow_mult.
  assert (A1 : 1 + 2 * (7 / 640) <= (1 + 7 / 640) ^ 2) by (simpl; lra).
  assert (A2 : 10442 / 10000 <= ((1 + 7 / 640) ^ 2) ^ 2). { apply Rle_trans with ((10219 / 10000) ^ 2); [simpl; lra|apply pw_le; simpl; lra]. }
  assert (A3 : 10903 / 10000 <= (((1 + 7 / 640) ^ 2) ^ 2) ^ 2). { apply Rle_trans with ((10442 / 10000) ^ 2); [simpl; lra|apply pw_le; [lra|exact A2]]. }
  assert (A4 : 11887 / 10000 <= ((((1 + 7 / 640) ^ 2) ^ 2) ^ 2) ^ 2). { apply Rle_trans with ((10903 / 10000) ^ 2); [simpl; lra|apply pw_le; [lra|exact A3]]. }
  assert (A5 : 14130 / 10000 <= (((((1 + 7 / 640) ^ 2) ^ 2) ^ 2) ^ 2) ^ 2). { apply Rle_trans with ((11887 / 10000) ^ 2); [simpl; lra|apply pw_le; [lra|exact A4]]. }
  apply Rle_trans with ((1415 / 1000) ^ 2); [simpl; lra|]. apply pw_le; [lra|].
  apply Rle_trans with ((118955 / 100000) ^ 2); [simpl; lra|]. apply pw_le; [lra|]. apply Rle_trans with ((109068 / 100000) ^ 2); [simpl; lra|]. apply pw_le; [lra|]. apply Rle_trans with ((104437 / 100000) ^ 2); [simpl; lra|]. apply pw_le; [lra|].
  simpl. lra.
Qed.
Lemma exp_ge_pow n x : 7 / 10 * INR n <= x -> 2 ^ n <= exp x.
Proof.
  intros H. destruct n as [|n]; [simpl in *; assert (L := exp_ineq1_le x); lra|]. assert (P := lt_0_INR (S n) ltac:(lia)).
  replace x with (INR (S n) * (x / INR (S n))) by (field; lra). rewrite exp_pow. apply pw_le; [lra|]. apply exp_ge_two. apply (Rmult_le_reg_r (INR (S n))); [exact P|]. unfold Rdiv. rewrite (Rmult_assoc x), Rinv_l by lra. lra.
Qed.
Lemma rwin_zero s : / 1048576 <= s <= 683 / 524288 -> rwin s = 0.
Proof.
  intros H. assert (S : / 1048576 <= s <= 1 - / 1048576) by lra. assert (OM := one_minus s S).
  assert (D767 : is_double 767). { replace 767 with (INR 767 * bpow radix2 0) by (rewrite INR_IZR_INZ; change (bpow radix2 0) with 1; change (IZR (Z.of_nat 767)) with 767; lra). apply int_bpow_double; lia. }
  assert (D765 : is_double 765). { replace 765 with (INR 765 * bpow radix2 0) by (rewrite INR_IZR_INZ; change (bpow radix2 0) with 1; change (IZR (Z.of_nat 765)) with 765; lra). apply int_bpow_double; lia. }
  assert (A : 767 <= rnd64 (/ s)). { apply rnd_lower; [exact D767|]. apply Rle_trans with (/ (683 / 524288)); [|apply Rinv_le_contravar; lra]. replace (/ (683 / 524288)) with (524288 / 683) by (field; lra). lra. }
  assert (B : / 2 <= rnd64 (1 - s)). { change (/ 2) with (bpow radix2 (-1)). apply rnd_lower; [apply bd; lia|change (bpow radix2 (-1)) with (/ 2); lra]. }
  assert (C : rnd64 (/ rnd64 (1 - s)) <= 2). { change 2 with (bpow radix2 1). apply rnd_upper; [apply bd; lia|]. change (bpow radix2 1) with 2. replace 2 with (/ / 2) by lra. apply Rinv_le_contravar; lra. }
  assert (E : 765 <= rexp_ s) by (unfold rexp_; apply rnd_lower; [exact D765|lra]).
  unfold rwin. apply rnd_tiny; [left; apply Rinv_0_lt_compat; assert (P := exp_pos (rexp_ s)); lra|].
  change (bpow radix2 (-1076)) with (bpow radix2 (- Z.of_nat 1076)). rewrite <- pow_bpow_inv. assert (P := pow2_pos 1076).
  assert (X := exp_ge_pow 1076 (rexp_ s)). rewrite INR_IZR_INZ in X. change (IZR (Z.of_nat 1076)) with 1076 in X. assert (Y : 2 ^ 1076 <= exp (rexp_ s)) by (apply X; lra). apply Rinv_le_contravar; lra.
Qed.
Lemma rnd_one y : 1 - / 2 ^ 54 < y <= 1 -> rnd64 y = 1.
Proof.
  intros H. apply Rle_antisym; [apply rnd_upper; [apply one_double|lra]|]. unfold rnd64. apply round_N_ge_midp; [exact valid64|apply one_double|].
  change 1 with (bpow radix2 0) at 2. rewrite pred_bpow. change (format64 0) with (-53)%Z. change (bpow radix2 0) with 1. rewrite (pow_bpow_inv 54) in H. change (- Z.of_nat 54)%Z with (-1 + -53)%Z in H. rewrite bpow_plus in H. change (bpow radix2 (-1)) with (/ 2) in H. lra.
Qed.
Lemma rwin_one s : 999 / 1024 <= s <= 1 - / 1048576 -> rwin s = 1.
Proof.
  intros H. assert (S : / 1048576 <= s <= 1 - / 1048576) by lra. assert (OM := one_minus s S).
  assert (DI : forall n e, (Z.of_nat n <= 2 ^ 53)%Z -> (-1074 <= e <= 900)%Z -> is_double (IZR (Z.of_nat n) * bpow radix2 e)) by (intros; rewrite <- INR_IZR_INZ; now apply int_bpow_double).
  assert (D25 : is_double (25 / 1024)) by (replace (25 / 1024) with (IZR (Z.of_nat 25) * bpow radix2 (-10)) by (change (bpow radix2 (-10)) with (/ 1024); change (IZR (Z.of_nat 25)) with 25; lra); apply DI; lia).
  assert (D40 : is_double 40) by (replace 40 with (IZR (Z.of_nat 40) * bpow radix2 0) by (change (bpow radix2 0) with 1; change (IZR (Z.of_nat 40)) with 40; lra); apply DI; lia).
  assert (D38 : is_double 38) by (replace 38 with (IZR (Z.of_nat 38) * bpow radix2 0) by (change (bpow radix2 0) with 1; change (IZR (Z.of_nat 38)) with 38; lra); apply DI; lia).
  assert (D98 : is_double (9 / 8)) by (replace (9 / 8) with (IZR (Z.of_nat 9) * bpow radix2 (-3)) by (change (bpow radix2 (-3)) with (/ 8); change (IZR (Z.of_nat 9)) with 9; lra); apply DI; lia).
  assert (B : rnd64 (1 - s) <= 25 / 1024) by (apply rnd_upper; [exact D25|lra]).
  assert (C : 40 <= rnd64 (/ rnd64 (1 - s))). { apply rnd_lower; [exact D40|]. apply Rle_trans with (/ (25 / 1024)); [|apply Rinv_le_contravar; lra]. replace (/ (25 / 1024)) with (1024 / 25) by (field; lra). lra. }
  assert (A : rnd64 (/ s) <= 9 / 8). { apply rnd_upper; [exact D98|]. apply Rle_trans with (/ (999 / 1024)); [apply Rinv_le_contravar; lra|]. replace (/ (999 / 1024)) with (1024 / 999) by (field; lra). lra. }
  assert (E : rexp_ s <= - (38)) by (unfold rexp_; apply rnd_upper; [apply opp_double, D38|lra]).
  unfold rwin. apply rnd_one. set (x := rexp_ s) in *. assert (P := exp_pos x).
  assert (X := exp_ge_pow 54 (- x)). rewrite INR_IZR_INZ in X. change (IZR (Z.of_nat 54)) with 54 in X. assert (Y : 2 ^ 54 <= exp (- x)) by (apply X; lra). rewrite exp_Ropp in Y.
  assert (P54 := pow2_pos 54). assert (Z : exp x <= / 2 ^ 54). { rewrite <- (Rinv_involutive (exp x)) by lra. apply Rinv_le_contravar; lra. }
  split.
  - apply (Rmult_lt_reg_r (1 + exp x)); [lra|]. rewrite Rinv_l by lra. nra.
  - rewrite <- Rinv_1 at 2. apply Rinv_le_contravar; lra.
Qed.
Lemma near1_tight x y : near 1 x y -> 0 <= x -> 0 <= y -> x * (1 - / 1000000) <= y /\ y <= x * (1 + / 1000000).
Proof.
  intros [A B] X Y. rewrite pow_1 in A, B. assert (U : u64 <= / 8000000). { unfold u64. apply Rinv_le_contravar; [lra|]. apply Rle_trans with (2 ^ 23); [simpl; lra|apply Rle_pow; [lra|lia]]. } assert (P := u64_pos). split; nra.
Qed.
Lemma rshift_near m mn d : is_double m -> is_double mn -> 0 <= m - mn -> bpow radix2 (-400) <= d <= bpow radix2 400 -> bpow radix2 (-1000) <= (m - mn) / d -> near 2 ((m - mn) / d) (rshift m mn d).
Proof.
  intros Dm Dn H B L. assert (G := bpow_gt_0 radix2 (-400)). assert (G' := bpow_gt_0 radix2 (-1000)). assert (ID := Rinv_0_lt_compat d ltac:(lra)).
  assert (N1 : near 1 (m - mn) (rnd64 (m - mn))). { unfold Rminus. apply rnd_near_plus; [exact Dm|now apply opp_double|unfold Rminus in H; lra]. }
  assert (N2 : near 1 ((m - mn) / d) (rnd64 (m - mn) / d)). { destruct N1 as [A C]. rewrite pow_1 in A, C. unfold near. rewrite pow_1. unfold Rdiv. split; [rewrite <- Rmult_assoc; apply Rmult_le_compat_r; lra|]. rewrite <- Rmult_assoc. apply Rmult_le_compat_r; lra. }
  assert (Q0 : 0 <= rnd64 (m - mn) / d) by (unfold Rdiv; apply Rmult_le_pos; [now apply rnd_nonneg|lra]).
  apply (near_trans 1 1 _ _ _ N2). unfold rshift. apply rnd_near_normal.
  destruct (near1_tight _ _ N2 ltac:(lra) Q0) as [T _]. apply Rle_trans with (bpow radix2 (-1000) * (1 - / 1000000)); [|nra].
  change (-1000)%Z with (1 + -1001)%Z. rewrite bpow_plus. change (bpow radix2 1) with 2. assert (bpow radix2 (-1022) <= bpow radix2 (-1001)) by (apply bpow_le; lia). assert (G2 := bpow_gt_0 radix2 (-1001)). lra.
Qed.
Lemma rshift_zero mn d : rshift mn mn d = 0.
Proof. unfold rshift. replace (mn - mn) with 0 by ring. rewrite rnd0. unfold Rdiv. rewrite Rmult_0_l. apply rnd0. Qed.
Lemma args_facts m mn mx d : window_arguments m mn mx d -> is_double (B2R m) /\ is_double (B2R mn) /\ bpow radix2 (-400) <= B2R d <= bpow radix2 400 /\ 0 < B2R d.
Proof.
  intros (_ & _ & _ & _ & _ & _ & D). rewrite pow_bpow_inv, pow_bpow in D. change (Z.of_nat 400) with 400%Z in D. split; [apply B2R_double|]. split; [apply B2R_double|]. split; [exact D|]. assert (G := bpow_gt_0 radix2 (-400)). change (- (400))%Z with (-400)%Z in D. lra.
Qed.
Lemma near2_tight x y : near 2 x y -> 0 <= x -> 0 <= y -> x * (1 - / 1000000) <= y /\ y <= x * (1 + / 1000000).
Proof.
  intros [A B] X Y. assert (U : u64 <= / 8000000). { unfold u64. apply Rinv_le_contravar; [lra|]. apply Rle_trans with (2 ^ 23); [simpl; lra|apply Rle_pow; [lra|lia]]. } assert (P := u64_pos).
  assert (Q : 1 - 2 * u64 <= (1 - u64) ^ 2) by (simpl; nra). split; nra.
Qed.
Lemma C122_plateaus_pf :
  forall jax expit m mmin mmax delta_m, nearest_expit expit -> window_arguments m mmin mmax delta_m -> B2R mmin <= B2R m <= B2R mmax ->
  let s := (B2R m - B2R mmin) / B2R delta_m in
  (s <= / 770 -> B2R (smoothing64 jax expit m mmin mmax delta_m) = 0) /\
  (41 / 42 <= s -> B2R (smoothing64 jax expit m mmin mmax delta_m) = 1).
Proof.
  intros jax expit m mn mx d X A H s. destruct (smoothing64_val jax expit m mn mx d X A) as (_ & V). rewrite V. destruct (Rle_dec (B2R mn) (B2R m)); [|lra]. destruct (Rle_dec (B2R m) (B2R mx)); [|lra].
  destruct (args_facts _ _ _ _ A) as (Dm & Dn & Bd' & Pd). assert (ID := Rinv_0_lt_compat _ Pd). destruct clip_low_val as (_ & _ & CL). destruct clip_high_val as (_ & CH).
  assert (S0 : 0 <= s) by (unfold s, Rdiv; apply Rmult_le_pos; lra).
  split; intros Hs.
  - apply rwin_zero. split; [apply rclip_bounds|].
    assert (G : rshift (B2R m) (B2R mn) (B2R d) <= 683 / 524288).
    { destruct (Rle_lt_dec (bpow radix2 (-1000)) s) as [L|L].
      - assert (N := rshift_near _ _ _ Dm Dn ltac:(lra) Bd' L). destruct (near2_tight _ _ N S0) as [_ T]; [|fold s in T; lra]. unfold rshift. apply rnd_nonneg. unfold Rdiv. apply Rmult_le_pos; [apply rnd_nonneg; lra|lra].
      - assert (D683 : is_double (bpow radix2 (-10))) by (apply bd; lia). unfold rshift. apply Rle_trans with (bpow radix2 (-10)); [|change (bpow radix2 (-10)) with (/ 1024); lra]. apply rnd_upper; [exact D683|].
        assert (N1 : near 1 (B2R m - B2R mn) (rnd64 (B2R m - B2R mn))). { unfold Rminus. apply rnd_near_plus; [exact Dm|now apply opp_double|unfold Rminus; lra]. }
        destruct (near1_tight _ _ N1 ltac:(lra) ltac:(apply rnd_nonneg; lra)) as [_ T]. apply Rle_trans with (s * (1 + / 1000000)). { unfold s, Rdiv. replace ((B2R m - B2R mn) * / B2R d * (1 + / 1000000)) with ((B2R m - B2R mn) * (1 + / 1000000) * / B2R d) by ring. apply Rmult_le_compat_r; lra. }
        apply Rle_trans with (bpow radix2 (-1000) * 2); [nra|]. replace (bpow radix2 (-1000) * 2) with (bpow radix2 (-999)) by (change (-999)%Z with (-1000 + 1)%Z; rewrite bpow_plus; reflexivity). apply bpow_le; lia. }
    unfold rclip, Rmin, Rmax. destruct (Rle_dec (B2R clip_low64) _); destruct (Rle_dec _ _); lra.
  - apply rwin_one. split; [|apply rclip_bounds].
    assert (L : bpow radix2 (-1000) <= s). { apply Rle_trans with (bpow radix2 (-1)); [apply bpow_le; lia|change (bpow radix2 (-1)) with (/ 2); lra]. }
    assert (N := rshift_near _ _ _ Dm Dn ltac:(lra) Bd' L). destruct (near2_tight _ _ N S0) as [T _]; [unfold rshift; apply rnd_nonneg; unfold Rdiv; apply Rmult_le_pos; [apply rnd_nonneg; lra|lra]|]. fold s in T.
    unfold rclip, Rmin, Rmax. destruct (Rle_dec (B2R clip_low64) _); destruct (Rle_dec _ _); lra.
Qed.

Lemma C122_positive_refuted_pf :
  forall jax expit m mmin mmax delta_m, nearest_expit expit -> window_arguments m mmin mmax delta_m -> B2R mmin <= B2R m <= B2R mmax ->
  (B2R m - B2R mmin) / B2R delta_m <= / 770 ->
  B2R (smoothing64 jax expit m mmin mmax delta_m) = 0 /\
  forall bk, exists v, smoothing bk (Fin (B2R m)) (Fin (B2R mmin)) (Fin (B2R mmax)) (Fin (B2R delta_m)) = Fin v /\ 0 < v.
Proof.
  intros jax expit m mn mx d X A H S. split; [now apply (C122_plateaus_pf jax expit m mn mx d X A H)|]. intros bk. destruct (args_facts _ _ _ _ A) as (_ & _ & _ & Pd).
  exists (sval (B2R mn) (B2R mx) (B2R d) (B2R m)). split; [now apply smoothing_val|]. unfold sval. rewrite !Rleb_true by lra. cbn [andb]. apply swin_range.
Qed.

Lemma exp_le_two x : 0 <= x <= 69 / 100 -> exp x <= 2.
Proof.
  intros H. assert (E : exp (- x) = exp (- x / 256) ^ 256). { rewrite <- exp_pow. f_equal. rewrite INR_IZR_INZ. change (IZR (Z.of_nat 256)) with 256. field. }
  assert (L := exp_ineq1_le (- x / 256)).
  assert (G : / 2 <= exp (- x)).
  { rewrite E. apply Rle_trans with ((1 - 69 / 25600) ^ 256); [|apply pw_le; lra]. replace 256%nat with (2 * (2 * (2 * (2 * (2 * (2 * (2 * 2)))))))%nat by lia. rewrite !pow_mult.
    apply Rle_trans with ((7072 / 10000) ^ 2); [simpl; lra|]. apply pw_le; [lra|]. apply Rle_trans with ((84097 / 100000) ^ 2); [simpl; lra|]. apply pw_le; [lra|]. apply Rle_trans with ((91705 / 100000) ^ 2); [simpl; lra|]. apply pw_le; [lra|].
    apply Rle_trans with ((95763 / 100000) ^ 2); [simpl; lra|]. apply pw_le; [lra|]. apply Rle_trans with ((97859 / 100000) ^ 2); [simpl; lra|]. apply pw_le; [lra|]. apply Rle_trans with ((98924 / 100000) ^ 2); [simpl; lra|]. apply pw_le; [lra|].
    apply Rle_trans with ((99461 / 100000) ^ 2); [simpl; lra|]. apply pw_le; [lra|]. simpl. lra. }
  rewrite exp_Ropp in G. assert (P := exp_pos x). replace 2 with (/ / 2) by lra. rewrite <- (Rinv_involutive (exp x)) by lra. apply Rinv_le_contravar; lra.
Qed.
Lemma exp_le_pow n x : (0 < n)%nat -> 0 <= x -> x <= 69 / 100 * INR n -> exp x <= 2 ^ n.
Proof.
  intros N X H. assert (P := lt_0_INR n N). replace x with (INR n * (x / INR n)) by (field; lra). rewrite exp_pow. apply pw_le; [left; apply exp_pos|]. apply exp_le_two. split; [unfold Rdiv; apply Rmult_le_pos; [exact X|left; now apply Rinv_0_lt_compat]|].
  apply (Rmult_le_reg_r (INR n)); [exact P|]. unfold Rdiv. rewrite (Rmult_assoc x), Rinv_l by lra. lra.
Qed.
Lemma near_err n x y : (n <= 3)%nat -> 0 <= x -> near n x y -> Rabs (y - x) <= 4 * u64 * x.
Proof.
  intros N X H. destruct (near_abs n x y X H) as [A _]. eapply Rle_trans; [exact A|]. apply Rmult_le_compat_r; [exact X|].
  assert (U := u64_pos). assert (U' : u64 <= / 100). { unfold u64. apply Rinv_le_contravar; [lra|]. apply Rle_trans with (2 ^ 7); [simpl; lra|apply Rle_pow; [lra|lia]]. }
  rewrite <- rho_inv. assert (M := pw_mono n 3 N). assert (P := pw n). assert (Q : 1 - 3 * u64 <= (1 - u64) ^ 3) by (simpl; nra).
  assert (I : / (1 - u64) ^ n <= / (1 - 3 * u64)) by (apply Rinv_le_contravar; lra).
  assert (J : / (1 - 3 * u64) <= 1 + 4 * u64). { apply (Rmult_le_reg_r (1 - 3 * u64)); [lra|]. rewrite Rinv_l by lra. nra. } lra.
Qed.
Lemma expit_cl e E : Rabs (E - e) <= 1 -> cl (Rabs (E - e)) (/ (1 + exp e)) (/ (1 + exp E)).
Proof.
  intros _. apply cl_inv. assert (P := exp_pos e). assert (Q := exp_pos E). split; [nra|]. rewrite (Rabs_pos_eq (1 + exp E)), (Rabs_pos_eq (1 + exp e)) by lra.
  assert (K : forall a b, ln (1 + exp b) - ln (1 + exp a) <= Rabs (b - a)).
  { intros a b. assert (Pa := exp_pos a). assert (Pb := exp_pos b). assert (LE : 1 + exp b <= (1 + exp a) * exp (Rabs (b - a))).
    { assert (1 <= exp (Rabs (b - a))) by (assert (L := exp_ineq1_le (Rabs (b - a))); assert (A := Rabs_pos (b - a)); lra).
      assert (exp b <= exp a * exp (Rabs (b - a))). { rewrite <- exp_plus. assert (A := Rle_abs (b - a)). destruct (Rle_lt_or_eq_dec b (a + Rabs (b - a)) ltac:(lra)) as [L|L]; [left; now apply exp_increasing|right; now rewrite <- L]. } nra. }
    assert (LN : ln (1 + exp b) <= ln ((1 + exp a) * exp (Rabs (b - a)))). { destruct LE as [LE|LE]; [left; apply ln_increasing; lra|right; now rewrite LE]. }
    rewrite ln_mult, ln_exp in LN; [lra|lra|apply exp_pos]. }
  assert (K1 := K e E). assert (K2 := K E e). rewrite (Rabs_minus_sym e E) in K2. apply Rabs_le_between. lra.
Qed.
Lemma u64_small : u64 <= / 2 ^ 53 /\ 0 < u64 /\ u64 * 2 ^ 53 = 1.
Proof. unfold u64. assert (P := pow2_pos 53). split; [lra|]. split; [apply Rinv_0_lt_compat; lra|field; lra]. Qed.
Lemma u64_num : u64 <= / 1000000000000000 /\ 0 < u64.
Proof. split; [|apply u64_pos]. unfold u64. apply Rinv_le_contravar; [lra|]. apply Rle_trans with (2 ^ 50); [simpl; lra|apply Rle_pow; [lra|lia]]. Qed.
Lemma rexp_near s S : / 700 <= s <= 63 / 64 -> near 2 s S -> 0 < S -> Rabs (rexp_ S - (/ s - / (1 - s))) <= 25000 * u64 /\ Rabs (rexp_ S) <= 702.
Proof.
  intros H N PS. destruct u64_num as (U & U0). assert (E1 := near_err 2 s S ltac:(lia) ltac:(lra) N). apply Rabs_le_between in E1.
  assert (SB : / 701 <= S <= 64 / 65) by (split; nra).
  assert (RS : / 1048576 <= S <= 1 - / 1048576) by lra. assert (RI := rinv_range _ RS). assert (OM := one_minus _ RS).
  assert (IS : 0 < / s <= 700). { split; [apply Rinv_0_lt_compat; lra|]. replace 700 with (/ / 700) by lra. apply Rinv_le_contravar; lra. }
  (* 1/S *)
  assert (NA : near 3 (/ s) (rnd64 (/ S))).
  { apply (near_trans 2 1 _ (/ S)); [apply near_inv; [lra|exact PS|exact N]|]. apply rnd_near_normal. assert (IR := inv_range _ RS). apply Rle_trans with (bpow radix2 0); [apply bpow_le; lia|exact (proj1 IR)]. }
  assert (EA := near_err 3 (/ s) (rnd64 (/ S)) ltac:(lia) ltac:(lra) NA). assert (EA' : Rabs (rnd64 (/ S) - / s) <= 2800 * u64) by (eapply Rle_trans; [exact EA|]; nra). apply Rabs_le_between in EA'.
  (* 1 - S *)
  assert (NB : near 1 (1 - S) (rnd64 (1 - S))). { apply rnd_near_normal. apply Rle_trans with (bpow radix2 (-20)); [apply bpow_le; lia|rewrite b20; lra]. }
  assert (EB0 := near_err 1 (1 - S) (rnd64 (1 - S)) ltac:(lia) ltac:(lra) NB). apply Rabs_le_between in EB0.
  set (B := rnd64 (1 - S)) in *.
  assert (EB : Rabs (B - (1 - s)) <= 5 * u64) by (apply Rabs_le_between; split; nra).
  apply Rabs_le_between in EB. assert (BB : / 66 <= B) by nra.
  assert (RB : / 1048576 <= B <= 1 - / 1048576) by exact OM. assert (IB : 0 < / B <= 66). { split; [apply Rinv_0_lt_compat; lra|]. replace 66 with (/ / 66) by lra. apply Rinv_le_contravar; lra. }
  assert (I1 : 0 < / (1 - s) <= 64). { split; [apply Rinv_0_lt_compat; lra|]. replace 64 with (/ / 64) by lra. apply Rinv_le_contravar; lra. }
  assert (EC0 : Rabs (/ B - / (1 - s)) <= 21120 * u64).
  { replace (/ B - / (1 - s)) with (- (B - (1 - s)) * (/ B * / (1 - s))) by (field; lra). rewrite Rabs_mult, Rabs_Ropp, (Rabs_pos_eq (/ B * / (1 - s))) by (apply Rmult_le_pos; lra).
    replace (21120 * u64) with (5 * u64 * (66 * 64)) by ring. apply Rmult_le_compat; [apply Rabs_pos|apply Rmult_le_pos; lra|apply Rabs_le_between; lra|apply Rmult_le_compat; lra]. }
  apply Rabs_le_between in EC0.
  assert (NC : near 1 (/ B) (rnd64 (/ B))). { apply rnd_near_normal. assert (IR := inv_range _ RB). apply Rle_trans with (bpow radix2 0); [apply bpow_le; lia|exact (proj1 IR)]. }
  assert (EC := near_err 1 (/ B) (rnd64 (/ B)) ltac:(lia) ltac:(lra) NC). apply Rabs_le_between in EC.
  assert (RC := rinv_range _ RB). set (A := rnd64 (/ S)) in *. set (C := rnd64 (/ B)) in *.
  assert (AB : A <= 701) by nra. assert (CB : C <= 67) by nra.
  assert (DA : is_double A) by (split; [unfold A; apply generic_format_round; [exact valid64|apply valid_rnd_N]|rewrite Rabs_pos_eq by lra; apply Rle_lt_trans with (bpow radix2 20); [change (bpow radix2 20) with 1048576; lra|apply bpow_lt; lia]]).
  assert (DC : is_double C) by (split; [unfold C; apply generic_format_round; [exact valid64|apply valid_rnd_N]|rewrite Rabs_pos_eq by lra; apply Rle_lt_trans with (bpow radix2 20); [change (bpow radix2 20) with 1048576; lra|apply bpow_lt; lia]]).
  assert (EE := rnd_minus_err A C DA DC). assert (ABS : Rabs (A - C) <= 701) by (apply Rabs_le_between; lra).
  assert (EE' : Rabs (rnd64 (A - C) - (A - C)) <= 701 * u64) by (eapply Rle_trans; [exact EE|]; nra). apply Rabs_le_between in EE'.
  unfold rexp_. fold A B C. assert (M66 : 4 * u64 * / B <= 4 * u64 * 66) by (apply Rmult_le_compat_l; lra). assert (CE : C - / B <= 264 * u64 /\ - (264 * u64) <= C - / B) by lra.
  apply Rabs_le_between in ABS. split; apply Rabs_le_between; lra.
Qed.
Lemma C122_accuracy_pf :
  forall jax expit m mmin mmax delta_m, nearest_expit expit -> window_arguments m mmin mmax delta_m -> B2R mmin <= B2R m <= B2R mmax ->
  let s := (B2R m - B2R mmin) / B2R delta_m in
  / 700 <= s <= 63 / 64 ->
  Rabs (B2R (smoothing64 jax expit m mmin mmax delta_m) - exact_window s) <= exact_window s / 2 ^ 36 /\
  forall bk, smoothing bk (Fin (B2R m)) (Fin (B2R mmin)) (Fin (B2R mmax)) (Fin (B2R delta_m)) = Fin (exact_window s).
Proof.
  intros jax expit m mn mx d X A H s Hs. destruct (args_facts _ _ _ _ A) as (Dm & Dn & Bd' & Pd). split.
  2:{ intros bk. rewrite smoothing_val by exact Pd. f_equal. unfold sval. rewrite !Rleb_true by lra. cbn [andb]. fold s. unfold clp. rewrite !Rltb_false by lra. reflexivity. }
  destruct (smoothing64_val jax expit m mn mx d X A) as (_ & V). rewrite V. destruct (Rle_dec (B2R mn) (B2R m)); [|lra]. destruct (Rle_dec (B2R m) (B2R mx)); [|lra].
  assert (ID := Rinv_0_lt_compat _ Pd). destruct clip_low_val as (_ & _ & CL). destruct clip_high_val as (_ & CH).
  assert (L : bpow radix2 (-1000) <= s). { apply Rle_trans with (bpow radix2 (-10)); [apply bpow_le; lia|change (bpow radix2 (-10)) with (/ 1024); lra]. }
  assert (N := rshift_near _ _ _ Dm Dn ltac:(lra) Bd' L). fold s in N. set (S := rshift (B2R m) (B2R mn) (B2R d)) in *.
  assert (PS : 0 < S) by (apply (near_pos 2 s); [lra|exact N]). destruct (near2_tight s S N ltac:(lra) ltac:(lra)) as [T1 T2].
  assert (RC : rclip S = S). { unfold rclip, Rmin, Rmax. destruct (Rle_dec (B2R clip_low64) S); destruct (Rle_dec _ _); lra. }
  rewrite RC. destruct (rexp_near s S Hs N PS) as (E1 & E2). destruct u64_num as (U & U0).
  unfold rwin, exact_window. set (e := / s - / (1 - s)) in *. set (E := rexp_ S) in *.
  assert (C1 := expit_cl e E ltac:(lra)). assert (PE := exp_pos E). assert (Pe := exp_pos e).
  assert (Y : / 2 ^ 1019 <= / (1 + exp E)).
  { apply Rinv_le_contravar; [lra|]. apply Rabs_le_between in E2. assert (Q := exp_le_pow 1018 702 ltac:(lia) ltac:(lra)). rewrite INR_IZR_INZ in Q. change (IZR (Z.of_nat 1018)) with 1018 in Q. specialize (Q ltac:(lra)).
    assert (exp E <= exp 702). { destruct (Rle_lt_or_eq_dec E 702 ltac:(lra)) as [L'|L']; [left; now apply exp_increasing|rewrite L'; lra]. }
    replace 1019%nat with (1 + 1018)%nat by lia. rewrite pow_add, pow_1. assert (1 <= 2 ^ 1018) by (apply pow_R1_Rle; lra). lra. }
  assert (C2 : cl v64 (/ (1 + exp E)) (rnd64 (/ (1 + exp E)))). { apply cl_normal. assert (G := pow2_inv_pos 1019). rewrite Rabs_pos_eq by lra. eapply Rle_trans; [|exact Y]. rewrite pow_bpow_inv. apply bpow_le. lia. }
  assert (CC := cl_trans _ _ _ _ _ C1 C2). assert (X0 : 0 < / (1 + exp e)) by (apply Rinv_0_lt_compat; lra). assert (Y0 : 0 < rnd64 (/ (1 + exp E))). { destruct CC as [G _]. nra. }
  assert (F := cl_exp _ _ _ X0 Y0 CC). eapply Rle_trans; [exact F|]. unfold Rdiv. apply Rmult_le_compat_l; [lra|].
  assert (V64 : v64 <= 2 * u64). { unfold v64. apply (Rmult_le_reg_r (1 - u64)); [lra|]. unfold Rdiv. rewrite Rmult_assoc, Rinv_l by lra. nra. }
  set (q := Rabs (E - e) + v64). assert (Q1 : 0 <= q <= 25002 * u64). { unfold q. assert (AP := Rabs_pos (E - e)). assert (0 <= v64). { unfold v64, Rdiv. apply Rmult_le_pos; [lra|left; apply Rinv_0_lt_compat; lra]. } lra. }
  assert (Q2 : exp q - 1 <= 2 * q). { assert (L' := exp_ineq1_le (- q)). rewrite exp_Ropp in L'. assert (Pq := exp_pos q). assert (q <= / 4) by lra. assert ((1 - q) * exp q <= 1). { replace 1 with (/ exp q * exp q) at 2 by (field; lra). apply Rmult_le_compat_r; lra. } nra. }
  apply Rle_trans with (2 * (25002 * u64)); [lra|]. replace (/ 2 ^ 36) with (2 ^ 17 * u64). { replace (2 ^ 17) with 131072 by (simpl; lra). nra. }
  unfold u64. replace 53%nat with (17 + 36)%nat by lia. rewrite pow_add. assert (G1 := pow2_pos 17). assert (G2 := pow2_pos 36). field; lra.
Qed.

(** A correctly rounded logistic function exists. *)
Definition best_expit (z : b64) : b64 := of_double (rnd64 (/ (1 + exp (- B2R z)))).
Lemma best_expit_nearest : nearest_expit best_expit.
Proof.
  intros z _. unfold best_expit. apply of_double_val. assert (P := exp_pos (- B2R z)). assert (Q : 0 < / (1 + exp (- B2R z)) <= 1). { split; [apply Rinv_0_lt_compat; lra|]. rewrite <- Rinv_1 at 2. apply Rinv_le_contravar; lra. }
  split; [apply generic_format_round; [apply valid64|apply valid_rnd_N]|]. apply small1; [lra|apply le400; lra].
Qed.
Lemma int_arg k : (k <= 10)%nat -> is_finite (int64 k) = true /\ B2R (int64 k) = INR k /\ Rabs (B2R (int64 k)) <= 2 ^ 400.
Proof.
  intros H. destruct (int64_val k ltac:(lia)) as (A & B). split; [exact A|]. split; [exact B|]. rewrite B, Rabs_pos_eq by apply pos_INR. apply le_INR in H. assert (P : 2 ^ 4 <= 2 ^ 400) by (apply Rle_pow; [lra|lia]).
  assert (INR 10 = 10) by (simpl; lra). simpl (2 ^ 4) in P. lra.
Qed.
Lemma met_args k : (4 <= k <= 8)%nat -> window_arguments (int64 k) (int64 4) (int64 10) (int64 4) /\ B2R (int64 4) <= B2R (int64 k) <= B2R (int64 10) /\ (B2R (int64 k) - B2R (int64 4)) / B2R (int64 4) = (INR k - 4) / 4.
Proof.
  intros K. destruct (int_arg k ltac:(lia)) as (A & B & C). destruct (int_arg 4 ltac:(lia)) as (A4 & B4 & C4). destruct (int_arg 10 ltac:(lia)) as (A10 & B10 & _).
  assert (E4 : INR 4 = 4) by (simpl; lra). assert (E10 : INR 10 = 10) by (simpl; lra). assert (K1 := le_INR _ _ (proj1 K)). assert (K2 := le_INR _ _ (proj2 K)). assert (E8 : INR 8 = 8) by (simpl; lra).
  split; [|split; [rewrite B, B4, B10; lra|rewrite B, B4, E4; reflexivity]]. repeat (split; [assumption|]). rewrite B4, E4.
  assert (P : 2 ^ 4 <= 2 ^ 400) by (apply Rle_pow; [lra|lia]). simpl (2 ^ 4) in P. split; [|lra]. rewrite <- (Rinv_involutive 4) by lra. apply Rinv_le_contravar; lra.
Qed.
Lemma C122_met_pf :
  (exists expit, nearest_expit expit) /\
  (exists m m' mmin mmax delta_m, window_arguments m mmin mmax delta_m /\ window_arguments m' mmin mmax delta_m /\ B2R mmin <= B2R m < B2R m' /\ B2R m' <= B2R mmax) /\
  (exists m mmin mmax delta_m, window_arguments m mmin mmax delta_m /\ B2R mmin <= B2R m <= B2R mmax /\ (B2R m - B2R mmin) / B2R delta_m <= / 770) /\
  (exists m mmin mmax delta_m, window_arguments m mmin mmax delta_m /\ B2R mmin <= B2R m <= B2R mmax /\ 41 / 42 <= (B2R m - B2R mmin) / B2R delta_m) /\
  (exists m mmin mmax delta_m, window_arguments m mmin mmax delta_m /\ B2R mmin <= B2R m <= B2R mmax /\ / 700 <= (B2R m - B2R mmin) / B2R delta_m <= 63 / 64).
Proof.
  split; [exists best_expit; apply best_expit_nearest|].
  destruct (met_args 4 ltac:(lia)) as (A4 & B4 & C4). destruct (met_args 5 ltac:(lia)) as (A5 & B5 & C5). destruct (met_args 8 ltac:(lia)) as (A8 & B8 & C8).
  destruct (int_arg 4 ltac:(lia)) as (_ & V4 & _). destruct (int_arg 5 ltac:(lia)) as (_ & V5 & _).
  assert (E4 : INR 4 = 4) by (simpl; lra). assert (E5 : INR 5 = 5) by (simpl; lra). assert (E8 : INR 8 = 8) by (simpl; lra). rewrite E4 in C4. rewrite E5 in C5. rewrite E8 in C8.
  split; [exists (int64 4), (int64 5), (int64 4), (int64 10), (int64 4); rewrite V4, V5, E4, E5 in *; repeat (split; [assumption|]); lra|].
  split; [exists (int64 4), (int64 4), (int64 10), (int64 4); repeat (split; [assumption|]); lra|].
  split; [exists (int64 8), (int64 4), (int64 10), (int64 4); repeat (split; [assumption|]); lra|].
  exists (int64 5), (int64 4), (int64 10), (int64 4); repeat (split; [assumption|]); lra.
Qed.
