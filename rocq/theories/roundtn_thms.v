(** Proofs of the property theorems stated in [Props_roundtn]. *)
From Coq Require Import Reals ZArith Lra Lia Psatz Bool.
From Coquelicot Require Import Coquelicot.
From Flocq Require Import Core BinarySingleNaN Relative.
From Coq Require Import List.
From Verif Require Import Xf Py Xf_facts Special Gauss_facts Utils_model Truncnorm_facts Double Double_facts Rounded_model SpecRound SpecHyper RoundedPl_model RoundedTn_model SpecRoundLogl SpecRoundTn hyperb_thms round_thms roundpl_thms roundwin_thms roundll_thms.
Import ListNotations.
Local Open Scope R_scope.

Lemma ntn_finite (x : b64) : Bsign x = false \/ BinarySingleNaN.is_nan x = true -> is_finite (nan_to_num_b zero64 x) = true /\ Bsign (nan_to_num_b zero64 x) = false.
Proof.
  destruct x as [s|s| |s m e H]; cbn; intros Q; try (split; [reflexivity|destruct Q as [Q|Q]; congruence]).
  destruct s; [destruct Q; discriminate|]. split; reflexivity.
Qed.
Lemma mult_bool (x : b64) (c : bool) : is_finite x = true -> Bsign x = false ->
  let y := Bmult mode_NE x (if c then one64 else zero64) in is_finite y = true /\ Bsign y = false /\ B2R y = if c then B2R x else 0.
Proof.
  intros F S y. destruct one_val as [O1 O2]. assert (Z : B2R zero64 = 0) by reflexivity.
  destruct (Bmult_fin x (if c then one64 else zero64) F) as [G V].
  { destruct c; [exact O1|reflexivity]. }
  { destruct c; [rewrite O2, Rmult_1_r, rnd_double by apply B2R_double; apply B2R_double|]. rewrite Z, Rmult_0_r. apply zero_lt. }
  split; [exact G|]. split.
  - assert (C := Bmult_correct 53 1024 _ _ mode_NE x (if c then one64 else zero64)). cbv zeta in C.
    destruct (Rlt_bool _ _) in C.
    + destruct C as (_ & _ & C). fold y in C. rewrite C; [|assert (G' : is_finite y = true) by exact G; clear - G'; clearbody y; destruct y; try reflexivity; discriminate G']. rewrite S. destruct c; [rewrite one_sign|]; reflexivity.
    + exfalso. assert (G' : is_finite y = true) by exact G. change (Bmult mode_NE x (if c then one64 else zero64)) with y in C. clear - C G'. clearbody y. destruct y; try discriminate G'; unfold binary_overflow in C; cbn in C; destruct (xorb _ _); discriminate C.
  - fold y in V. rewrite V. destruct c; [rewrite O2, Rmult_1_r; apply rnd_double, B2R_double|rewrite Z, Rmult_0_r; apply rnd0].
Qed.
Lemma u_small : 0 < u64 /\ u64 <= / 1099511627776 /\ bpow radix2 (-1075) <= u64 /\ / 2 ^ 1000 <= u64 /\ 0 < bpow radix2 (-1075) /\ bpow radix2 (-48) = 32 * u64.
Proof.
  assert (U : u64 = bpow radix2 (-53)) by (unfold u64; apply (pow_bpow_inv 53)).
  split; [apply u64_pos|]. rewrite U. split; [change (/ 1099511627776) with (bpow radix2 (-40)); apply bpow_le; lia|]. split; [apply bpow_le; lia|].
  split; [rewrite (pow_bpow_inv 1000); apply bpow_le; lia|]. split; [apply bpow_gt_0|]. change (-48)%Z with (5 + -53)%Z. rewrite bpow_plus. reflexivity.
Qed.
Lemma u3_quarter b : 0 <= b -> 3 * u64 * b <= b / 4.
Proof. intros B. destruct u_small as (_ & U & _). replace (b / 4) with (/ 4 * b) by field. apply Rmult_le_compat_r; lra. Qed.
Lemma u_le_one x : 0 <= x -> u64 * x <= x.
Proof. intros B. destruct u_small as (_ & U & _). rewrite <- (Rmult_1_l x) at 2. apply Rmult_le_compat_r; lra. Qed.
Lemma u_le_const c x : x <= c -> u64 * x <= c * u64.
Proof. intros B. destruct u_small as (U & _). rewrite Rmult_comm. apply Rmult_le_compat_r; lra. Qed.
Lemma square_bound z c : -c <= z <= c -> 0 <= z * z <= c * c.
Proof. intros B. nra. Qed.
Lemma ratio_pos x s : 0 < s -> 0 < x / s -> 0 < x.
Proof. intros S Q. replace x with (x / s * s) by (field; lra). now apply Rmult_lt_0_compat. Qed.
Lemma ratio_nonpos x s : 0 < s -> x / s <= 0 -> x <= 0.
Proof. intros S Q. destruct (Rle_or_lt x 0) as [L|L]; [exact L|]. assert (0 < x / s) by now apply Rdiv_lt_0_compat. lra. Qed.
Lemma nonpos_ratio x s : 0 < s -> x <= 0 -> x / s <= 0.
Proof. intros S Q. destruct (Rle_or_lt (x / s) 0) as [L|L]; [exact L|]. apply (ratio_pos _ _ S) in L. lra. Qed.
Lemma lost_scale l P e : 0 <= P -> l <= / 4 -> l * P = e -> 4 * e <= P.
Proof. intros HP L E. assert (l * P <= / 4 * P) by (apply Rmult_le_compat_r; lra). lra. Qed.
Lemma s2pi_ge : 2 <= sqrt (2 * PI) <= 4.
Proof.
  assert (P := PI2_3_2). assert (P4 := PI_4). split.
  - apply Rle_trans with (sqrt (2 * 2)); [rewrite sqrt_square; lra|apply sqrt_le_1; lra].
  - apply Rle_trans with (sqrt (4 * 4)); [apply sqrt_le_1; lra|rewrite sqrt_square; lra].
Qed.
Lemma gauss_bounds c : 0 < gauss c /\ gauss c <= / 2 /\ Rabs c * gauss c <= / 2.
Proof.
  assert (G := gauss_pos c). split; [exact G|]. assert (S := proj1 s2pi_ge). assert (E : gauss c * (1 + c * c / 2) <= / 2).
  { unfold gauss. set (y := c * c / 2). assert (Y : 0 <= y) by (unfold y; nra). replace (- (c * c) / 2) with (- y) by (unfold y; field). rewrite exp_Ropp.
    assert (Q := exp_ineq1_le y). assert (Q1 : / exp y * (1 + y) <= 1). { apply Rle_trans with (/ exp y * exp y); [apply Rmult_le_compat_l; [left; apply Rinv_0_lt_compat, exp_pos|exact Q]|]. rewrite Rinv_l by (assert (QQ := exp_pos y); lra). lra. }
    assert (I2 : / sqrt (2 * PI) <= / 2) by (apply Rinv_le_contravar; lra). assert (I0 : 0 < / sqrt (2 * PI)) by (apply Rinv_0_lt_compat; lra). assert (P := exp_pos y). assert (0 < / exp y) by (now apply Rinv_0_lt_compat).
    unfold Rdiv. replace (/ exp y * / sqrt (2 * PI) * (1 + y)) with ((/ exp y * (1 + y)) * / sqrt (2 * PI)) by ring. nra. }
  split; [nra|]. assert (A : Rabs c <= 1 + c * c / 2). { assert (C2 : c * c = Rabs c * Rabs c) by (unfold Rabs; destruct (Rcase_abs c); ring). nra. } nra.
Qed.
Lemma gauss_low c : Rabs c <= 1 -> / 8 <= gauss c.
Proof.
  intros H. assert (C2 : c * c <= 1) by (apply Rabs_le_between in H; nra). unfold gauss. assert (Q := exp_ineq1_le (- (c * c) / 2)). assert (S := s2pi_ge).
  assert (/ 4 <= / sqrt (2 * PI)) by (apply Rinv_le_contravar; lra). unfold Rdiv at 1. assert (/ 2 <= exp (- (c * c) / 2)) by lra. replace (/ 8) with (/ 2 * / 4) by field. apply Rmult_le_compat; lra.
Qed.
Lemma Phi_mvt x y : exists c, (Rmin x y <= c <= Rmax x y) /\ Phi y - Phi x = gauss c * (y - x).
Proof.
  destruct (MVT_gen Phi x y gauss) as (c & Hc & E).
  - intros z _. apply Phi_derive.
  - intros z _. apply continuity_pt_filterlim. apply Phi_cont.
  - exists c. split; [exact Hc|exact E].
Qed.
Lemma between_abs x y c : Rmin x y <= c <= Rmax x y -> Rabs (c - x) <= Rabs (y - x).
Proof. unfold Rmin, Rmax. destruct (Rle_dec x y); intros H; apply Rabs_le_between; [rewrite Rabs_pos_eq|rewrite Rabs_left1]; lra. Qed.
Lemma Phi_close x y t : 0 <= t <= u64 -> Rabs (y - x) <= 3 * u64 * Rabs x + t -> Rabs (Phi y - Phi x) <= 5 * u64.
Proof.
  intros T H. destruct (Phi_mvt x y) as (c & Hc & E). rewrite E. apply between_abs in Hc. destruct u_small as (U0 & U1 & _). destruct (gauss_bounds c) as (G0 & G1 & G2).
  rewrite Rabs_mult, (Rabs_pos_eq (gauss c)) by lra. assert (X0 := Rabs_pos x). assert (C0 := Rabs_pos c).
  assert (XC : Rabs x <= Rabs c + Rabs (c - x)) by (replace x with (c - (c - x)) at 1 by ring; eapply Rle_trans; [apply Rabs_triang|rewrite Rabs_Ropp; lra]).
  assert (X2 : Rabs x <= 2 * Rabs c + 2 * t) by nra.
  assert (D : Rabs (y - x) <= 6 * u64 * Rabs c + 6 * u64 * t + t) by nra. 
  apply Rle_trans with (gauss c * (6 * u64 * Rabs c + 6 * u64 * t + t)); [apply Rmult_le_compat_l; lra|].
  replace (gauss c * (6 * u64 * Rabs c + 6 * u64 * t + t)) with (6 * u64 * (Rabs c * gauss c) + (6 * u64 * t + t) * gauss c) by ring.
  assert (6 * u64 * t <= u64) by nra. assert (0 <= u64 * t) by nra. assert (6 * u64 * (Rabs c * gauss c) <= 3 * u64) by nra. assert ((6 * u64 * t + t) * gauss c <= (u64 + u64) * / 2) by (apply Rmult_le_compat; nra). lra.
Qed.
Lemma pow400 : 2 ^ 400 = bpow radix2 400 /\ / 2 ^ 400 = bpow radix2 (-400).
Proof. split; [apply (pow_bpow 400)|apply (pow_bpow_inv 400)]. Qed.
Lemma std_val x mu s : bounded_double x -> bounded_double mu -> moderate s ->
  let z := (B2R x - B2R mu) / B2R s in let w := standard64 x mu s in
  is_finite w = true /\ Rabs (B2R w - z) <= 3 * u64 * Rabs z + bpow radix2 (-1075) /\ (z <= 0 -> B2R w <= 0) /\ (0 <= z -> 0 <= B2R w).
Proof.
  intros [Fx Bx] [Fm Bm] [Fs Bs] z w. unfold w, standard64. destruct pow400 as [P1 P2]. rewrite P1 in Bx, Bm. rewrite P2, P1 in Bs.
  destruct u_small as (U0 & U1 & U2 & _ & T0 & _). assert (S0 : 0 < B2R s) by (assert (Q := bpow_gt_0 radix2 (-400)); lra).
  set (D := B2R x - B2R mu) in *. assert (E401 : bpow radix2 401 = 2 * bpow radix2 400) by (change 401%Z with (1 + 400)%Z; rewrite bpow_plus; reflexivity).
  assert (BD : Rabs D <= bpow radix2 401). { unfold D, Rminus. eapply Rle_trans; [apply Rabs_triang|]. rewrite Rabs_Ropp. lra. }
  destruct (Bminus_fin x mu Fx Fm) as [Fd Vd]. { fold D. apply small2. eapply Rle_trans; [exact BD|]. apply bpow_le. lia. }
  fold D in Vd. assert (Ed := rnd_minus_err (B2R x) (B2R mu) (B2R_double x) (B2R_double mu)). fold D in Ed. set (d := Bminus mode_NE x mu) in *.
  rewrite <- Vd in Ed. assert (I1 : / B2R s <= bpow radix2 400). { replace (bpow radix2 400) with (/ bpow radix2 (-400)) by (rewrite <- bpow_opp; reflexivity). apply Rinv_le_contravar; [apply bpow_gt_0|lra]. }
  assert (I0 : 0 < / B2R s) by now apply Rinv_0_lt_compat.
  assert (Ad : Rabs (B2R d) <= bpow radix2 402). { assert (E402 : bpow radix2 402 = 2 * bpow radix2 401) by (change 402%Z with (1 + 401)%Z; rewrite bpow_plus; reflexivity).
    replace (B2R d) with ((B2R d - D) + D) by ring. eapply Rle_trans; [apply Rabs_triang|]. assert (Q := Rabs_pos D). nra. }
  assert (Aq : Rabs (B2R d / B2R s) <= bpow radix2 900). { unfold Rdiv. rewrite Rabs_mult, (Rabs_pos_eq (/ _)) by lra. apply Rle_trans with (bpow radix2 402 * bpow radix2 400); [apply Rmult_le_compat; try lra; apply Rabs_pos|]. rewrite <- bpow_plus. apply bpow_le. lia. }
  destruct (Bdiv_fin d s Fd) as [Fw Vw]; [lra|now apply small2|]. split; [exact Fw|]. rewrite Vw.
  assert (Az : Rabs z = Rabs D * / B2R s) by (unfold z, Rdiv; rewrite Rabs_mult, (Rabs_pos_eq (/ _)); lra).
  split; [|split].
  - assert (E2 := rnd_err (B2R d / B2R s)). assert (E1 : Rabs (B2R d / B2R s - z) <= u64 * Rabs z).
    { replace (B2R d / B2R s - z) with ((B2R d - D) * / B2R s) by (unfold z, Rdiv; ring). rewrite Rabs_mult, (Rabs_pos_eq (/ _)), Az by lra. rewrite <- Rmult_assoc. apply Rmult_le_compat_r; lra. }
    assert (A3 : Rabs (B2R d / B2R s) <= 2 * Rabs z). { replace (B2R d / B2R s) with ((B2R d / B2R s - z) + z) by ring. eapply Rle_trans; [apply Rabs_triang|]. assert (Q := Rabs_pos z). nra. }
    replace (rnd64 (B2R d / B2R s) - z) with ((rnd64 (B2R d / B2R s) - B2R d / B2R s) + (B2R d / B2R s - z)) by ring. eapply Rle_trans; [apply Rabs_triang|]. nra.
  - intros Z. apply rnd_upper; [apply zero_double|]. assert (D <= 0). { unfold z, Rdiv in Z. nra. } assert (B2R d <= 0) by (rewrite Vd; apply rnd_upper; [apply zero_double|lra]). unfold Rdiv. nra.
  - intros Z. apply rnd_lower; [apply zero_double|]. assert (0 <= D). { unfold z, Rdiv in Z. nra. } assert (0 <= B2R d) by (rewrite Vd; apply rnd_lower; [apply zero_double|lra]). unfold Rdiv. nra.
Qed.
Lemma b900_ge r : Rabs r <= 1000000 -> Rabs r <= bpow radix2 900.
Proof. intros H. eapply Rle_trans; [exact H|]. apply Rle_trans with (bpow radix2 20); [change (bpow radix2 20) with 1048576; lra|apply bpow_le; lia]. Qed.
Lemma sub_err (x y : b64) X Y e f M : is_finite x = true -> is_finite y = true -> Rabs (B2R x - X) <= e -> Rabs (B2R y - Y) <= f -> Rabs X + Rabs Y <= M -> e + f <= 10 -> M <= 10000 ->
  is_finite (Bminus mode_NE x y) = true /\ Rabs (B2R (Bminus mode_NE x y) - (X - Y)) <= e + f + u64 * (M + 10).
Proof.
  intros Fx Fy Ex Ey HM Hef HM2. assert (U0 := u64_pos).
  assert (D : Rabs ((B2R x - B2R y) - (X - Y)) <= e + f). { replace ((B2R x - B2R y) - (X - Y)) with ((B2R x - X) + - (B2R y - Y)) by ring. eapply Rle_trans; [apply Rabs_triang|]. rewrite Rabs_Ropp. lra. }
  assert (A : Rabs (B2R x - B2R y) <= M + 10). { replace (B2R x - B2R y) with (((B2R x - B2R y) - (X - Y)) + (X + - Y)) by ring. eapply Rle_trans; [apply Rabs_triang|]. assert (T := Rabs_triang X (- Y)). rewrite Rabs_Ropp in T. lra. }
  destruct (Bminus_fin x y Fx Fy) as [F V]; [apply small2, b900_ge; lra|]. split; [exact F|]. rewrite V. assert (E := rnd_minus_err _ _ (B2R_double x) (B2R_double y)).
  replace (rnd64 (B2R x - B2R y) - (X - Y)) with ((rnd64 (B2R x - B2R y) - (B2R x - B2R y)) + ((B2R x - B2R y) - (X - Y))) by ring. eapply Rle_trans; [apply Rabs_triang|]. nra.
Qed.
Lemma half_div t : 0 <= t <= / 4 -> t / (1 - t) <= 2 * t.
Proof. intros H. apply Rle_div_l; nra. Qed.
Lemma ln2_le : 0 < ln 2 <= 1.
Proof. split; [rewrite <- ln_1; apply ln_increasing; lra|]. assert (Q := ln_le_sub 2 ltac:(lra)). lra. Qed.
Lemma ln2_ge : 2 / 3 <= ln 2.
Proof.
  rewrite <- (ln_exp (2 / 3)). apply ln_le; [apply exp_pos|]. assert (E := exp_ineq1_le (- (1 / 24))). rewrite exp_Ropp in E. set (e := exp (1 / 24)) in *. assert (P : 0 < e) by apply exp_pos.
  assert (B : e <= 24 / 23). { assert (e * (1 + - (1 / 24)) <= 1). { apply (Rmult_le_compat_l e) in E; [|lra]. rewrite Rinv_r in E by lra. exact E. } lra. }
  replace (exp (2 / 3)) with (e ^ 16). { apply Rle_trans with ((24 / 23) ^ 16); [apply pow_incr; lra|]. simpl. lra. }
  unfold e. rewrite <- exp_pow. f_equal. simpl. field.
Qed.
Lemma ln_pow_abs n x : / 2 ^ n <= x <= 2 ^ n -> Rabs (ln x) <= INR n.
Proof.
  intros [L H]. assert (P : 0 < 2 ^ n) by (apply pow_lt; lra). assert (I0 : 0 < / 2 ^ n) by now apply Rinv_0_lt_compat. assert (N := pos_INR n). assert (E : ln (2 ^ n) = INR n * ln 2) by (apply ln_pow; lra). assert (Q := ln2_le).
  assert (H1 : ln x <= ln (2 ^ n)) by (apply ln_le; lra). assert (H2 : ln (/ 2 ^ n) <= ln x) by (apply ln_le; lra). rewrite ln_Rinv in H2 by exact P. rewrite E in H1, H2. apply Rabs_le_between. nra.
Qed.
Lemma half_log_bound : 0 <= ln (2 * PI) / 2 <= 2.
Proof. assert (P := PI2_3_2). assert (P4 := PI_4). assert (ln 1 <= ln (2 * PI)) by (apply ln_le; lra). rewrite ln_1 in *. assert (ln (2 * PI) <= ln (2 ^ 3)) by (apply ln_le; simpl; lra). rewrite ln_pow in * by lra. assert (Q := ln2_le). simpl (INR 3) in *. lra. Qed.
Lemma log_pdf64_val log64 c eta (zz sigma : b64) z : 0 <= eta <= / 2 ^ 20 -> log_accuracy log64 eta -> is_finite c = true -> Rabs (B2R c - ln (2 * PI) / 2) <= eta ->
  is_finite zz = true -> Rabs (B2R zz - z) <= 3 * u64 * Rabs z + bpow radix2 (-1075) -> Rabs z <= 36 -> moderate sigma ->
  let p := log_pdf64 log64 c zz sigma in
  is_finite p = true /\ Rabs (B2R p - (- (z * z) / 2 - ln (2 * PI) / 2 - ln (B2R sigma))) <= 7300 * u64 + 401 * eta.
Proof.
  intros He HL Fc Ec Fz Ez Az [Fs Bs] p. destruct u_small as (U0 & U1 & U2 & _ & T0 & _). assert (He' : eta <= / 1000000) by (eapply Rle_trans; [apply He|]; apply Rinv_le_contravar; simpl; lra).
  assert (S0 : 0 < B2R sigma). { assert (0 < / 2 ^ 400) by (apply Rinv_0_lt_compat, pow_lt; lra). lra. }
  assert (LS := ln_pow_abs 400 _ Bs). replace (INR 400) with 400 in LS by (rewrite INR_IZR_INZ; reflexivity). destruct (HL sigma (conj Fs S0)) as [Fl El].
  assert (El' : Rabs (B2R (log64 sigma) - ln (B2R sigma)) <= 400 * eta) by (eapply Rle_trans; [exact El|]; nra).
  assert (HB := half_log_bound).
  assert (Z0 := Rabs_pos z). assert (E1 : Rabs (B2R zz - z) <= 109 * u64) by nra.
  assert (Az2 : Rabs (B2R zz) <= 37). { replace (B2R zz) with ((B2R zz - z) + z) by ring. eapply Rle_trans; [apply Rabs_triang|]. lra. }
  assert (E2 : Rabs (B2R zz * B2R zz - z * z) <= 7957 * u64). { replace (B2R zz * B2R zz - z * z) with ((B2R zz - z) * (B2R zz + z)) by ring. rewrite Rabs_mult. apply Rle_trans with (109 * u64 * 73); [|lra]. apply Rmult_le_compat; try apply Rabs_pos; [exact E1|]. eapply Rle_trans; [apply Rabs_triang|]. lra. }
  assert (Q1 : 0 <= z * z <= 1296) by (apply Rabs_le_between in Az; assert (T := square_bound z 36 Az); lra). assert (Q2 : 0 <= B2R zz * B2R zz <= 1369) by (apply Rabs_le_between in Az2; assert (T := square_bound (B2R zz) 37 Az2); lra).
  destruct (Bmult_fin zz zz Fz Fz) as [Fq Vq]; [apply small2, b900_ge; rewrite Rabs_pos_eq; lra|]. assert (R1 := rnd_err (B2R zz * B2R zz)). rewrite (Rabs_pos_eq (_ * _)) in R1 by lra.
  fold (square64 zz) in Fq, Vq. set (q := square64 zz) in *.
  assert (E3 : Rabs (B2R q - z * z) <= 9327 * u64). { rewrite Vq. replace (rnd64 (B2R zz * B2R zz) - z * z) with ((rnd64 (B2R zz * B2R zz) - B2R zz * B2R zz) + (B2R zz * B2R zz - z * z)) by ring. eapply Rle_trans; [apply Rabs_triang|]. nra. }
  destruct (int64_val 2) as [F2 V2]; [lia|]. simpl (INR 2) in V2. assert (Fo : is_finite (Bopp q) = true) by (rewrite is_finite_Bopp; exact Fq). assert (Vo : B2R (Bopp q) = - B2R q) by apply B2R_Bopp.
  apply Rabs_le_between in E3. assert (A3 : Rabs (- B2R q / (1 + 1)) <= 660) by (apply Rabs_le_between; lra).
  destruct (Bdiv_fin (Bopp q) (int64 2) Fo) as [Fh Vh]; [rewrite V2; lra|rewrite V2, Vo; apply small2, b900_ge; lra|]. set (h := Bdiv mode_NE (Bopp q) (int64 2)) in *.
  rewrite V2, Vo in Vh. assert (R2 := rnd_err (- B2R q / (1 + 1))). rewrite <- Vh in R2.
  assert (E4 : Rabs (B2R h - - (z * z) / 2) <= 5400 * u64). { assert (R3 : Rabs (B2R h - - B2R q / (1 + 1)) <= 661 * u64) by (assert (T := u_le_const 660 _ A3); lra). apply Rabs_le_between in R3. apply Rabs_le_between. lra. }
  destruct (sub_err h c (- (z * z) / 2) (ln (2 * PI) / 2) (5400 * u64) eta 650 Fh Fc E4 Ec) as [Fg Eg]; [rewrite (Rabs_pos_eq (ln _ / 2)), Rabs_left1 by lra; lra|lra|lra|].
  destruct (sub_err _ (log64 sigma) (- (z * z) / 2 - ln (2 * PI) / 2) (ln (B2R sigma)) _ (400 * eta) 1050 Fg Fl Eg El') as [Fp Ep]; [rewrite Rabs_left1 by lra; lra|lra|lra|].
  split; [exact Fp|]. eapply Rle_trans; [exact Ep|]. lra.
Qed.
Lemma rnd_half x : / 2 - bpow radix2 (-56) <= x <= / 2 + bpow radix2 (-55) -> rnd64 x = / 2.
Proof.
  intros [A B]. assert (V := valid64). assert (D1 := bd (-1) ltac:(lia)). change (bpow radix2 (-1)) with (/ 2) in D1. destruct D1 as [F1 _].
  assert (P56 : 0 < bpow radix2 (-56)) by apply bpow_gt_0.
  assert (E55 : bpow radix2 (-55) = 2 * bpow radix2 (-56)) by (change (-55)%Z with (1 + -56)%Z; rewrite bpow_plus; reflexivity).
  assert (E54 : bpow radix2 (-54) = 4 * bpow radix2 (-56)) by (change (-54)%Z with (2 + -56)%Z; rewrite bpow_plus; reflexivity).
  assert (E53 : bpow radix2 (-53) = 8 * bpow radix2 (-56)) by (change (-53)%Z with (3 + -56)%Z; rewrite bpow_plus; reflexivity).
  apply Rle_antisym.
  - apply round_N_le_midp; auto. assert (S1 : Ulp.succ radix2 format64 (/ 2) = / 2 + bpow radix2 (-53)). { rewrite succ_eq_pos by lra. change (ulp radix2 format64 (/ 2)) with (ulp radix2 format64 (bpow radix2 (-1))). rewrite ulp_bpow. reflexivity. }
    rewrite S1. lra.
  - apply round_N_ge_midp; auto. assert (S1 : Ulp.pred radix2 format64 (/ 2) = / 2 - bpow radix2 (-54)). { change (/ 2) with (bpow radix2 (-1)) at 1. rewrite pred_bpow. reflexivity. }
    rewrite S1. lra.
Qed.
Lemma Phi_half : Phi 0 = / 2.
Proof. assert (Q := Phi_sym 0). rewrite Ropp_0 in Q. lra. Qed.
Lemma ndtr_half ndtr64 (w : b64) : correctly_rounded_ndtr ndtr64 -> is_finite w = true -> Rabs (B2R w) <= bpow radix2 (-58) -> is_finite (ndtr64 w) = true /\ B2R (ndtr64 w) = / 2.
Proof.
  intros H F A. destruct (H w F) as [F1 V1]. split; [exact F1|]. rewrite V1. apply rnd_half. destruct (Phi_mvt 0 (B2R w)) as (c & _ & E). rewrite Phi_half, Rminus_0_r in E. destruct (gauss_bounds c) as (G0 & G1 & _).
  assert (E56 : bpow radix2 (-56) = 4 * bpow radix2 (-58)) by (change (-56)%Z with (2 + -58)%Z; rewrite bpow_plus; reflexivity). assert (E55 : bpow radix2 (-55) = 8 * bpow radix2 (-58)) by (change (-55)%Z with (3 + -58)%Z; rewrite bpow_plus; reflexivity).
  apply Rabs_le_between in A. split; nra.
Qed.
(** Mills' ratio, crudely. *)
Lemma mills x : x <= 0 -> gauss x <= (4 - x) * Phi x.
Proof.
  assert (TA : forall y, y <= 0 -> Phi y <= 4 * gauss y).
  { intros y Y. assert (T := Phi_tail (- y) ltac:(lra)). rewrite Phi_sym in T. assert (S := s2pi_ge). assert (SP := s2pi_pos). unfold gauss. replace (- y * - y) with (y * y) in T by ring.
    apply Rle_trans with (exp (- (y * y) / 2)); [lra|]. set (e := exp (- (y * y) / 2)) in *. assert (E0 : 0 < e) by apply exp_pos.
    replace (4 * (e / sqrt (2 * PI))) with (4 * e / sqrt (2 * PI)) by (field; lra). apply Rle_div_r; [lra|]. nra. }
  intros X. apply Rnot_lt_le. intros C. set (h := fun y => (4 - y) * Phi y - gauss y).
  assert (DG : forall y : R, is_derive gauss y (- y * gauss y)). { intros y. unfold gauss. assert (SP := s2pi_pos). auto_derive; [lra|]. match goal with |- @eq _ ?a ?b => change (@eq R a b) end. change (- (y * y) * / 2) with (- (y * y) / 2). set (e := exp _). field. lra. }
  assert (DH : forall y : R, is_derive h y (4 * gauss y - Phi y)).
  { intros y. unfold h. assert (D1 := Phi_derive y). assert (D2 := DG y). auto_derive.
    - split; [exists (gauss y); exact D1|]. split; [exists (- y * gauss y); exact D2|exact Logic.I].
    - rewrite (is_derive_unique (fun x0 : R => Phi x0) y _ D1), (is_derive_unique (fun x0 : R => gauss x0) y _ D2). match goal with |- @eq _ ?a ?b => change (@eq R a b) end. ring. }
  assert (HI : forall y, y < x -> h y <= h x).
  { intros y Y. destruct (MVT_gen h y x (fun t => 4 * gauss t - Phi t)) as (c & Hc & E).
    - intros t _. apply DH.
    - intros t _. apply continuity_pt_filterlim. apply (ex_derive_continuous (V := R_NormedModule)). eexists. apply DH.
    - rewrite Rmin_left, Rmax_right in Hc by lra. assert (Q := TA c ltac:(lra)). assert (0 <= (4 * gauss c - Phi c) * (x - y)) by (apply Rmult_le_pos; lra). lra. }
  assert (HX : h x < 0) by (unfold h; lra). set (y := Rmin (x - 1) (/ h x)). assert (Y1 : y < x) by (unfold y; assert (Q := Rmin_l (x - 1) (/ h x)); lra).
  assert (Y2 : y <= / h x) by apply Rmin_r. assert (IN : / h x < 0) by now apply Rinv_lt_0_compat. assert (Q := HI y Y1). destruct (gauss_bounds y) as (G0 & G1 & G2). rewrite Rabs_left in G2 by lra.
  assert (HY : - gauss y <= h y) by (unfold h; assert (P0 := Phi_gt_0 y); nra). assert (GX : - h x <= gauss y) by lra.
  assert (Z : - / h x * - h x = 1) by (field; lra). assert (1 <= - y * gauss y). { rewrite <- Z. apply Rmult_le_compat; lra. } lra.
Qed.
Definition lPhi (x : R) : R := ln (Phi x).
Lemma lPhi_close x y : x <= 0 -> y <= 0 -> Rabs x <= 37 -> Rabs y <= 37 -> Rabs (lPhi y - lPhi x) <= 41 * Rabs (y - x).
Proof.
  intros X Y AX AY. assert (D : forall t : R, is_derive lPhi t (gauss t / Phi t)).
  { intros t. unfold lPhi. assert (P0 := Phi_gt_0 t). assert (D1 := Phi_derive t). auto_derive; [split; [exists (gauss t); exact D1|split; [exact P0|exact Logic.I]]|]. rewrite (is_derive_unique (fun x0 : R => Phi x0) t _ D1). match goal with |- @eq _ ?a ?b => change (@eq R a b) end. field. lra. }
  destruct (MVT_gen lPhi x y (fun t => gauss t / Phi t)) as (c & Hc & E).
  - intros t _. apply D.
  - intros t _. apply continuity_pt_filterlim. apply (ex_derive_continuous (V := R_NormedModule)). eexists. apply D.
  - rewrite E, Rabs_mult. apply Rmult_le_compat_r; [apply Rabs_pos|]. apply Rabs_le_between in AX. apply Rabs_le_between in AY.
    assert (C : -37 <= c <= 0) by (unfold Rmin, Rmax in Hc; destruct (Rle_dec x y); lra). assert (P0 := Phi_gt_0 c). assert (G0 := gauss_pos c). rewrite Rabs_pos_eq by (left; apply Rdiv_lt_0_compat; lra). apply Rle_div_l; [lra|]. assert (M := mills c ltac:(lra)). nra.
Qed.
Lemma lPhi_bound x : -36 <= x <= 0 -> -656 <= lPhi x <= 0.
Proof.
  intros X. assert (P0 := Phi_gt_0 x). assert (P1 := Phi_lt_1 x). unfold lPhi. split; [|rewrite <- ln_1; apply ln_le; lra].
  assert (M := mills x ltac:(lra)). assert (G0 := gauss_pos x). assert (L : ln (gauss x) <= ln (40 * Phi x)) by (apply ln_le; nra). rewrite ln_mult in L by lra.
  assert (L40 : ln 40 <= 6). { apply Rle_trans with (ln (2 ^ 6)); [apply ln_le; simpl; lra|]. rewrite ln_pow by lra. assert (Q := ln2_le). simpl (INR 6). lra. }
  assert (LG : -650 <= ln (gauss x)).
  { unfold gauss. rewrite (ln_div _ _ (exp_pos _) s2pi_pos), ln_exp. assert (S := s2pi_ge). assert (ln (sqrt (2 * PI)) <= 2). { apply Rle_trans with (ln (2 ^ 2)); [apply ln_le; simpl; lra|]. rewrite ln_pow by lra. assert (Q := ln2_le). simpl (INR 2). lra. }
    assert (x * x <= 1296) by nra. lra. }
  lra.
Qed.
Lemma exp_close d : Rabs d <= / 2 -> Rabs (exp d - 1) <= 2 * Rabs d.
Proof.
  intros H. assert (L := exp_ineq1_le d). assert (E := exp_ineq1_le (- d)). rewrite exp_Ropp in E. assert (P := exp_pos d). assert (K : exp d * (1 + - d) <= 1). { apply (Rmult_le_compat_l (exp d)) in E; [|lra]. rewrite Rinv_r in E by lra. lra. }
  destruct (Rle_dec 0 d) as [D|D].
  - rewrite (Rabs_pos_eq d) in * by lra. rewrite Rabs_pos_eq by lra. nra.
  - rewrite (Rabs_left d) in * by lra. assert (exp d <= 1) by (rewrite <- exp_0; apply exp_le_; lra). rewrite Rabs_left1 by lra. lra.
Qed.
Lemma tail_core exp64 log64 log_ndtr64 eta (p q : b64) a b : 0 <= eta <= / 2 ^ 20 -> exp_accuracy exp64 eta -> log_accuracy log64 eta -> log_ndtr_accuracy log_ndtr64 eta ->
  is_finite p = true -> is_finite q = true -> B2R p <= 0 -> B2R q <= 0 -> Rabs (B2R p - b) <= 109 * u64 -> Rabs (B2R q - a) <= 109 * u64 -> -36 <= a < b -> b <= 0 ->
  let lost := (21000 * u64 + 2700 * eta) / ((Phi b - Phi a) / Phi b) in lost <= / 4 ->
  let n := logsubexp64 exp64 log64 (log_ndtr64 p) (log_ndtr64 q) in
  is_finite n = true /\ Rabs (B2R n - ln (Phi b - Phi a)) <= 5300 * u64 + 710 * eta + 2 * lost /\ Rabs (ln (Phi b - Phi a)) <= 710.
Proof.
  intros He HE HL HN Fp Fq Np Nq Ep Eq Ha Hb lost HLo n. destruct u_small as (U0 & U1 & _ & U3 & _ & U48).
  assert (He' : eta <= / 1000000) by (eapply Rle_trans; [apply He|]; apply Rinv_le_contravar; simpl; lra). clear - He He' U3 HE HL HN Fp Fq Np Nq Ep Eq Ha Hb HLo U0 U1 U48. assert (E0 : 0 <= eta) by apply He. clear He.
  assert (PA := Phi_gt_0 a). assert (PB := Phi_gt_0 b). assert (PI := Phi_incr a b (proj2 Ha)).
  assert (Ap : Rabs (B2R p) <= 37) by (apply Rabs_le_between in Ep; apply Rabs_le_between; lra). assert (Aq : Rabs (B2R q) <= 37) by (apply Rabs_le_between in Eq; apply Rabs_le_between; lra).
  assert (Aa : Rabs a <= 37) by (apply Rabs_le_between; lra). assert (Ab : Rabs b <= 37) by (apply Rabs_le_between; lra).
  assert (Cp := lPhi_close b (B2R p) Hb Np Ab Ap). assert (Cq := lPhi_close a (B2R q) ltac:(lra) Nq Aa Aq). assert (La := lPhi_bound a ltac:(lra)). assert (Lb := lPhi_bound b ltac:(lra)).
  destruct (HN p Fp ltac:(lra)) as [F1 V1]. destruct (HN q Fq ltac:(lra)) as [F2 V2]. change (ln (Phi (B2R p))) with (lPhi (B2R p)) in V1. change (ln (Phi (B2R q))) with (lPhi (B2R q)) in V2.
  assert (K : forall x l v, Rabs (l - lPhi x) <= 41 * (109 * u64) -> -656 <= lPhi x <= 0 -> Rabs (v - l) <= eta * Rabs l + / 2 ^ 1000 -> Rabs (v - lPhi x) <= 4500 * u64 + 657 * eta).
  { intros x l v A B C. assert (AL : Rabs l <= 657) by (apply Rabs_le_between in A; apply Rabs_le_between; lra). assert (QM : eta * Rabs l <= eta * 657) by (apply Rmult_le_compat_l; lra).
    replace (v - lPhi x) with ((v - l) + (l - lPhi x)) by ring. eapply Rle_trans; [apply Rabs_triang|]. lra. }
  assert (K1 := K b _ _ ltac:(eapply Rle_trans; [exact Cp|]; lra) Lb V1). assert (K2 := K a _ _ ltac:(eapply Rle_trans; [exact Cq|]; lra) La V2). clear K V1 V2 Cp Cq U3.
  unfold n, logsubexp64. clear n. set (lp := log_ndtr64 p) in *. set (lq := log_ndtr64 q) in *.
  destruct (sub_err lq lp (lPhi a) (lPhi b) _ _ 1312 F2 F1 K2 K1) as [F3 V3]; [rewrite !Rabs_left1 by lra; lra|lra|lra|]. set (d := Bminus mode_NE lq lp) in *.
  set (w := (Phi b - Phi a) / Phi b) in *. assert (W0 : 0 < w) by (apply Rdiv_lt_0_compat; lra). assert (R0 : Phi a / Phi b = 1 - w) by (unfold w; field; lra).
  assert (W1 : w < 1). { assert (0 < Phi a / Phi b) by (apply Rdiv_lt_0_compat; lra). lra. }
  assert (RD : lPhi a - lPhi b = ln (1 - w)) by (unfold lPhi; rewrite <- ln_div, R0 by lra; reflexivity). rewrite RD in V3.
  assert (LWb : -656 <= ln (1 - w) <= 0). { rewrite <- RD. assert (lPhi a <= lPhi b) by (unfold lPhi; apply ln_le; lra). lra. }
  assert (V3' : Rabs (B2R d - ln (1 - w)) <= 10400 * u64 + 1320 * eta) by (eapply Rle_trans; [exact V3|]; lra). clear V3.
  assert (SM : 10400 * u64 + 1320 * eta <= / 4) by lra.
  assert (DB : -657 <= B2R d <= 1) by (apply Rabs_le_between in V3'; lra).
  assert (RG : / 2 ^ 1010 <= exp (B2R d) <= 2 ^ 1010).
  { split.
    - assert (P := pow_lt 2 1010 ltac:(lra)). assert (I0 := Rinv_0_lt_compat _ P). rewrite <- (exp_ln (/ 2 ^ 1010)) by exact I0. apply exp_le_. rewrite ln_Rinv by exact P. rewrite ln_pow by lra. assert (Q := ln2_ge).
      replace (INR 1010) with 1010 by (rewrite INR_IZR_INZ; reflexivity). lra.
    - apply Rle_trans with 3; [apply Rle_trans with (exp 1); [apply exp_le_; lra|apply exp_le_3]|]. replace 1010%nat with (2 + 1008)%nat by reflexivity. rewrite pow_add. assert (1 <= 2 ^ 1008) by (apply pow_R1_Rle; lra). replace (2 ^ 2) with 4 by (simpl; lra). lra. }
  destruct (HE d F3 RG) as [F4 V4]. clear RG.
  assert (EX : exp (B2R d) = (1 - w) * exp (B2R d - ln (1 - w))). { unfold Rminus at 2. rewrite exp_plus, exp_Ropp, exp_ln by lra. field. lra. }
  assert (X1 := exp_close (B2R d - ln (1 - w)) ltac:(lra)). set (dd := exp (B2R d - ln (1 - w))) in *. assert (X2 : Rabs (dd - 1) <= 20800 * u64 + 2640 * eta) by lra. clear X1 V3'.
  apply Rabs_le_between in X2. assert (DD : 0 < dd <= 2) by lra.
  assert (VE : Rabs (B2R (exp64 d) - (1 - w)) <= 20800 * u64 + 2642 * eta).
  { rewrite EX in V4. replace (B2R (exp64 d) - (1 - w)) with ((B2R (exp64 d) - (1 - w) * dd) + (1 - w) * (dd - 1)) by ring. eapply Rle_trans; [apply Rabs_triang|].
    assert (Q1 : eta * ((1 - w) * dd) <= eta * 2) by (apply Rmult_le_compat_l; [lra|]; nra). assert (Q2 : Rabs ((1 - w) * (dd - 1)) <= 1 * (20800 * u64 + 2640 * eta)). { rewrite Rabs_mult. apply Rmult_le_compat; try apply Rabs_pos; [rewrite Rabs_pos_eq; lra|apply Rabs_le_between; lra]. } lra. }
  clear V4 EX X2 DD DB. set (E := exp64 d) in *. destruct one_val as [FO VO].
  assert (AE : Rabs (1 - B2R E) <= 2) by (apply Rabs_le_between in VE; apply Rabs_le_between; lra).
  destruct (Bminus_fin one64 E FO F4) as [F5 V5]; [rewrite VO; apply small2, b900_ge; lra|]. rewrite VO in V5. assert (ER := rnd_minus_err 1 (B2R E) one_double (B2R_double E)). rewrite <- V5 in ER. set (m := Bminus mode_NE one64 E) in *.
  assert (QM : u64 * Rabs (1 - B2R E) <= u64 * 2) by (apply Rmult_le_compat_l; lra).
  assert (LW : lost * w = 21000 * u64 + 2700 * eta) by (unfold lost; fold w; field; lra). assert (L0 : 0 < lost) by (unfold lost; fold w; apply Rdiv_lt_0_compat; lra). fold w in lost.
  assert (VM : Rabs (B2R m - w) <= lost * Rabs w). { rewrite (Rabs_pos_eq w), LW by lra. replace (B2R m - w) with ((B2R m - (1 - B2R E)) + - (B2R E - (1 - w))) by ring. eapply Rle_trans; [apply Rabs_triang|]. rewrite Rabs_Ropp. lra. }
  assert (CL := cl_rel lost w (B2R m) ltac:(lra) ltac:(lra) VM). rewrite (Rabs_pos_eq w) in VM by lra. apply Rabs_le_between in VM. assert (QW : lost * w <= / 4 * w) by (apply Rmult_le_compat_r; lra). assert (M0 : 0 < B2R m) by lra.
  destruct CL as [_ CL]. rewrite (Rabs_pos_eq w), (Rabs_pos_eq (B2R m)) in CL by lra. assert (CL2 : Rabs (ln (B2R m) - ln w) <= 2 * lost) by (eapply Rle_trans; [exact CL|]; apply half_div; lra). clear CL.
  assert (LNW : Rabs (ln w) <= 48). { replace 48 with (INR 48) by (rewrite INR_IZR_INZ; reflexivity). apply ln_pow_abs. split; [rewrite (pow_bpow_inv 48); change (- Z.of_nat 48)%Z with (-48)%Z; lra|]. assert (Q : 1 <= 2 ^ 48) by (apply pow_R1_Rle; lra). lra. }
  destruct (HL m (conj F5 M0)) as [F6 V6]. assert (AM : Rabs (ln (B2R m)) <= 49). { replace (ln (B2R m)) with ((ln (B2R m) - ln w) + ln w) by ring. eapply Rle_trans; [apply Rabs_triang|]. lra. }
  assert (QE : eta * Rabs (ln (B2R m)) <= eta * 49) by (apply Rmult_le_compat_l; lra).
  assert (VL : Rabs (B2R (log64 m) - ln w) <= 49 * eta + 2 * lost). { replace (B2R (log64 m) - ln w) with ((B2R (log64 m) - ln (B2R m)) + (ln (B2R m) - ln w)) by ring. eapply Rle_trans; [apply Rabs_triang|]. lra. }
  assert (PP : ln (Phi b - Phi a) = lPhi b + ln w). { unfold lPhi. rewrite <- ln_mult by lra. f_equal. unfold w. field. lra. } rewrite PP. clear PP.
  set (lm := log64 m) in *. apply Rabs_le_between in K1. apply Rabs_le_between in VL. apply Rabs_le_between in LNW.
  assert (AS : Rabs (B2R lp + B2R lm) <= 710) by (apply Rabs_le_between; lra).
  destruct (Bplus_fin lp lm F1 F6) as [F7 V7]; [apply small2, b900_ge; lra|]. split; [exact F7|]. rewrite V7. assert (ER2 := rnd_minus_err (B2R lp) (- B2R lm) (B2R_double lp) (opp_double _ (B2R_double lm))). unfold Rminus in ER2. rewrite Ropp_involutive in ER2.
  assert (QU : u64 * Rabs (B2R lp + B2R lm) <= u64 * 710) by (apply Rmult_le_compat_l; lra). split; [|apply Rabs_le_between; lra].
  assert (ER3 : Rabs (rnd64 (B2R lp + B2R lm) - (B2R lp + B2R lm)) <= 710 * u64) by (unfold Rminus; lra). apply Rabs_le_between in ER3. apply Rabs_le_between. lra.
Qed.
Lemma tn_finish exp64 log64 log1p64 ndtr64 log_ndtr64 c eta e xx mu sigma high low :
  0 <= eta <= / 2 ^ 20 -> exp_accuracy exp64 eta -> log_accuracy log64 eta -> is_finite c = true -> Rabs (B2R c - ln (2 * PI) / 2) <= eta ->
  bounded_double xx -> bounded_double mu -> bounded_double high -> bounded_double low -> moderate sigma ->
  B2R low <= B2R xx <= B2R high -> Rabs ((B2R xx - B2R mu) / B2R sigma) <= 36 -> B2R low < B2R high ->
  let P := Phi ((B2R high - B2R mu) / B2R sigma) - Phi ((B2R low - B2R mu) / B2R sigma) in
  let n := log_norm64 exp64 log64 log1p64 ndtr64 log_ndtr64 (standard64 low mu sigma) (standard64 high mu sigma) in
  is_finite n = true -> Rabs (B2R n - ln P) <= e -> e <= 9 / 10 -> Rabs (ln P) <= 710 ->
  let exact := exact_truncnorm (B2R mu) (B2R sigma) (B2R high) (B2R low) (B2R xx) in
  let computed := truncnorm64 exp64 log64 log1p64 ndtr64 log_ndtr64 c xx mu sigma high low in
  / 2 ^ 1000 <= exact <= 2 ^ 1000 ->
  is_finite computed = true /\ 0 < B2R computed /\
  truncnorm_body (Fin (B2R xx)) (Fin (B2R mu)) (Fin (B2R sigma)) (Fin (B2R high)) (Fin (B2R low)) = Fin exact /\
  Rabs (ln (B2R computed) - ln exact) <= 9100 * u64 + 403 * eta + e.
Proof.
  intros He HE HL Fc Ec Bx Bm Bh Bl Ms Hx Az LOW P n Fn En He1 LNP exact computed HR.
  destruct u_small as (U0 & U1 & U2 & U3 & T0 & U48).
  assert (He' : eta <= / 1000000) by (eapply Rle_trans; [apply He|]; apply Rinv_le_contravar; simpl; lra).
  assert (S0 : 0 < B2R sigma). { destruct Ms as [_ Q]. assert (0 < / 2 ^ 400) by (apply Rinv_0_lt_compat, pow_lt; lra). lra. }
  destruct (std_val xx mu sigma Bx Bm Ms) as (Fz & Ez & _). 
  assert (IS : 0 < / B2R sigma) by now apply Rinv_0_lt_compat.
  assert (EXB := truncnorm_body_in (B2R mu) (B2R sigma) (B2R high) (B2R low) (B2R xx) S0 LOW Hx). assert (EXP := tnpdf_pos (B2R mu) (B2R sigma) (B2R high) (B2R low) (B2R xx) S0 LOW).
  change (tnpdf (B2R mu) (B2R sigma) (B2R high) (B2R low) (B2R xx)) with exact in EXB, EXP.
  assert (EXD : exact = gauss ((B2R xx - B2R mu) / B2R sigma) / B2R sigma / P) by reflexivity.
  assert (AB : (B2R low - B2R mu) / B2R sigma < (B2R high - B2R mu) / B2R sigma) by (unfold Rdiv; apply Rmult_lt_compat_r; lra).
  assert (P0 : 0 < P) by (unfold P; assert (Q := Phi_incr _ _ AB); lra).
  set (a := (B2R low - B2R mu) / B2R sigma) in *. set (b := (B2R high - B2R mu) / B2R sigma) in *. set (z := (B2R xx - B2R mu) / B2R sigma) in *.
  set (aa := standard64 low mu sigma) in *. set (bb := standard64 high mu sigma) in *. set (zz := standard64 xx mu sigma) in *.
  destruct (log_pdf64_val log64 c eta zz sigma z He HL Fc Ec Fz Ez Az Ms) as [Fp Ep]. set (p := log_pdf64 log64 c zz sigma) in *.
  change n with (log_norm64 exp64 log64 log1p64 ndtr64 log_ndtr64 aa bb) in Fn, En. clear n. set (ln64 := log_norm64 exp64 log64 log1p64 ndtr64 log_ndtr64 aa bb) in *.
  assert (LS := ln_pow_abs 400 _ (proj2 Ms)). replace (INR 400) with 400 in LS by (rewrite INR_IZR_INZ; reflexivity). assert (HB := half_log_bound).
  assert (Q1 : 0 <= z * z <= 1296) by (apply Rabs_le_between in Az; assert (T := square_bound z 36 Az); lra).
  set (lp := - (z * z) / 2 - ln (2 * PI) / 2 - ln (B2R sigma)) in *.
  assert (ALP : Rabs lp <= 1050) by (apply Rabs_le_between in LS; unfold lp; apply Rabs_le_between; lra).
  destruct (sub_err p ln64 lp (ln P) _ _ 1760 Fp Fn Ep En) as [Fl El]; [lra|lra|lra|]. set (l := Bminus mode_NE p ln64) in *.
  assert (EX : ln exact = lp - ln P).
  { rewrite EXD. assert (G0 := gauss_pos z). rewrite (ln_div (gauss z / B2R sigma) P), (ln_div (gauss z) (B2R sigma)) by first [lra | apply Rdiv_lt_0_compat; lra]. unfold gauss. rewrite (ln_div _ _ (exp_pos _) s2pi_pos), ln_exp.
    assert (SQ : ln (sqrt (2 * PI)) = ln (2 * PI) / 2). { rewrite <- Rpower_sqrt by (assert (QQ := PI_RGT_0); lra). unfold Rpower. rewrite ln_exp. field. } rewrite SQ. unfold lp. ring. }
  rewrite <- EX in El. assert (El' : Rabs (B2R l - ln exact) <= 9100 * u64 + 401 * eta + e) by (eapply Rle_trans; [exact El|]; lra).
  assert (El1 : Rabs (B2R l - ln exact) <= 1) by (eapply Rle_trans; [exact El'|]; lra). apply Rabs_le_between in El1.
  assert (RG : / 2 ^ 1010 <= exp (B2R l) <= 2 ^ 1010).
  { assert (X3 := exp_le_3). assert (EE : exp (ln exact) = exact) by (apply exp_ln; exact EXP).
    assert (A1 : exp (B2R l) <= exact * exp 1). { rewrite <- EE, <- exp_plus. apply exp_le_. lra. } assert (A2 : exact * / exp 1 <= exp (B2R l)). { rewrite <- exp_Ropp, <- EE at 1. rewrite <- exp_plus. apply exp_le_. lra. }
    assert (E10 : 2 ^ 1010 = 2 ^ 1000 * 1024) by (replace 1010%nat with (1000 + 10)%nat by reflexivity; rewrite pow_add; f_equal; simpl; lra). rewrite E10. assert (PP : 0 < 2 ^ 1000) by (apply pow_lt; lra). clear E10 X3 EE. split.
    - rewrite Rinv_mult. apply Rle_trans with (exact * / exp 1); [|exact A2]. assert (0 < / 2 ^ 1000) by now apply Rinv_0_lt_compat. apply Rmult_le_compat; [lra|lra|lra|]. apply Rinv_le_contravar; [apply exp_pos|]. assert (Q := exp_le_3). lra.
    - assert (Q := exp_le_3). assert (Q' := exp_pos 1). apply Rle_trans with (exact * exp 1); [exact A1|]. apply Rmult_le_compat; lra. }
  destruct (HE l Fl RG) as [Fe Ee]. assert (X0 := exp_pos (B2R l)). assert (Ee2 : Rabs (B2R (exp64 l) - exp (B2R l)) <= eta * Rabs (exp (B2R l))) by (rewrite (Rabs_pos_eq (exp _)); lra).
  assert (CL := cl_rel eta (exp (B2R l)) (B2R (exp64 l)) ltac:(lra) ltac:(lra) Ee2). apply Rabs_le_between in Ee. assert (PE : 0 < B2R (exp64 l)) by (assert (QM : eta * exp (B2R l) <= / 4 * exp (B2R l)) by (apply Rmult_le_compat_r; lra); lra). destruct CL as [_ CL]. rewrite (Rabs_pos_eq (exp (B2R l))), (Rabs_pos_eq (B2R (exp64 l))), ln_exp in CL by lra.
  assert (CL2 : Rabs (ln (B2R (exp64 l)) - B2R l) <= 2 * eta). { eapply Rle_trans; [exact CL|]. apply half_div. lra. }
  assert (SG := pos_sign (exp64 l) Fe PE). assert (NT := ntn_fin zero64 (exp64 l) Fe).
  assert (VC : is_finite computed = true /\ B2R computed = B2R (exp64 l)).
  { unfold computed, truncnorm64. fold aa bb zz p ln64 l. rewrite NT. destruct (mult_bool (exp64 l) (Bleb low xx) Fe SG) as (F1 & S1 & V1). destruct (mult_bool _ (Bleb xx high) F1 S1) as (F2 & S2 & V2). split; [exact F2|]. rewrite V2, V1. destruct Bx as [Fx _], Bl as [Fl' _], Bh as [Fh _].
    rewrite !leb_fin by assumption. destruct (Rle_dec (B2R xx) (B2R high)); [|lra]. destruct (Rle_dec (B2R low) (B2R xx)); [|lra]. reflexivity. }
  destruct VC as [FC VC]. rewrite VC. split; [exact FC|]. split; [exact PE|]. split; [exact EXB|].
  replace (ln (B2R (exp64 l)) - ln exact) with ((ln (B2R (exp64 l)) - B2R l) + (B2R l - ln exact)) by ring. eapply Rle_trans; [apply Rabs_triang|]. lra.
Qed.

Lemma C146_always_a_number_pf :
  forall exp64 log64 log1p64 ndtr64 log_ndtr64 c xx mu sigma high low, never_negative exp64 ->
  let computed := truncnorm64 exp64 log64 log1p64 ndtr64 log_ndtr64 c xx mu sigma high low in
  is_finite computed = true /\ 0 <= B2R computed /\
  (is_finite xx = true -> is_finite low = true -> is_finite high = true -> B2R xx < B2R low \/ B2R high < B2R xx -> B2R computed = 0).
Proof.
  intros exp64 log64 log1p64 ndtr64 log_ndtr64 c xx mu sigma high low H computed. unfold computed, truncnorm64.
  set (l := Bminus mode_NE _ _). set (E := nan_to_num_b zero64 (exp64 l)).
  destruct (ntn_finite (exp64 l)) as [F S]; [destruct (H l) as [N|[N _]]; auto|]. fold E in F, S.
  destruct (mult_bool E (Bleb low xx) F S) as (F1 & S1 & V1). set (E1 := Bmult mode_NE E _) in *.
  destruct (mult_bool E1 (Bleb xx high) F1 S1) as (F2 & S2 & V2). set (E2 := Bmult mode_NE E1 _) in *.
  split; [exact F2|]. split; [assert (Q := B2R_sign E2 F2); rewrite S2 in Q; exact Q|].
  intros Fx Fl Fh O. rewrite V2, V1, !leb_fin by assumption. destruct (Rle_dec (B2R xx) (B2R high)); [|reflexivity]. destruct (Rle_dec (B2R low) (B2R xx)); [lra|reflexivity].
Qed.

Lemma C146_narrow_refuted_pf :
  forall eta exp64 log64 log1p64 ndtr64 log_ndtr64 c xx mu sigma high low,
  0 <= eta <= / 2 ^ 20 -> log_accuracy log64 eta -> is_finite c = true -> Rabs (B2R c - ln (2 * PI) / 2) <= eta ->
  correctly_rounded_ndtr ndtr64 -> limits exp64 log1p64 ->
  bounded_double xx -> bounded_double mu -> bounded_double high -> bounded_double low -> moderate sigma ->
  B2R low <= B2R xx <= B2R high ->
  - / 2 ^ 60 <= (B2R low - B2R mu) / B2R sigma <= 0 -> / 2 ^ 900 <= (B2R high - B2R mu) / B2R sigma <= / 2 ^ 60 ->
  let exact := exact_truncnorm (B2R mu) (B2R sigma) (B2R high) (B2R low) (B2R xx) in
  B2R (truncnorm64 exp64 log64 log1p64 ndtr64 log_ndtr64 c xx mu sigma high low) = MAXF /\
  truncnorm_body (Fin (B2R xx)) (Fin (B2R mu)) (Fin (B2R sigma)) (Fin (B2R high)) (Fin (B2R low)) = Fin exact /\
  0 < exact <= 4 / (B2R high - B2R low).
Proof.
  intros eta exp64 log64 log1p64 ndtr64 log_ndtr64 c xx mu sigma high low He HL Fc Ec HN [HE HG] Bx Bm Bh Bl Ms Hx Ha Hb exact.
  destruct u_small as (U0 & U1 & U2 & _ & T0 & _).
  assert (S0 : 0 < B2R sigma). { destruct Ms as [_ Q]. assert (0 < / 2 ^ 400) by (apply Rinv_0_lt_compat, pow_lt; lra). lra. }
  destruct (std_val xx mu sigma Bx Bm Ms) as (Fz & Ez & _). destruct (std_val low mu sigma Bl Bm Ms) as (Fa & Ea & Na & _). destruct (std_val high mu sigma Bh Bm Ms) as (Fb & Eb & _ & Nb).
  set (a := (B2R low - B2R mu) / B2R sigma) in *. set (b := (B2R high - B2R mu) / B2R sigma) in *. set (z := (B2R xx - B2R mu) / B2R sigma) in *.
  assert (Hz : a <= z <= b). { unfold a, b, z, Rdiv. assert (0 < / B2R sigma) by now apply Rinv_0_lt_compat. split; apply Rmult_le_compat_r; lra. }
  rewrite (pow_bpow_inv 60) in Ha, Hb. rewrite (pow_bpow_inv 900) in Hb. change (- Z.of_nat 60)%Z with (-60)%Z in *. change (- Z.of_nat 900)%Z with (-900)%Z in *.
  assert (P60 : 0 < bpow radix2 (-60)) by apply bpow_gt_0. assert (P900 : 0 < bpow radix2 (-900)) by apply bpow_gt_0.
  assert (T60 : bpow radix2 (-1075) <= bpow radix2 (-60)) by (apply bpow_le; lia). assert (T900 : 4 * bpow radix2 (-1075) <= bpow radix2 (-900)) by (change 4 with (bpow radix2 2); rewrite <- bpow_plus; apply bpow_le; lia).
  assert (E58 : bpow radix2 (-58) = 4 * bpow radix2 (-60)) by (change (-58)%Z with (2 + -60)%Z; rewrite bpow_plus; reflexivity).
  assert (Q60 : bpow radix2 (-60) <= / 4) by (change (/ 4) with (bpow radix2 (-2)); apply bpow_le; lia).
  set (aa := standard64 low mu sigma) in *. set (bb := standard64 high mu sigma) in *. set (zz := standard64 xx mu sigma) in *.
  assert (Aa : Rabs a <= bpow radix2 (-60)) by (apply Rabs_le_between; lra). assert (Ab : Rabs b <= bpow radix2 (-60)) by (apply Rabs_le_between; lra). assert (Az : Rabs z <= bpow radix2 (-60)) by (apply Rabs_le_between; lra).
  assert (Ea' : Rabs (B2R aa - a) <= 2 * bpow radix2 (-60)) by (assert (Q := u3_quarter (Rabs a) (Rabs_pos a)); lra). assert (Eb' : Rabs (B2R bb - b) <= 2 * bpow radix2 (-60)) by (assert (Q := u3_quarter (Rabs b) (Rabs_pos b)); lra).
  assert (Caa : Rabs (B2R aa) <= bpow radix2 (-58)) by (apply Rabs_le_between in Ea'; apply Rabs_le_between; lra). assert (Cbb : Rabs (B2R bb) <= bpow radix2 (-58)) by (apply Rabs_le_between in Eb'; apply Rabs_le_between; lra).
  assert (Pbb : 0 < B2R bb). { rewrite (Rabs_pos_eq b) in Eb by lra. apply Rabs_le_between in Eb. assert (T3 := u3_quarter b ltac:(lra)). lra. }
  assert (Naa : B2R aa <= 0) by (apply Na; lra).
  destruct (log_pdf64_val log64 c eta zz sigma z He HL Fc Ec Fz Ez ltac:(lra) Ms) as [Fp _]. set (p := log_pdf64 log64 c zz sigma) in *.
  assert (LN : log_norm64 exp64 log64 log1p64 ndtr64 log_ndtr64 aa bb = B754_infinity true).
  { assert (Fo : is_finite (Bopp bb) = true) by (rewrite is_finite_Bopp; exact Fb). destruct (ndtr_half ndtr64 aa HN Fa Caa) as [F1 V1]. destruct (ndtr_half ndtr64 (Bopp bb) HN Fo) as [F2 V2]; [rewrite B2R_Bopp, Rabs_Ropp; exact Cbb|].
    unfold log_norm64. assert (Z0 : B2R zero64 = 0) by reflexivity. assert (FZ : is_finite zero64 = true) by reflexivity. rewrite (leb_fin bb zero64 Fb FZ), (ltb_fin zero64 aa FZ Fa), (ltb_fin zero64 bb FZ Fb), Z0.
    destruct (Rle_dec (B2R bb) 0) as [q|_]; [lra|]. destruct (Rlt_dec 0 (B2R aa)) as [q|_]; [lra|]. destruct (Rlt_dec 0 (B2R bb)) as [_|q]; [|lra].
    assert (F3 : is_finite (Bopp (ndtr64 aa)) = true) by (rewrite is_finite_Bopp; exact F1). assert (V3 : B2R (Bopp (ndtr64 aa)) - B2R (ndtr64 (Bopp bb)) = - (1)) by (rewrite B2R_Bopp, V1, V2; field).
    assert (D1 : is_double (- (1))) by apply opp_double, one_double.
    destruct (Bminus_fin (Bopp (ndtr64 aa)) (ndtr64 (Bopp bb)) F3 F2) as [F4 V4]; [rewrite V3, rnd_double by exact D1; apply D1|]. apply HG; [exact F4|]. rewrite V4, V3, rnd_double by exact D1. lra. }
  assert (LOW : B2R low < B2R high). { assert (0 < B2R high - B2R mu) by (apply (ratio_pos _ (B2R sigma) S0); fold b; lra). assert (B2R low - B2R mu <= 0) by (apply (ratio_nonpos _ (B2R sigma) S0); fold a; lra). lra. }
  split; [|split].
  - unfold truncnorm64. fold aa bb zz p. rewrite LN. assert (EI : Bminus mode_NE p (B754_infinity true) = B754_infinity false) by (destruct p; try discriminate Fp; reflexivity). rewrite EI, HE.
    change (nan_to_num_b zero64 (B754_infinity false)) with (Bmax_float : b64). assert (FM : is_finite (Bmax_float : b64) = true) by (vm_compute; reflexivity). assert (SM : Bsign (Bmax_float : b64) = false) by (vm_compute; reflexivity).
    destruct (mult_bool Bmax_float (Bleb low xx) FM SM) as (F1 & S1 & V1). destruct (mult_bool _ (Bleb xx high) F1 S1) as (F2 & S2 & V2). rewrite V2, V1. destruct Bx as [Fx _], Bl as [Fl _], Bh as [Fh _].
    rewrite !leb_fin by assumption. destruct (Rle_dec (B2R xx) (B2R high)); [|lra]. destruct (Rle_dec (B2R low) (B2R xx)); [|lra]. assert (M := B2X_max). rewrite (B2X_fin _ FM) in M. congruence.
  - apply (truncnorm_body_in (B2R mu) (B2R sigma) (B2R high) (B2R low) (B2R xx) S0 LOW Hx).
  - split; [apply (tnpdf_pos (B2R mu) (B2R sigma) (B2R high) (B2R low) (B2R xx) S0 LOW)|]. unfold exact, exact_truncnorm. fold a b z. destruct (gauss_bounds z) as (G0 & G1 & _).
    destruct (Phi_mvt a b) as (w & Hw & E). assert (W : Rabs w <= 1). { rewrite Rmin_left, Rmax_right in Hw by lra. apply Rabs_le_between. lra. } assert (G8 := gauss_low w W). rewrite E.
    assert (AB : b - a = (B2R high - B2R low) / B2R sigma) by (unfold a, b; field; lra). rewrite AB.
    replace (gauss z / B2R sigma / (gauss w * ((B2R high - B2R low) / B2R sigma))) with (gauss z / gauss w / (B2R high - B2R low)) by (field; lra). unfold Rdiv. apply Rmult_le_compat_r; [left; apply Rinv_0_lt_compat; lra|].
    apply Rle_trans with (/ 2 * / / 8); [|lra]. apply Rmult_le_compat; [lra|left; apply Rinv_0_lt_compat; lra|exact G1|apply Rinv_le_contravar; lra].
Qed.

Lemma C146_accuracy_partial_pf :
  forall eta exp64 log64 log1p64 ndtr64 log_ndtr64 c xx mu sigma high low,
  0 <= eta <= / 2 ^ 20 -> exp_accuracy exp64 eta -> log_accuracy log64 eta -> log1p_accuracy log1p64 eta -> ndtr_accuracy ndtr64 eta ->
  is_finite c = true -> Rabs (B2R c - ln (2 * PI) / 2) <= eta ->
  bounded_double xx -> bounded_double mu -> bounded_double high -> bounded_double low -> moderate sigma ->
  B2R low <= B2R xx <= B2R high -> Rabs ((B2R xx - B2R mu) / B2R sigma) <= 36 ->
  B2R low <= B2R mu -> / 2 ^ 900 <= (B2R high - B2R mu) / B2R sigma ->
  let exact := exact_truncnorm (B2R mu) (B2R sigma) (B2R high) (B2R low) (B2R xx) in
  let computed := truncnorm64 exp64 log64 log1p64 ndtr64 log_ndtr64 c xx mu sigma high low in
  let P := Phi ((B2R high - B2R mu) / B2R sigma) - Phi ((B2R low - B2R mu) / B2R sigma) in
  let lost := (2 * eta + 15 * u64) / P in
  lost <= / 4 -> / 2 ^ 1000 <= exact <= 2 ^ 1000 ->
  is_finite computed = true /\ 0 < B2R computed /\
  truncnorm_body (Fin (B2R xx)) (Fin (B2R mu)) (Fin (B2R sigma)) (Fin (B2R high)) (Fin (B2R low)) = Fin exact /\
  Rabs (ln (B2R computed) - ln exact) <= 10000 * u64 + 500 * eta + 2 * lost.
Proof.
  intros eta exp64 log64 log1p64 ndtr64 log_ndtr64 c xx mu sigma high low He HE HL H1 HN Fc Ec Bx Bm Bh Bl Ms Hx Az Hl Hb exact computed P lost HLo HR.
  destruct u_small as (U0 & U1 & U2 & U3 & T0 & U48).
  assert (He' : eta <= / 1000000) by (eapply Rle_trans; [apply He|]; apply Rinv_le_contravar; simpl; lra).
  assert (S0 : 0 < B2R sigma). { destruct Ms as [_ Q]. assert (0 < / 2 ^ 400) by (apply Rinv_0_lt_compat, pow_lt; lra). lra. }
  destruct (std_val xx mu sigma Bx Bm Ms) as (Fz & Ez & _). destruct (std_val low mu sigma Bl Bm Ms) as (Fa & Ea & Na & _). destruct (std_val high mu sigma Bh Bm Ms) as (Fb & Eb & _ & Nb).
  assert (IS : 0 < / B2R sigma) by now apply Rinv_0_lt_compat.
  assert (HaN : (B2R low - B2R mu) / B2R sigma <= 0) by (apply nonpos_ratio; [exact S0|lra]).
  assert (EXB := truncnorm_body_in (B2R mu) (B2R sigma) (B2R high) (B2R low) (B2R xx) S0). assert (EXP := tnpdf_pos (B2R mu) (B2R sigma) (B2R high) (B2R low) (B2R xx) S0).
  assert (P900 : 0 < / 2 ^ 900) by (apply Rinv_0_lt_compat, pow_lt; lra).
  assert (LOW : B2R low < B2R high). { assert (0 < B2R high - B2R mu) by (apply (ratio_pos _ (B2R sigma) S0); lra). lra. }
  specialize (EXB LOW Hx). specialize (EXP LOW). change (tnpdf (B2R mu) (B2R sigma) (B2R high) (B2R low) (B2R xx)) with exact in EXB, EXP.
  assert (EXD : exact = gauss ((B2R xx - B2R mu) / B2R sigma) / B2R sigma / P) by reflexivity.
  set (a := (B2R low - B2R mu) / B2R sigma) in *. set (b := (B2R high - B2R mu) / B2R sigma) in *. set (z := (B2R xx - B2R mu) / B2R sigma) in *.
  assert (AB : a < b) by lra. assert (P0 : 0 < P) by (unfold P; assert (Q := Phi_incr a b AB); lra). assert (P1 : P < 1) by (unfold P; assert (Q := Phi_gt_0 a); assert (Q' := Phi_lt_1 b); lra).
  set (aa := standard64 low mu sigma) in *. set (bb := standard64 high mu sigma) in *. set (zz := standard64 xx mu sigma) in *.
  assert (Naa : B2R aa <= 0) by (apply Na; lra).
  assert (Pbb : 0 < B2R bb). { rewrite (Rabs_pos_eq b) in Eb by lra. apply Rabs_le_between in Eb. assert (T3 := u3_quarter b ltac:(lra)).
    assert (T900 : 4 * bpow radix2 (-1075) <= / 2 ^ 900) by (rewrite (pow_bpow_inv 900); change 4 with (bpow radix2 2); rewrite <- bpow_plus; apply bpow_le; lia). lra. }
  destruct (log_pdf64_val log64 c eta zz sigma z He HL Fc Ec Fz Ez Az Ms) as [Fp Ep]. set (p := log_pdf64 log64 c zz sigma) in *.
  (* the normalisation *)
  assert (LP : lost * P = 2 * eta + 15 * u64) by (unfold lost; field; lra). assert (L0 : 0 < lost) by (unfold lost; apply Rdiv_lt_0_compat; lra).
  assert (P60 : 60 * u64 <= P) by (assert (T := lost_scale lost P _ ltac:(lra) HLo LP); lra).
  assert (LNP : Rabs (ln P) <= 48). { replace 48 with (INR 48) by (rewrite INR_IZR_INZ; reflexivity). apply ln_pow_abs. split; [rewrite (pow_bpow_inv 48); change (- Z.of_nat 48)%Z with (-48)%Z; lra|]. assert (Q : 1 <= 2 ^ 48) by (apply pow_R1_Rle; lra). lra. }
  assert (LN : is_finite (log_norm64 exp64 log64 log1p64 ndtr64 log_ndtr64 aa bb) = true /\ Rabs (B2R (log_norm64 exp64 log64 log1p64 ndtr64 log_ndtr64 aa bb) - ln P) <= 49 * eta + 2 * lost + u64).
  { assert (Fo : is_finite (Bopp bb) = true) by (rewrite is_finite_Bopp; exact Fb). destruct (HN aa Fa) as (F1 & N1 & V1). destruct (HN (Bopp bb) Fo) as (F2 & N2 & V2). rewrite B2R_Bopp in V2.
    unfold log_norm64. assert (Z0 : B2R zero64 = 0) by reflexivity. assert (FZ : is_finite zero64 = true) by reflexivity. rewrite (leb_fin bb zero64 Fb FZ), (ltb_fin zero64 aa FZ Fa), (ltb_fin zero64 bb FZ Fb), Z0.
    destruct (Rle_dec (B2R bb) 0) as [q|_]; [lra|]. destruct (Rlt_dec 0 (B2R aa)) as [q|_]; [lra|]. destruct (Rlt_dec 0 (B2R bb)) as [_|q]; [|lra].
    assert (C1 := Phi_close a (B2R aa) (bpow radix2 (-1075)) ltac:(lra) Ea). assert (C2 := Phi_close b (B2R bb) (bpow radix2 (-1075)) ltac:(lra) Eb).
    assert (B1 := conj (Phi_gt_0 (B2R aa)) (Phi_lt_1 (B2R aa))). assert (B2 := conj (Phi_gt_0 (- B2R bb)) (Phi_lt_1 (- B2R bb))). rewrite (Phi_sym (B2R bb)) in V2, B2.
    set (na := ndtr64 aa) in *. set (nb := ndtr64 (Bopp bb)) in *.
    assert (K1 : Rabs (B2R na - Phi a) <= eta + 6 * u64). { replace (B2R na - Phi a) with ((B2R na - Phi (B2R aa)) + (Phi (B2R aa) - Phi a)) by ring. eapply Rle_trans; [apply Rabs_triang|]. assert (QM : eta * Phi (B2R aa) <= eta * 1) by (apply Rmult_le_compat_l; lra). lra. }
    assert (K2 : Rabs (B2R nb - (1 - Phi b)) <= eta + 6 * u64). { replace (B2R nb - (1 - Phi b)) with ((B2R nb - (1 - Phi (B2R bb))) + - (Phi (B2R bb) - Phi b)) by ring. eapply Rle_trans; [apply Rabs_triang|]. rewrite Rabs_Ropp. assert (QM : eta * (1 - Phi (B2R bb)) <= eta * 1) by (apply Rmult_le_compat_l; lra). lra. }
    clear V1 V2 HR. apply Rabs_le_between in K1. apply Rabs_le_between in K2. assert (F3 : is_finite (Bopp na) = true) by (rewrite is_finite_Bopp; exact F1). assert (V3 : B2R (Bopp na) = - B2R na) by apply B2R_Bopp.
    assert (PE : P = Phi b - Phi a) by reflexivity. assert (SB : Rabs (- B2R na - B2R nb) <= 1 + 2 * eta + 12 * u64) by (apply Rabs_le_between; lra).
    destruct (Bminus_fin (Bopp na) nb F3 F2) as [F4 V4]; [rewrite V3; apply small2, b900_ge; lra|]. set (s := Bminus mode_NE (Bopp na) nb) in *. rewrite V3 in V4.
    assert (ER := rnd_minus_err (- B2R na) (B2R nb) (opp_double _ (B2R_double na)) (B2R_double nb)). rewrite <- V4 in ER.
    assert (ER' : Rabs (B2R s - (- B2R na - B2R nb)) <= 2 * u64) by (assert (T := u_le_const 2 (Rabs (- B2R na - B2R nb)) ltac:(lra)); lra). apply Rabs_le_between in ER'.
    assert (SP : Rabs ((1 + B2R s) - P) <= lost * Rabs P). { rewrite (Rabs_pos_eq P), LP by lra. apply Rabs_le_between. lra. }
    assert (SN : B2R s <= 0) by (rewrite V4; apply rnd_upper; [apply zero_double|lra]).
    assert (CL := cl_rel lost P (1 + B2R s) ltac:(lra) ltac:(lra) SP). rewrite (Rabs_pos_eq P) in SP by lra. apply Rabs_le_between in SP. assert (SQ : 0 < 1 + B2R s) by (assert (QM : lost * P <= / 4 * P) by (apply Rmult_le_compat_r; lra); lra).
    destruct CL as [_ CL]. rewrite (Rabs_pos_eq P), (Rabs_pos_eq (1 + B2R s)) in CL by lra.
    assert (CL2 : Rabs (ln (1 + B2R s) - ln P) <= 2 * lost). { eapply Rle_trans; [exact CL|]. apply half_div. lra. }
    destruct (H1 s F4 ltac:(lra)) as [F5 V5]. split; [exact F5|].
    assert (AL : Rabs (ln (1 + B2R s)) <= 49). { replace (ln (1 + B2R s)) with ((ln (1 + B2R s) - ln P) + ln P) by ring. eapply Rle_trans; [apply Rabs_triang|]. lra. }
    replace (B2R (log1p64 s) - ln P) with ((B2R (log1p64 s) - ln (1 + B2R s)) + (ln (1 + B2R s) - ln P)) by ring. eapply Rle_trans; [apply Rabs_triang|]. assert (QM : eta * Rabs (ln (1 + B2R s)) <= eta * 49) by (apply Rmult_le_compat_l; lra). lra. }
  destruct LN as [Fn En]. destruct (tn_finish exp64 log64 log1p64 ndtr64 log_ndtr64 c eta (49 * eta + 2 * lost + u64) xx mu sigma high low He HE HL Fc Ec Bx Bm Bh Bl Ms Hx Az LOW Fn En) as (R1 & R2 & R3 & R4); [lra|fold a b P; lra|exact HR|].
  split; [exact R1|]. split; [exact R2|]. split; [exact R3|]. eapply Rle_trans; [exact R4|]. lra.
Qed.

Lemma C146_below_mean_partial_pf :
  forall eta exp64 log64 log1p64 ndtr64 log_ndtr64 c xx mu sigma high low,
  0 <= eta <= / 2 ^ 20 -> exp_accuracy exp64 eta -> log_accuracy log64 eta -> log_ndtr_accuracy log_ndtr64 eta ->
  is_finite c = true -> Rabs (B2R c - ln (2 * PI) / 2) <= eta ->
  bounded_double xx -> bounded_double mu -> bounded_double high -> bounded_double low -> moderate sigma ->
  B2R low <= B2R xx <= B2R high -> B2R low < B2R high ->
  -36 <= (B2R low - B2R mu) / B2R sigma -> B2R high <= B2R mu ->
  let exact := exact_truncnorm (B2R mu) (B2R sigma) (B2R high) (B2R low) (B2R xx) in
  let computed := truncnorm64 exp64 log64 log1p64 ndtr64 log_ndtr64 c xx mu sigma high low in
  let P x := Phi ((x - B2R mu) / B2R sigma) in
  let lost := (21000 * u64 + 2700 * eta) / ((P (B2R high) - P (B2R low)) / P (B2R high)) in
  lost <= / 4 -> / 2 ^ 1000 <= exact <= 2 ^ 1000 ->
  is_finite computed = true /\ 0 < B2R computed /\
  truncnorm_body (Fin (B2R xx)) (Fin (B2R mu)) (Fin (B2R sigma)) (Fin (B2R high)) (Fin (B2R low)) = Fin exact /\
  Rabs (ln (B2R computed) - ln exact) <= 15000 * u64 + 1200 * eta + 2 * lost.
Proof.
  intros eta exp64 log64 log1p64 ndtr64 log_ndtr64 c xx mu sigma high low He HE HL HN Fc Ec Bx Bm Bh Bl Ms Hx LOW Ha Hh exact computed P lost HLo HR.
  destruct u_small as (U0 & U1 & U2 & _). assert (He' : eta <= / 1000000) by (eapply Rle_trans; [apply He|]; apply Rinv_le_contravar; simpl; lra).
  assert (S0 : 0 < B2R sigma). { destruct Ms as [_ Q]. assert (0 < / 2 ^ 400) by (apply Rinv_0_lt_compat, pow_lt; lra). lra. }
  assert (IS : 0 < / B2R sigma) by now apply Rinv_0_lt_compat.
  destruct (std_val low mu sigma Bl Bm Ms) as (Fa & Ea & Na & _). destruct (std_val high mu sigma Bh Bm Ms) as (Fb & Eb & Nb & _).
  unfold P in lost. unfold lost in *. clear lost P. set (a := (B2R low - B2R mu) / B2R sigma) in *. set (b := (B2R high - B2R mu) / B2R sigma) in *.
  assert (AB : a < b) by (unfold a, b, Rdiv; apply Rmult_lt_compat_r; lra). assert (B0 : b <= 0) by (unfold b; apply nonpos_ratio; [exact S0|lra]).
  assert (Az : Rabs ((B2R xx - B2R mu) / B2R sigma) <= 36). { assert (Z : a <= (B2R xx - B2R mu) / B2R sigma <= b) by (unfold a, b, Rdiv; split; apply Rmult_le_compat_r; lra). apply Rabs_le_between. lra. }
  set (aa := standard64 low mu sigma) in *. set (bb := standard64 high mu sigma) in *. 
  assert (K : forall w z, -36 <= z <= 0 -> Rabs (w - z) <= 3 * u64 * Rabs z + bpow radix2 (-1075) -> Rabs (w - z) <= 109 * u64). { intros w z Z H. assert (Rabs z <= 36) by (apply Rabs_le_between; lra). assert (Q : u64 * Rabs z <= u64 * 36) by (apply Rmult_le_compat_l; lra). lra. }
  destruct (tail_core exp64 log64 log_ndtr64 eta bb aa a b He HE HL HN Fb Fa (Nb B0) (Na ltac:(lra)) (K (B2R bb) b ltac:(lra) Eb) (K (B2R aa) a ltac:(lra) Ea) ltac:(lra) B0 HLo) as (F1 & E1 & B1).
  assert (LN : log_norm64 exp64 log64 log1p64 ndtr64 log_ndtr64 aa bb = logsubexp64 exp64 log64 (log_ndtr64 bb) (log_ndtr64 aa)).
  { unfold log_norm64. rewrite (leb_fin bb zero64 Fb eq_refl). change (B2R zero64) with 0. destruct (Rle_dec (B2R bb) 0) as [_|q]; [reflexivity|]. exfalso. apply q, Nb, B0. }
  rewrite <- LN in F1, E1.
  destruct (tn_finish exp64 log64 log1p64 ndtr64 log_ndtr64 c eta _ xx mu sigma high low He HE HL Fc Ec Bx Bm Bh Bl Ms Hx Az LOW F1 E1) as (R1 & R2 & R3 & R4); [lra|exact B1|exact HR|].
  split; [exact R1|]. split; [exact R2|]. split; [exact R3|]. eapply Rle_trans; [exact R4|]. lra.
Qed.

Lemma C146_above_mean_partial_pf :
  forall eta exp64 log64 log1p64 ndtr64 log_ndtr64 c xx mu sigma high low,
  0 <= eta <= / 2 ^ 20 -> exp_accuracy exp64 eta -> log_accuracy log64 eta -> log_ndtr_accuracy log_ndtr64 eta ->
  is_finite c = true -> Rabs (B2R c - ln (2 * PI) / 2) <= eta ->
  bounded_double xx -> bounded_double mu -> bounded_double high -> bounded_double low -> moderate sigma ->
  B2R low <= B2R xx <= B2R high -> B2R low < B2R high ->
  / 2 ^ 900 <= (B2R low - B2R mu) / B2R sigma -> (B2R high - B2R mu) / B2R sigma <= 36 ->
  let exact := exact_truncnorm (B2R mu) (B2R sigma) (B2R high) (B2R low) (B2R xx) in
  let computed := truncnorm64 exp64 log64 log1p64 ndtr64 log_ndtr64 c xx mu sigma high low in
  let Q x := 1 - Phi ((x - B2R mu) / B2R sigma) in
  let lost := (21000 * u64 + 2700 * eta) / ((Q (B2R low) - Q (B2R high)) / Q (B2R low)) in
  lost <= / 4 -> / 2 ^ 1000 <= exact <= 2 ^ 1000 ->
  is_finite computed = true /\ 0 < B2R computed /\
  truncnorm_body (Fin (B2R xx)) (Fin (B2R mu)) (Fin (B2R sigma)) (Fin (B2R high)) (Fin (B2R low)) = Fin exact /\
  Rabs (ln (B2R computed) - ln exact) <= 15000 * u64 + 1200 * eta + 2 * lost.
Proof.
  intros eta exp64 log64 log1p64 ndtr64 log_ndtr64 c xx mu sigma high low He HE HL HN Fc Ec Bx Bm Bh Bl Ms Hx LOW Ha Hh exact computed Q lost HLo HR.
  destruct u_small as (U0 & U1 & U2 & _ & T0 & _). assert (He' : eta <= / 1000000) by (eapply Rle_trans; [apply He|]; apply Rinv_le_contravar; simpl; lra).
  assert (S0 : 0 < B2R sigma). { destruct Ms as [_ QQ]. assert (0 < / 2 ^ 400) by (apply Rinv_0_lt_compat, pow_lt; lra). lra. }
  assert (IS : 0 < / B2R sigma) by now apply Rinv_0_lt_compat. assert (P900 : 0 < / 2 ^ 900) by (apply Rinv_0_lt_compat, pow_lt; lra).
  assert (T900 : 4 * bpow radix2 (-1075) <= / 2 ^ 900) by (rewrite (pow_bpow_inv 900); change 4 with (bpow radix2 2); rewrite <- bpow_plus; apply bpow_le; lia).
  destruct (std_val low mu sigma Bl Bm Ms) as (Fa & Ea & _ & Na). destruct (std_val high mu sigma Bh Bm Ms) as (Fb & Eb & _ & Nb).
  unfold Q in lost. unfold lost in *. clear lost Q. set (a := (B2R low - B2R mu) / B2R sigma) in *. set (b := (B2R high - B2R mu) / B2R sigma) in *.
  assert (AB : a < b) by (unfold a, b, Rdiv; apply Rmult_lt_compat_r; lra).
  assert (Az : Rabs ((B2R xx - B2R mu) / B2R sigma) <= 36). { assert (Z : a <= (B2R xx - B2R mu) / B2R sigma <= b) by (unfold a, b, Rdiv; split; apply Rmult_le_compat_r; lra). apply Rabs_le_between. lra. }
  set (aa := standard64 low mu sigma) in *. set (bb := standard64 high mu sigma) in *. 
  assert (K : forall w z, 0 <= z <= 36 -> Rabs (w - z) <= 3 * u64 * Rabs z + bpow radix2 (-1075) -> Rabs (- w - - z) <= 109 * u64). { intros w z Z H. assert (Rabs z <= 36) by (apply Rabs_le_between; lra). assert (QQ : u64 * Rabs z <= u64 * 36) by (apply Rmult_le_compat_l; lra). replace (- w - - z) with (- (w - z)) by ring. rewrite Rabs_Ropp. lra. }
  assert (POS : forall w z, / 2 ^ 900 <= z -> Rabs (w - z) <= 3 * u64 * Rabs z + bpow radix2 (-1075) -> 0 < w). { intros w z Z H. rewrite (Rabs_pos_eq z) in H by lra. apply Rabs_le_between in H. assert (QQ : u64 * z <= / 1099511627776 * z) by (apply Rmult_le_compat_r; lra). lra. }
  assert (PA := POS _ _ Ha Ea). assert (PB := POS (B2R bb) b ltac:(lra) Eb).
  assert (FA : is_finite (Bopp aa) = true) by (rewrite is_finite_Bopp; exact Fa). assert (FB : is_finite (Bopp bb) = true) by (rewrite is_finite_Bopp; exact Fb).
  assert (EP : Phi (- a) - Phi (- b) = Phi b - Phi a) by (rewrite !Phi_sym; ring).
  replace ((1 - Phi a - (1 - Phi b)) / (1 - Phi a)) with ((Phi (- a) - Phi (- b)) / Phi (- a)) in * by (rewrite !Phi_sym; reflexivity).
  destruct (tail_core exp64 log64 log_ndtr64 eta (Bopp aa) (Bopp bb) (- b) (- a) He HE HL HN FA FB) as (F1 & E1 & B1); try (rewrite !B2R_Bopp); try lra; [apply K; [lra|exact Ea]|apply K; [lra|exact Eb]|].
  assert (LN : log_norm64 exp64 log64 log1p64 ndtr64 log_ndtr64 aa bb = logsubexp64 exp64 log64 (log_ndtr64 (Bopp aa)) (log_ndtr64 (Bopp bb))).
  { unfold log_norm64. rewrite (leb_fin bb zero64 Fb eq_refl), (ltb_fin zero64 aa eq_refl Fa). change (B2R zero64) with 0. destruct (Rle_dec (B2R bb) 0) as [q|_]; [lra|]. destruct (Rlt_dec 0 (B2R aa)) as [_|q]; [reflexivity|lra]. }
  rewrite <- LN in F1, E1. rewrite EP in *.
  destruct (tn_finish exp64 log64 log1p64 ndtr64 log_ndtr64 c eta _ xx mu sigma high low He HE HL Fc Ec Bx Bm Bh Bl Ms Hx Az LOW F1 E1) as (R1 & R2 & R3 & R4); [lra|exact B1|exact HR|].
  split; [exact R1|]. split; [exact R2|]. split; [exact R3|]. eapply Rle_trans; [exact R4|]. lra.
Qed.

