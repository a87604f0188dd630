(** Proofs of the property theorems stated in [Props_roundpl]. *)
From Coq Require Import Reals Lra Lia Psatz ZArith Bool.
From Coquelicot Require Import Rcomplements.
From Flocq Require Import Core BinarySingleNaN Relative Plus_error Sterbenz.
From Coq Require Import List.
From Verif Require Import Xf Py Xf_facts Double Double_facts Utils_model Powerlaw_facts Rounded_model SpecRound round_thms RoundedPl_model SpecRoundPl.
Import ListNotations.
Local Open Scope R_scope.
Lemma one_val : is_finite one64 = true /\ B2R one64 = 1.
Proof. unfold one64. destruct (int64_val 1) as [A B]; [lia|]. split; auto. Qed.
Lemma one_double : is_double 1.
Proof. rewrite <- (proj2 one_val). apply B2R_double. Qed.
Lemma one_sign : Bsign one64 = false.
Proof. destruct one_val as [A B]. apply pos_sign; [exact A|]. rewrite B. lra. Qed.
Lemma bp55 : / 2 ^ 55 = bpow radix2 (-55).
Proof. apply (pow_bpow_inv 55). Qed.
(** Numbers this close to 1 round to 1. *)
Lemma rnd_one x : 1 - bpow radix2 (-55) <= x <= 1 + bpow radix2 (-54) -> rnd64 x = 1.
Proof.
  intros [A B]. assert (V := valid64). assert (F1 : generic_format radix2 format64 1) by apply one_double.
  assert (P55 : 0 < bpow radix2 (-55)) by apply bpow_gt_0.
  assert (E54 : bpow radix2 (-54) = 2 * bpow radix2 (-55)) by (change (-54)%Z with (1 + -55)%Z; rewrite bpow_plus; reflexivity).
  assert (E53 : bpow radix2 (-53) = 4 * bpow radix2 (-55)) by (change (-53)%Z with (2 + -55)%Z; rewrite bpow_plus; reflexivity).
  assert (E52 : bpow radix2 (-52) = 8 * bpow radix2 (-55)) by (change (-52)%Z with (3 + -55)%Z; rewrite bpow_plus; reflexivity).
  apply Rle_antisym.
  - apply round_N_le_midp; auto. assert (S1 : Ulp.succ radix2 format64 1 = 1 + bpow radix2 (-52)). { rewrite succ_eq_pos by lra. change (ulp radix2 format64 1) with (ulp radix2 format64 (bpow radix2 0)). rewrite ulp_bpow. reflexivity. }
    rewrite S1. lra.
  - apply round_N_ge_midp; auto. assert (S1 : Ulp.pred radix2 format64 1 = 1 - bpow radix2 (-53)). { change 1 with (bpow radix2 0) at 1. rewrite pred_bpow. reflexivity. }
    rewrite S1. lra.
Qed.
Lemma exp_small t : Rabs t <= bpow radix2 (-55) -> 1 - bpow radix2 (-55) <= exp t <= 1 + bpow radix2 (-54).
Proof.
  intros T. apply Rabs_le_between in T.
  assert (E54 : bpow radix2 (-54) = 2 * bpow radix2 (-55)) by (change (-54)%Z with (1 + -55)%Z; rewrite bpow_plus; reflexivity).
  assert (P55 : 0 < bpow radix2 (-55)) by apply bpow_gt_0.
  assert (Q : bpow radix2 (-55) <= / 4). { change (/ 4) with (bpow radix2 (-2)). apply bpow_le. lia. }
  split; [assert (E := exp_ineq1_le t); lra|].
  (* exp t = 1 / exp (-t) <= 1 / (1 - t) *)
  assert (E := exp_ineq1_le (- t)). rewrite exp_Ropp in E. assert (P := exp_pos t).
  assert (exp t * (1 + - t) <= 1). { apply (Rmult_le_compat_l (exp t)) in E; [|lra]. rewrite Rinv_r in E by lra. lra. }
  nra.
Qed.
Lemma range_one x : 1 - bpow radix2 (-55) <= x <= 1 + bpow radix2 (-54) -> / 2 ^ 1000 <= x <= 2 ^ 1000.
Proof.
  intros [A B]. assert (Q : bpow radix2 (-55) <= / 4) by (change (/ 4) with (bpow radix2 (-2)); apply bpow_le; lia).
  assert (Q' : bpow radix2 (-54) <= / 4) by (change (/ 4) with (bpow radix2 (-2)); apply bpow_le; lia).
  rewrite (pow_bpow_inv 1000), (pow_bpow 1000).
  assert (bpow radix2 (- Z.of_nat 1000) <= / 4) by (change (/ 4) with (bpow radix2 (-2)); apply bpow_le; lia).
  assert (4 <= bpow radix2 (Z.of_nat 1000)) by (change 4 with (bpow radix2 2); apply bpow_le; lia). lra.
Qed.
Lemma Rpower_pos x y : 0 < Rpower x y.
Proof. apply exp_pos. Qed.
Lemma rpow_exp x y : Rpower x y = exp (y * ln x).
Proof. reflexivity. Qed.
(** One plus a slope in [-3/2, -1/2] is exact. *)
Lemma plus_exact (alpha : b64) : is_finite alpha = true -> Rabs (1 + B2R alpha) <= / 2 ->
  is_finite (Bplus mode_NE one64 alpha) = true /\ B2R (Bplus mode_NE one64 alpha) = 1 + B2R alpha.
Proof.
  intros F H. apply Rabs_le_between in H. destruct one_val as [O1 O2]. destruct (B2R_double alpha) as [D1 D2].
  assert (D : is_double (1 + B2R alpha)).
  { split.
    - replace (1 + B2R alpha) with (1 - - B2R alpha) by ring. assert (V := valid64). assert (M := mono64). apply sterbenz; auto; [apply one_double|now apply generic_format_opp|lra].
    - apply Rabs_lt_between. assert (2 < bpow radix2 1024) by (change 2 with (bpow radix2 1); apply bpow_lt; lia). lra. }
  destruct (Bplus_fin one64 alpha O1 F) as [A B]; rewrite O2, (rnd_double _ D) in *; [apply D|]. auto.
Qed.
Lemma minus_ones (x y : b64) : is_finite x = true -> is_finite y = true -> B2R x = 1 -> B2R y = 1 -> Bminus mode_NE x y = B754_zero false.
Proof.
  intros Fx Fy X Y. assert (C := Bminus_correct 53 1024 _ _ mode_NE x y Fx Fy). rewrite X, Y, Rminus_diag_eq in C by reflexivity.
  rewrite round_0 in C by apply valid_rnd_N. rewrite Rabs_R0, Rlt_bool_true in C by apply bpow_gt_0. destruct C as (V & F & S).
  rewrite Rcompare_Eq in S by reflexivity. rewrite (pos_sign x) in S by (auto; lra). cbn [andb] in S.
  destruct (zero_form _ F V) as [s E]. rewrite E in S |- *. cbn in S. now rewrite S.
Qed.
Lemma fin_sign (x : b64) r : is_finite x = true -> B2R x = r -> r <> 0 -> exists m e P, x = B754_finite (if Rlt_dec r 0 then true else false) m e P.
Proof.
  intros F V N. destruct x as [s|s| |s m e P]; try discriminate; [cbn in V; congruence|]. exists m, e.
  assert (Q : 0 < bpow radix2 e) by apply bpow_gt_0. assert (M : 0 < IZR (Zpos m)) by (apply IZR_lt; lia).
  destruct s; cbn [B2R cond_Zopp] in V; unfold F2R in V; cbn [Fnum Fexp] in V.
  - change (Z.neg m) with (- Z.pos m)%Z in V. rewrite opp_IZR in V. destruct (Rlt_dec r 0); [now exists P|]. nra.
  - destruct (Rlt_dec r 0); [nra|]. now exists P.
Qed.
Lemma leb_fin (x y : b64) : is_finite x = true -> is_finite y = true -> Bleb x y = if Rle_dec (B2R x) (B2R y) then true else false.
Proof. intros Fx Fy. rewrite Bleb_correct by auto. destruct (Rle_bool_spec (B2R x) (B2R y)); destruct (Rle_dec (B2R x) (B2R y)); auto; lra. Qed.
Lemma not_minus_one (alpha : b64) : is_finite alpha = true -> B2R alpha <> -1 -> Beqb alpha (Bopp one64) = false.
Proof.
  intros F N. destruct one_val as [O1 O2]. rewrite Beqb_correct; [|auto|now rewrite is_finite_Bopp]. rewrite B2R_Bopp, O2. destruct (Req_bool_spec (B2R alpha) (-(1))); auto; lra.
Qed.
Lemma pow_positive pow (x y : b64) : correctly_rounded pow -> is_finite x = true -> is_finite y = true -> 0 < B2R x -> / 2 ^ 1000 <= Rpower (B2R x) (B2R y) <= 2 ^ 1000 ->
  is_finite (pow x y) = true /\ 0 < B2R (pow x y).
Proof.
  intros C Fx Fy X H. destruct (C x y Fx Fy X H) as [A B]. split; auto. rewrite B.
  apply Rlt_le_trans with (bpow radix2 (-1000)); [apply bpow_gt_0|]. apply rnd_lower; [|rewrite (pow_bpow_inv 1000) in H; apply H].
  split; [apply generic_format_bpow; unfold format64, FLT_exp; lia|]. rewrite Rabs_pos_eq by apply bpow_ge_0. apply bpow_lt; lia.
Qed.
Lemma C117_slope_near_minus_one_refuted_pf :
  forall (pow : b64 -> b64 -> b64) (log : b64 -> b64) (xx alpha high low : b64), correctly_rounded pow ->
  is_finite xx = true -> is_finite alpha = true -> is_finite high = true -> is_finite low = true ->
  0 < B2R low < B2R high -> 0 < B2R xx -> B2R alpha <> -1 -> Rabs (1 + B2R alpha) <= / 2 ->
  Rabs ((1 + B2R alpha) * ln (B2R high)) <= / 2 ^ 55 -> Rabs ((1 + B2R alpha) * ln (B2R low)) <= / 2 ^ 55 ->
  / 2 ^ 1000 <= Rpower (B2R xx) (B2R alpha) <= 2 ^ 1000 ->
  (B2R low <= B2R xx <= B2R high -> powerlaw64 pow log xx alpha high low = B754_infinity (if Rlt_dec (1 + B2R alpha) 0 then true else false)) /\
  (B2R xx < B2R low \/ B2R high < B2R xx -> powerlaw64 pow log xx alpha high low = B754_nan).
Proof.
  intros pow log xx alpha high low C Fx Fa Fh Fl LH X NA Sm TH TL RX.
  destruct (plus_exact alpha Fa Sm) as [Fe Ve]. set (e := Bplus mode_NE one64 alpha) in *.
  assert (PH : is_finite (pow high e) = true /\ B2R (pow high e) = 1).
  { assert (S := exp_small _ (eq_ind _ (fun b => Rabs _ <= b) TH _ bp55)). rewrite <- Ve, <- rpow_exp in S.
    destruct (C high e Fh Fe ltac:(lra) (range_one _ S)) as [A B]. split; auto. rewrite B. now apply rnd_one. }
  assert (PL : is_finite (pow low e) = true /\ B2R (pow low e) = 1).
  { assert (S := exp_small _ (eq_ind _ (fun b => Rabs _ <= b) TL _ bp55)). rewrite <- Ve, <- rpow_exp in S.
    destruct (C low e Fl Fe ltac:(lra) (range_one _ S)) as [A B]. split; auto. rewrite B. now apply rnd_one. }
  destruct (pow_positive pow xx alpha C Fx Fa X RX) as [Fp Pp].
  unfold powerlaw64, powerlaw_norm64. rewrite not_minus_one by auto. cbv zeta. fold e. rewrite (minus_ones _ _ (proj1 PH) (proj1 PL) (proj2 PH) (proj2 PL)).
  destruct (fin_sign e _ Fe Ve) as (m & x & P & E); [lra|]. rewrite E. cbn [Bdiv]. rewrite xorb_false_r.
  destruct (fin_sign _ _ Fp eq_refl) as (m' & x' & P' & E'); [lra|]. destruct (Rlt_dec (B2R (pow xx alpha)) 0); [lra|]. rewrite E'. cbn [Bmult xorb].
  rewrite !leb_fin by auto. destruct one_val as [O1 O2]. destruct (fin_sign one64 _ O1 O2) as (m1 & x1 & P1 & E1); [lra|].
  split.
  - intros [A B]. destruct (Rle_dec (B2R xx) (B2R high)); [|lra]. destruct (Rle_dec (B2R low) (B2R xx)); [|lra]. cbn [andb].
    rewrite E1. destruct (Rlt_dec 1 0); [lra|]. cbn [Bmult]. rewrite xorb_false_r. destruct (Rlt_dec (1 + B2R alpha) 0); reflexivity.
  - intros O. destruct (Rle_dec (B2R xx) (B2R high)); destruct (Rle_dec (B2R low) (B2R xx)); try lra; reflexivity.
Qed.

Lemma ln_le_inv x y : 0 < x -> 0 < y -> ln x <= ln y -> x <= y.
Proof. intros X Y L. destruct (Rle_dec x y); auto. assert (Q := ln_increasing y x Y ltac:(lra)). lra. Qed.
(** Closeness in the logarithm, for numbers of one sign. *)
Definition cl (d x y : R) : Prop := 0 < x * y /\ Rabs (ln (Rabs y) - ln (Rabs x)) <= d.
Lemma cl_ne d x y : cl d x y -> 0 < Rabs x /\ 0 < Rabs y.
Proof. intros [H _]. split; apply Rabs_pos_lt; nra. Qed.
Lemma cl_trans d d' x y z : cl d x y -> cl d' y z -> cl (d + d') x z.
Proof.
  intros [A B] [C D]. apply Rabs_le_between in B. apply Rabs_le_between in D. split.
  - assert (0 < (x * z) * (y * y)) by nra. assert (0 < y * y) by nra. nra.
  - apply Rabs_le_between. lra.
Qed.
Lemma cl_mult d d' x y x' y' : cl d x x' -> cl d' y y' -> cl (d + d') (x * y) (x' * y').
Proof.
  intros A B. destruct (cl_ne _ _ _ A), (cl_ne _ _ _ B). destruct A as [A1 A2], B as [B1 B2]. split; [nra|].
  rewrite !Rabs_mult, !ln_mult by auto. apply Rabs_le_between in A2. apply Rabs_le_between in B2. apply Rabs_le_between. lra.
Qed.
Lemma cl_inv d x y : cl d x y -> cl d (/ x) (/ y).
Proof.
  intros A. destruct (cl_ne _ _ _ A) as [X Y]. destruct A as [A1 A2]. assert (x <> 0 /\ y <> 0) as [Nx Ny] by nra. split.
  - rewrite <- Rinv_mult. now apply Rinv_0_lt_compat.
  - rewrite !Rabs_inv, !ln_Rinv by auto. apply Rabs_le_between in A2. apply Rabs_le_between. lra.
Qed.
Lemma cl_div d d' x y x' y' : cl d x x' -> cl d' y y' -> cl (d + d') (x / y) (x' / y').
Proof. intros A B. apply cl_mult; [exact A|now apply cl_inv]. Qed.
Lemma cl_rel t x y : 0 <= t < 1 -> x <> 0 -> Rabs (y - x) <= t * Rabs x -> cl (t / (1 - t)) x y.
Proof.
  intros T X H. assert (PX := Rabs_pos_lt x X).
  assert (S : 0 < x * y /\ (1 - t) * Rabs x <= Rabs y <= (1 + t) * Rabs x).
  { destruct (Rle_dec 0 x) as [P|P].
    - rewrite (Rabs_pos_eq x) in * by lra. apply Rabs_le_between in H. assert (0 < y) by nra. rewrite (Rabs_pos_eq y) by lra. split; [nra|lra].
    - rewrite (Rabs_left x) in * by lra. apply Rabs_le_between in H. assert (y < 0) by nra. rewrite (Rabs_left y) by lra. split; [nra|lra]. }
  destruct S as [S [L U]]. split; [exact S|].
  assert (PY : 0 < Rabs y) by nra. rewrite <- ln_div by auto. set (q := Rabs y / Rabs x).
  assert (Q : 1 - t <= q <= 1 + t). { unfold q. split; [apply Rle_div_r|apply Rle_div_l]; lra. }
  assert (LU : ln q <= t). { rewrite <- (ln_exp t). apply ln_le; [lra|]. assert (E := exp_ineq1_le t). lra. }
  assert (LL : - (t / (1 - t)) <= ln q).
  { assert (ln (/ q) <= / (1 - t) - 1). { rewrite <- (ln_exp (/ (1 - t) - 1)). apply ln_le; [apply Rinv_0_lt_compat; lra|]. assert (E := exp_ineq1_le (/ (1 - t) - 1)).
      assert (/ q <= / (1 - t)) by (apply Rinv_le_contravar; lra). lra. }
    rewrite ln_Rinv in H0 by lra. replace (t / (1 - t)) with (/ (1 - t) - 1) by (field; lra). lra. }
  assert (t <= t / (1 - t)). { apply Rle_div_r; nra. }
  apply Rabs_le_between. lra.
Qed.
Lemma ln_le_sub x : 0 < x -> ln x <= x - 1.
Proof. intros X. rewrite <- (ln_exp (x - 1)). apply ln_le; [auto|]. assert (E := exp_ineq1_le (x - 1)). lra. Qed.
Definition v64 : R := u64 / (1 - u64).
Lemma v64_facts : 0 < u64 /\ u64 <= v64 /\ v64 <= 2 * u64 /\ v64 <= / 8.
Proof.
  assert (U := u64_pos). assert (u64 <= / 16). { unfold u64. rewrite (pow_bpow_inv 53). change (/ 16) with (bpow radix2 (-4)). apply bpow_le. lia. }
  unfold v64. split; [lra|]. split; [apply Rle_div_r; nra|]. split; apply Rle_div_l; nra.
Qed.
Lemma cl_u x y : x <> 0 -> Rabs (y - x) <= u64 * Rabs x -> cl v64 x y.
Proof. intros. assert (U := u64_pos). apply cl_rel; auto; lra. Qed.
Lemma cl_near n x y : 0 < x -> near n x y -> cl (INR n * v64) x y.
Proof. intros X N. assert (Y := near_pos n x y X N). split; [nra|]. rewrite (Rabs_pos_eq y), (Rabs_pos_eq x) by lra. now apply near_ln. Qed.
Lemma cl_plus x y : is_double x -> is_double y -> x + y <> 0 -> cl v64 (x + y) (rnd64 (x + y)).
Proof. intros X Y N. apply cl_u; auto. assert (E := rnd_minus_err x (- y) X (opp_double _ Y)). unfold Rminus in E. rewrite Ropp_involutive in E. exact E. Qed.
Lemma cl_normal x : bpow radix2 (-1022) <= Rabs x -> cl v64 x (rnd64 x).
Proof.
  intros H. assert (0 < bpow radix2 (-1022)) by apply bpow_gt_0. apply cl_u; [intros ->; rewrite Rabs_R0 in H; lra|].
  destruct (relative_error_N_FLT_ex radix2 (-1074) 53 eq_refl (fun x => negb (Z.even x)) x H) as (e & E & F).
  unfold rnd64, format64. rewrite F. replace (x * (1 + e) - x) with (x * e) by ring. rewrite Rabs_mult. rewrite <- u64_ro. assert (A := Rabs_pos x). unfold u_ro. nra.
Qed.
(** Sizes. *)
Definition band (a b : Z) (x : R) : Prop := bpow radix2 a <= Rabs x <= bpow radix2 b.
Lemma band_mult a b c d x y : band a b x -> band c d y -> band (a + c) (b + d) (x * y).
Proof.
  intros [A B] [C D]. unfold band. rewrite Rabs_mult, !bpow_plus. assert (P := bpow_gt_0 radix2 a). assert (Q := bpow_gt_0 radix2 c). split; apply Rmult_le_compat; lra.
Qed.
Lemma band_inv a b x : band a b x -> band (- b) (- a) (/ x).
Proof.
  intros [A B]. assert (P := bpow_gt_0 radix2 a). assert (Q := bpow_gt_0 radix2 b). unfold band.
  rewrite Rabs_inv, !bpow_opp. split; apply Rinv_le_contravar; lra.
Qed.
Lemma band_div a b c d x y : band a b x -> band c d y -> band (a - d) (b - c) (x / y).
Proof. intros X Y. apply (band_mult a b (- d) (- c)); auto. now apply band_inv. Qed.
Lemma band_cl d a b x y : d <= / 2 -> cl d x y -> band a b x -> band (a - 1) (b + 1) y.
Proof.
  intros D C [A B]. destruct (cl_ne _ _ _ C) as [X Y]. destruct C as [_ C]. apply Rabs_le_between in C.
  assert (E2 : exp (/ 2) <= 2). { assert (E3 := exp_le_3). replace 1 with (/ 2 + / 2) in E3 by field. rewrite exp_plus in E3. assert (P := exp_pos (/ 2)). nra. }
  assert (L2 : / 2 <= ln 2). { rewrite <- (ln_exp (/ 2)). apply ln_le; [apply exp_pos|exact E2]. }
  unfold band. replace (a - 1)%Z with (a + -1)%Z by lia. rewrite !bpow_plus. change (bpow radix2 1) with 2. change (bpow radix2 (-1)) with (/ 2). split.
  - apply Rle_trans with (Rabs x * / 2); [nra|]. apply ln_le_inv; [nra|auto|]. rewrite ln_mult, ln_Rinv by lra. lra.
  - apply Rle_trans with (Rabs x * 2); [|nra]. apply ln_le_inv; [auto|nra|]. rewrite ln_mult by lra. lra.
Qed.
Lemma band_mono a b a' b' x : (a' <= a)%Z -> (b <= b')%Z -> band a b x -> band a' b' x.
Proof. intros A B [C D]. split; [eapply Rle_trans; [|exact C]|eapply Rle_trans; [exact D|]]; now apply bpow_le. Qed.
Lemma band_fin a b x : (b <= 1000)%Z -> band a b x -> Rabs (rnd64 x) < bpow radix2 1024.
Proof.
  intros B [_ H]. assert (D : is_double (bpow radix2 1000)) by (split; [apply generic_format_bpow; unfold format64, FLT_exp; lia|rewrite Rabs_pos_eq by apply bpow_ge_0; apply bpow_lt; lia]).
  assert (H' : Rabs x <= bpow radix2 1000) by (eapply Rle_trans; [exact H|now apply bpow_le]). apply Rabs_le_between in H'.
  apply Rle_lt_trans with (bpow radix2 1000); [|apply bpow_lt; lia]. apply Rabs_le_between. split; [apply rnd_lower; [now apply opp_double|lra]|now apply rnd_upper].
Qed.
Lemma cl_exp d x y : 0 < x -> 0 < y -> cl d x y -> Rabs (y - x) <= x * (exp d - 1).
Proof.
  intros X Y [_ C]. rewrite (Rabs_pos_eq y), (Rabs_pos_eq x) in C by lra. apply Rabs_le_between in C.
  assert (U : y <= x * exp d). { apply ln_le_inv; [auto|assert (P := exp_pos d); nra|]. rewrite ln_mult, ln_exp by (auto; apply exp_pos). lra. }
  assert (L : x <= y * exp d). { apply ln_le_inv; [auto|assert (P := exp_pos d); nra|]. rewrite ln_mult, ln_exp by (auto; apply exp_pos). lra. }
  assert (D : 0 <= d) by lra. assert (E := exp_ineq1_le d). apply Rabs_le_between. split; [|lra].
  (* x - y <= x - x / e^d = x (1 - e^-d) <= x (e^d - 1) *)
  assert (x * (2 - exp d) <= y). { destruct (Rle_dec (2 - exp d) 0); [nra|]. assert ((2 - exp d) * exp d <= 1) by nra. apply (Rmult_le_compat_r (2 - exp d)) in L; nra. }
  nra.
Qed.
Lemma ln_diff a b : 0 < a -> 0 < b -> Rabs (a - b) <= (a + b) * Rabs (ln a - ln b).
Proof.
  (* a - b <= a (ln a - ln b) since ln (b/a) <= b/a - 1 *)
  assert (K : forall a b, 0 < a -> 0 < b -> a - b <= a * (ln a - ln b)).
  { intros x y X Y. assert (L : ln (y / x) <= y / x - 1). { rewrite <- (ln_exp (y / x - 1)). apply ln_le; [apply Rdiv_lt_0_compat; lra|]. assert (E := exp_ineq1_le (y / x - 1)). lra. }
    rewrite ln_div in L by auto. apply (Rmult_le_compat_l x) in L; [|lra]. replace (x * (y / x - 1)) with (y - x) in L by (field; lra). lra. }
  intros A B. assert (K1 := K a b A B). assert (K2 := K b a B A). assert (Q := Rle_abs (ln a - ln b)). assert (Q' := Rle_abs (- (ln a - ln b))). rewrite Rabs_Ropp in Q'.
  assert (Q0 := Rabs_pos (ln a - ln b)). apply Rabs_le_between. nra.
Qed.
Lemma ln2_lt : ln 2 < 1.
Proof. rewrite <- (ln_exp 1). apply ln_increasing; [lra|]. assert (E := exp_ineq1 1 ltac:(lra)). lra. Qed.
Lemma ln_bpow_band a b x : band a b x -> IZR a * ln 2 <= ln (Rabs x) <= IZR b * ln 2.
Proof.
  assert (K : forall c, ln (bpow radix2 c) = IZR c * ln 2). { intros c. rewrite bpow_powerRZ. change (IZR radix2) with 2. rewrite powerRZ_Rpower by lra. apply ln_exp. }
  intros [A B]. rewrite <- !K. assert (P := bpow_gt_0 radix2 a). split; apply ln_le; lra.
Qed.
(** The power with the rounded exponent. *)
Lemma pow_cl n pow (x e : b64) t : accurate n pow -> is_finite x = true -> is_finite e = true -> 0 < B2R x -> Rabs (B2R e - t) <= u64 * Rabs t -> band (-400) 400 (Rpower (B2R x) t) ->
  is_finite (pow x e) = true /\ cl (u64 * Rabs (ln (Rpower (B2R x) t)) + INR n * v64) (Rpower (B2R x) t) (B2R (pow x e)) /\ 0 < B2R (pow x e).
Proof.
  intros C Fx Fe X T Bd. assert (P := Rpower_pos (B2R x) t). assert (P' := Rpower_pos (B2R x) (B2R e)).
  assert (C1 : cl (u64 * Rabs (ln (Rpower (B2R x) t))) (Rpower (B2R x) t) (Rpower (B2R x) (B2R e))).
  { split; [nra|]. rewrite (Rabs_pos_eq (Rpower _ t)), (Rabs_pos_eq (Rpower _ (B2R e))) by lra. unfold Rpower. rewrite !ln_exp. rewrite <- Rmult_minus_distr_r, !Rabs_mult. assert (A := Rabs_pos (ln (B2R x))). nra. }
  assert (S : u64 * Rabs (ln (Rpower (B2R x) t)) <= / 2).
  { assert (L := ln_bpow_band _ _ _ Bd). rewrite Rabs_pos_eq in L by lra. assert (L2 := ln2_lt). assert (L0 : 0 < ln 2) by (rewrite <- ln_1; apply ln_increasing; lra).
    assert (A : Rabs (ln (Rpower (B2R x) t)) <= 1024) by (apply Rabs_le_between; lra). assert (U : u64 * 1024 <= / 2). { unfold u64. rewrite (pow_bpow_inv 53). change 1024 with (bpow radix2 10). rewrite <- bpow_plus. change (/ 2) with (bpow radix2 (-1)). apply bpow_le. lia. }
    assert (U0 := u64_pos). nra. }
  assert (Bd' := band_cl _ _ _ _ _ S C1 Bd). 
  destruct (C x e Fx Fe X) as (F & N1 & N2).
  { rewrite (pow_bpow_inv 1000), (pow_bpow 1000). apply (band_mono _ _ (- Z.of_nat 1000) (Z.of_nat 1000)) in Bd'; [|lia|lia]. unfold band in Bd'. rewrite Rabs_pos_eq in Bd' by lra. exact Bd'. }
  assert (N : near n (Rpower (B2R x) (B2R e)) (B2R (pow x e))) by (split; auto).
  split; [exact F|]. split; [|exact (near_pos _ _ _ P' N)]. eapply cl_trans; [exact C1|]. apply cl_near; auto.
Qed.
Lemma moderate_band (w : b64) : moderate w -> band (-400) 400 (B2R w) /\ 0 < B2R w /\ is_finite w = true.
Proof.
  intros [F [A B]]. assert (P := pow2_inv_pos 400). split; [|split; [lra|auto]]. unfold band. rewrite Rabs_pos_eq by lra.
  change (-400)%Z with (- Z.of_nat 400)%Z. change 400%Z with (Z.of_nat 400). rewrite <- pow_bpow, <- pow_bpow_inv. auto.
Qed.
Lemma C117_error_partial_pf :
  forall (n : nat) (pow : b64 -> b64 -> b64) (log : b64 -> b64) (xx alpha high low : b64), (1 <= n)%nat -> accurate n pow ->
  moderate low -> moderate high -> moderate xx -> is_finite alpha = true -> B2R low < B2R high -> B2R low <= B2R xx <= B2R high -> B2R alpha <> -1 -> Rabs (B2R alpha) <= 1000 ->
  let H := Rpower (B2R high) (1 + B2R alpha) in let L := Rpower (B2R low) (1 + B2R alpha) in
  / 2 ^ 400 <= H <= 2 ^ 400 -> / 2 ^ 400 <= L <= 2 ^ 400 -> / 2 ^ 400 <= Rpower (B2R xx) (B2R alpha) <= 2 ^ 400 ->
  let delta := u64 * Rmax (Rabs (ln H)) (Rabs (ln L)) + INR n * (u64 / (1 - u64)) in
  let lost := amplification (B2R alpha) (B2R high) (B2R low) * (exp delta - 1) in
  lost <= / 4 ->
  let exact := exact_powerlaw (B2R alpha) (B2R high) (B2R low) (B2R xx) in
  let computed := powerlaw64 pow log xx alpha high low in
  is_finite computed = true /\ 0 < B2R computed /\ 0 < exact /\
  powerlaw_body (Fin (B2R xx)) (Fin (B2R alpha)) (Fin (B2R high)) (Fin (B2R low)) = Fin exact /\
  Rabs (ln (B2R computed) - ln exact) <= (INR n + 4) * (u64 / (1 - u64)) + 2 * lost.
Proof.
  intros n pow log xx alpha high low N1 Acc Ml Mh Mx Fa LH XX NA A1000 H L BH BL BX delta lost Small exact computed.
  destruct (moderate_band _ Ml) as (Bl & Pl & Fl). destruct (moderate_band _ Mh) as (Bh & Ph & Fh). destruct (moderate_band _ Mx) as (Bx & Px & Fx).
  destruct one_val as [O1 O2]. assert (V := v64_facts). assert (U := u64_pos). fold v64 in delta |- *.
  assert (PH : 0 < H) by apply Rpower_pos. assert (PL : 0 < L) by apply Rpower_pos. assert (PX := Rpower_pos (B2R xx) (B2R alpha)).
  assert (toband : forall r, 0 < r -> / 2 ^ 400 <= r <= 2 ^ 400 -> band (-400) 400 r).
  { intros r R1 R2. unfold band. rewrite Rabs_pos_eq by lra. change (-400)%Z with (- Z.of_nat 400)%Z. change 400%Z with (Z.of_nat 400). rewrite <- pow_bpow, <- pow_bpow_inv. auto. }
  apply toband in BH; auto. apply toband in BL; auto. apply toband in BX; auto. clear toband.
  (* exponent *)
  set (t := 1 + B2R alpha) in *. assert (Nt : t <> 0) by (unfold t; lra).
  assert (Ce : cl v64 t (rnd64 t)). { unfold t. rewrite <- O2. apply cl_plus; try apply B2R_double. rewrite O2. exact Nt. }
  assert (At : Rabs t <= bpow radix2 10). { change (bpow radix2 10) with 1024. unfold t. apply Rabs_le_between in A1000. apply Rabs_le_between. lra. }
  assert (Ft : is_finite (Bplus mode_NE one64 alpha) = true /\ B2R (Bplus mode_NE one64 alpha) = rnd64 t).
  { assert (BF := Bplus_fin one64 alpha O1 Fa). rewrite O2 in BF. fold t in BF. apply BF.
    assert (D : is_double (bpow radix2 10)) by (split; [apply generic_format_bpow; unfold format64, FLT_exp; lia|rewrite Rabs_pos_eq by apply bpow_ge_0; apply bpow_lt; lia]).
    apply Rabs_le_between in At. apply Rle_lt_trans with (bpow radix2 10); [|apply bpow_lt; lia]. apply Rabs_le_between. split; [apply rnd_lower; [now apply opp_double|lra]|now apply rnd_upper]. }
  destruct Ft as [Ft Vt]. set (e := Bplus mode_NE one64 alpha) in *.
  assert (Et : Rabs (B2R e - t) <= u64 * Rabs t).
  { rewrite Vt. unfold t. rewrite <- O2. assert (E := rnd_minus_err (B2R one64) (- B2R alpha) (B2R_double _) (opp_double _ (B2R_double _))). unfold Rminus in E. rewrite Ropp_involutive in E. exact E. }
  (* powers *)
  destruct (pow_cl n pow high e t Acc Fh Ft Ph Et BH) as (FH & CH & QH). destruct (pow_cl n pow low e t Acc Fl Ft Pl Et BL) as (FL & CL & QL). fold H in CH. fold L in CL.
  assert (CX : is_finite (pow xx alpha) = true /\ cl (INR n * v64) (Rpower (B2R xx) (B2R alpha)) (B2R (pow xx alpha)) /\ 0 < B2R (pow xx alpha)).
  { destruct (Acc xx alpha Fx Fa Px) as (F & K1 & K2).
    - rewrite (pow_bpow_inv 1000), (pow_bpow 1000). assert (B := band_mono (-400) 400 (- Z.of_nat 1000) (Z.of_nat 1000) _ ltac:(lia) ltac:(lia) BX). unfold band in B. rewrite Rabs_pos_eq in B by lra. exact B.
    - assert (K : near n (Rpower (B2R xx) (B2R alpha)) (B2R (pow xx alpha))) by (split; auto). split; auto. split; [now apply cl_near|exact (near_pos _ _ _ PX K)]. }
  destruct CX as (FX & CX & QX).
  set (Hc := B2R (pow high e)) in *. set (Lc := B2R (pow low e)) in *. set (Xc := B2R (pow xx alpha)) in *. set (X := Rpower (B2R xx) (B2R alpha)) in *.
  assert (n1 : 1 <= INR n) by (change 1 with (INR 1); now apply le_INR).
  assert (mono : forall d d' x y, d <= d' -> cl d x y -> cl d' x y) by (intros d d' x y D [C1 C2]; split; [auto|lra]).
  assert (CHd : cl delta H Hc). { eapply mono; [|exact CH]. unfold delta. assert (M := Rmax_l (Rabs (ln H)) (Rabs (ln L))). nra. }
  assert (CLd : cl delta L Lc). { eapply mono; [|exact CL]. unfold delta. assert (M := Rmax_r (Rabs (ln H)) (Rabs (ln L))). nra. }
  assert (Dd : v64 <= delta). { unfold delta. assert (M := Rmax_l (Rabs (ln H)) (Rabs (ln L))). assert (M' := Rabs_pos (ln H)). nra. }
  assert (Ex : delta <= exp delta - 1) by (assert (E := exp_ineq1_le delta); lra).
  (* the difference *)
  assert (ND : H - L <> 0).
  { intros Z. assert (H = L) by lra. assert (Q : ln H = ln L) by now f_equal. unfold H, L, Rpower in Q. rewrite !ln_exp in Q. apply Rmult_eq_reg_l in Q; auto. apply ln_inv in Q; lra. }
  assert (PD := Rabs_pos_lt _ ND).
  assert (AMP : amplification (B2R alpha) (B2R high) (B2R low) = (H + L) / Rabs (H - L)) by reflexivity.
  assert (KP : 0 < (H + L) / Rabs (H - L)) by (apply Rdiv_lt_0_compat; lra).
  assert (LostE : lost * Rabs (H - L) = (H + L) * (exp delta - 1)) by (unfold lost; rewrite AMP; field; lra).
  assert (Lost0 : 0 <= lost) by (unfold lost; rewrite AMP; apply Rmult_le_pos; lra).
  assert (CD : cl (2 * lost) (H - L) (Hc - Lc)).
  { apply mono with (lost / (1 - lost)); [apply Rle_div_l; nra|]. apply cl_rel; [lra|auto|]. rewrite LostE.
    assert (E1 := cl_exp _ _ _ PH QH CHd). assert (E2 := cl_exp _ _ _ PL QL CLd). replace (Hc - Lc - (H - L)) with ((Hc - H) - (Lc - L)) by ring.
    apply Rabs_le_between in E1. apply Rabs_le_between in E2. apply Rabs_le_between. lra. }
  (* sizes *)
  assert (KB : (H + L) * bpow radix2 (-51) <= Rabs (H - L)).
  { assert (lost * Rabs (H - L) <= / 4 * Rabs (H - L)) by (apply Rmult_le_compat_r; lra). rewrite LostE in H0.
    assert (bpow radix2 (-51) <= 4 * (exp delta - 1)). { apply Rle_trans with (4 * u64); [|lra]. unfold u64. rewrite (pow_bpow_inv 53). change (4) with (bpow radix2 2). rewrite <- bpow_plus. apply bpow_le. lia. }
    nra. }
  assert (BD : band (-451) 401 (H - L)).
  { unfold band in BH, BL |- *. rewrite Rabs_pos_eq in BH, BL by lra. split.
    - change (-451)%Z with (-400 + -51)%Z. rewrite bpow_plus. assert (0 < bpow radix2 (-51)) by apply bpow_gt_0. nra.
    - change 401%Z with (1 + 400)%Z. rewrite bpow_plus. change (bpow radix2 1) with 2. apply Rabs_le_between. lra. }
  assert (Bt : band (-61) 10 t).
  { split; [|exact At]. assert (LD := ln_diff H L PH PL).
    assert (LT : ln H - ln L = t * (ln (B2R high) - ln (B2R low))) by (unfold H, L, Rpower; rewrite !ln_exp; ring).
    assert (L1 := ln_bpow_band _ _ _ Bh). assert (L2 := ln_bpow_band _ _ _ Bl). rewrite Rabs_pos_eq in L1, L2 by lra. assert (LN := ln2_lt). assert (LN0 : 0 < ln 2) by (rewrite <- ln_1; apply ln_increasing; lra).
    assert (0 < ln (B2R high) - ln (B2R low)) by (assert (Q := ln_increasing _ _ Pl LH); lra).
    rewrite LT, Rabs_mult, (Rabs_pos_eq (ln _ - ln _)) in LD by lra.
    assert (QA := Rabs_pos t). change (-61)%Z with (-51 + -10)%Z. rewrite bpow_plus. change (bpow radix2 (-10)) with (/ 1024).
    assert (G : bpow radix2 (-51) <= Rabs t * (ln (B2R high) - ln (B2R low))) by (apply (Rmult_le_reg_l (H + L)); lra).
    assert (Rabs t * (ln (B2R high) - ln (B2R low)) <= Rabs t * 1024) by (apply Rmult_le_compat_l; lra). lra. }
  assert (lost2 : 2 * lost <= / 2) by lra.
  assert (BDc' := band_cl _ _ _ _ _ lost2 CD BD).
  assert (NDc : Hc - Lc <> 0) by (destruct CD as [CD1 _]; nra).
  destruct (Bminus_fin (pow high e) (pow low e) FH FL) as [FD VD]; [eapply band_fin; [|exact BDc']; lia|]. fold Hc Lc in VD. set (Dd64 := Bminus mode_NE (pow high e) (pow low e)) in *.
  assert (CDc : cl v64 (Hc - Lc) (B2R Dd64)). { rewrite VD. apply cl_u; auto. apply rnd_minus_err; apply B2R_double. }
  assert (v2 : v64 <= / 2) by lra. assert (BDc := band_cl _ _ _ _ _ v2 CDc BDc').
  assert (Be := band_cl _ _ _ _ _ v2 Ce Bt). rewrite <- Vt in Be, Ce.
  assert (BN := band_div _ _ _ _ _ _ Be BDc).
  destruct (Bdiv_fin e Dd64 Ft) as [FN VN]; [destruct CDc as [Q _]; nra|eapply band_fin; [|exact BN]; lia|].
  assert (CN : cl v64 (B2R e / B2R Dd64) (B2R (Bdiv mode_NE e Dd64))). { rewrite VN. apply cl_normal. apply (band_mono _ _ (-1022) 1000) in BN; [apply BN|lia|lia]. }
  assert (BNc := band_cl _ _ _ _ _ v2 CN BN).
  assert (DN : INR n * v64 <= / 2).
  { assert (AP : 1 <= (H + L) / Rabs (H - L)) by (apply Rle_div_r; [auto|rewrite Rmult_1_l; apply Rabs_le_between; lra]).
    assert (exp delta - 1 <= / 4). { unfold lost in Small. rewrite AMP in Small. nra. }
    assert (INR n * v64 <= delta). { unfold delta. assert (M := Rmax_l (Rabs (ln H)) (Rabs (ln L))). assert (M' := Rabs_pos (ln H)). nra. } lra. }
  assert (BXc := band_cl _ _ _ _ _ DN CX BX).
  set (Nc := Bdiv mode_NE e Dd64) in *.
  assert (BP := band_mult _ _ _ _ _ _ BXc BNc).
  destruct (Bmult_fin (pow xx alpha) Nc FX FN) as [FP VP]; [eapply band_fin; [|exact BP]; lia|]. fold Xc in VP.
  assert (CP : cl v64 (Xc * B2R Nc) (B2R (Bmult mode_NE (pow xx alpha) Nc))). { rewrite VP. apply cl_normal. apply (band_mono _ _ (-1022) 1000) in BP; [apply BP|lia|lia]. }
  assert (BPc := band_cl _ _ _ _ _ v2 CP BP). set (P := Bmult mode_NE (pow xx alpha) Nc) in *.
  assert (EC : computed = Bmult mode_NE P one64).
  { unfold computed, powerlaw64, powerlaw_norm64. rewrite not_minus_one by auto. cbv zeta. fold e. fold Dd64. fold Nc. fold P. rewrite !leb_fin by auto.
    destruct (Rle_dec (B2R xx) (B2R high)); [|lra]. destruct (Rle_dec (B2R low) (B2R xx)); [|lra]. reflexivity. }
  destruct (Bmult_fin P one64 FP O1) as [FC VC]; rewrite O2, Rmult_1_r in *; [eapply band_fin; [|exact BPc]; lia|]. rewrite (rnd_double _ (B2R_double P)) in VC. rewrite <- EC in FC, VC.
  assert (Total : cl ((v64 + (2 * lost + v64)) + v64 + (INR n * v64) + v64) (t / (H - L) * X) (B2R P)).
  { eapply cl_trans; [|exact CP]. rewrite (Rmult_comm Xc).
    apply cl_mult; [|exact CX]. eapply cl_trans; [|exact CN]. apply cl_div; [exact Ce|]. eapply cl_trans; [exact CD|exact CDc]. }
  assert (EX : exact = t / (H - L) * X) by reflexivity.
  assert (PE : 0 < exact /\ powerlaw_body (Fin (B2R xx)) (Fin (B2R alpha)) (Fin (B2R high)) (Fin (B2R low)) = Fin exact).
  { assert (E : exact = plpdf (B2R alpha) (B2R high) (B2R low) (B2R xx)). { unfold plpdf, plnorm. rewrite (Reqb_false (B2R alpha) (-1)) by auto. rewrite EX. unfold X, H, L, t. ring. }
    rewrite E. split; [apply plpdf_pos; lra|]. apply powerlaw_body_in; lra. }
  destruct PE as [PE ME]. rewrite <- EX in Total. destruct Total as [T1 T2].
  assert (PC : 0 < B2R computed) by (rewrite VC; nra).
  split; [exact FC|]. split; [exact PC|]. split; [exact PE|]. split; [exact ME|]. rewrite <- VC in T2. rewrite (Rabs_pos_eq exact), (Rabs_pos_eq (B2R computed)) in T2 by lra. lra.
Qed.

Lemma C117_log_slope_error_partial_pf :
  forall (n : nat) (pow : b64 -> b64 -> b64) (log : b64 -> b64) (xx alpha high low : b64), (INR n <= 2 ^ 40) -> accurate n pow -> accurate_log n log ->
  moderate low -> moderate high -> moderate xx -> is_finite alpha = true -> B2R low < B2R high -> B2R low <= B2R xx <= B2R high -> B2R alpha = -1 ->
  let lost := (u64 / (1 - u64)) / ln (B2R high / B2R low) in lost <= / 4 ->
  let exact := exact_log_uniform (B2R high) (B2R low) (B2R xx) in
  let computed := powerlaw64 pow log xx alpha high low in
  is_finite computed = true /\ 0 < B2R computed /\ 0 < exact /\
  powerlaw_body (Fin (B2R xx)) (Fin (B2R alpha)) (Fin (B2R high)) (Fin (B2R low)) = Fin exact /\
  Rabs (ln (B2R computed) - ln exact) <= (2 * INR n + 2) * (u64 / (1 - u64)) + 2 * lost.
Proof.
  intros n pow log xx alpha high low Nn Acc AccL Ml Mh Mx Fa LH XX EA lost Small exact computed.
  destruct (moderate_band _ Ml) as (Bl & Pl & Fl). destruct (moderate_band _ Mh) as (Bh & Ph & Fh). destruct (moderate_band _ Mx) as (Bx & Px & Fx).
  destruct one_val as [O1 O2]. assert (V := v64_facts). assert (U := u64_pos). fold v64 in lost |- *. assert (v2 : v64 <= / 2) by lra.
  assert (I := pos_INR n).
  assert (DN : INR n * v64 <= / 2).
  { assert (INR n * v64 <= 2 ^ 40 * (2 * u64)) by nra. assert (2 ^ 40 * (2 * u64) <= / 2); [|lra]. unfold u64. rewrite (pow_bpow_inv 53), (pow_bpow 40). change 2 with (bpow radix2 1) at 1.
    rewrite <- !bpow_plus. change (/ 2) with (bpow radix2 (-1)). apply bpow_le. lia. }
  set (Q := B2R high / B2R low) in *.
  assert (Q1 : 1 < Q) by (unfold Q; apply Rlt_div_r; lra).
  assert (LQ : 0 < ln Q) by (rewrite <- ln_1; apply ln_increasing; lra).
  assert (LostE : lost * ln Q = v64) by (unfold lost; field; lra).
  assert (BQ := band_div _ _ _ _ _ _ Bh Bl). fold Q in BQ.
  destruct (Bdiv_fin high low Fh) as [FQ VQ]; [lra|fold Q; eapply band_fin; [|exact BQ]; lia|]. fold Q in VQ.
  assert (CQ : cl v64 Q (B2R (Bdiv mode_NE high low))). { rewrite VQ. apply cl_normal. apply (band_mono _ _ (-1022) 1000) in BQ; [apply BQ|lia|lia]. }
  set (Qc := Bdiv mode_NE high low) in *.
  assert (PQc : 0 < B2R Qc) by (destruct CQ as [CQ1 _]; nra).
  assert (CLQ : cl (2 * lost) (ln Q) (ln (B2R Qc))).
  { destruct CQ as [_ CQ2]. rewrite (Rabs_pos_eq Q), (Rabs_pos_eq (B2R Qc)) in CQ2 by lra. assert (0 <= lost) by (unfold lost; apply Rlt_le, Rdiv_lt_0_compat; lra).
    assert (K : cl (lost / (1 - lost)) (ln Q) (ln (B2R Qc))) by (apply cl_rel; [lra|lra|rewrite (Rabs_pos_eq (ln Q)) by lra; lra]).
    destruct K as [K1 K2]. split; [auto|]. assert (lost / (1 - lost) <= 2 * lost) by (apply Rle_div_l; nra). lra. }
  assert (LQc : 0 < ln (B2R Qc)) by (destruct CLQ as [K _]; nra).
  assert (Q1c : 1 < B2R Qc) by (apply ln_lt_inv; [lra|auto|rewrite ln_1; auto]).
  destruct (AccL Qc FQ Q1c) as (FL & NL). assert (CL : cl (INR n * v64) (ln (B2R Qc)) (B2R (log Qc))) by (apply cl_near; auto).
  assert (Bln : band (-60) 10 (ln Q)).
  { unfold band. rewrite Rabs_pos_eq by lra. split.
    - apply Rle_trans with (4 * v64); [|nra]. apply Rle_trans with (4 * u64); [|lra]. unfold u64. rewrite (pow_bpow_inv 53). change 4 with (bpow radix2 2). rewrite <- bpow_plus. apply bpow_le. lia.
    - assert (L := ln_bpow_band _ _ _ BQ). rewrite Rabs_pos_eq in L by lra. assert (L2 := ln2_lt). assert (0 < ln 2) by (rewrite <- ln_1; apply ln_increasing; lra). change (bpow radix2 10) with 1024.
      change (400 - -400)%Z with 800%Z in L. lra. }
  assert (l2 : 2 * lost <= / 2) by lra. assert (BlnQ := band_cl _ _ _ _ _ l2 CLQ Bln). assert (Blog := band_cl _ _ _ _ _ DN CL BlnQ).
  assert (B1 : band 0 0 1) by (unfold band; rewrite Rabs_R1; change (bpow radix2 0) with 1; lra).
  assert (BN := band_div _ _ _ _ _ _ B1 Blog).
  destruct (Bdiv_fin one64 (log Qc) O1) as [FN VN]; rewrite ?O2; [destruct CL as [K _]; nra|eapply band_fin; [|exact BN]; lia|]. rewrite O2 in VN.
  assert (CN : cl v64 (1 / B2R (log Qc)) (B2R (Bdiv mode_NE one64 (log Qc)))). { rewrite VN. apply cl_normal. apply (band_mono _ _ (-1022) 1000) in BN; [apply BN|lia|lia]. }
  assert (BNc := band_cl _ _ _ _ _ v2 CN BN). set (Nc := Bdiv mode_NE one64 (log Qc)) in *.
  assert (X1 : Rpower (B2R xx) (B2R alpha) = / B2R xx). { rewrite EA. change (-1) with (- (1)). rewrite Rpower_Ropp, Rpower_1 by lra. reflexivity. }
  assert (BX : band (-400) 400 (/ B2R xx)) by (apply (band_inv _ _ _ Bx)). assert (PX : 0 < / B2R xx) by (apply Rinv_0_lt_compat; lra).
  destruct (Acc xx alpha Fx Fa Px) as (FX & NX).
  { rewrite X1, (pow_bpow_inv 1000), (pow_bpow 1000). assert (B := band_mono (-400) 400 (- Z.of_nat 1000) (Z.of_nat 1000) _ ltac:(lia) ltac:(lia) BX). unfold band in B. rewrite Rabs_pos_eq in B by lra. exact B. }
  rewrite X1 in NX. assert (CX : cl (INR n * v64) (/ B2R xx) (B2R (pow xx alpha))) by (apply cl_near; auto).
  assert (BXc := band_cl _ _ _ _ _ DN CX BX). assert (BP := band_mult _ _ _ _ _ _ BXc BNc).
  destruct (Bmult_fin (pow xx alpha) Nc FX FN) as [FP VP]; [eapply band_fin; [|exact BP]; lia|].
  assert (CP : cl v64 (B2R (pow xx alpha) * B2R Nc) (B2R (Bmult mode_NE (pow xx alpha) Nc))). { rewrite VP. apply cl_normal. apply (band_mono _ _ (-1022) 1000) in BP; [apply BP|lia|lia]. }
  assert (BPc := band_cl _ _ _ _ _ v2 CP BP). set (P := Bmult mode_NE (pow xx alpha) Nc) in *.
  assert (EM : Beqb alpha (Bopp one64) = true). { rewrite Beqb_correct; [|auto|now rewrite is_finite_Bopp]. rewrite B2R_Bopp, O2, EA. apply Req_bool_true. lra. }
  assert (EC : computed = Bmult mode_NE P one64).
  { unfold computed, powerlaw64, powerlaw_norm64. rewrite EM. cbv zeta. fold Qc. fold Nc. fold P. rewrite !leb_fin by auto.
    destruct (Rle_dec (B2R xx) (B2R high)); [|lra]. destruct (Rle_dec (B2R low) (B2R xx)); [|lra]. reflexivity. }
  destruct (Bmult_fin P one64 FP O1) as [FC VC]; rewrite O2, Rmult_1_r in *; [eapply band_fin; [|exact BPc]; lia|]. rewrite (rnd_double _ (B2R_double P)) in VC. rewrite <- EC in FC, VC.
  assert (C1 : cl 0 1 1) by (split; [lra|rewrite Rminus_diag_eq, Rabs_R0 by reflexivity; lra]).
  assert (Total : cl ((0 + (2 * lost + INR n * v64)) + v64 + (INR n * v64) + v64) (1 / ln Q * / B2R xx) (B2R P)).
  { eapply cl_trans; [|exact CP]. rewrite (Rmult_comm (B2R (pow xx alpha))). apply cl_mult; [|exact CX]. eapply cl_trans; [|exact CN]. apply cl_div; [exact C1|]. eapply cl_trans; [exact CLQ|exact CL]. }
  assert (EX : exact = 1 / ln Q * / B2R xx) by (unfold exact, exact_log_uniform; fold Q; unfold Rdiv; ring).
  assert (PE : 0 < exact /\ powerlaw_body (Fin (B2R xx)) (Fin (B2R alpha)) (Fin (B2R high)) (Fin (B2R low)) = Fin exact).
  { assert (E : exact = plpdf (B2R alpha) (B2R high) (B2R low) (B2R xx)). { unfold plpdf, plnorm. rewrite EA, Reqb_refl. rewrite <- EA at 1. rewrite X1. unfold exact, exact_log_uniform. fold Q. ring. }
    rewrite E. split; [apply plpdf_pos; lra|]. apply powerlaw_body_in; lra. }
  destruct PE as [PE ME]. rewrite <- EX in Total. destruct Total as [T1 T2].
  assert (PC : 0 < B2R computed) by (rewrite VC; nra).
  split; [exact FC|]. split; [exact PC|]. split; [exact PE|]. split; [exact ME|]. rewrite <- VC in T2. rewrite (Rabs_pos_eq exact), (Rabs_pos_eq (B2R computed)) in T2 by lra. lra.
Qed.

(** A correctly rounded power function exists. *)
Definition of_double (r : R) : b64 := binary_normalize 53 1024 eq_refl eq_refl mode_NE (Ztrunc (scaled_mantissa radix2 format64 r)) (cexp radix2 format64 r) false.
Lemma of_double_val r : is_double r -> is_finite (of_double r) = true /\ B2R (of_double r) = r.
Proof.
  intros [D S]. assert (C := binary_normalize_correct 53 1024 eq_refl eq_refl mode_NE (Ztrunc (scaled_mantissa radix2 format64 r)) (cexp radix2 format64 r) false).
  cbv zeta in C. fold (of_double r) in C. rewrite <- D in C. change (round radix2 (SpecFloat.fexp 53 1024) (round_mode mode_NE) r) with (rnd64 r) in C.
  rewrite (rnd_double r (conj D S)) in C. rewrite Rlt_bool_true in C by exact S. destruct C as (A & B & _). auto.
Qed.
Definition best_pow (x y : b64) : b64 := of_double (rnd64 (Rpower (B2R x) (B2R y))).
Lemma best_pow_correct : correctly_rounded best_pow.
Proof.
  intros x y Fx Fy X H. unfold best_pow. apply of_double_val. split; [apply generic_format_round; [apply valid64|apply valid_rnd_N]|].
  rewrite (pow_bpow 1000) in H. apply small_lt; [|apply H]. left. apply exp_pos.
Qed.
Lemma correct_accurate pow : correctly_rounded pow -> accurate 1 pow.
Proof.
  intros C x y Fx Fy X H. destruct (C x y Fx Fy X H) as [A B]. split; auto. rewrite B. apply rnd_near_normal.
  rewrite (pow_bpow_inv 1000) in H. eapply Rle_trans; [|apply H]. apply bpow_le. lia.
Qed.
(** Just above -1: -(2^53 - 1) / 2^53. *)
Definition alpha_near : b64 := @B754_finite 53 1024 true 9007199254740991 (-53) eq_refl.
Definition five_quarters : b64 := Bdiv mode_NE (int64 5) (int64 4).
Lemma alpha_near_val : B2R alpha_near = -1 + bpow radix2 (-53).
Proof.
  change (B2R alpha_near) with (IZR (1 - Zpower radix2 53) * bpow radix2 (-53)). rewrite minus_IZR, IZR_Zpower by lia.
  rewrite Rmult_minus_distr_r, <- bpow_plus. change (bpow radix2 (53 + -53)) with 1. ring.
Qed.
Lemma five_quarters_val : is_finite five_quarters = true /\ B2R five_quarters = 5 / 4.
Proof.
  unfold five_quarters. destruct (int64_val 5) as [A B]; [lia|]. destruct (int64_val 4) as [A' B']; [lia|]. simpl INR in B, B'.
  assert (E : (1 + 1 + 1 + 1 + 1) / (1 + 1 + 1 + 1) = INR 5 * bpow radix2 (-2)) by (change (bpow radix2 (-2)) with (/ 4); simpl INR; lra).
  destruct (Bdiv_fin (int64 5) (int64 4)) as [C D]; rewrite ?B, ?B' in *; [auto|lra| |].
  - rewrite E, rnd_double by (apply int_bpow_double; lia). apply (int_bpow_double 5 (-2)); lia.
  - split; auto. rewrite D, E, rnd_double by (apply int_bpow_double; lia). change (bpow radix2 (-2)) with (/ 4). simpl INR. lra.
Qed.
