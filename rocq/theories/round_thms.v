(** Proofs of the property theorems stated in [Props_round]. *)
From Coq Require Import Reals Lra Lia Psatz ZArith Bool.
From Coquelicot Require Import Rcomplements.
From Flocq Require Import Core BinarySingleNaN Relative Plus_error.
From Coq Require Import List.
From Verif Require Import Xf Py Xf_facts Double Double_facts Rounded_model SpecRound SpecHyper Hyperpe_model hypera_thms.
Import ListNotations.
Local Open Scope R_scope.

Lemma u64_pos : 0 < u64 < / 4.
Proof. unfold u64. assert (8 <= 2 ^ 53) by (replace 53%nat with (3 + 50)%nat by lia; rewrite pow_add; assert (1 <= 2 ^ 50) by (apply pow_R1_Rle; lra); simpl (2 ^ 3); lra). split; [apply Rinv_0_lt_compat; lra|]. apply Rinv_lt_contravar; lra. Qed.
Lemma u64_ro : u_ro radix2 53 = u64.
Proof. unfold u_ro, u64. rewrite bpow_powerRZ. change (powerRZ (IZR radix2) (-53 + 1)) with (/ 2 ^ 52). replace (2 ^ 53) with (2 * 2 ^ 52) by (rewrite <- tech_pow_Rmult; reflexivity). rewrite Rinv_mult_distr; [reflexivity|lra|apply pow_nonzero; lra]. Qed.

(** Equal up to [n] roundings. *)
Definition near (n : nat) (x y : R) : Prop := (1 - u64) ^ n * x <= y /\ (1 - u64) ^ n * y <= x.
Lemma pw n : 0 < (1 - u64) ^ n <= 1.
Proof. assert (U := u64_pos). split; [apply pow_lt; lra|]. induction n as [|n IH]; [simpl; lra|]. simpl. assert (0 < (1 - u64) ^ n) by (apply pow_lt; lra). nra. Qed.
Lemma pw_mono n m : (n <= m)%nat -> (1 - u64) ^ m <= (1 - u64) ^ n.
Proof. intros H. replace m with (n + (m - n))%nat by lia. rewrite pow_add. assert (A := pw n). assert (B := pw (m - n)). nra. Qed.
Lemma near_sym n x y : near n x y -> near n y x.
Proof. unfold near; tauto. Qed.
Lemma near_refl x : near 0 x x.
Proof. unfold near; simpl; lra. Qed.
Lemma near_mono n m x y : (n <= m)%nat -> 0 <= x -> 0 <= y -> near n x y -> near m x y.
Proof. intros L X Y [A B]. assert (M := pw_mono n m L). split; nra. Qed.
Lemma near_trans n m x y z : near n x y -> near m y z -> near (n + m) x z.
Proof. intros [A B] [C D]. assert (P := pw n). assert (Q := pw m). unfold near. rewrite pow_add. split; nra. Qed.
Lemma near_plus n a b a' b' : near n a a' -> near n b b' -> near n (a + b) (a' + b').
Proof. intros [A B] [C D]. unfold near. split; lra. Qed.
Lemma near_mult n m a b a' b' : 0 <= a -> 0 <= b -> 0 <= a' -> 0 <= b' -> near n a a' -> near m b b' -> near (n + m) (a * b) (a' * b').
Proof.
  intros Ha Hb Ha' Hb' [A B] [C D]. assert (P := pw n). assert (Q := pw m). unfold near. rewrite pow_add. split.
  - replace ((1 - u64) ^ n * (1 - u64) ^ m * (a * b)) with (((1 - u64) ^ n * a) * ((1 - u64) ^ m * b)) by ring. apply Rmult_le_compat; nra.
  - replace ((1 - u64) ^ n * (1 - u64) ^ m * (a' * b')) with (((1 - u64) ^ n * a') * ((1 - u64) ^ m * b')) by ring. apply Rmult_le_compat; nra.
Qed.
Lemma near_inv n a a' : 0 < a -> 0 < a' -> near n a a' -> near n (/ a) (/ a').
Proof.
  intros Ha Ha' [A B]. assert (P := pw n). split.
  - apply (Rmult_le_reg_r (a * a')); [nra|]. replace ((1 - u64) ^ n * / a * (a * a')) with ((1 - u64) ^ n * a') by (field; lra). replace (/ a' * (a * a')) with a by (field; lra). lra.
  - apply (Rmult_le_reg_r (a * a')); [nra|]. replace ((1 - u64) ^ n * / a' * (a * a')) with ((1 - u64) ^ n * a) by (field; lra). replace (/ a * (a * a')) with a' by (field; lra). lra.
Qed.
Lemma near_div n m a b a' b' : 0 <= a -> 0 < b -> 0 <= a' -> 0 < b' -> near n a a' -> near m b b' -> near (n + m) (a / b) (a' / b').
Proof. intros. unfold Rdiv. apply near_mult; auto; try (left; now apply Rinv_0_lt_compat). now apply near_inv. Qed.
Lemma near_pos n a b : 0 < a -> near n a b -> 0 < b.
Proof. intros A [H _]. assert (P := pw n). nra. Qed.
Lemma near_eps x e : 0 <= x -> Rabs e <= u64 -> near 1 x (x * (1 + e)).
Proof. intros X E. apply Rabs_le_between in E. assert (U := u64_pos). unfold near. rewrite pow_1. assert (G : (1 - u64) * (1 + e) <= 1) by nra. split; [nra|]. replace ((1 - u64) * (x * (1 + e))) with (x * ((1 - u64) * (1 + e))) by ring. nra. Qed.
Lemma near_ln n a b : 0 < a -> near n a b -> Rabs (ln b - ln a) <= INR n * (u64 / (1 - u64)).
Proof.
  intros A N. assert (B := near_pos n a b A N). destruct N as [N1 N2]. assert (U := u64_pos). assert (P := pw n).
  assert (K : - ln (1 - u64) <= u64 / (1 - u64)).
  { rewrite <- ln_Rinv by lra. replace (u64 / (1 - u64)) with (/ (1 - u64) - 1) by (field; lra).
    assert (E := exp_ineq1_le (/ (1 - u64) - 1)). replace (1 + (/ (1 - u64) - 1)) with (/ (1 - u64)) in E by ring.
    rewrite <- (ln_exp (/ (1 - u64) - 1)). assert (0 < / (1 - u64)) by (apply Rinv_0_lt_compat; lra).
    destruct E as [E|E]; [left; now apply ln_increasing|right; now rewrite <- E]. }
  assert (LP : ln ((1 - u64) ^ n) = INR n * ln (1 - u64)) by (apply ln_pow; lra).
  assert (LE : forall x y, 0 < x -> x <= y -> ln x <= ln y). { intros x y X [L| ->]; [left; now apply ln_increasing|lra]. }
  assert (E1 := LE _ _ (Rmult_lt_0_compat _ _ (proj1 P) A) N1). assert (E2 := LE _ _ (Rmult_lt_0_compat _ _ (proj1 P) B) N2).
  rewrite ln_mult in E1, E2 by (lra || apply P). rewrite LP in E1, E2. assert (I := pos_INR n). apply Rabs_le_between. nra.
Qed.

(** Rounding. *)
Lemma rnd_near_normal x : bpow radix2 (-1022) <= x -> near 1 x (rnd64 x).
Proof.
  intros H. assert (0 < x) by (eapply Rlt_le_trans; [apply bpow_gt_0|exact H]).
  destruct (relative_error_N_FLT_ex radix2 (-1074) 53 eq_refl (fun x => negb (Z.even x)) x) as (e & E & F).
  - rewrite Rabs_pos_eq by lra. exact H.
  - unfold rnd64, format64. rewrite F. apply near_eps; [lra|]. rewrite <- u64_ro. exact E.
Qed.
Lemma rnd_near_plus x y : is_double x -> is_double y -> 0 <= x + y -> near 1 (x + y) (rnd64 (x + y)).
Proof.
  intros [X _] [Y _] H. destruct (FLT_plus_error_N_ex radix2 (-1074) 53 (fun x => negb (Z.even x)) x y X Y) as (e & E & F).
  unfold rnd64, format64. rewrite F. apply near_eps; [lra|]. eapply Rle_trans; [exact E|]. rewrite <- u64_ro. apply u_rod1pu_ro_le_u_ro.
Qed.
Lemma rnd_nonneg x : 0 <= x -> 0 <= rnd64 x.
Proof. intros H. replace 0 with (rnd64 0) by (apply round_0, valid_rnd_N). now apply rnd_le. Qed.

(** The operations on finite doubles. *)
Lemma Bplus_fin (x y : b64) : is_finite x = true -> is_finite y = true -> Rabs (rnd64 (B2R x + B2R y)) < bpow radix2 1024 ->
  is_finite (Bplus mode_NE x y) = true /\ B2R (Bplus mode_NE x y) = rnd64 (B2R x + B2R y).
Proof.
  intros Fx Fy H. assert (C := Bplus_correct 53 1024 _ _ mode_NE x y Fx Fy).
  change (round radix2 (SpecFloat.fexp 53 1024) (round_mode mode_NE) (B2R x + B2R y)) with (rnd64 (B2R x + B2R y)) in C.
  rewrite Rlt_bool_true in C by exact H. now destruct C as (A & B & _).
Qed.
Lemma Bminus_fin (x y : b64) : is_finite x = true -> is_finite y = true -> Rabs (rnd64 (B2R x - B2R y)) < bpow radix2 1024 ->
  is_finite (Bminus mode_NE x y) = true /\ B2R (Bminus mode_NE x y) = rnd64 (B2R x - B2R y).
Proof.
  intros Fx Fy H. assert (C := Bminus_correct 53 1024 _ _ mode_NE x y Fx Fy).
  change (round radix2 (SpecFloat.fexp 53 1024) (round_mode mode_NE) (B2R x - B2R y)) with (rnd64 (B2R x - B2R y)) in C.
  rewrite Rlt_bool_true in C by exact H. now destruct C as (A & B & _).
Qed.
Lemma Bmult_fin (x y : b64) : is_finite x = true -> is_finite y = true -> Rabs (rnd64 (B2R x * B2R y)) < bpow radix2 1024 ->
  is_finite (Bmult mode_NE x y) = true /\ B2R (Bmult mode_NE x y) = rnd64 (B2R x * B2R y).
Proof.
  intros Fx Fy H. assert (C := Bmult_correct 53 1024 _ _ mode_NE x y).
  change (round radix2 (SpecFloat.fexp 53 1024) (round_mode mode_NE) (B2R x * B2R y)) with (rnd64 (B2R x * B2R y)) in C.
  rewrite Rlt_bool_true in C by exact H. destruct C as (A & B & _). rewrite B, Fx, Fy. auto.
Qed.
Lemma Bdiv_fin (x y : b64) : is_finite x = true -> B2R y <> 0 -> Rabs (rnd64 (B2R x / B2R y)) < bpow radix2 1024 ->
  is_finite (Bdiv mode_NE x y) = true /\ B2R (Bdiv mode_NE x y) = rnd64 (B2R x / B2R y).
Proof.
  intros Fx Fy H. assert (C := Bdiv_correct 53 1024 _ _ mode_NE x y Fy).
  change (round radix2 (SpecFloat.fexp 53 1024) (round_mode mode_NE) (B2R x / B2R y)) with (rnd64 (B2R x / B2R y)) in C.
  rewrite Rlt_bool_true in C by exact H. destruct C as (A & B & _). rewrite B. auto.
Qed.
Lemma int64_val n : (Z.of_nat n <= 2 ^ 53)%Z -> is_finite (int64 n) = true /\ B2R (int64 n) = INR n.
Proof.
  intros H. assert (C := binary_normalize_correct 53 1024 _ _ mode_NE (Z.of_nat n) 0 false). cbv zeta in C. fold (int64 n) in C.
  assert (E : F2R (Float radix2 (Z.of_nat n) 0) = INR n) by (unfold F2R; simpl; rewrite INR_IZR_INZ; ring).
  rewrite E in C. change (round radix2 (SpecFloat.fexp 53 1024) (round_mode mode_NE) (INR n)) with (rnd64 (INR n)) in C.
  assert (D : is_double (INR n)).
  { split.
    - destruct (Z.eq_dec (Z.of_nat n) (2 ^ 53)) as [Q|Q].
      + rewrite INR_IZR_INZ, Q. change (IZR (2 ^ 53)) with (bpow radix2 53). apply generic_format_bpow. unfold format64, FLT_exp. lia.
      + apply generic_format_FLT. exists (Float radix2 (Z.of_nat n) 0); cbn [Fnum Fexp]; [now rewrite E| |lia]. rewrite Z.abs_eq by lia. change (radix2 ^ 53)%Z with (2 ^ 53)%Z. lia.
    - rewrite INR_IZR_INZ, Rabs_pos_eq by (apply IZR_le; lia). apply Rle_lt_trans with (bpow radix2 53); [|apply bpow_lt; lia]. change (bpow radix2 53) with (IZR (2 ^ 53)). now apply IZR_le. }
  rewrite (rnd_double _ D) in C. rewrite Rlt_bool_true in C by apply D. tauto.
Qed.

Lemma rs_cons (x : R) l : Rsum (x :: l) = x + Rsum l.
Proof. reflexivity. Qed.
Lemma values_add l r : values (Add l r) = (values l ++ values r)%list.
Proof. unfold values. cbn [leaves]. apply map_app. Qed.
Lemma values_nonneg t : Forall nonneg_double (leaves t) -> 0 <= Rsum (values t).
Proof.
  unfold values. induction (leaves t) as [|w l IH]; intros F; [cbn; lra|]. inversion F as [|? ? [_ W] F']; subst. assert (I := IH F'). cbn [map]. rewrite rs_cons. lra.
Qed.
Lemma sum_near t : Forall nonneg_double (leaves t) -> Rsum (values t) < (1 - u64) ^ depth t * bpow radix2 1024 ->
  is_finite (sum64 t) = true /\ 0 <= B2R (sum64 t) /\ near (depth t) (Rsum (values t)) (B2R (sum64 t)).
Proof.
  induction t as [w|l IHl r IHr]; intros F H.
  - cbn [leaves] in F. inversion F as [|? ? [W1 W2] _]; subst. cbn [sum64 depth]. split; [exact W1|]. split; [exact W2|]. unfold values. cbn [leaves map]. rewrite rs_cons. change (Rsum []) with 0. rewrite Rplus_0_r. apply near_refl.
  - cbn [leaves] in F. apply Forall_app in F. destruct F as [Fl Fr]. assert (Vl := values_nonneg l Fl). assert (Vr := values_nonneg r Fr).
    rewrite values_add, Rsum_app in *. cbn [depth sum64] in *. set (d := Nat.max (depth l) (depth r)) in *.
    assert (P := pw d). assert (U := u64_pos). assert (BP := bpow_gt_0 radix2 1024). cbn [pow] in H.
    assert (Pl := pw_mono (depth l) d ltac:(lia)). assert (Pr := pw_mono (depth r) d ltac:(lia)).
    assert (Q : (1 - u64) * (1 - u64) ^ d * bpow radix2 1024 <= (1 - u64) ^ d * bpow radix2 1024) by nra.
    destruct (IHl Fl) as (L1 & L2 & L3); [nra|]. destruct (IHr Fr) as (R1 & R2 & R3); [nra|].
    assert (N : near d (Rsum (values l) + Rsum (values r)) (B2R (sum64 l) + B2R (sum64 r))).
    { apply near_plus; [apply near_mono with (depth l)|apply near_mono with (depth r)]; auto; lia. }
    assert (N1 := rnd_near_plus (B2R (sum64 l)) (B2R (sum64 r)) (B2R_double _) (B2R_double _) ltac:(lra)).
    assert (N2 := near_trans _ _ _ _ _ N N1). replace (d + 1)%nat with (S d) in N2 by lia.
    assert (NN := rnd_nonneg (B2R (sum64 l) + B2R (sum64 r)) ltac:(lra)).
    assert (B : Rabs (rnd64 (B2R (sum64 l) + B2R (sum64 r))) < bpow radix2 1024).
    { rewrite Rabs_pos_eq by exact NN. destruct N2 as [_ N2]. cbn [pow] in N2. apply (Rmult_lt_reg_l ((1 - u64) * (1 - u64) ^ d)); [nra|]. lra. }
    destruct (Bplus_fin _ _ L1 R1 B) as (C1 & C2). split; [exact C1|]. rewrite C2. split; [exact NN|exact N2].
Qed.
Lemma leaves_ne t : (depth t < List.length (leaves t))%nat.
Proof. induction t as [w|l IHl r IHr]; cbn [depth leaves List.length]; [lia|]. rewrite app_length. lia. Qed.

Lemma C110_sums_pf :
  forall t, Forall nonneg_double (leaves t) -> Rsum (values t) < (1 - u64) ^ depth t * 2 ^ 1024 ->
  is_finite (sum64 t) = true /\ (1 - u64) ^ depth t * Rsum (values t) <= B2R (sum64 t) <= Rsum (values t) / (1 - u64) ^ depth t /\ (depth t < List.length (leaves t))%nat.
Proof.
  intros t F H. replace (2 ^ 1024) with (bpow radix2 1024) in H by (rewrite bpow_powerRZ; reflexivity).
  destruct (sum_near t F H) as (A & B & [C D]). assert (P := pw (depth t)). split; [exact A|]. split; [|apply leaves_ne]. split; [exact C|].
  apply Rle_div_r; [apply P|]. lra.
Qed.

Lemma pow_bpow n : 2 ^ n = bpow radix2 (Z.of_nat n).
Proof. rewrite bpow_powerRZ. apply pow_powerRZ. Qed.
Lemma pow_bpow_inv n : / 2 ^ n = bpow radix2 (- Z.of_nat n).
Proof. rewrite bpow_opp. now rewrite pow_bpow. Qed.
Lemma small_lt x : 0 <= x -> x <= bpow radix2 1000 -> Rabs (rnd64 x) < bpow radix2 1024.
Proof.
  intros X H. rewrite Rabs_pos_eq by now apply rnd_nonneg. apply Rle_lt_trans with (bpow radix2 1000); [|apply bpow_lt; lia].
  rewrite <- (rnd_double (bpow radix2 1000)). { now apply rnd_le. } split; [apply generic_format_bpow; unfold format64, FLT_exp; lia|]. rewrite Rabs_pos_eq by apply bpow_ge_0. apply bpow_lt; lia.
Qed.
Lemma mean_near N t : (0 < N)%nat -> (Z.of_nat N <= 2 ^ 53)%Z -> Forall nonneg_double (leaves t) -> Rsum (values t) < (1 - u64) ^ depth t * bpow radix2 1024 ->
  bpow radix2 (-1022) <= (1 - u64) ^ depth t * (Rsum (values t) / INR N) ->
  is_finite (efficiency64 N t) = true /\ 0 < B2R (efficiency64 N t) /\ near (depth t + 1) (Rsum (values t) / INR N) (B2R (efficiency64 N t)).
Proof.
  intros N0 N1 F H L. destruct (sum_near t F H) as (A & B & C). destruct (int64_val N N1) as (I1 & I2). assert (NP : 0 < INR N) by (apply lt_0_INR; lia). assert (N1' : 1 <= INR N) by (change 1 with (INR 1); apply le_INR; lia).
  assert (V := values_nonneg t F). assert (P := pw (depth t)).
  assert (D : near (depth t) (Rsum (values t) / INR N) (B2R (sum64 t) / INR N)).
  { replace (depth t) with (depth t + 0)%nat by lia. apply near_div; auto; try lra. apply near_refl. }
  assert (Q : 0 <= B2R (sum64 t) / INR N) by (apply Rle_div_r; lra).
  assert (Q' : bpow radix2 (-1022) <= B2R (sum64 t) / INR N) by (destruct D; lra).
  assert (E := rnd_near_normal _ Q').
  assert (R0 := near_trans _ _ _ _ _ D E).
  assert (SB : B2R (sum64 t) / INR N <= B2R (sum64 t)). { apply Rle_div_l; [lra|]. nra. }
  assert (BD : Rabs (rnd64 (B2R (sum64 t) / INR N)) < bpow radix2 1024).
  { rewrite Rabs_pos_eq by now apply rnd_nonneg. apply Rle_lt_trans with (B2R (sum64 t)); [|destruct (B2R_double (sum64 t)) as [_ X]; now rewrite Rabs_pos_eq in X by exact B].
    rewrite <- (rnd_double (B2R (sum64 t))) at 2 by apply B2R_double. now apply rnd_le. }
  unfold efficiency64. rewrite <- I2 in BD at 1. destruct (Bdiv_fin (sum64 t) (int64 N) A ltac:(rewrite I2; lra) BD) as (G1 & G2). rewrite I2 in G2.
  split; [exact G1|]. rewrite G2. split; [|exact R0]. apply near_pos with (n := 1%nat) (a := B2R (sum64 t) / INR N); [|exact E]. apply Rlt_le_trans with (bpow radix2 (-1022)); [apply bpow_gt_0|exact Q'].
Qed.
Lemma pw_half d : (Z.of_nat d <= 2 ^ 50)%Z -> / 2 <= (1 - u64) ^ d.
Proof.
  intros H. assert (U := u64_pos). assert (B : 1 - INR d * u64 <= (1 - u64) ^ d).
  { clear H. induction d as [|d IH]; [simpl; lra|]. rewrite S_INR. cbn [pow]. assert (I := pos_INR d). assert (P := pw d). nra. }
  assert (INR d <= 2 ^ 50). { rewrite pow_bpow. change (bpow radix2 (Z.of_nat 50)) with (IZR (2 ^ 50)). rewrite INR_IZR_INZ. now apply IZR_le. }
  assert (2 ^ 50 * u64 = / 8). { unfold u64. replace (2 ^ 53) with (2 ^ 50 * 8) by (replace 53%nat with (50 + 3)%nat by lia; rewrite pow_add; simpl (2 ^ 3); ring). field. }
  nra.
Qed.
Definition within (B : nat) (w : b64) : Prop := is_finite w = true /\ / 2 ^ B <= B2R w <= 2 ^ B.
Lemma within_sum B l : Forall (within B) l -> INR (List.length l) * / 2 ^ B <= Rsum (map (fun w : b64 => B2R w) l) <= INR (List.length l) * 2 ^ B.
Proof.
  induction 1 as [|w l [_ W] F IH]; [cbn [map List.length]; change (Rsum []) with 0; simpl (INR 0); lra|]. cbn [map List.length]. rewrite rs_cons, S_INR. lra.
Qed.
Lemma pow2_pos n : 0 < 2 ^ n.
Proof. apply pow_lt; lra. Qed.
Lemma pow2_inv_pos n : 0 < / 2 ^ n.
Proof. apply Rinv_0_lt_compat, pow2_pos. Qed.
Lemma within_pos B w : within B w -> nonneg_double w.
Proof. intros [F [A C]]. split; [exact F|]. assert (P := pow2_inv_pos B). lra. Qed.
Lemma INR_2_50 K : (Z.of_nat K <= 2 ^ 50)%Z -> INR K <= 2 ^ 50.
Proof. intros H. rewrite pow_bpow. change (bpow radix2 (Z.of_nat 50)) with (IZR (2 ^ 50)). rewrite INR_IZR_INZ. now apply IZR_le. Qed.
Lemma within_near B N t : (B <= 900)%nat -> (List.length (leaves t) <= N)%nat -> (Z.of_nat N <= 2 ^ 50)%Z -> Forall (within B) (leaves t) ->
  is_finite (efficiency64 N t) = true /\ / 2 ^ (50 + B) <= Rsum (values t) / INR N <= 2 ^ B /\ near (depth t + 1) (Rsum (values t) / INR N) (B2R (efficiency64 N t)).
Proof.
  intros HB L N0 F. assert (D := leaves_ne t). assert (NP : 0 < INR N) by (apply lt_0_INR; lia). assert (M := within_sum _ _ F). fold (values t) in M.
  assert (H2 := pw_half (depth t) ltac:(lia)). assert (P := pw (depth t)). assert (IN := INR_2_50 N N0).
  assert (1 <= INR (List.length (leaves t))) by (change 1 with (INR 1); apply le_INR; lia). assert (INR (List.length (leaves t)) <= INR N) by (apply le_INR; lia).
  assert (P4 := pow2_pos B). assert (P4' := pow2_inv_pos B).
  assert (S1 : / 2 ^ B <= Rsum (values t)) by nra. assert (S2 : Rsum (values t) <= 2 ^ (50 + B)). { rewrite pow_add. nra. }
  assert (Q : / 2 ^ (50 + B) <= Rsum (values t) / INR N).
  { apply Rle_div_r; [exact NP|]. apply Rle_trans with (/ 2 ^ (50 + B) * 2 ^ 50); [apply Rmult_le_compat_l; [left; apply pow2_inv_pos|lra]|].
    replace (/ 2 ^ (50 + B) * 2 ^ 50) with (/ 2 ^ B); [exact S1|]. rewrite pow_add, Rinv_mult_distr by (apply Rgt_not_eq, pow2_pos). field. apply Rgt_not_eq, P4. }
  assert (Q0 := pow2_inv_pos (50 + B)).
  destruct (mean_near N t) as (A & C & E).
  - lia.
  - apply Z.le_trans with (2 ^ 50)%Z; [exact N0|simpl; lia].
  - eapply Forall_impl; [apply within_pos|exact F].
  - assert (2 * 2 ^ (50 + B) < bpow radix2 1024). { change (2 * 2 ^ (50 + B)) with (2 ^ (51 + B)). rewrite pow_bpow. apply bpow_lt. lia. } assert (X := pow2_pos (50 + B)). assert (BP := bpow_gt_0 radix2 1024). nra.
  - apply Rle_trans with (/ 2 * / 2 ^ (50 + B)).
    + rewrite <- Rinv_mult_distr by (try lra; apply Rgt_not_eq, pow2_pos). change (2 * 2 ^ (50 + B)) with (2 ^ (51 + B)). rewrite pow_bpow_inv. apply bpow_le. lia.
    + apply Rmult_le_compat; lra.
  - split; [exact A|]. split; [split; [exact Q|]|exact E]. apply Rle_div_l; [exact NP|]. nra.
Qed.
Lemma moderate_near N t : (List.length (leaves t) <= N)%nat -> (Z.of_nat N <= 2 ^ 50)%Z -> Forall moderate (leaves t) ->
  is_finite (efficiency64 N t) = true /\ 0 < Rsum (values t) / INR N /\ near (depth t + 1) (Rsum (values t) / INR N) (B2R (efficiency64 N t)).
Proof. intros L N0 F. destruct (within_near 400 N t ltac:(lia) L N0 F) as (A & B & C). assert (P := pow2_inv_pos (50 + 400)). split; [exact A|]. split; [lra|exact C]. Qed.

Lemma C110_means_pf :
  forall N t, (List.length (leaves t) <= N)%nat -> (Z.of_nat N <= 2 ^ 50)%Z -> Forall moderate (leaves t) ->
  let exact := Rsum (values t) / INR N in
  mean64 N t = efficiency64 N t /\ is_finite (efficiency64 N t) = true /\ 0 < exact /\
  (1 - u64) ^ (depth t + 1) * exact <= B2R (efficiency64 N t) <= exact / (1 - u64) ^ (depth t + 1) /\
  Rabs (ln (B2R (efficiency64 N t)) - ln exact) <= INR (depth t + 1) * (u64 / (1 - u64)).
Proof.
  intros N t L N0 F exact. destruct (moderate_near N t L N0 F) as (A & B & C). split; [reflexivity|]. split; [exact A|]. split; [exact B|]. split.
  - destruct C as [C1 C2]. split; [exact C1|]. apply Rle_div_r; [apply pw|]. unfold exact. lra.
  - now apply near_ln.
Qed.

Lemma sum_abs_bound {A} (f g b : A -> R) l : (forall x, In x l -> Rabs (f x - g x) <= b x) -> Rabs (Rsum (map f l) - Rsum (map g l)) <= Rsum (map b l).
Proof.
  induction l as [|x l IH]; intros H; [cbn [map]; change (Rsum []) with 0; rewrite Rminus_0_r, Rabs_R0; lra|]. cbn [map]. rewrite !rs_cons.
  assert (I := IH (fun y Y => H y (or_intror Y))). assert (J := H x (or_introl eq_refl)). apply Rabs_le_between in I. apply Rabs_le_between in J. apply Rabs_le_between. lra.
Qed.
Lemma rs_scale {A} (f : A -> R) c l : Rsum (map (fun x => f x * c) l) = Rsum (map f l) * c.
Proof. induction l as [|x l IH]; cbn [map]; [change (Rsum []) with 0; lra|]. rewrite !rs_cons, IH. ring. Qed.

Lemma C110_log_likelihood_pf :
  forall K N events injections,
  Forall (fun t => List.length (leaves t) = K /\ Forall moderate (leaves t)) events -> (Z.of_nat K <= 2 ^ 50)%Z ->
  (List.length (leaves injections) <= N)%nat -> (Z.of_nat N <= 2 ^ 50)%Z -> Forall moderate (leaves injections) ->
  let n := INR (List.length events) in
  let computed := Rsum (map (fun t => ln (B2R (mean64 K t))) events) - n * ln (B2R (efficiency64 N injections)) in
  let exact := Rsum (map (fun t => ln (mean (values t))) events) - n * ln (Rsum (values injections) / INR N) in
  let steps := Rsum (map (fun t => INR (depth t + 1)) events) + n * INR (depth injections + 1) in
  Rabs (computed - exact) <= steps * (u64 / (1 - u64)).
Proof.
  intros K N ev inj E K0 L N0 I n computed exact steps.
  destruct (C110_means_pf N inj L N0 I) as (_ & _ & _ & _ & B).
  assert (A : Rabs (Rsum (map (fun t => ln (B2R (mean64 K t))) ev) - Rsum (map (fun t => ln (mean (values t))) ev)) <= Rsum (map (fun t => INR (depth t + 1) * (u64 / (1 - u64))) ev)).
  { apply sum_abs_bound. intros t T. rewrite Forall_forall in E. destruct (E t T) as [LT M]. destruct (C110_means_pf K t ltac:(lia) K0 M) as (S & _ & _ & _ & G).
    rewrite S. unfold mean. replace (List.length (values t)) with K by (unfold values; now rewrite map_length). exact G. }
  rewrite (rs_scale (fun t => INR (depth t + 1))) in A. unfold computed, exact, steps. apply Rabs_le_between in A. apply Rabs_le_between in B. apply Rabs_le_between.
  assert (NP : 0 <= n) by apply pos_INR. nra.
Qed.

Lemma square_near w : within 400 w -> within 801 (square64 w) /\ near 1 (B2R w * B2R w) (B2R (square64 w)).
Proof.
  intros [F [A B]]. assert (P := pow2_inv_pos 400). assert (P' := pow2_pos 400).
  assert (L : / 2 ^ 800 <= B2R w * B2R w). { replace 800%nat with (400 + 400)%nat by lia. rewrite pow_add, Rinv_mult_distr by (apply Rgt_not_eq, pow2_pos). apply Rmult_le_compat; lra. }
  assert (U : B2R w * B2R w <= 2 ^ 800). { replace 800%nat with (400 + 400)%nat by lia. rewrite pow_add. apply Rmult_le_compat; lra. }
  assert (N : near 1 (B2R w * B2R w) (rnd64 (B2R w * B2R w))). { apply rnd_near_normal. eapply Rle_trans; [|exact L]. rewrite pow_bpow_inv. apply bpow_le. lia. }
  destruct (Bmult_fin w w F F) as (C & D). { apply small_lt; [nra|]. eapply Rle_trans; [exact U|]. rewrite pow_bpow. apply bpow_le. lia. }
  unfold square64. rewrite D. split; [|exact N]. split; [exact C|]. rewrite D. destruct N as [N1 N2]. rewrite pow_1 in N1, N2. assert (V := u64_pos). assert (X := pow2_pos 800). assert (X' := pow2_inv_pos 800).
  replace 801%nat with (1 + 800)%nat by lia. rewrite pow_add, pow_1, Rinv_mult_distr by (try apply Rgt_not_eq, pow2_pos; lra). split; nra.
Qed.
Lemma sum_squares_near t t2 : adds_squares t t2 -> Forall moderate (leaves t) ->
  Forall (within 801) (leaves t2) /\ near 1 (Rsum (squares (values t))) (Rsum (values t2)) /\ 0 <= Rsum (squares (values t)).
Proof.
  unfold adds_squares, values, squares. intros -> F. induction F as [|w l W F (I1 & I2 & I3)]; [cbn [map]; change (Rsum []) with 0; repeat split; try lra; constructor|].
  destruct (square_near w W) as (S1 & S2). cbn [map]. rewrite !rs_cons. split; [now constructor|]. split; [now apply near_plus|]. assert (0 <= B2R w * B2R w) by nra. lra.
Qed.
Lemma rnd_err x : Rabs (rnd64 x - x) <= u64 * Rabs x + bpow radix2 (-1075).
Proof.
  destruct (error_N_FLT radix2 (-1074) 53 eq_refl (fun x => negb (Z.even x)) x) as (e & h & E & H & _ & X). unfold rnd64, format64. rewrite X.
  replace (x * (1 + e) + h - x) with (x * e + h) by ring. eapply Rle_trans; [apply Rabs_triang|]. rewrite Rabs_mult. fold (u_ro radix2 53) in E. rewrite u64_ro in E.
  assert (B : / 2 * bpow radix2 (-1074) = bpow radix2 (-1075)) by (change (-1075)%Z with (-1 + -1074)%Z; rewrite bpow_plus; change (bpow radix2 (-1)) with (/ 2); ring). assert (A := Rabs_pos x). nra.
Qed.
Lemma rnd_minus_err x y : is_double x -> is_double y -> Rabs (rnd64 (x - y) - (x - y)) <= u64 * Rabs (x - y).
Proof.
  intros [X _] Y. apply opp_double in Y. destruct Y as [Y _]. destruct (FLT_plus_error_N_ex radix2 (-1074) 53 (fun x => negb (Z.even x)) x (- y) X Y) as (e & E & F).
  unfold rnd64, format64, Rminus. rewrite F. replace ((x + - y) * (1 + e) + - (x + - y)) with ((x + - y) * e) by ring. rewrite Rabs_mult. assert (A := Rabs_pos (x + - y)).
  assert (E' : Rabs e <= u64). { eapply Rle_trans; [exact E|]. rewrite <- u64_ro. apply u_rod1pu_ro_le_u_ro. } nra.
Qed.
Definition rho : R := / (1 - u64).
Lemma rho_facts : 1 < rho /\ u64 <= rho - 1 /\ rho * (1 - u64) = 1.
Proof.
  assert (U := u64_pos). unfold rho. assert (E : / (1 - u64) * (1 - u64) = 1) by (field; lra). assert (0 < / (1 - u64)) by (apply Rinv_0_lt_compat; lra).
  assert (1 < / (1 - u64)) by (rewrite <- Rinv_1 at 1; apply Rinv_lt_contravar; lra). repeat split; auto. nra.
Qed.
Lemma rho_pow n : (1 - u64) ^ n * rho ^ n = 1.
Proof. rewrite <- Rpow_mult_distr. replace ((1 - u64) * rho) with 1 by (rewrite Rmult_comm; symmetry; apply rho_facts). apply pow1. Qed.
Lemma rho_inv n : / (1 - u64) ^ n = rho ^ n.
Proof. assert (P := pw n). assert (E := rho_pow n). apply (Rmult_eq_reg_l ((1 - u64) ^ n)); [|lra]. rewrite E. field. lra. Qed.
Lemma rho_ge n : 1 <= rho ^ n.
Proof. apply pow_R1_Rle. left. apply rho_facts. Qed.
Lemma near_abs n x y : 0 <= x -> near n x y -> Rabs (y - x) <= (rho ^ n - 1) * x /\ y <= rho ^ n * x.
Proof.
  intros X [A B]. assert (E := rho_pow n). assert (P := pw n). assert (G := rho_ge n).
  assert (Y : y <= rho ^ n * x). { apply (Rmult_le_reg_l ((1 - u64) ^ n)); [apply P|]. rewrite <- Rmult_assoc, E. lra. }
  split; [|exact Y]. apply Rabs_le_between. split; [|lra]. assert (2 - rho ^ n <= (1 - u64) ^ n) by nra. nra.
Qed.
Lemma abs_step x y e a : Rabs (y - x) <= e -> Rabs x <= a -> Rabs y <= a + e.
Proof. intros H K. replace y with ((y - x) + x) by ring. eapply Rle_trans; [apply Rabs_triang|]. lra. Qed.

(** The last three operations of the variance: [s] and [m2] are the rounded mean square and the rounded square of the mean. *)
Lemma variance_tail K (s m2 : b64) : (0 < K)%nat -> (Z.of_nat K <= 2 ^ 50)%Z -> is_finite s = true -> is_finite m2 = true ->
  0 <= B2R s <= bpow radix2 900 -> bpow radix2 (-1000) <= B2R m2 <= bpow radix2 900 -> B2R s / B2R m2 <= bpow radix2 900 ->
  let x := B2R s / B2R m2 - 1 in
  let v := Bdiv mode_NE (Bminus mode_NE s m2) (Bmult mode_NE (int64 K) m2) in
  is_finite v = true /\ Rabs (B2R v - x / INR K) <= (rho ^ 3 - 1) * (Rabs x / INR K) + bpow radix2 (-1075).
Proof.
  intros K0 K1 Fs Fm Bs Bm Br x v. assert (U := u64_pos). destruct rho_facts as (R1 & R2 & R3).
  assert (KP : 1 <= INR K) by (change 1 with (INR 1); apply le_INR; lia). assert (KU := INR_2_50 K K1). destruct (int64_val K) as (I1 & I2); [apply Z.le_trans with (2 ^ 50)%Z; [exact K1|simpl; lia]|].
  assert (MP : 0 < B2R m2) by (eapply Rlt_le_trans; [apply bpow_gt_0|apply Bm]).
  assert (E9 : 0 < bpow radix2 900) by apply bpow_gt_0.
  assert (N := rnd_minus_err _ _ (B2R_double s) (B2R_double m2)).
  assert (XM : B2R s - B2R m2 = x * B2R m2) by (unfold x; field; lra).
  assert (AX : Rabs (B2R s - B2R m2) <= bpow radix2 900) by (apply Rabs_le_between; lra).
  destruct (Bminus_fin s m2 Fs Fm) as (N1 & N2).
  { apply Rle_lt_trans with (bpow radix2 900 + u64 * bpow radix2 900); [eapply abs_step; [|exact AX]; eapply Rle_trans; [exact N|nra]|].
    apply Rlt_trans with (bpow radix2 901); [|apply bpow_lt; lia]. change 901%Z with (1 + 900)%Z. rewrite bpow_plus. change (bpow radix2 1) with 2. nra. }
  assert (KM : bpow radix2 (-1022) <= INR K * B2R m2). { apply Rle_trans with (B2R m2); [|nra]. eapply Rle_trans; [|apply Bm]. apply bpow_le; lia. }
  assert (D := rnd_near_normal _ KM).
  destruct (Bmult_fin (int64 K) m2 I1 Fm) as (D1 & D2).
  { rewrite I2. apply small_lt; [nra|]. apply Rle_trans with (2 ^ 50 * bpow radix2 900); [apply Rmult_le_compat; lra|]. rewrite pow_bpow, <- bpow_plus. apply bpow_le; lia. }
  rewrite I2 in D2. rewrite <- D2 in D. rewrite <- N2 in N. set (nn := B2R (Bminus mode_NE s m2)) in *. set (dd := B2R (Bmult mode_NE (int64 K) m2)) in *.
  assert (KMP : 0 < INR K * B2R m2) by nra. assert (DP := near_pos _ _ _ KMP D).
  set (a := Rabs x / INR K). assert (A0 : 0 <= a) by (unfold a; apply Rle_div_r; [lra|]; rewrite Rmult_0_l; apply Rabs_pos).
  set (y := nn / (INR K * B2R m2)).
  assert (Y : Rabs (y - x / INR K) <= (rho - 1) * a).
  { replace (y - x / INR K) with ((nn - (B2R s - B2R m2)) * / (INR K * B2R m2)) by (unfold y, x; field; lra). rewrite Rabs_mult, (Rabs_pos_eq (/ _)) by (left; now apply Rinv_0_lt_compat).
    apply Rle_trans with (u64 * a); [|nra]. apply Rle_div_l; [exact KMP|]. eapply Rle_trans; [exact N|]. rewrite XM, Rabs_mult, (Rabs_pos_eq (B2R m2)) by lra. unfold a. right. field. lra. }
  assert (AY : Rabs y <= rho * a). { assert (T := abs_step (x / INR K) y _ a Y). replace (rho * a) with (a + (rho - 1) * a) by ring. apply T. unfold a, Rdiv. rewrite Rabs_mult, (Rabs_pos_eq (/ INR K)) by (left; apply Rinv_0_lt_compat; lra). lra. }
  set (q := nn / dd).
  assert (Q : Rabs (q - y) <= (rho - 1) * (rho * a)).
  { destruct (near_abs 1 1 (INR K * B2R m2 / dd)) as [G _]; [lra| |].
    { assert (G0 : near (1 + 0) (dd / dd) (INR K * B2R m2 / dd)) by (apply near_div; [lra|lra|lra|lra|now apply near_sym|apply near_refl]). replace (dd / dd) with 1 in G0 by (field; lra). exact G0. }
    rewrite pow_1, Rmult_1_r in G. replace (q - y) with (y * (INR K * B2R m2 / dd - 1)) by (unfold q, y; field; repeat split; lra). rewrite Rabs_mult. assert (AYP := Rabs_pos y).
    apply Rle_trans with (rho * a * (rho - 1)); [|right; ring]. apply Rmult_le_compat; auto; apply Rabs_pos. }
  assert (AQ : Rabs q <= rho * rho * a). { assert (T := abs_step y q _ _ Q AY). lra. }
  assert (RQ := rnd_err q).
  assert (AB : a <= bpow radix2 900 + 1). { unfold a. apply Rle_div_l; [lra|]. apply Rle_trans with (bpow radix2 900 + 1); [|assert (0 < bpow radix2 900 + 1) by lra; nra]. assert (0 <= B2R s / B2R m2) by (apply Rle_div_r; lra). apply Rabs_le_between. unfold x. lra. }
  assert (R2' : rho <= 2). { assert (rho * (/ 2) <= 1) by nra. lra. }
  assert (ETA : bpow radix2 (-1075) <= 1) by (change 1 with (bpow radix2 0); apply bpow_le; lia).
  assert (B1 : 1 <= bpow radix2 900) by (change 1 with (bpow radix2 0); apply bpow_le; lia).
  destruct (Bdiv_fin (Bminus mode_NE s m2) (Bmult mode_NE (int64 K) m2) N1) as (V1 & V2).
  { fold dd. lra. }
  { fold nn dd q. apply Rle_lt_trans with (rho * rho * a + (u64 * (rho * rho * a) + bpow radix2 (-1075))).
    - eapply abs_step; [|exact AQ]. eapply Rle_trans; [exact RQ|]. nra.
    - assert (rho * rho <= 4) by nra. assert (0 <= rho * rho) by nra. assert (rho * rho * a <= 4 * a) by (apply Rmult_le_compat_r; lra). assert (u64 * (rho * rho * a) <= 1 * (4 * a)) by (apply Rmult_le_compat; try lra; apply Rmult_le_pos; lra).
      apply Rle_lt_trans with (32 * bpow radix2 900); [lra|]. replace 32 with (bpow radix2 5) by (simpl; lra). rewrite <- bpow_plus. apply bpow_lt; lia. }
  unfold v. split; [exact V1|]. rewrite V2. fold nn dd q.
  replace (rnd64 q - x / INR K) with ((rnd64 q - q) + ((q - y) + (y - x / INR K))) by ring.
  eapply Rle_trans; [apply Rabs_triang|]. assert (T := Rabs_triang (q - y) (y - x / INR K)).
  assert (u64 * Rabs q <= (rho - 1) * (rho * rho * a)). { assert (Z := Rabs_pos q). apply Rmult_le_compat; lra. }
  fold a. replace ((rho ^ 3 - 1) * a) with ((rho - 1) * (rho * rho * a) + (rho - 1) * (rho * a) + (rho - 1) * a) by ring. lra.
Qed.

Lemma C111_variance_error_pf :
  forall K t t2, List.length (leaves t) = K -> (Z.of_nat K <= 2 ^ 48)%Z -> Forall moderate (leaves t) -> adds_squares t t2 ->
  let n := (2 * depth t + depth t2 + 9)%nat in
  let n_eff := Rsum (values t) ^ 2 / Rsum (squares (values t)) in
  is_finite (event_variance64 K t t2) = true /\ Rabs (B2R (event_variance64 K t t2) - mc_variance K (values t)) <= (/ (1 - u64) ^ n - 1) / n_eff.
Proof.
  intros K t t2 HK K1 F SQ n n_eff. assert (D := leaves_ne t). assert (K0 : (0 < K)%nat) by lia. assert (K1' : (Z.of_nat K <= 2 ^ 50)%Z) by (apply Z.le_trans with (2 ^ 48)%Z; [exact K1|simpl; lia]).
  assert (D2 := leaves_ne t2). assert (L2 : List.length (leaves t2) = K) by (rewrite SQ, map_length; exact HK).
  destruct (sum_squares_near t t2 SQ F) as (F2 & NS & QN). assert (KP : 1 <= INR K) by (change 1 with (INR 1); apply le_INR; lia). assert (KU := INR_2_50 K K1').
  destruct (within_near 400 K t ltac:(lia) ltac:(lia) K1' F) as (Am & Bm & Cm). destruct (within_near 801 K t2 ltac:(lia) ltac:(lia) K1' F2) as (As & Bs & Cs).
  set (M := Rsum (values t) / INR K) in *. set (S2 := Rsum (values t2) / INR K) in *. set (S := Rsum (squares (values t)) / INR K).
  assert (S0 : 0 <= S) by (unfold S; apply Rle_div_r; lra).
  fold (mean64 K t) in *. fold (mean64 K t2) in *. change (efficiency64 K t) with (mean64 K t) in *. change (efficiency64 K t2) with (mean64 K t2) in *.
  set (m := B2R (mean64 K t)) in *. set (s := B2R (mean64 K t2)) in *.
  assert (MP : 0 < M) by (assert (X := pow2_inv_pos (50 + 400)); lra). assert (SP : 0 < S2) by (assert (X := pow2_inv_pos (50 + 801)); lra).
  assert (mP := near_pos _ _ _ MP Cm). assert (sP := near_pos _ _ _ SP Cs).
  assert (H1 := pw_half (depth t + 1) ltac:(lia)). assert (H2 := pw_half (depth t2 + 1) ltac:(lia)).
  assert (mL : / 2 ^ 451 <= m). { destruct Cm as [X _]. apply Rle_trans with (/ 2 * / 2 ^ (50 + 400)); [|assert (Y := pow2_inv_pos (50 + 400)); apply Rle_trans with ((1 - u64) ^ (depth t + 1) * M); [apply Rmult_le_compat; lra|exact X]].
    right. change (2 ^ 451) with (2 * 2 ^ (50 + 400)). apply Rinv_mult_distr; [lra|]. apply Rgt_not_eq, pow2_pos. }
  assert (mU : m <= 2 ^ 401). { destruct Cm as [_ X]. change (2 ^ 401) with (2 * 2 ^ 400). nra. }
  assert (sU : s <= 2 ^ 802). { destruct Cs as [_ X]. change (2 ^ 802) with (2 * 2 ^ 801). nra. }
  assert (mm1 : / 2 ^ 902 <= m * m). { replace 902%nat with (451 + 451)%nat by lia. rewrite pow_add, Rinv_mult_distr by (apply Rgt_not_eq, pow2_pos). assert (X := pow2_inv_pos 451). apply Rmult_le_compat; lra. }
  assert (mm2 : m * m <= 2 ^ 802). { replace 802%nat with (401 + 401)%nat by lia. rewrite pow_add. apply Rmult_le_compat; lra. }
  assert (NM : near 1 (m * m) (rnd64 (m * m))). { apply rnd_near_normal. eapply Rle_trans; [|exact mm1]. rewrite pow_bpow_inv. apply bpow_le; lia. }
  destruct (Bmult_fin (mean64 K t) (mean64 K t) Am Am) as (FM & VM). { fold m. apply small_lt; [nra|]. eapply Rle_trans; [exact mm2|]. rewrite pow_bpow. apply bpow_le; lia. }
  fold (square64 (mean64 K t)) in FM, VM. fold m in VM. rewrite <- VM in NM. set (m2 := B2R (square64 (mean64 K t))) in *.
  assert (mmP : 0 < m * m) by nra. assert (m2P := near_pos _ _ _ mmP NM). assert (U := u64_pos).
  assert (m2L : / 2 ^ 903 <= m2). { destruct NM as [X _]. rewrite pow_1 in X. assert (Y := pow2_inv_pos 902). change (2 ^ 903) with (2 * 2 ^ 902). rewrite Rinv_mult_distr by (try lra; apply Rgt_not_eq, pow2_pos). nra. }
  assert (m2U : m2 <= 2 ^ 803). { destruct NM as [_ X]. rewrite pow_1 in X. change (2 ^ 803) with (2 * 2 ^ 802). nra. }
  (* ratio *)
  set (r := S / (M * M)). set (p := (2 * depth t + depth t2 + 5)%nat).
  assert (NR : near p r (s / m2)).
  { unfold r. replace p with ((1 + (depth t2 + 1)) + ((depth t + 1 + (depth t + 1)) + 1))%nat by (unfold p; lia). apply near_div; try lra; try nra.
    - eapply near_trans; [|exact Cs]. unfold S, S2. replace 1%nat with (1 + 0)%nat by lia. apply near_div; try lra; try exact NS; try apply near_refl. assert (S2 * INR K = Rsum (values t2)) by (unfold S2; field; lra). nra.
    - eapply near_trans; [|exact NM]. apply near_mult; auto; lra. }
  assert (C := vt_thms.cauchy (values t)). fold (squares (values t)) in C. assert (LV : List.length (values t) = K) by (unfold values; now rewrite map_length). rewrite LV in C.
  assert (TM : Rsum (values t) = M * INR K) by (unfold M; field; lra). assert (QS : Rsum (squares (values t)) = S * INR K) by (unfold S; field; lra).
  assert (SM : M * M <= S). { rewrite TM, QS in C. apply (Rmult_le_reg_r (INR K * INR K)); [nra|]. lra. }
  assert (MM : 0 < M * M) by nra.
  assert (r1 : 1 <= r) by (unfold r; apply Rle_div_r; lra).
  assert (rK : r / INR K = / n_eff). { unfold r, n_eff. rewrite TM, QS. field. repeat split; try lra. }
  assert (VAR : mc_variance K (values t) = (r - 1) / INR K).
  { unfold mc_variance, r. replace (mean (values t)) with M by (unfold mean, M; now rewrite LV).
    replace (mean (squares (values t))) with S by (unfold mean, S; replace (List.length (squares (values t))) with K by (unfold squares; now rewrite map_length, LV); reflexivity). field. lra. }
  destruct (near_abs p r (s / m2) ltac:(lra) NR) as (G1 & G2).
  assert (rU : rho ^ p * r <= bpow radix2 900).
  { apply Rle_trans with (2 * 2 ^ 50).
    - assert (rho ^ p <= 2). { assert (X := pw_half p). assert (E := rho_pow p). assert (P := pw p). assert (/ 2 <= (1 - u64) ^ p). { apply X. unfold p. lia. } assert (Y := rho_ge p). nra. }
      assert (r <= 2 ^ 50). { apply Rle_trans with (INR K); [|exact KU]. assert (VP : Forall (fun x => 0 < x) (values t)).
        { unfold values. apply Forall_map. eapply Forall_impl; [|exact F]. intros w [_ [W _]]. assert (X := pow2_inv_pos 400). lra. }
        assert (T := sum_sq_le (values t) VP). fold (squares (values t)) in T. rewrite TM, QS in T. unfold r. apply Rle_div_l; [exact MM|]. apply (Rmult_le_reg_r (INR K)); [lra|]. lra. }
      apply Rmult_le_compat; try lra. assert (Y := rho_ge p). lra.
    - change (2 * 2 ^ 50) with (2 ^ 51). rewrite pow_bpow. apply bpow_le; lia. }
  assert (B1 : bpow radix2 (-1000) <= m2 <= bpow radix2 900).
  { split; [eapply Rle_trans; [|exact m2L]; rewrite pow_bpow_inv; apply bpow_le; lia|eapply Rle_trans; [exact m2U|]; rewrite pow_bpow; apply bpow_le; lia]. }
  assert (B2 : 0 <= s <= bpow radix2 900). { split; [lra|]. eapply Rle_trans; [exact sU|]. rewrite pow_bpow. apply bpow_le; lia. }
  destruct (variance_tail K (mean64 K t2) (square64 (mean64 K t)) K0 K1' As FM B2 B1 ltac:(fold s m2; lra)) as (V1 & V2).
  fold s m2 in V2. change (Bdiv mode_NE (Bminus mode_NE (mean64 K t2) (square64 (mean64 K t))) (Bmult mode_NE (int64 K) (square64 (mean64 K t)))) with (event_variance64 K t t2) in V1, V2.
  split; [exact V1|]. rewrite rho_inv, VAR. replace ((rho ^ n - 1) / n_eff) with ((rho ^ n - 1) * (r / INR K)) by (rewrite rK; reflexivity).
  assert (G : Rabs (s / m2 - 1) <= rho ^ p * r). { assert (0 < s / m2) by (apply Rdiv_lt_0_compat; lra). assert (Y := rho_ge p). apply Rabs_le_between. nra. }
  set (v := B2R (event_variance64 K t t2)) in *. set (rk := r / INR K).
  assert (RK0 : 0 < rk) by (apply Rdiv_lt_0_compat; lra).
  assert (G3 : Rabs ((s / m2 - 1) / INR K - (r - 1) / INR K) <= (rho ^ p - 1) * rk).
  { replace ((s / m2 - 1) / INR K - (r - 1) / INR K) with ((s / m2 - r) * / INR K) by (field; lra). rewrite Rabs_mult, (Rabs_pos_eq (/ INR K)) by (left; apply Rinv_0_lt_compat; lra). unfold rk, Rdiv. rewrite <- Rmult_assoc.
    apply Rmult_le_compat_r; [left; apply Rinv_0_lt_compat; lra|exact G1]. }
  assert (G4 : Rabs (s / m2 - 1) / INR K <= rho ^ p * rk). { unfold rk, Rdiv. rewrite <- Rmult_assoc. apply Rmult_le_compat_r; [left; apply Rinv_0_lt_compat; lra|exact G]. }
  destruct rho_facts as (R1 & R2 & R3).
  assert (ETA : bpow radix2 (-1075) <= (rho - 1) * (rho ^ (p + 3) * rk)).
  { apply Rle_trans with (u64 * / 2 ^ 50).
    - unfold u64. rewrite <- Rinv_mult_distr by (apply Rgt_not_eq, pow2_pos). rewrite <- pow_add, pow_bpow_inv. apply bpow_le; lia.
    - assert (Y := rho_ge (p + 3)). assert (X := pow2_inv_pos 50). assert (/ 2 ^ 50 <= rk). { unfold rk. apply Rle_div_r; [lra|]. apply Rle_trans with (/ 2 ^ 50 * 2 ^ 50); [apply Rmult_le_compat_l; lra|]. rewrite Rinv_l; [exact r1|]. apply Rgt_not_eq, pow2_pos. }
      apply Rmult_le_compat; try lra. nra. }
  assert (P3 := rho_ge 3).
  replace (v - (r - 1) / INR K) with ((v - (s / m2 - 1) / INR K) + ((s / m2 - 1) / INR K - (r - 1) / INR K)) by ring. eapply Rle_trans; [apply Rabs_triang|].
  assert (V3 : Rabs (v - (s / m2 - 1) / INR K) <= (rho ^ 3 - 1) * (rho ^ p * rk) + bpow radix2 (-1075)). { eapply Rle_trans; [exact V2|]. apply Rplus_le_compat_r. apply Rmult_le_compat_l; lra. }
  replace (rho ^ n) with (rho * rho ^ (p + 3)) by (replace n with (1 + (p + 3))%nat by (unfold n, p; lia); rewrite (pow_add rho 1); ring).
  assert (PE : rho ^ (p + 3) = rho ^ p * rho ^ 3) by apply pow_add. rewrite PE in *.
  replace ((rho * (rho ^ p * rho ^ 3) - 1) * rk) with ((rho - 1) * (rho ^ p * rho ^ 3 * rk) + (rho ^ 3 - 1) * (rho ^ p * rk) + (rho ^ p - 1) * rk) by ring. lra.
Qed.

Definition tenth : b64 := Bdiv mode_NE (int64 1) (int64 10).
Definition is_neg (x : b64) : bool := Bltb x (B754_zero false).
Lemma three_orders (a b c : b64) t : leaves t = [a; b; c] -> t = Add (One a) (Add (One b) (One c)) \/ t = Add (Add (One a) (One b)) (One c).
Proof.
  assert (NE : forall t, leaves t <> []). { intros s E. assert (L := leaves_ne s). rewrite E in L. simpl in L. lia. }
  assert (ONE : forall t x, leaves t = [x] -> t = One x).
  { intros [w|l r] x E; cbn [leaves] in E; [congruence|]. destruct (leaves l) as [|y l'] eqn:L; [now apply NE in L|]. destruct (leaves r) as [|z r'] eqn:Rr; [now apply NE in Rr|]. destruct l'; discriminate. }
  assert (TWO : forall t x y, leaves t = [x; y] -> t = Add (One x) (One y)).
  { intros [w|l r] x y E; cbn [leaves] in E; [discriminate|]. destruct (leaves l) as [|y1 [|y2 l']] eqn:L; [now apply NE in L| |].
    - injection E as -> E. rewrite (ONE _ _ L). now rewrite (ONE r y).
    - destruct (leaves r) as [|z r'] eqn:Rr; [now apply NE in Rr|]. injection E as _ _ E. destruct l'; discriminate. }
  destruct t as [w|l r]; cbn [leaves]; intros E; [discriminate|]. destruct (leaves l) as [|y1 [|y2 [|y3 l']]] eqn:L; [now apply NE in L| | |].
  - injection E as -> E. left. rewrite (ONE _ _ L). now rewrite (TWO r b c).
  - injection E as -> -> E. right. rewrite (TWO _ _ _ L). now rewrite (ONE r c).
  - destruct (leaves r) as [|z r'] eqn:Rr; [now apply NE in Rr|]. injection E as _ _ _ E. destruct l'; discriminate.
Qed.

Lemma C111_exact_pf :
  forall K w, (0 < K)%nat -> List.length w = K -> Forall (fun x => 0 < x) w -> 0 <= mc_variance K w.
Proof. intros K w H L P. apply (mcv_bounds K w H L P). Qed.

Lemma C111_negative_refuted_pf :
  let w := Bdiv mode_NE (int64 1) (int64 10) in
  forall t t2, leaves t = [w; w; w] -> adds_squares t t2 ->
  positive_double w /\ B2R (event_variance64 3 t t2) < 0 /\ B2R (efficiency_variance64 3 t t2) < 0 /\
  mc_variance 3 (values t) = 0 /\ converged64 (B754_infinity false) (efficiency64 3 t) (efficiency_variance64 3 t t2) = true.
Proof.
  cbv zeta. fold tenth. intros t t2 T T2. unfold adds_squares in T2. rewrite T in T2. cbn [map] in T2.
  assert (NEG : forall x : b64, is_finite x = true -> is_neg x = true -> B2R x < 0).
  { intros x F H. unfold is_neg in H. rewrite (Bltb_correct 53 1024 x (B754_zero false) F eq_refl) in H. destruct (Rlt_bool_spec (B2R x) (B2R (B754_zero false : b64))) as [L|L]; [exact L|discriminate]. }
  assert (FT : is_finite tenth = true) by (vm_compute; reflexivity).
  assert (PT : 0 < B2R tenth). { assert (E : B2SF tenth = SpecFloat.S754_finite false 7205759403792794 (-56)) by (vm_compute; reflexivity). rewrite <- SF2R_B2SF, E. unfold SF2R, F2R. simpl. lra. }
  split; [now split|]. split; [|split; [|split]].
  - apply NEG; destruct (three_orders _ _ _ _ T) as [-> | ->]; destruct (three_orders _ _ _ _ T2) as [-> | ->]; vm_compute; reflexivity.
  - apply NEG; destruct (three_orders _ _ _ _ T) as [-> | ->]; destruct (three_orders _ _ _ _ T2) as [-> | ->]; vm_compute; reflexivity.
  - unfold values. rewrite T. cbn [map]. unfold mc_variance, mean, squares. cbn [map List.length]. rewrite !rs_cons. change (Rsum []) with 0. simpl (INR 3). field. lra.
  - destruct (three_orders _ _ _ _ T) as [-> | ->]; destruct (three_orders _ _ _ _ T2) as [-> | ->]; vm_compute; reflexivity.
Qed.

Lemma int_bpow_double n e : (Z.of_nat n <= 2 ^ 53)%Z -> (-1074 <= e <= 900)%Z -> is_double (INR n * bpow radix2 e).
Proof.
  intros H E. split.
  - destruct (Z.eq_dec (Z.of_nat n) (2 ^ 53)) as [Q|Q].
    + rewrite INR_IZR_INZ, Q. change (IZR (2 ^ 53)) with (bpow radix2 53). rewrite <- bpow_plus. apply generic_format_bpow. unfold format64, FLT_exp. lia.
    + apply generic_format_FLT. exists (Float radix2 (Z.of_nat n) e); cbn [Fnum Fexp]; [unfold F2R; cbn [Fnum Fexp]; now rewrite INR_IZR_INZ| |lia]. rewrite Z.abs_eq by lia. change (radix2 ^ 53)%Z with (2 ^ 53)%Z. lia.
  - assert (P := bpow_gt_0 radix2 e). assert (I := pos_INR n). rewrite Rabs_pos_eq by nra. apply Rle_lt_trans with (bpow radix2 53 * bpow radix2 e); [|rewrite <- bpow_plus; apply bpow_lt; lia].
    apply Rmult_le_compat_r; [lra|]. change (bpow radix2 53) with (IZR (2 ^ 53)). rewrite INR_IZR_INZ. now apply IZR_le.
Qed.
Lemma rnd_upper x y : is_double y -> x <= y -> rnd64 x <= y.
Proof. intros D H. rewrite <- (rnd_double y D). now apply rnd_le. Qed.
Lemma rnd_lower x y : is_double y -> y <= x -> y <= rnd64 x.
Proof. intros D H. rewrite <- (rnd_double y D). now apply rnd_le. Qed.
Lemma double_abs x y : is_double y -> 0 <= x -> x <= y -> Rabs (rnd64 x) < bpow radix2 1024.
Proof. intros D X H. rewrite Rabs_pos_eq by now apply rnd_nonneg. eapply Rle_lt_trans; [apply (rnd_upper x y D H)|]. destruct D as [_ D]. rewrite Rabs_pos_eq in D; lra. Qed.
Lemma sum_upper e t : (-1074 <= e <= 900)%Z -> (Z.of_nat (List.length (leaves t)) <= 2 ^ 53)%Z -> Forall (fun w => nonneg_double w /\ B2R w <= bpow radix2 e) (leaves t) ->
  is_finite (sum64 t) = true /\ 0 <= B2R (sum64 t) <= INR (List.length (leaves t)) * bpow radix2 e.
Proof.
  intros E. induction t as [w|l IHl r IHr]; cbn [leaves sum64]; intros H F.
  - inversion F as [|? ? [[A B] C] _]; subst. simpl (INR _). split; [exact A|lra].
  - rewrite app_length in *. apply Forall_app in F. destruct F as [Fl Fr]. destruct IHl as (A & B); [lia|exact Fl|]. destruct IHr as (C & D); [lia|exact Fr|]. rewrite plus_INR.
    assert (DB := int_bpow_double _ e H E). rewrite plus_INR in DB.
    destruct (Bplus_fin _ _ A C) as (G1 & G2); [eapply double_abs; [exact DB| |]; lra|]. split; [exact G1|]. rewrite G2. split; [apply rnd_nonneg; lra|]. apply rnd_upper; [exact DB|lra].
Qed.
Lemma rnd_tiny x : 0 <= x -> x <= bpow radix2 (-1076) -> rnd64 x = 0.
Proof.
  intros X H. assert (Z0 : rnd64 (bpow radix2 (-1076)) = 0).
  { unfold rnd64. apply (round_N_small radix2 format64 _ _ (-1075)). - rewrite Rabs_pos_eq by apply bpow_ge_0. split; [apply bpow_le; lia|apply bpow_lt; lia]. - unfold format64, FLT_exp. lia. }
  assert (A := rnd_nonneg x X). assert (B := rnd_le _ _ H). lra.
Qed.
Lemma zero_form (x : b64) : is_finite x = true -> B2R x = 0 -> exists s, x = B754_zero s.
Proof.
  destruct x as [s|s| |s m e H]; cbn [is_finite]; intros F Z; try discriminate; [now exists s|]. exfalso. revert Z. apply F2R_neq_0. cbn [Fnum]. destruct s; discriminate.
Qed.
Lemma rnd0 : rnd64 0 = 0.
Proof. apply round_0, valid_rnd_N. Qed.
Lemma zero_lt : Rabs (rnd64 0) < bpow radix2 1024.
Proof. rewrite rnd0, Rabs_R0. apply bpow_gt_0. Qed.
Lemma sum_zero t : Forall (fun w : b64 => is_finite w = true /\ B2R w = 0) (leaves t) -> is_finite (sum64 t) = true /\ B2R (sum64 t) = 0.
Proof.
  induction t as [w|l IHl r IHr]; cbn [leaves sum64]; intros F.
  - now inversion F.
  - apply Forall_app in F. destruct F as [Fl Fr]. destruct (IHl Fl) as (A & B), (IHr Fr) as (C & D). destruct (Bplus_fin _ _ A C) as (G1 & G2); rewrite B, D, Rplus_0_r in *; [apply zero_lt|]. now rewrite G2, rnd0.
Qed.
Lemma square_tiny (w : b64) : nonneg_double w -> B2R w <= bpow radix2 (-538) -> is_finite (square64 w) = true /\ B2R (square64 w) = 0.
Proof.
  intros [F A] B. assert (T : rnd64 (B2R w * B2R w) = 0). { apply rnd_tiny; [nra|]. change (-1076)%Z with (-538 + -538)%Z. rewrite bpow_plus. apply Rmult_le_compat; lra. }
  unfold square64. destruct (Bmult_fin w w F F) as (G1 & G2); [rewrite T, Rabs_R0; apply bpow_gt_0|]. now rewrite G2.
Qed.
Lemma pos_nonneg w : positive_double w -> nonneg_double w.
Proof. intros [A B]. split; [exact A|lra]. Qed.
Lemma nan_cut (th l : b64) : is_finite l = true -> is_finite (cut_b th l B754_nan) = true /\ B2R (cut_b th l B754_nan) = B2R l.
Proof.
  intros F. unfold cut_b. assert (E : Bltb th B754_nan = false). { unfold Bltb, SpecFloat.SFltb. cbn [B2SF]. destruct th as [s|s| |s m e H]; try destruct s; reflexivity. } rewrite E.
  assert (NN : nan_to_num_b (B754_infinity true) l = l) by (destruct l as [s|s| |s m e H]; try discriminate; try destruct s; reflexivity). rewrite NN.
  destruct (Bminus_fin l (B754_zero false) F eq_refl) as (A & B). { cbn [B2R]. rewrite Rminus_0_r, (rnd_double _ (B2R_double l)). apply (B2R_double l). }
  cbn [B2R] in B. rewrite Rminus_0_r, (rnd_double _ (B2R_double l)) in B. destruct (Bminus mode_NE l (B754_zero false)) as [s|s| |s m e H]; try discriminate; try destruct s; cbn [nan_to_num_b is_finite]; auto.
Qed.
Lemma plus_nan (x : b64) : Bplus mode_NE x B754_nan = B754_nan.
Proof. destruct x as [s|s| |s m e H]; try destruct s; reflexivity. Qed.

Lemma int64_near n : (0 < n)%nat -> (Z.of_nat n <= 2 ^ 100)%Z -> is_finite (int64 n) = true /\ near 1 (INR n) (B2R (int64 n)).
Proof.
  intros H0 H. assert (C := binary_normalize_correct 53 1024 _ _ mode_NE (Z.of_nat n) 0 false). cbv zeta in C. fold (int64 n) in C.
  assert (E : F2R (Float radix2 (Z.of_nat n) 0) = INR n) by (unfold F2R; simpl; rewrite INR_IZR_INZ; ring).
  rewrite E in C. change (round radix2 (SpecFloat.fexp 53 1024) (round_mode mode_NE) (INR n)) with (rnd64 (INR n)) in C.
  assert (L : 1 <= INR n) by (change 1 with (INR 1); apply le_INR; lia).
  assert (U : INR n <= bpow radix2 100) by (change (bpow radix2 100) with (IZR (2 ^ 100)); rewrite INR_IZR_INZ; now apply IZR_le).
  rewrite Rlt_bool_true in C. 2:{ apply small_lt; [lra|]. eapply Rle_trans; [exact U|]. apply bpow_le; lia. }
  destruct C as (C1 & C2 & _). split; [exact C2|]. rewrite C1. apply rnd_near_normal. apply Rle_trans with 1; [change 1 with (bpow radix2 0); apply bpow_le; lia|exact L].
Qed.
Lemma div_near n m (x y : b64) X Y : is_finite x = true -> 0 < X -> 0 < Y -> near n X (B2R x) -> near m Y (B2R y) -> bpow radix2 (-1020) <= B2R x / B2R y <= bpow radix2 1000 ->
  is_finite (Bdiv mode_NE x y) = true /\ near (n + m + 1) (X / Y) (B2R (Bdiv mode_NE x y)).
Proof.
  intros F X0 Y0 NX NY B. assert (PX := near_pos _ _ _ X0 NX). assert (PY := near_pos _ _ _ Y0 NY).
  assert (Q : 0 < B2R x / B2R y) by (apply Rdiv_lt_0_compat; lra).
  destruct (Bdiv_fin x y F) as (G1 & G2); [lra|apply small_lt; lra|]. split; [exact G1|]. rewrite G2. apply near_trans with (y := B2R x / B2R y); [apply near_div; try assumption; lra|].
  apply rnd_near_normal. eapply Rle_trans; [|apply B]. apply bpow_le; lia.
Qed.

Lemma C111_efficiency_variance_error_pf :
  forall N t t2, (List.length (leaves t) <= N)%nat -> (Z.of_nat N <= 2 ^ 48)%Z -> Forall moderate (leaves t) -> adds_squares t t2 ->
  let n := (2 * depth t + depth t2 + 8)%nat in
  let first := Rsum (squares (values t)) / INR N ^ 2 in
  let second := (Rsum (values t) / INR N) ^ 2 / INR N in
  is_finite (efficiency_variance64 N t t2) = true /\ Rabs (B2R (efficiency_variance64 N t t2) - (first - second)) <= (/ (1 - u64) ^ n - 1) * (first + second).
Proof.
  intros N t t2 L N1 F SQ n first second. assert (D := leaves_ne t). assert (D2 := leaves_ne t2). assert (N0 : (0 < N)%nat) by lia.
  assert (N1' : (Z.of_nat N <= 2 ^ 50)%Z) by (apply Z.le_trans with (2 ^ 48)%Z; [exact N1|simpl; lia]).
  assert (L2 : List.length (leaves t2) = List.length (leaves t)) by (rewrite SQ; apply map_length).
  destruct (sum_squares_near t t2 SQ F) as (F2 & NS & QN). assert (NP : 1 <= INR N) by (change 1 with (INR 1); apply le_INR; lia). assert (NU := INR_2_50 N N1').
  destruct (within_near 400 N t ltac:(lia) L N1' F) as (Am & Bm & Cm).
  assert (NN : (Z.of_nat (N * N) <= 2 ^ 100)%Z). { rewrite Nat2Z.inj_mul. change (2 ^ 100)%Z with (2 ^ 50 * 2 ^ 50)%Z. apply Z.mul_le_mono_nonneg; lia. }
  destruct (int64_near (N * N) ltac:(nia) NN) as (J1 & J2). rewrite mult_INR in J2.
  destruct (int64_val N) as (I1 & I2); [apply Z.le_trans with (2 ^ 48)%Z; [exact N1|simpl; lia]|].
  (* first term *)
  assert (W2 := within_sum 801 _ F2). fold (values t2) in W2.
  assert (c1 : 1 <= INR (List.length (leaves t2))) by (change 1 with (INR 1); apply le_INR; lia). assert (c2 : INR (List.length (leaves t2)) <= 2 ^ 50) by (apply Rle_trans with (INR N); [apply le_INR; lia|exact NU]).
  assert (P8 := pow2_pos 801). assert (P8' := pow2_inv_pos 801). assert (P5 := pow2_pos 50).
  assert (V2L : / 2 ^ 801 <= Rsum (values t2)) by nra. assert (V2U : Rsum (values t2) <= 2 ^ (50 + 801)) by (rewrite pow_add; nra).
  assert (H1 := pw_half (depth t + 1) ltac:(lia)). assert (H2 := pw_half (depth t2) ltac:(lia)). assert (U := u64_pos).
  destruct (sum_near t2) as (S1 & S2 & S3).
  { eapply Forall_impl; [apply within_pos|exact F2]. }
  { assert (2 * 2 ^ (50 + 801) < bpow radix2 1024) by (change (2 * 2 ^ (50 + 801)) with (2 ^ (51 + 801)); rewrite pow_bpow; apply bpow_lt; lia). assert (BP := bpow_gt_0 radix2 1024). nra. }
  assert (SQP : 0 < Rsum (squares (values t))). { apply near_pos with (n := 1%nat) (a := Rsum (values t2)); [lra|]. now apply near_sym. }
  assert (S4 := near_trans _ _ _ _ _ NS S3).
  assert (NNP : 0 < INR N * INR N) by nra.
  assert (JP := near_pos _ _ _ NNP J2). assert (SP := near_pos _ _ _ SQP S4).
  assert (sL : / 2 ^ 802 <= B2R (sum64 t2)). { destruct S3 as [X _]. change (2 ^ 802) with (2 * 2 ^ 801). rewrite Rinv_mult_distr by (try lra; apply Rgt_not_eq, pow2_pos). nra. }
  assert (sU : B2R (sum64 t2) <= 2 ^ (51 + 801)). { destruct S3 as [_ X]. change (2 ^ (51 + 801)) with (2 * 2 ^ (50 + 801)). nra. }
  assert (jL : / 2 <= B2R (int64 (N * N))). { destruct J2 as [X _]. rewrite pow_1 in X. nra. }
  assert (jU : B2R (int64 (N * N)) <= 2 ^ 101). { destruct J2 as [_ X]. rewrite pow_1 in X. assert (INR N * INR N <= 2 ^ 50 * 2 ^ 50) by (apply Rmult_le_compat; lra). change (2 ^ 101) with (2 * 2 ^ (50 + 50)). rewrite pow_add. nra. }
  destruct (div_near _ _ (sum64 t2) (int64 (N * N)) _ _ S1 SQP NNP S4 J2) as (A1 & A2).
  { split.
    - apply Rle_trans with (/ 2 ^ 802 * / 2 ^ 101); [rewrite <- Rinv_mult_distr, <- pow_add, pow_bpow_inv by (apply Rgt_not_eq, pow2_pos); apply bpow_le; lia|].
      unfold Rdiv. apply Rmult_le_compat; [left; apply pow2_inv_pos|left; apply pow2_inv_pos|exact sL|]. apply Rinv_le_contravar; lra.
    - apply Rle_trans with (2 ^ (51 + 801) * 2); [|rewrite Rmult_comm; change (2 * 2 ^ (51 + 801)) with (2 ^ (52 + 801)); rewrite pow_bpow; apply bpow_le; lia].
      unfold Rdiv. apply Rmult_le_compat; [lra|left; apply Rinv_0_lt_compat; lra|exact sU|]. replace 2 with (/ / 2) by lra. apply Rinv_le_contravar; lra. }
  (* second term *)
  set (M := Rsum (values t) / INR N) in *. set (m := B2R (efficiency64 N t)) in *.
  assert (MP : 0 < M) by (assert (X := pow2_inv_pos (50 + 400)); lra). assert (mP := near_pos _ _ _ MP Cm).
  assert (mL : / 2 ^ 451 <= m). { destruct Cm as [X _]. apply Rle_trans with (/ 2 * / 2 ^ (50 + 400)); [|assert (Y := pow2_inv_pos (50 + 400)); apply Rle_trans with ((1 - u64) ^ (depth t + 1) * M); [apply Rmult_le_compat; lra|exact X]].
    right. change (2 ^ 451) with (2 * 2 ^ (50 + 400)). apply Rinv_mult_distr; [lra|]. apply Rgt_not_eq, pow2_pos. }
  assert (mU : m <= 2 ^ 401). { destruct Cm as [_ X]. change (2 ^ 401) with (2 * 2 ^ 400). nra. }
  assert (mm1 : / 2 ^ 902 <= m * m). { replace 902%nat with (451 + 451)%nat by lia. rewrite pow_add, Rinv_mult_distr by (apply Rgt_not_eq, pow2_pos). assert (X := pow2_inv_pos 451). apply Rmult_le_compat; lra. }
  assert (mm2 : m * m <= 2 ^ 802). { replace 802%nat with (401 + 401)%nat by lia. rewrite pow_add. apply Rmult_le_compat; lra. }
  assert (NM : near 1 (m * m) (rnd64 (m * m))). { apply rnd_near_normal. eapply Rle_trans; [|exact mm1]. rewrite pow_bpow_inv. apply bpow_le; lia. }
  destruct (Bmult_fin (efficiency64 N t) (efficiency64 N t) Am Am) as (FM & VM). { fold m. apply small_lt; [nra|]. eapply Rle_trans; [exact mm2|]. rewrite pow_bpow. apply bpow_le; lia. }
  fold (square64 (efficiency64 N t)) in FM, VM. fold m in VM. rewrite <- VM in NM. set (m2 := B2R (square64 (efficiency64 N t))) in *.
  assert (mmP : 0 < m * m) by nra. assert (m2P := near_pos _ _ _ mmP NM).
  assert (m2L : / 2 ^ 903 <= m2). { destruct NM as [X _]. rewrite pow_1 in X. assert (Y := pow2_inv_pos 902). change (2 ^ 903) with (2 * 2 ^ 902). rewrite Rinv_mult_distr by (try lra; apply Rgt_not_eq, pow2_pos). nra. }
  assert (m2U : m2 <= 2 ^ 803). { destruct NM as [_ X]. rewrite pow_1 in X. change (2 ^ 803) with (2 * 2 ^ 802). nra. }
  assert (NM2 : near ((depth t + 1 + (depth t + 1)) + 1) (M * M) m2). { eapply near_trans; [|exact NM]. apply near_mult; auto; lra. }
  assert (MMP : 0 < M * M) by nra.
  assert (NP0 : 0 < INR N) by lra.
  assert (IN : near 0 (INR N) (B2R (int64 N))) by (rewrite I2; apply near_refl).
  destruct (div_near _ _ (square64 (efficiency64 N t)) (int64 N) (M * M) (INR N) FM MMP NP0 NM2 IN) as (B1 & B2).
  { fold m2. rewrite I2. split.
    - apply Rle_trans with (/ 2 ^ 903 * / 2 ^ 50); [rewrite <- Rinv_mult_distr, <- pow_add, pow_bpow_inv by (apply Rgt_not_eq, pow2_pos); apply bpow_le; lia|].
      unfold Rdiv. apply Rmult_le_compat; [left; apply pow2_inv_pos|left; apply pow2_inv_pos|exact m2L|]. apply Rinv_le_contravar; lra.
    - apply Rle_trans with (2 ^ 803); [|rewrite pow_bpow; apply bpow_le; lia]. apply Rle_trans with m2; [|exact m2U]. apply Rle_div_l; [lra|]. rewrite <- (Rmult_1_r m2) at 1. apply Rmult_le_compat_l; lra. }
  fold m2 in B2. replace (M * M / INR N) with second in B2 by (unfold second, M; field; lra). replace (Rsum (squares (values t)) / (INR N * INR N)) with first in A2 by (unfold first; field; lra).
  assert (f0 : 0 < first) by (unfold first; apply Rdiv_lt_0_compat; nra). assert (s0 : 0 < second) by (unfold second; fold M; apply Rdiv_lt_0_compat; nra).
  set (p := (2 * depth t + depth t2 + 7)%nat).
  assert (fP := near_pos _ _ _ f0 A2). assert (sP := near_pos _ _ _ s0 B2).
  apply (near_mono _ p) in A2; [|unfold p; lia|lra|lra]. apply (near_mono _ p) in B2; [|unfold p; lia|lra|lra].
  destruct (near_abs p first _ ltac:(lra) A2) as (A3 & A4). destruct (near_abs p second _ ltac:(lra) B2) as (B3 & B4).
  unfold efficiency_variance64. set (a := Bdiv mode_NE (sum64 t2) (int64 (N * N))) in *. set (b := Bdiv mode_NE (square64 (efficiency64 N t)) (int64 N)) in *.
  assert (E := rnd_minus_err _ _ (B2R_double a) (B2R_double b)).
  assert (AB : Rabs (B2R a - B2R b) <= Rmax (B2R a) (B2R b)). { apply Rabs_le_between. assert (X := Rmax_l (B2R a) (B2R b)). assert (Y := Rmax_r (B2R a) (B2R b)). lra. }
  destruct (Bminus_fin a b A1 B1) as (G1 & G2).
  { apply Rle_lt_trans with (Rmax (B2R a) (B2R b)).
    - destruct (Rle_dec (B2R b) (B2R a)) as [X|X].
      + rewrite Rmax_left by exact X. rewrite Rabs_pos_eq by (apply rnd_nonneg; lra). apply rnd_upper; [apply B2R_double|lra].
      + rewrite Rmax_right by lra. rewrite <- Rabs_Ropp. unfold rnd64, format64. rewrite <- round_NE_opp. fold format64. change (round radix2 format64 ZnearestE (- (B2R a - B2R b))) with (rnd64 (- (B2R a - B2R b))).
        rewrite Rabs_pos_eq by (apply rnd_nonneg; lra). apply rnd_upper; [apply B2R_double|lra].
    - destruct (B2R_double a) as [_ X]. destruct (B2R_double b) as [_ Y]. rewrite Rabs_pos_eq in X, Y by lra. apply Rmax_case; lra. }
  split; [exact G1|]. rewrite G2, rho_inv. destruct rho_facts as (R1 & R2 & R3). assert (RP := rho_ge p).
  replace (rnd64 (B2R a - B2R b) - (first - second)) with ((rnd64 (B2R a - B2R b) - (B2R a - B2R b)) + ((B2R a - first) - (B2R b - second))) by ring.
  eapply Rle_trans; [apply Rabs_triang|]. assert (T := Rabs_triang (B2R a - first) (- (B2R b - second))). rewrite Rabs_Ropp in T. fold (Rminus (B2R a - first) (B2R b - second)) in T.
  assert (MX : Rmax (B2R a) (B2R b) <= rho ^ p * (first + second)) by (rewrite Rmult_plus_distr_l; assert (X := Rmult_le_compat_r first _ _ ltac:(lra) RP); assert (Y := Rmult_le_compat_r second _ _ ltac:(lra) RP); apply Rmax_lub; lra).
  assert (E2 : u64 * Rabs (B2R a - B2R b) <= (rho - 1) * (rho ^ p * (first + second))). { apply Rmult_le_compat; [lra|apply Rabs_pos|lra|lra]. }
  replace (rho ^ n) with (rho * rho ^ p) by (replace n with (1 + p)%nat by (unfold n, p; lia); rewrite (pow_add rho 1); ring).
  replace ((rho * rho ^ p - 1) * (first + second)) with ((rho - 1) * (rho ^ p * (first + second)) + ((rho ^ p - 1) * first + (rho ^ p - 1) * second)) by ring. lra.
Qed.

Lemma C111_convergence_test_pf :
  forall n (mu var : b64), (0 < n)%nat -> (Z.of_nat n <= 2 ^ 50)%Z -> is_finite mu = true -> / 2 ^ 500 <= B2R mu <= 2 ^ 500 -> is_finite var = true -> Rabs (B2R var) <= 2 ^ 900 ->
  (B2R var <= 0 -> converged64 (int64 n) mu var = true) /\
  (/ 2 ^ 1022 <= B2R var ->
     (4 * INR n * B2R var < (1 - u64) ^ 2 * B2R mu ^ 2 -> converged64 (int64 n) mu var = true) /\
     (B2R mu ^ 2 < (1 - u64) ^ 2 * (4 * INR n * B2R var) -> converged64 (int64 n) mu var = false)).
Proof.
  intros n mu var n0 n1 Fm Bm Fv Bv. destruct (int64_val n) as (I1 & I2); [apply Z.le_trans with (2 ^ 50)%Z; [exact n1|simpl; lia]|]. destruct (int64_val 4) as (K1 & K2); [simpl; lia|].
  assert (NP : 1 <= INR n) by (change 1 with (INR 1); apply le_INR; lia). assert (NU := INR_2_50 n n1). assert (P1 := pow2_inv_pos 500). assert (U := u64_pos). assert (u1 := u64_ro).
  (* 4 n is exact *)
  assert (FN : rnd64 (B2R (int64 4) * B2R (int64 n)) = 4 * INR n).
  { rewrite K2, I2, <- mult_INR. rewrite rnd_double; [rewrite mult_INR; simpl (INR 4); lra|]. replace (INR (4 * n)) with (INR (4 * n) * bpow radix2 0) by (simpl (bpow radix2 0); ring). apply int_bpow_double; [|lia].
    rewrite Nat2Z.inj_mul. change (2 ^ 53)%Z with (8 * 2 ^ 50)%Z. change (Z.of_nat 4) with 4%Z. lia. }
  assert (P50 := pow2_pos 50).
  destruct (Bmult_fin (int64 4) (int64 n) K1 I1) as (Q1 & Q2).
  { rewrite FN, Rabs_pos_eq by lra. apply Rle_lt_trans with (2 ^ 52); [change (2 ^ 52) with (2 * (2 * 2 ^ 50)); lra|]. rewrite pow_bpow. apply bpow_lt; lia. }
  rewrite FN in Q2. set (N4 := Bmult mode_NE (int64 4) (int64 n)) in *.
  (* the square *)
  assert (mm1 : / 2 ^ 1000 <= B2R mu * B2R mu). { change 1000%nat with (500 + 500)%nat. rewrite pow_add, Rinv_mult_distr by (apply Rgt_not_eq, pow2_pos). apply Rmult_le_compat; lra. }
  assert (mm2 : B2R mu * B2R mu <= 2 ^ 1000). { change 1000%nat with (500 + 500)%nat. rewrite pow_add. apply Rmult_le_compat; lra. }
  assert (NM : near 1 (B2R mu * B2R mu) (rnd64 (B2R mu * B2R mu))). { apply rnd_near_normal. eapply Rle_trans; [|exact mm1]. rewrite pow_bpow_inv. apply bpow_le; lia. }
  assert (M0 : 0 < B2R mu * B2R mu) by (assert (X := pow2_inv_pos 1000); lra). assert (M1 := near_pos _ _ _ M0 NM).
  destruct (Bmult_fin mu mu Fm Fm) as (S1 & S2). { apply small_lt; [lra|]. eapply Rle_trans; [exact mm2|]. rewrite pow_bpow. apply bpow_le; lia. }
  fold (square64 mu) in S1, S2.
  (* the product *)
  assert (PU : Rabs (4 * INR n * B2R var) <= 2 ^ 952). { change 952%nat with (2 + (50 + 900))%nat. rewrite !pow_add, Rabs_mult, (Rabs_pos_eq (4 * INR n)) by lra. replace (2 ^ 2 * (2 ^ 50 * 2 ^ 900)) with ((4 * 2 ^ 50) * 2 ^ 900) by ring. apply Rmult_le_compat; try lra. apply Rabs_pos. }
  assert (B950 : 2 ^ 952 <= bpow radix2 1000) by (rewrite pow_bpow; apply bpow_le; lia).
  destruct (Bmult_fin N4 var Q1 Fv) as (T1 & T2).
  { rewrite Q2. destruct (Rle_dec 0 (B2R var)) as [X|X].
    - assert (Y : 0 <= 4 * INR n * B2R var) by (apply Rmult_le_pos; lra). rewrite Rabs_pos_eq in PU by exact Y. apply small_lt; lra.
    - assert (Y : 0 <= - (4 * INR n * B2R var)) by nra. rewrite Rabs_left1 in PU by lra. replace (4 * INR n * B2R var) with (- - (4 * INR n * B2R var)) by ring. unfold rnd64, format64. rewrite round_NE_opp, Rabs_Ropp. apply small_lt; lra. }
  rewrite Q2 in T2.
  assert (D : converged64 (int64 n) mu var = Rlt_bool (rnd64 (4 * INR n * B2R var)) (rnd64 (B2R mu * B2R mu))).
  { unfold converged64. fold N4. rewrite (Bltb_correct 53 1024 _ _ T1 S1), T2. now rewrite <- S2. }
  rewrite D. split; [|intros V; split]; intros H.
  - apply Rlt_bool_true. apply Rle_lt_trans with 0; [|exact M1]. replace 0 with (rnd64 0) by (apply round_0, valid_rnd_N). apply rnd_le. nra.
  - assert (NV : near 1 (4 * INR n * B2R var) (rnd64 (4 * INR n * B2R var))). { apply rnd_near_normal. rewrite pow_bpow_inv in V. eapply Rle_trans; [exact V|]. assert (0 < B2R var) by (eapply Rlt_le_trans; [apply bpow_gt_0|exact V]). nra. }
    apply Rlt_bool_true. destruct NV as [_ V2]. destruct NM as [W1 _]. rewrite pow_1 in V2, W1. apply (Rmult_lt_reg_l (1 - u64)); [lra|]. simpl in H. nra.
  - assert (NV : near 1 (4 * INR n * B2R var) (rnd64 (4 * INR n * B2R var))). { apply rnd_near_normal. rewrite pow_bpow_inv in V. eapply Rle_trans; [exact V|]. assert (0 < B2R var) by (eapply Rlt_le_trans; [apply bpow_gt_0|exact V]). nra. }
    apply Rlt_bool_false. destruct NV as [V1 _]. destruct NM as [_ W2]. rewrite pow_1 in V1, W2. apply (Rmult_le_reg_l (1 - u64)); [lra|]. simpl in H. nra.
Qed.

Lemma C112_exact_pf :
  forall K c w, (0 < K)%nat -> List.length w = K -> Forall (fun x => 0 < x) w -> 0 < c -> mc_variance K (map (Rmult c) w) = mc_variance K w.
Proof. intros K c w H L P C. assert (M := mean_pos w (row_ne _ _ H L) P). apply mcv_scale; auto; lra. Qed.

Lemma C112_underflow_refuted_pf :
  forall K t t2, List.length (leaves t) = K -> (Z.of_nat K <= 2 ^ 53)%Z -> Forall (fun w => positive_double w /\ B2R w <= / 2 ^ 538) (leaves t) -> adds_squares t t2 ->
  event_variance64 K t t2 = B754_nan /\
  forall others threshold ln_l, is_finite ln_l = true ->
    let result := cut_b threshold ln_l (Bplus mode_NE others (event_variance64 K t t2)) in is_finite result = true /\ B2R result = B2R ln_l.
Proof.
  intros K t t2 L H F SQ. assert (D := leaves_ne t). rewrite pow_bpow_inv in F. change (- Z.of_nat 538)%Z with (-538)%Z in F.
  assert (F' : Forall (fun w => nonneg_double w /\ B2R w <= bpow radix2 (-538)) (leaves t)) by (eapply Forall_impl; [|exact F]; intros w [A B]; split; [now apply pos_nonneg|exact B]).
  destruct (int64_val K H) as (I1 & I2). assert (KP : 1 <= INR K) by (change 1 with (INR 1); apply le_INR; lia).
  destruct (sum_upper (-538) t ltac:(lia) ltac:(lia) F') as (S1 & S2). rewrite L in S2.
  assert (M : nonneg_double (mean64 K t) /\ B2R (mean64 K t) <= bpow radix2 (-538)).
  { assert (Q : 0 <= B2R (sum64 t) / INR K <= bpow radix2 (-538)) by (split; [apply Rle_div_r; lra|apply Rle_div_l; lra]).
    assert (DB : is_double (bpow radix2 (-538))). { replace (bpow radix2 (-538)) with (INR 1 * bpow radix2 (-538)) by (simpl (INR 1); ring). apply int_bpow_double; simpl; lia. }
    unfold mean64. destruct (Bdiv_fin (sum64 t) (int64 K) S1) as (G1 & G2); rewrite I2 in *; [lra|eapply double_abs; [exact DB| |]; lra|].
    split; [split; [exact G1|rewrite G2; apply rnd_nonneg; lra]|]. rewrite G2. apply rnd_upper; [exact DB|lra]. }
  destruct M as [M1 M2]. destruct (square_tiny _ M1 M2) as (Q1 & Q2).
  assert (Z2 : is_finite (sum64 t2) = true /\ B2R (sum64 t2) = 0). { apply sum_zero. rewrite SQ. apply Forall_map. eapply Forall_impl; [|exact F']. intros w [A B]. now apply square_tiny. }
  destruct Z2 as [Z1 Z2].
  assert (N2 : is_finite (mean64 K t2) = true /\ B2R (mean64 K t2) = 0).
  { unfold mean64. assert (Q0 : B2R (sum64 t2) / B2R (int64 K) = 0) by (rewrite Z2; unfold Rdiv; ring). destruct (Bdiv_fin (sum64 t2) (int64 K) Z1) as (G1 & G2); [lra|rewrite Q0; apply zero_lt|]. split; [exact G1|]. rewrite G2, Q0. apply rnd0. }
  destruct N2 as [N1 N2].
  destruct (Bminus_fin _ _ N1 Q1) as (B1 & B2); [rewrite N2, Q2, Rminus_0_r; apply zero_lt|]. rewrite N2, Q2, Rminus_0_r, rnd0 in B2.
  destruct (Bmult_fin _ _ I1 Q1) as (C1 & C2); [rewrite Q2, Rmult_0_r; apply zero_lt|]. rewrite Q2, Rmult_0_r, rnd0 in C2.
  assert (E : event_variance64 K t t2 = B754_nan).
  { unfold event_variance64. destruct (zero_form _ B1 B2) as [s ->]. destruct (zero_form _ C1 C2) as [s' ->]. reflexivity. }
  split; [exact E|]. intros others th l Fl. cbv zeta. rewrite E, plus_nan. now apply nan_cut.
Qed.

Definition huge (e : R) (x : b64) : Prop := x = B754_infinity false \/ (is_finite x = true /\ e <= B2R x).
Lemma overflow_inf (x : b64) : B2SF x = SpecFloat.S754_infinity false -> x = B754_infinity false.
Proof. destruct x as [s|s| |s m e H]; cbn [B2SF]; intros E; try discriminate. now injection E as ->. Qed.
Lemma pos_sign (x : b64) : is_finite x = true -> 0 < B2R x -> Bsign x = false.
Proof. intros F P. assert (S := B2R_sign x F). destruct (Bsign x); [lra|reflexivity]. Qed.
Lemma plus_huge a b (x y : b64) : 0 < a -> 0 < b -> is_double (a + b) -> huge a x -> huge b y -> huge (a + b) (Bplus mode_NE x y).
Proof.
  intros A B D [-> |[Fx X]] [-> |[Fy Y]].
  - left; reflexivity.
  - left. destruct y as [s|s| |s m e H]; try discriminate; reflexivity.
  - left. destruct x as [s|s| |s m e H]; try discriminate; reflexivity.
  - assert (C := Bplus_correct 53 1024 _ _ mode_NE x y Fx Fy). change (round radix2 (SpecFloat.fexp 53 1024) (round_mode mode_NE) (B2R x + B2R y)) with (rnd64 (B2R x + B2R y)) in C.
    destruct (Rlt_bool _ _).
    + right. destruct C as (C1 & C2 & _). split; [exact C2|]. rewrite C1. apply rnd_lower; [exact D|lra].
    + left. destruct C as [C _]. apply overflow_inf. rewrite C. now rewrite (pos_sign x) by (auto; lra).
Qed.
Lemma sum_huge t : (Z.of_nat (List.length (leaves t)) <= 2 ^ 53)%Z -> Forall (huge (bpow radix2 512)) (leaves t) -> huge (INR (List.length (leaves t)) * bpow radix2 512) (sum64 t).
Proof.
  induction t as [w|l IHl r IHr]; cbn [leaves sum64]; intros H F.
  - inversion F; subst. simpl (INR _). now rewrite Rmult_1_l.
  - rewrite app_length in *. apply Forall_app in F. destruct F as [Fl Fr]. assert (DB := int_bpow_double _ 512 H ltac:(lia)). rewrite plus_INR in *. rewrite Rmult_plus_distr_r in *.
    assert (Ll := leaves_ne l). assert (Lr := leaves_ne r). assert (BP := bpow_gt_0 radix2 512). apply plus_huge; [apply Rmult_lt_0_compat; [apply lt_0_INR; lia|exact BP]|apply Rmult_lt_0_compat; [apply lt_0_INR; lia|exact BP]|exact DB|apply IHl; [lia|exact Fl]|apply IHr; [lia|exact Fr]].
Qed.
Lemma square_huge x : huge (bpow radix2 512) x -> square64 x = B754_infinity false.
Proof.
  intros [-> |[F X]]; [reflexivity|]. unfold square64. assert (C := Bmult_correct 53 1024 _ _ mode_NE x x).
  change (round radix2 (SpecFloat.fexp 53 1024) (round_mode mode_NE) (B2R x * B2R x)) with (rnd64 (B2R x * B2R x)) in C. assert (BP := bpow_gt_0 radix2 512).
  rewrite Rlt_bool_false in C.
  - apply overflow_inf. rewrite C. rewrite (pos_sign x F) by lra. reflexivity.
  - rewrite Rabs_pos_eq by (apply rnd_nonneg; nra). replace (bpow radix2 1024) with (rnd64 (bpow radix2 1024)) by (apply round_generic; [apply valid_rnd_N|apply generic_format_bpow; unfold format64, FLT_exp; lia]).
    apply rnd_le. replace (bpow radix2 1024) with (bpow radix2 512 * bpow radix2 512) by (rewrite <- bpow_plus; reflexivity). apply Rmult_le_compat; lra.
Qed.
Lemma mean_huge K t : (0 < K)%nat -> (Z.of_nat K <= 2 ^ 53)%Z -> huge (INR K * bpow radix2 512) (sum64 t) -> huge (bpow radix2 512) (mean64 K t).
Proof.
  intros K0 H S. destruct (int64_val K H) as (I1 & I2). assert (KP : 1 <= INR K) by (change 1 with (INR 1); apply le_INR; lia). assert (BP := bpow_gt_0 radix2 512). assert (SK := pos_sign (int64 K) I1 ltac:(lra)).
  unfold mean64. destruct S as [-> |[F X]].
  - left. destruct (int64 K) as [s|s| |s m e B]; try discriminate; [cbn [B2R] in I2; lra|]. cbn [Bsign] in SK. subst s. reflexivity.
  - assert (C := Bdiv_correct 53 1024 _ _ mode_NE (sum64 t) (int64 K) ltac:(lra)). rewrite I2 in C.
    change (round radix2 (SpecFloat.fexp 53 1024) (round_mode mode_NE) (B2R (sum64 t) / INR K)) with (rnd64 (B2R (sum64 t) / INR K)) in C. destruct (Rlt_bool _ _).
    + right. destruct C as (C1 & C2 & _). rewrite C2. split; [exact F|]. rewrite C1. apply rnd_lower.
      * replace (bpow radix2 512) with (INR 1 * bpow radix2 512) by (simpl (INR 1); ring). apply int_bpow_double; simpl; lia.
      * apply (Rle_div_r (bpow radix2 512) (B2R (sum64 t)) (INR K)); [lra|]. rewrite Rmult_comm. exact X.
    + left. apply overflow_inf. rewrite C, SK. rewrite (pos_sign (sum64 t) F) by nra. reflexivity.
Qed.
Lemma sum_inf t : Forall (fun w : b64 => w = B754_infinity false) (leaves t) -> sum64 t = B754_infinity false.
Proof. induction t as [w|l IHl r IHr]; cbn [leaves sum64]; intros F; [now inversion F|]. apply Forall_app in F. destruct F as [Fl Fr]. now rewrite (IHl Fl), (IHr Fr). Qed.

Lemma C112_overflow_refuted_pf :
  forall K t t2, List.length (leaves t) = K -> (Z.of_nat K <= 2 ^ 53)%Z -> Forall (fun w => is_finite w = true /\ 2 ^ 512 <= B2R w) (leaves t) -> adds_squares t t2 ->
  event_variance64 K t t2 = B754_nan /\
  forall others threshold ln_l, is_finite ln_l = true ->
    let result := cut_b threshold ln_l (Bplus mode_NE others (event_variance64 K t t2)) in is_finite result = true /\ B2R result = B2R ln_l.
Proof.
  intros K t t2 L H F SQ. assert (D := leaves_ne t). rewrite pow_bpow in F. change (Z.of_nat 512) with 512%Z in F.
  assert (F' : Forall (huge (bpow radix2 512)) (leaves t)) by (eapply Forall_impl; [|exact F]; intros w W; now right).
  assert (S := sum_huge t ltac:(lia) F'). rewrite L in S. assert (M := mean_huge K t ltac:(lia) H S). assert (Q := square_huge _ M).
  assert (S2 : sum64 t2 = B754_infinity false). { apply sum_inf. rewrite SQ. apply Forall_map. eapply Forall_impl; [|exact F']. apply square_huge. }
  destruct (int64_val K H) as (I1 & I2). assert (KP : 1 <= INR K) by (change 1 with (INR 1); apply le_INR; lia). assert (SK := pos_sign (int64 K) I1 ltac:(lra)).
  assert (E : event_variance64 K t t2 = B754_nan).
  { unfold event_variance64. rewrite Q. unfold mean64 at 1. rewrite S2. destruct (int64 K) as [s|s| |s m e B]; try discriminate; [cbn [B2R] in I2; lra|]. cbn [Bsign] in SK. subst s. reflexivity. }
  split; [exact E|]. intros others th l Fl. cbv zeta. rewrite E, plus_nan. now apply nan_cut.
Qed.

