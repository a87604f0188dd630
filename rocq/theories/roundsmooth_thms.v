(** Proofs of the property theorems stated in [Props_roundsmooth]. *)
From Coq Require Import Reals ZArith Lra Lia Psatz Bool String.
From Coquelicot Require Import Coquelicot.
From Flocq Require Import Core BinarySingleNaN Relative.
From Coq Require Import List.
From Verif Require Import Xf Py Xf_facts Py_facts Smoothed_facts SpecRoundWindow Double Double_facts Rounded_model SpecRound RoundedPl_model SpecRoundPl Utils_model Smoothed_model RoundedTrap_model SpecRoundTrap RoundedWindow_model RoundedSmooth_model RoundedTn_model Mass_model RoundedMix_model SpecRoundMix SpecHyper Trap_facts round_thms roundpl_thms roundll_thms roundwin_thms roundtn_thms roundtrap_thms roundmix_thms smoothed_thms.
Import ListNotations.
Local Open Scope R_scope.

Definition b490 : R := bpow radix2 (-490).
Lemma b490_facts : 0 < b490 /\ s75 <= b490 / 16 /\ 2 ^ 100 * / 2 ^ 900 <= b490 / 16 /\ / 2 ^ 500 <= b490 / 16 /\ / 2 ^ 900 <= 1 /\ 2 ^ 40 * b490 <= / 2 ^ 440 / 1024 /\ b490 <= / 2 ^ 440 / 1024 /\ b490 <= / 64.
Proof.
  unfold b490, s75. rewrite (pow_bpow 100), (pow_bpow 40), (pow_bpow_inv 900), (pow_bpow_inv 440), (pow_bpow_inv 500). split; [apply bpow_gt_0|]. rewrite <- !bpow_plus.
  assert (K : forall a b, (a <= b - 4)%Z -> bpow radix2 a <= bpow radix2 b / 16). { intros a b H. replace (bpow radix2 b / 16) with (bpow radix2 (b - 4)); [now apply bpow_le|]. replace b with (b - 4 + 4)%Z at 2 by ring. rewrite (bpow_plus radix2 (b - 4) 4). change (bpow radix2 4) with 16. field. }
  assert (K6 : forall a b, (a <= b - 10)%Z -> bpow radix2 a <= bpow radix2 b / 1024). { intros a b H. replace (bpow radix2 b / 1024) with (bpow radix2 (b - 10)); [now apply bpow_le|]. replace b with (b - 10 + 10)%Z at 2 by ring. rewrite (bpow_plus radix2 (b - 10) 10). change (bpow radix2 10) with 1024. field. }
  split; [apply K; lia|]. split; [apply K; lia|]. split; [apply K; lia|]. split; [change 1 with (bpow radix2 0); apply bpow_le; lia|]. split; [apply K6; lia|]. split; [apply K6; lia|]. change (/ 64) with (bpow radix2 (-6)). apply bpow_le. lia.
Qed.
Definition t440 : R := / 2 ^ 440.
Lemma diff_ap (x0 x1 : b64) : is_finite x0 = true -> is_finite x1 = true -> 0 <= B2R x1 - B2R x0 <= X200 -> is_finite (Bminus mode_NE x1 x0) = true /\ ap v64 0 (B2R x1 - B2R x0) (B2R (Bminus mode_NE x1 x0)).
Proof.
  intros F0 F1 H. destruct exp_v as [E1 E2]. assert (G := X200_ge). destruct (Bminus_fin x1 x0 F1 F0) as [FM V]. { apply fin_small. assert (K : X200 * 1 <= X200 * X200) by (apply Rmult_le_compat_l; lra). lra. }
  split; [exact FM|]. rewrite V. assert (R0 := rnd_minus_err (B2R x1) (B2R x0) (B2R_double x1) (B2R_double x0)). set (w := B2R x1 - B2R x0) in *. rewrite (Rabs_pos_eq w) in R0 by lra. apply Rabs_le_between in R0. assert (W : 0 <= w) by lra.
  split; [exact W|]. split; [apply rnd_lower; [apply zero_double|exact W]|]. assert (K1 := Rmult_le_compat_r w _ _ W E1). assert (K2 := Rmult_le_compat_r w _ _ W E2). lra.
Qed.
Lemma half_ap (y : b64) d t x : is_finite y = true /\ ap d t x (B2R y) -> x <= X200 * X200 -> 0 <= d <= / 2 -> 0 <= t <= 1 -> is_finite (Bdiv mode_NE y (int64 2)) = true /\ ap (d + v64) (2 * t + s75) (x / 2) (B2R (Bdiv mode_NE y (int64 2))).
Proof.
  intros [F A] X1 D T. destruct two_val as [F4 V4]. assert (G := X200_ge). assert (K : 1 * 1 <= X200 * X200) by (apply Rmult_le_compat; lra). assert (E := exp_half d (proj2 D)).
  assert (B : 0 <= B2R y <= 3 * (X200 * X200)). { destruct A as (XX & Y & _ & A2). assert (Q : exp d * x <= 2 * x) by (apply Rmult_le_compat_r; lra). lra. }
  destruct (Bdiv_fin y (int64 2) F) as [FM V]. { rewrite V4. lra. } { rewrite V4. apply fin_small. lra. }
  split; [exact FM|]. rewrite V, V4. apply ap_rnd; [lra|]. destruct A as (XX & Y & A1 & A2). unfold ap. lra.
Qed.
Lemma b100_X : 2 * 2 ^ 100 <= X200 /\ 2 ^ 40 <= X200 /\ 2 ^ 40 * (2 * 2 ^ 100) <= X200 /\ 1 <= 2 ^ 100 /\ 1 <= 2 ^ 40.
Proof.
  unfold X200. assert (P : 2 = 2 ^ 1) by (simpl; lra). assert (A : 2 * 2 ^ 100 = 2 ^ 101) by (rewrite P at 1; rewrite <- pow_add; reflexivity). rewrite A, <- pow_add. repeat split; try (apply Rle_pow; [lra|lia]); apply pow_R1_Rle; lra.
Qed.
(** A product whose factors have different bounds. *)
Lemma ap_mult2 A0 B0 d t x y d' t' x' y' : 1 <= A0 -> 1 <= B0 -> 0 <= d <= / 2 -> 0 <= d' <= / 2 -> 0 <= t -> 0 <= t' <= 1 -> x <= A0 -> x' <= B0 -> ap d t x y -> ap d' t' x' y' -> ap (d + d') (2 * (A0 * t' + B0 * t) + t) (x * x') (y * y').
Proof.
  intros GA GB D D' T T' BX BX' (X & Y & A & B) (X' & Y' & A' & B'). split; [now apply Rmult_le_pos|]. split; [now apply Rmult_le_pos|].
  assert (E := exp_half d ltac:(lra)). assert (E' := exp_half d' ltac:(lra)). assert (F := exp_le_one d ltac:(lra)). assert (F' := exp_le_one d' ltac:(lra)). assert (P1 := exp_pos d). assert (P2 := exp_pos d'). assert (P3 := exp_pos (- d)). assert (P4 := exp_pos (- d')).
  replace (exp (- (d + d'))) with (exp (- d) * exp (- d')) by (rewrite <- exp_plus; f_equal; ring). rewrite exp_plus.
  set (a := exp (- d) * x) in *. set (b := exp (- d') * x') in *. set (c := exp d * x) in *. set (e := exp d' * x') in *.
  replace (exp (- d) * exp (- d') * (x * x')) with (a * b) by (unfold a, b; ring). replace (exp d * exp d' * (x * x')) with (c * e) by (unfold c, e; ring).
  assert (a0 : 0 <= a <= A0). { split; [apply Rmult_le_pos; lra|]. apply Rle_trans with (1 * x); [apply Rmult_le_compat_r; lra|lra]. }
  assert (b0 : 0 <= b <= B0). { split; [apply Rmult_le_pos; lra|]. apply Rle_trans with (1 * x'); [apply Rmult_le_compat_r; lra|lra]. }
  assert (c0 : 0 <= c <= 2 * A0). { split; [apply Rmult_le_pos; lra|]. apply Rle_trans with (2 * x); [apply Rmult_le_compat_r; lra|lra]. }
  assert (e0 : 0 <= e <= 2 * B0). { split; [apply Rmult_le_pos; lra|]. apply Rle_trans with (2 * x'); [apply Rmult_le_compat_r; lra|lra]. }
  split.
  - assert (Z1 : a * t' <= A0 * t') by (apply Rmult_le_compat_r; lra). assert (Z2 : b * t <= B0 * t) by (apply Rmult_le_compat_r; lra). assert (Z3 : 0 <= y * y') by now apply Rmult_le_pos.
    assert (Z4 : 0 <= B0 * t) by (apply Rmult_le_pos; lra). assert (Z5 : 0 <= A0 * t') by (apply Rmult_le_pos; lra). assert (Z6 : 0 <= t * t') by (apply Rmult_le_pos; lra).
    destruct (Rle_dec a t) as [L|L].
    + assert (Z7 : a * b <= t * b) by (apply Rmult_le_compat_r; lra). lra.
    + assert (Z7 : (a - t) * (b - t') <= (a - t) * y') by (apply Rmult_le_compat_l; lra). assert (Z8 : (a - t) * y' <= y * y') by (apply Rmult_le_compat_r; lra). lra.
  - assert (Z1 : y * y' <= (c + t) * (e + t')) by (apply Rmult_le_compat; lra). assert (Z2 : c * t' <= 2 * A0 * t') by (apply Rmult_le_compat_r; lra). assert (Z3 : e * t <= 2 * B0 * t) by (apply Rmult_le_compat_r; lra). assert (Z4 : t * t' <= t * 1) by (apply Rmult_le_compat_l; lra). lra.
Qed.
Lemma mul_approx2 (y y' : b64) A0 B0 d t x d' t' x' :
  is_finite y = true /\ ap d t x (B2R y) -> is_finite y' = true /\ ap d' t' x' (B2R y') -> 1 <= A0 <= X200 -> 1 <= B0 <= X200 -> 0 <= d <= / 2 -> 0 <= d' <= / 2 -> 0 <= t <= 1 -> 0 <= t' <= 1 -> x <= A0 -> x' <= B0 ->
  is_finite (Bmult mode_NE y y') = true /\ ap (d + d' + v64) (2 * (2 * (A0 * t' + B0 * t) + t) + s75) (x * x') (B2R (Bmult mode_NE y y')).
Proof.
  intros [F A] [F' A'] GA GB D D' T T' BX BX'. assert (G := X200_ge). assert (BX2 : x <= X200) by lra. assert (BX2' : x' <= X200) by lra. assert (B1 := ap_bound _ _ _ _ (proj2 D) (proj2 T) BX2 A). assert (B2 := ap_bound _ _ _ _ (proj2 D') (proj2 T') BX2' A').
  destruct (Bmult_fin y y' F F') as [FM V]. { apply fin_small. split; [apply Rmult_le_pos; lra|]. apply Rle_trans with (4 * X200 * (4 * X200)); [apply Rmult_le_compat; lra|lra]. }
  split; [exact FM|]. rewrite V. assert (K1 : 0 <= A0 * t') by (apply Rmult_le_pos; lra). assert (K2 : 0 <= B0 * t) by (apply Rmult_le_pos; lra). apply ap_rnd; [lra|]. apply (ap_mult2 A0 B0); try assumption; lra.
Qed.
(** One term of the trapezoid rule. *)
Lemma term_ap d (x0 x1 y0 y1 : b64) r0 r1 : 0 <= d <= / 4 -> is_finite x0 = true -> is_finite x1 = true -> 0 <= B2R x1 - B2R x0 <= 2 ^ 40 -> r0 <= 2 ^ 100 -> r1 <= 2 ^ 100 ->
  is_finite y0 = true /\ ap d b490 r0 (B2R y0) -> is_finite y1 = true /\ ap d b490 r1 (B2R y1) ->
  let z := Bdiv mode_NE (Bmult mode_NE (Bminus mode_NE x1 x0) (Bplus mode_NE y1 y0)) (int64 2) in
  is_finite z = true /\ ap (d + 4 * v64) t440 ((B2R x1 - B2R x0) * (r1 + r0) / 2) (B2R z) /\ (B2R x1 - B2R x0) * (r1 + r0) / 2 <= X200.
Proof.
  intros D F0 F1 H R0 R1 A0 A1 z. destruct b100_X as (X1 & X2 & X3 & X4 & X5). destruct v64_facts as (U0 & UV & V2 & _). destruct u_small as (_ & U1 & _). destruct b490_facts as (B0 & BS & _ & _ & _ & BX & B4 & B6). assert (S := s75_pos). assert (G := X200_ge). fold t440 in BX, B4.
  assert (P0 : 0 <= r0) by (destruct A0 as [_ [Q _]]; exact Q). assert (P1 : 0 <= r1) by (destruct A1 as [_ [Q _]]; exact Q).
  destruct (add_approx _ _ _ _ _ _ _ A1 A0) as [FA MA]; try lra. apply (ap_weaken _ _ (d + v64) (8 * b490)) in MA; [|lra|lra].
  assert (HD : 0 <= B2R x1 - B2R x0 <= X200) by lra.
  destruct (mul_approx2 _ _ (2 ^ 40) (2 * 2 ^ 100) _ _ _ _ _ _ (diff_ap x0 x1 F0 F1 HD) (conj FA MA)) as [FM MM]; try lra.
  assert (Q1 : (B2R x1 - B2R x0) * (r1 + r0) <= 2 ^ 40 * (2 * 2 ^ 100)) by (apply Rmult_le_compat; lra). assert (Q0 : 0 <= (B2R x1 - B2R x0) * (r1 + r0)) by (apply Rmult_le_pos; lra).
  assert (K : X200 * 1 <= X200 * X200) by (apply Rmult_le_compat_l; lra).
  assert (TT : 0 <= t440 <= / 2). { unfold t440. split; [left; apply pow2_inv_pos|]. replace (/ 2) with (/ 2 ^ 1) by (simpl; f_equal; ring). apply Rinv_le_contravar; [apply pow_lt; lra|apply Rle_pow; [lra|lia]]. }
  apply (ap_weaken _ _ (d + 3 * v64) (t440 / 2 - b490)) in MM; [|lra|lra].
  destruct (half_ap _ _ _ _ (conj FM MM)) as [FH MH]; try lra.
  split; [exact FH|]. split; [|lra]. eapply ap_weaken; [| |exact MH]; lra.
Qed.
Definition good (d : R) (r : R) (y : b64) : Prop := (is_finite y = true /\ ap d b490 r (B2R y)) /\ r <= 2 ^ 100.
Lemma terms_ap d y r x : 0 <= d <= / 4 -> Forall2 (good d) r y -> List.length y = List.length x -> steps_within 40 x ->
  Forall nonneg_double (trap_terms64 y x) /\ ap (d + 4 * v64) (INR (List.length x) * t440) (exact_trapezoid r (reals x)) (Rsum (reals (trap_terms64 y x))) /\ exact_trapezoid r (reals x) <= INR (List.length x) * X200.
Proof.
  intros D. revert y x. induction r as [|r0 r IH]; intros y x FG E SX.
  { inversion FG; subst. destruct x; [|discriminate]. cbn. split; [constructor|]. unfold exact_trapezoid. cbn. unfold ap. rewrite !Rmult_0_r, !Rmult_0_l. lra. }
  inversion FG as [|? y0 ? y' G0 FG' E1 E2]; subst. destruct x as [|x0 x]; [discriminate|]. assert (T0 : 0 <= t440) by (unfold t440; left; apply pow2_inv_pos). assert (GX := X200_ge).
  destruct r as [|r1 r].
  { inversion FG'; subst. destruct x; [|discriminate]. cbn. split; [constructor|]. unfold exact_trapezoid. cbn. unfold ap. rewrite !Rmult_0_r, !Rmult_1_l. lra. }
  inversion FG' as [|? y1 ? y'' G1 FG'' E1 E2]; subst. destruct x as [|x1 x]; [discriminate|]. destruct (steps_cons _ _ _ _ SX) as [(F0 & F1 & H01) SX']. assert (P40 := pow2_inv_pos 40).
  destruct (IH (y1 :: y'') (x1 :: x) FG') as (N & A & B); [cbn in *; lia|exact SX'|].
  destruct G0 as [G0 L0]. destruct G1 as [G1 L1]. destruct (term_ap d x0 x1 y0 y1 r0 r1 D F0 F1 ltac:(lra) L0 L1 G0 G1) as (FT & MT & BT).
  change (trap_terms64 (y0 :: y1 :: y'') (x0 :: x1 :: x)) with (Bdiv mode_NE (Bmult mode_NE (Bminus mode_NE x1 x0) (Bplus mode_NE y1 y0)) (int64 2) :: trap_terms64 (y1 :: y'') (x1 :: x)).
  set (z := Bdiv mode_NE _ _) in *. change (reals (x0 :: x1 :: x)) with (B2R x0 :: B2R x1 :: reals x). change (reals (x1 :: x)) with (B2R x1 :: reals x) in A, B. rewrite exact_cons. change (reals (z :: trap_terms64 (y1 :: y'') (x1 :: x))) with (B2R z :: reals (trap_terms64 (y1 :: y'') (x1 :: x))). rewrite rs_cons.
  change (List.length (x0 :: x1 :: x)) with (S (List.length (x1 :: x))). rewrite S_INR. split; [constructor; [split; [exact FT|apply MT]|exact N]|]. split.
  - replace ((INR (List.length (x1 :: x)) + 1) * t440) with (t440 + INR (List.length (x1 :: x)) * t440) by ring. now apply ap_plus.
  - lra.
Qed.
Lemma pow_exp n : exp (- (INR n * v64)) <= (1 - u64) ^ n.
Proof.
  induction n as [|n IH]; [simpl; rewrite Rmult_0_l, Ropp_0, exp_0; lra|]. rewrite S_INR. replace (- ((INR n + 1) * v64)) with (- v64 + - (INR n * v64)) by ring. rewrite exp_plus. simpl pow. destruct exp_v as [_ E]. assert (P := exp_pos (- v64)). assert (Q := exp_pos (- (INR n * v64))). apply Rmult_le_compat; lra.
Qed.
Lemma ap_near n d t x y z : 0 <= t -> INR n * v64 <= / 2 -> 0 <= z -> near n y z -> ap d t x y -> ap (d + INR n * v64) (2 * t) x z.
Proof.
  intros T H Z0 [A B] (X & Y & C & D'). split; [exact X|]. split; [exact Z0|]. assert (P := pow_exp n). set (k := INR n * v64) in *. assert (E := exp_half k H). assert (Pk := exp_pos k). assert (Pm := exp_pos (- k)).
  assert (KK : exp k * exp (- k) = 1) by (rewrite <- exp_plus; replace (k + - k) with 0 by ring; apply exp_0).
  assert (Q1 : exp (- k) * y <= z) by (eapply Rle_trans; [|exact A]; apply Rmult_le_compat_r; lra).
  assert (Q2 : exp (- k) * z <= y) by (eapply Rle_trans; [|exact B]; apply Rmult_le_compat_r; lra).
  assert (Q3 : z <= exp k * y). { replace z with (exp k * (exp (- k) * z)) by (rewrite <- Rmult_assoc, KK; ring). apply Rmult_le_compat_l; lra. }
  replace (exp (- (d + k))) with (exp (- k) * exp (- d)) by (rewrite <- exp_plus; f_equal; ring). replace (exp (d + k)) with (exp k * exp d) by (rewrite <- exp_plus; f_equal; ring).
  assert (M1 : exp (- k) <= 1) by (assert (N0 : 0 <= k) by (unfold k; apply Rmult_le_pos; [apply pos_INR|destruct v64_facts as (U0 & UV & _); lra]); now apply exp_le_one).
  assert (R1 : exp (- k) * (exp (- d) * x - t) <= exp (- k) * y) by (apply Rmult_le_compat_l; lra). assert (R2 : exp k * y <= exp k * (exp d * x + t)) by (apply Rmult_le_compat_l; lra). assert (R3 : exp (- k) * t <= 1 * t) by (apply Rmult_le_compat_r; lra). assert (R4 : exp k * t <= 2 * t) by (apply Rmult_le_compat_r; lra). lra.
Qed.
(** A slack that is small against the value is a relative error. *)
Lemma ap_absorb d t x y : 0 <= d <= / 2 -> 0 <= t -> t <= u64 * x / 2 -> ap d t x y -> ap (d + v64) 0 x y.
Proof.
  intros D T TX (X & Y & A & B). destruct exp_v as [E1 E2]. split; [exact X|]. split; [exact Y|]. assert (P := exp_pos d). assert (P' := exp_pos (- d)). assert (U := u64_pos).
  assert (O1 : 1 <= exp d) by (assert (Q := exp_ineq1_le d); lra). assert (O2 : / 2 <= exp (- d)) by (rewrite exp_Ropp; apply Rinv_le_contravar; [exact P|now apply exp_half]).
  replace (exp (- (d + v64))) with (exp (- d) * exp (- v64)) by (rewrite <- exp_plus; f_equal; ring). rewrite exp_plus.
  assert (UX : 0 <= u64 * x) by (apply Rmult_le_pos; lra).
  assert (K1 : exp (- d) * x * exp (- v64) <= exp (- d) * x * (1 - u64)) by (apply Rmult_le_compat_l; [apply Rmult_le_pos; lra|exact E2]). assert (K2 : exp d * x * (1 + u64) <= exp d * x * exp v64) by (apply Rmult_le_compat_l; [apply Rmult_le_pos; lra|exact E1]).
  assert (K3 : / 2 * (u64 * x) <= exp (- d) * (u64 * x)) by (apply Rmult_le_compat_r; lra). assert (K4 : 1 * (u64 * x) <= exp d * (u64 * x)) by (apply Rmult_le_compat_r; lra). lra.
Qed.
Lemma ap_div d t x y d' Z z : 0 <= d' <= / 2 -> 0 <= t -> 0 < Z -> ap d t x y -> ap d' 0 Z z -> ap (d + d') (2 * t / Z) (x / Z) (y / z).
Proof.
  intros D' T HZ (X & Y & A & B) (_ & Z0 & C & E). rewrite Rminus_0_r in C. rewrite Rplus_0_r in E. assert (P := exp_pos d'). assert (P' := exp_pos (- d')). assert (ZP : 0 < z) by (eapply Rlt_le_trans; [|exact C]; now apply Rmult_lt_0_compat).
  assert (IZ := Rinv_0_lt_compat _ HZ). assert (Iz := Rinv_0_lt_compat _ ZP). assert (KK : exp d' * exp (- d') = 1) by (rewrite <- exp_plus; replace (d' + - d') with 0 by ring; apply exp_0).
  assert (H2 := exp_half d' (proj2 D')). assert (H1 := exp_le_one d' (proj1 D')).
  assert (I1 : / z <= exp d' * / Z). { apply Rle_trans with (/ (exp (- d') * Z)); [apply Rinv_le_contravar; [now apply Rmult_lt_0_compat|exact C]|]. right. rewrite exp_Ropp. field. split; lra. }
  assert (I2 : exp (- d') * / Z <= / z). { apply Rle_trans with (/ (exp d' * Z)); [right; rewrite exp_Ropp; field; split; lra|]. apply Rinv_le_contravar; [exact ZP|exact E]. }
  unfold ap, Rdiv. split; [apply Rmult_le_pos; lra|]. split; [apply Rmult_le_pos; lra|].
  replace (exp (- (d + d'))) with (exp (- d) * exp (- d')) by (rewrite <- exp_plus; f_equal; ring). rewrite exp_plus. assert (Pd := exp_pos d). assert (Pd' := exp_pos (- d)). assert (TZ : 0 <= t * / Z) by (apply Rmult_le_pos; lra).
  split.
  - assert (L0 : y * (exp (- d') * / Z) <= y * / z) by (apply Rmult_le_compat_l; lra). assert (W : 0 <= exp (- d') * / Z) by (apply Rmult_le_pos; lra). assert (L1 : (exp (- d) * x - t) * (exp (- d') * / Z) <= y * (exp (- d') * / Z)) by (apply Rmult_le_compat_r; lra).
    assert (L2 : exp (- d') * (t * / Z) <= 1 * (t * / Z)) by (apply Rmult_le_compat_r; lra). lra.
  - assert (L0 : y * / z <= y * (exp d' * / Z)) by (apply Rmult_le_compat_l; lra). assert (W : 0 <= exp d' * / Z) by (apply Rmult_le_pos; lra). assert (L1 : y * (exp d' * / Z) <= (exp d * x + t) * (exp d' * / Z)) by (apply Rmult_le_compat_r; lra).
    assert (L2 : exp d' * (t * / Z) <= 2 * (t * / Z)) by (apply Rmult_le_compat_r; lra). lra.
Qed.

(** The smoothing window at any mass. *)
Lemma rwin_small s : / 1048576 <= s <= 3 / 2048 -> rwin s <= / 2 ^ 900.
Proof.
  intros H. assert (S : / 1048576 <= s <= 1 - / 1048576) by lra. assert (OM := one_minus s S).
  assert (D1 : is_double 682). { replace 682 with (INR 682 * bpow radix2 0) by (rewrite INR_IZR_INZ; change (bpow radix2 0) with 1; change (IZR (Z.of_nat 682)) with 682; lra). apply int_bpow_double; lia. }
  assert (D2 : is_double 680). { replace 680 with (INR 680 * bpow radix2 0) by (rewrite INR_IZR_INZ; change (bpow radix2 0) with 1; change (IZR (Z.of_nat 680)) with 680; lra). apply int_bpow_double; lia. }
  assert (A : 682 <= rnd64 (/ s)). { apply rnd_lower; [exact D1|]. apply Rle_trans with (/ (3 / 2048)); [|apply Rinv_le_contravar; lra]. replace (/ (3 / 2048)) with (2048 / 3) by (field; lra). lra. }
  assert (B : / 2 <= rnd64 (1 - s)). { change (/ 2) with (bpow radix2 (-1)). apply rnd_lower; [apply bd; lia|change (bpow radix2 (-1)) with (/ 2); lra]. }
  assert (C : rnd64 (/ rnd64 (1 - s)) <= 2). { change 2 with (bpow radix2 1). apply rnd_upper; [apply bd; lia|]. change (bpow radix2 1) with 2. replace 2 with (/ / 2) by lra. apply Rinv_le_contravar; lra. }
  assert (E : 680 <= rexp_ s) by (unfold rexp_; apply rnd_lower; [exact D2|lra]).
  unfold rwin. rewrite (pow_bpow_inv 900). apply rnd_upper; [apply bd; lia|]. rewrite <- (pow_bpow_inv 900). assert (P := exp_pos (rexp_ s)). assert (P9 := pow2_pos 900).
  assert (X := exp_ge_pow 900 (rexp_ s)). rewrite INR_IZR_INZ in X. change (IZR (Z.of_nat 900)) with 900 in X. assert (Y : 2 ^ 900 <= exp (rexp_ s)) by (apply X; lra). apply Rinv_le_contravar; lra.
Qed.
Lemma swin_low s : s <= / 700 -> swin (clp s) <= / 2 ^ 900.
Proof.
  intros H. assert (C := clp_bounds s). assert (M := clp_mono _ _ H). assert (C7 : clp (/ 700) = / 700) by (unfold clp; rewrite !Rltb_false by lra; reflexivity). rewrite C7 in M.
  eapply Rle_trans; [apply (swin_mono _ (/ 700)); lra|]. unfold swin. rewrite Rinv_involutive by lra. assert (P9 := pow2_pos 900). assert (P := exp_pos (700 - / (1 - / 700))).
  assert (X := exp_ge_pow 900 (700 - / (1 - / 700))). rewrite INR_IZR_INZ in X. change (IZR (Z.of_nat 900)) with 900 in X. assert (I : / (1 - / 700) <= 2). { replace 2 with (/ / 2) by lra. apply Rinv_le_contravar; lra. } assert (Y : 2 ^ 900 <= exp (700 - / (1 - / 700))) by (apply X; lra). apply Rinv_le_contravar; lra.
Qed.
Lemma swin_high s : 41 / 42 <= s -> 1 <= (1 + / 2 ^ 35) * swin (clp s).
Proof.
  intros H. assert (C := clp_bounds s). assert (M := clp_mono _ _ H). assert (C7 : clp (41 / 42) = 41 / 42) by (unfold clp; rewrite !Rltb_false by lra; reflexivity). rewrite C7 in M.
  assert (L : swin (41 / 42) <= swin (clp s)) by (apply swin_mono; lra). assert (P9 := pow2_inv_pos 35). eapply Rle_trans; [|apply Rmult_le_compat_l; [lra|exact L]]. unfold swin. replace (/ (41 / 42) - / (1 - 41 / 42)) with (- (42 - 42 / 41)) by (field; lra). rewrite exp_Ropp. set (E := exp (42 - 42 / 41)). assert (P : 0 < E) by apply exp_pos.
  assert (X := exp_ge_pow 35 (42 - 42 / 41)). rewrite INR_IZR_INZ in X. change (IZR (Z.of_nat 35)) with 35 in X. assert (Y : 2 ^ 35 <= E) by (apply X; lra). assert (IE : / E <= / 2 ^ 35) by (apply Rinv_le_contravar; [apply pow2_pos|exact Y]). assert (IP := Rinv_0_lt_compat _ P).
  apply (Rmult_le_reg_r (1 + / E)); [lra|]. rewrite Rmult_assoc, Rinv_l by lra. lra.
Qed.
Lemma window_ap jax expit m mn mx d : nearest_expit expit -> window_arguments m mn mx d ->
  is_finite (smoothing64 jax expit m mn mx d) = true /\ ap (/ 2 ^ 35) (/ 2 ^ 900) (sval (B2R mn) (B2R mx) (B2R d) (B2R m)) (B2R (smoothing64 jax expit m mn mx d)).
Proof.
  intros X A. destruct (C122_range_and_monotone_pf jax expit m mn mx d X A) as (F & (Y0 & Y1) & OUT & _). split; [exact F|].
  destruct (args_facts _ _ _ _ A) as (Dm & Dn & Bd' & Pd). assert (P9 := pow2_inv_pos 900). assert (P35 := pow2_inv_pos 35). assert (E1 := exp_ineq1_le (/ 2 ^ 35)). assert (E2 : exp (- / 2 ^ 35) <= 1) by (apply exp_le_one; lra). assert (EP := exp_pos (- / 2 ^ 35)).
  set (e := / 2 ^ 35) in *. set (T := / 2 ^ 900) in *. unfold ap.
  destruct (Rlt_le_dec (B2R m) (B2R mn)) as [L1|L1]. { rewrite OUT by (left; exact L1). unfold sval. rewrite (Rleb_false (B2R mn)) by exact L1. cbn [andb]. lra. }
  destruct (Rlt_le_dec (B2R mx) (B2R m)) as [L2|L2]. { rewrite OUT by (right; exact L2). unfold sval. rewrite (Rleb_false (B2R m)), andb_false_r by exact L2. lra. }
  assert (SV : sval (B2R mn) (B2R mx) (B2R d) (B2R m) = swin (clp ((B2R m - B2R mn) / B2R d))) by (unfold sval; rewrite !Rleb_true by lra; reflexivity). rewrite SV.
  set (s := (B2R m - B2R mn) / B2R d) in *. assert (ID := Rinv_0_lt_compat _ Pd). assert (S0 : 0 <= s) by (unfold s, Rdiv; apply Rmult_le_pos; lra). assert (W := swin_range (clp s)).
  split; [lra|]. split; [exact Y0|].
  destruct (Rle_lt_dec s (/ 700)) as [Hl|Hl].
  { assert (LO := swin_low s Hl). fold T in LO. assert (Q : 0 <= exp e * swin (clp s)) by (apply Rmult_le_pos; lra). assert (Q2 : exp (- e) * swin (clp s) <= 1 * swin (clp s)) by (apply Rmult_le_compat_r; lra).
    assert (CP : B2R (smoothing64 jax expit m mn mx d) <= T).
    { destruct (smoothing64_val jax expit m mn mx d X A) as (_ & V). rewrite V. destruct (Rle_dec (B2R mn) (B2R m)); [|lra]. destruct (Rle_dec (B2R m) (B2R mx)); [|lra]. apply rwin_small. split; [apply rclip_bounds|].
      destruct clip_low_val as (_ & _ & CL). destruct clip_high_val as (_ & CH).
      assert (G : rshift (B2R m) (B2R mn) (B2R d) <= 3 / 2048).
      { unfold rshift. assert (D3 : is_double (3 / 2048)). { replace (3 / 2048) with (INR 3 * bpow radix2 (-11)) by (change (bpow radix2 (-11)) with (/ 2048); simpl; lra). apply int_bpow_double; lia. } apply rnd_upper; [exact D3|].
        assert (N1 : near 1 (B2R m - B2R mn) (rnd64 (B2R m - B2R mn))). { unfold Rminus. apply rnd_near_plus; [exact Dm|now apply opp_double|unfold Rminus; lra]. }
        destruct (near1_tight _ _ N1 ltac:(lra) ltac:(apply rnd_nonneg; lra)) as [_ T']. apply Rle_trans with (s * (1 + / 1000000)). { unfold s, Rdiv. replace ((B2R m - B2R mn) * / B2R d * (1 + / 1000000)) with ((B2R m - B2R mn) * (1 + / 1000000) * / B2R d) by ring. apply Rmult_le_compat_r; lra. } lra. }
      unfold rclip, Rmin, Rmax. destruct (Rle_dec (B2R clip_low64) _); destruct (Rle_dec _ _); lra. }
    lra. }
  destruct (Rle_lt_dec s (63 / 64)) as [Hh|Hh].
  { destruct (C122_accuracy_pf jax expit m mn mx d X A (conj L1 L2)) as [AC RE]; [fold s; lra|]. fold s in AC, RE. assert (EW : exact_window s = swin (clp s)). { specialize (RE Jax). rewrite smoothing_val in RE by exact Pd. rewrite SV in RE. now injection RE. }
    rewrite EW in AC. apply Rabs_le_between in AC. set (w := swin (clp s)) in *. assert (H36 : / 2 ^ 36 = e / 2). { unfold e. change 36%nat with (1 + 35)%nat. rewrite pow_add, pow_1. field. } unfold Rdiv in AC. rewrite H36 in AC.
    assert (EU : e <= / 2). { unfold e. replace (/ 2) with (/ 2 ^ 1) by (simpl; f_equal; ring). apply Rinv_le_contravar; [apply pow_lt; lra|apply Rle_pow; [lra|lia]]. }
    assert (EI : exp (- e) <= 1 - e / 2). { rewrite exp_Ropp. apply Rle_trans with (/ (1 + e)); [apply Rinv_le_contravar; lra|]. apply (Rmult_le_reg_r (1 + e)); [lra|]. rewrite Rinv_l by lra. nra. }
    assert (Q1 : exp (- e) * w <= (1 - e / 2) * w) by (apply Rmult_le_compat_r; lra). assert (Q2 : (1 + e) * w <= exp e * w) by (apply Rmult_le_compat_r; lra). assert (Q3 : 0 <= e * w) by (apply Rmult_le_pos; lra). lra. }
  assert (HI := swin_high s ltac:(lra)). fold e in HI. destruct (C122_plateaus_pf jax expit m mn mx d X A (conj L1 L2)) as [_ PL]. fold s in PL. rewrite PL by lra.
  assert (Q2 : (1 + e) * swin (clp s) <= exp e * swin (clp s)) by (apply Rmult_le_compat_r; lra). assert (Q1 : exp (- e) * swin (clp s) <= 1 * 1) by (apply Rmult_le_compat; lra). lra.
Qed.

Lemma smoothed_ap jax expit primary mn mx d x dd f : nearest_expit expit -> window_arguments x mn mx d -> 0 <= dd <= / 4 -> 0 <= f <= 2 ^ 100 -> approximates dd (/ 2 ^ 500) f (primary x) ->
  good (dd + / 2 ^ 35 + v64) (f * sval (B2R mn) (B2R mx) (B2R d) (B2R x)) (smoothed_primary64 jax expit primary mn mx d x).
Proof.
  intros X A D F P. assert (W := window_ap jax expit x mn mx d X A). apply approx_ap in P; [|lra]. destruct b490_facts as (B0 & BS & BX & BT & BO & _ & _ & B6). destruct b100_X as (X1 & X2 & X3 & X4 & X5). assert (G := X200_ge). assert (P9 := pow2_inv_pos 900). assert (P5 := pow2_inv_pos 500). assert (P35 := pow2_inv_pos 35).
  assert (E35 : / 2 ^ 35 <= / 2). { replace (/ 2) with (/ 2 ^ 1) by (simpl; f_equal; ring). apply Rinv_le_contravar; [apply pow_lt; lra|apply Rle_pow; [lra|lia]]. }
  assert (SR : 0 <= sval (B2R mn) (B2R mx) (B2R d) (B2R x) <= 1). { unfold sval. assert (R := swin_range (clp ((B2R x - B2R mn) / B2R d))). destruct (_ && _); lra. }
  unfold good, smoothed_primary64. destruct (mul_approx2 _ _ (2 ^ 100) 1 _ _ _ _ _ _ P W) as [FM MM]; try lra. split; [split; [exact FM|]|].
  - eapply ap_weaken; [| |exact MM]; lra.
  - replace (2 ^ 100) with (2 ^ 100 * 1) by ring. apply Rmult_le_compat; lra.
Qed.
Lemma norm_value jax (d : b64) t : is_finite d = true -> 0 < B2R d -> is_finite (sum64 t) = true -> 0 <= B2R (sum64 t) ->
  is_finite (norm_p_m1_64 jax d t) = true /\ B2R (norm_p_m1_64 jax d t) = B2R (sum64 t).
Proof.
  intros F P Fs Ps. unfold norm_p_m1_64. assert (E : Beqb d zero64 = false). { rewrite Beqb_correct by (try reflexivity; exact F). apply Req_bool_false. cbn [B2R zero64]. lra. }
  rewrite E, andb_false_r. rewrite (ntn_fin zero64 _ Fs). destruct one_val as (O1 & O2).
  destruct (Bmult_fin (sum64 t) one64 Fs O1) as (M1 & M2); rewrite ?O2, ?Rmult_1_r, ?(rnd_double _ (B2R_double (sum64 t))) in *; [apply (B2R_double (sum64 t))|].
  destruct (Bmult_fin one64 zero64 O1 eq_refl) as (N1 & N2). { cbn [B2R zero64]. rewrite Rmult_0_r, rnd0, Rabs_R0. apply bpow_gt_0. }
  assert (Z : B2R zero64 = 0) by reflexivity. rewrite Z, Rmult_0_r, rnd0 in N2.
  destruct (Bplus_fin _ _ M1 N1) as (Q1 & Q2); rewrite M2, N2, Rplus_0_r, (rnd_double _ (B2R_double (sum64 t))) in *; [apply (B2R_double (sum64 t))|]. now split.
Qed.
Lemma quot_ap (y z : b64) d t x d' Z : is_finite y = true /\ ap d t x (B2R y) -> is_finite z = true /\ ap d' 0 Z (B2R z) -> 0 <= d <= / 4 -> 0 <= d' <= / 4 -> 0 <= t -> 0 < Z -> x / Z <= X200 -> 2 * t / Z <= 1 ->
  is_finite (Bdiv mode_NE y z) = true /\ ap (d + d' + v64) (2 * (2 * t / Z) + s75) (x / Z) (B2R (Bdiv mode_NE y z)).
Proof.
  intros [Fy Ay] [Fz Az] D D' T HZ BX BT. assert (D2 : 0 <= d' <= / 2) by lra. assert (Q := ap_div _ _ _ _ _ _ _ D2 T HZ Ay Az : ap (d + d') (2 * t / Z) (x / Z) (B2R y / B2R z)).
  assert (ZP : B2R z <> 0). { destruct Az as (_ & _ & C & _). assert (K : 0 < exp (- d') * Z) by (apply Rmult_lt_0_compat; [apply exp_pos|exact HZ]). lra. }
  assert (DD : d + d' <= / 2) by lra. assert (B := ap_bound _ _ _ _ DD BT BX Q). assert (G := X200_ge). assert (GG : X200 * 1 <= X200 * X200) by (apply Rmult_le_compat_l; lra).
  destruct (Bdiv_fin y z Fy ZP) as [FM V]; [apply fin_small; lra|]. split; [exact FM|]. rewrite V. apply ap_rnd; [|exact Q].
  assert (I := Rinv_0_lt_compat _ HZ). unfold Rdiv. apply Rmult_le_pos; lra.
Qed.

Lemma C154_window_pf :
  forall bk expit m mmin mmax delta_m, nearest_expit expit -> window_arguments m mmin mmax delta_m ->
  exists w, smoothing bk (Fin (B2R m)) (Fin (B2R mmin)) (Fin (B2R mmax)) (Fin (B2R delta_m)) = Fin w /\ 0 <= w <= 1 /\
    approximates (/ 2 ^ 35) (/ 2 ^ 900) w (smoothing64 (is_jax bk) expit m mmin mmax delta_m).
Proof.
  intros bk expit m mn mx d X A. exists (sval (B2R mn) (B2R mx) (B2R d) (B2R m)). destruct (args_facts _ _ _ _ A) as (_ & _ & _ & Pd). split; [now apply smoothing_val|].
  split. { unfold sval. assert (R := swin_range (clp ((B2R m - B2R mn) / B2R d))). destruct (_ && _); lra. }
  destruct (window_ap (is_jax bk) expit m mn mx d X A) as [F W]. now apply ap_approx.
Qed.

Lemma C154_smoothed_primary_pf :
  forall bk expit primary mmin mmax delta_m grid t m d f primary_model self kwargs Z,
  nearest_expit expit -> steps_within 40 grid -> INR (List.length grid) <= 2 ^ 40 ->
  leaves t = norm_terms64 (is_jax bk) expit primary mmin mmax delta_m grid ->
  sm_mmax self = Fin (B2R mmax) -> sm_m1s self = map Fin (reals grid) ->
  dget "mmin" kwargs = Some (Fin (B2R mmin)) -> dget "delta_m" kwargs = Some (Fin (B2R delta_m)) ->
  (forall x, x = m \/ In x grid ->
     window_arguments x mmin mmax delta_m /\ 0 <= f (B2R x) <= 2 ^ 100 /\
     primary_model (ddel "delta_m" kwargs) (Fin (B2R x)) = Ok (Fin (f (B2R x))) /\ approximates d (/ 2 ^ 500) (f (B2R x)) (primary x)) ->
  norm_p_m1 bk primary_model self (Fin (B2R delta_m)) (ddel "delta_m" kwargs) = Ok (Fin Z) -> / 2 ^ 100 <= Z ->
  let D := 2 * d + / 2 ^ 34 + (INR (depth t) + 8) * (2 * u64) in
  0 <= d -> D <= / 4 ->
  exists v, p_m1 bk primary_model self [("mass_1"%string, [Fin (B2R m)])] kwargs = Ok [Fin v] /\
    approximates D (/ 2 ^ 380) v (p_m1_64 (is_jax bk) expit primary mmin mmax delta_m t m).
Proof.
  intros bk expit primary mn mx dm grid t m d f pm self kw Z X SW LG LT Emx Eg Kmn Kdm H NZ HZ D D0 D1.
  set (S := fun x : R => f x * sval (B2R mn) (B2R mx) (B2R dm) x).
  assert (Am : window_arguments m mn mx dm) by (apply H; now left). destruct (args_facts _ _ _ _ Am) as (_ & _ & _ & Pd). assert (Fd : is_finite dm = true) by apply Am.
  destruct v64_facts as (U0 & UV & V2 & _). destruct u_small as (_ & U1 & _). assert (P35 := pow2_inv_pos 35). assert (H34 : / 2 ^ 34 = 2 * / 2 ^ 35). { change 35%nat with (1 + 34)%nat. rewrite pow_add, pow_1. field. }
  assert (NP := pos_INR (depth t)). assert (NV : INR (depth t) * v64 <= INR (depth t) * (2 * u64)) by (apply Rmult_le_compat_l; lra). unfold D in D1. assert (NV0 : 0 <= INR (depth t) * v64) by (apply Rmult_le_pos; lra).
  assert (Dd : 0 <= d <= / 4) by lra.
  (* the exact model *)
  assert (Hmn : dget_default "mmin" (sm_mmin self) kw = Fin (B2R mn)) by (unfold dget_default; now rewrite Kmn).
  assert (Hmn' : dget_default "mmin" (sm_mmin self) (ddel "delta_m" kw) = Fin (B2R mn)) by (rewrite dget_default_ddel_other by discriminate; exact Hmn).
  assert (HP : forall r, In r (reals grid) \/ In r [B2R m] -> pm (ddel "delta_m" kw) (Fin r) = Ok (Fin (f r))).
  { intros r [Hr|[Hr|[]]]; [|subst r; apply H; now left]. unfold reals in Hr. apply in_map_iff in Hr. destruct Hr as (x & <- & Hx). apply H. now right. }
  assert (EZ : Z = exact_trapezoid (map S (reals grid)) (reals grid)).
  { unfold norm_p_m1 in NZ. cbv zeta in NZ. rewrite Hmn', Eg in NZ. rewrite feq_fin, Reqb_false, andb_false_r in NZ by lra. rewrite (smoothed_primary_fin bk pm self _ (B2R mn) (B2R mx) (B2R dm) f (reals grid)) in NZ by (auto; intros; apply HP; now left). cbn [bind] in NZ.
    rewrite trapezoid_fin, norm_or_one_fin in NZ by lra. injection NZ as <-. symmetry. apply exact_Rtrap. now rewrite map_length. }
  assert (P100 := pow2_inv_pos 100). assert (Z0 : 0 < Z) by lra.
  exists (S (B2R m) / Z). split.
  { assert (MN : m1norm f (B2R mn) (B2R mx) (B2R dm) (reals grid) = Z) by (rewrite EZ; unfold m1norm; symmetry; apply exact_Rtrap; now rewrite map_length).
    rewrite (p_m1_fin bk pm self kw (B2R mn) (B2R mx) (B2R dm) f (reals grid) [B2R m] Emx Eg Pd Kdm Hmn Hmn' HP) by (rewrite ?MN; first [lra|reflexivity]). cbn [map]. now rewrite MN. }
  (* the computed model *)
  set (sp := smoothed_primary64 (is_jax bk) expit primary mn mx dm). set (d' := d + / 2 ^ 35 + v64).
  assert (GD : forall x, x = m \/ In x grid -> good d' (S (B2R x)) (sp x)). { intros x Hx. destruct (H x Hx) as (Ax & Fx & _ & Px). now apply smoothed_ap. }
  assert (D' : 0 <= d' <= / 4) by (unfold d'; lra).
  assert (FG : Forall2 (good d') (map S (reals grid)) (map sp grid)).
  { unfold reals. rewrite map_map. assert (HG : forall x, In x grid -> good d' (S (B2R x)) (sp x)) by (intros; apply GD; now right). clear - HG. induction grid as [|x g IH]; cbn [map]; constructor; [apply HG; now left|]. apply IH. intros y Hy. apply HG. now right. }
  destruct (terms_ap d' (map sp grid) (map S (reals grid)) grid D' FG ltac:(now rewrite map_length) SW) as (NN & AT & BT). rewrite <- EZ in AT, BT.
  change (trap_terms64 (map sp grid) grid) with (norm_terms64 (is_jax bk) expit primary mn mx dm grid) in NN, AT. rewrite <- LT in NN, AT. change (reals (leaves t)) with (values t) in AT.
  destruct b490_facts as (B0 & BS & _ & _ & _ & _ & BT' & B6). assert (G := X200_ge). assert (LP := pos_INR (List.length grid)). destruct b100_X as (X1 & X2 & X3 & X4 & X5).
  assert (T0 : 0 < t440) by (unfold t440; apply pow2_inv_pos). assert (GG : X200 * 1 <= X200 * X200) by (apply Rmult_le_compat_l; lra).
  assert (TL : INR (List.length grid) * t440 <= / 2 ^ 400). { apply Rle_trans with (2 ^ 40 * t440); [apply Rmult_le_compat_r; lra|]. unfold t440. change 440%nat with (40 + 400)%nat. rewrite pow_add, Rinv_mult by (apply pow_nonzero; lra). rewrite <- Rmult_assoc, Rinv_r by (apply pow_nonzero; lra). lra. }
  assert (T440 : 4 * / 2 ^ 400 <= u64 * / 2 ^ 100). { unfold u64. rewrite (pow_bpow_inv 400), (pow_bpow_inv 53), (pow_bpow_inv 100). change 4 with (bpow radix2 2). rewrite <- !bpow_plus. apply bpow_le. lia. }
  assert (Q440 := pow2_inv_pos 400). assert (UZ : u64 * / 2 ^ 100 <= u64 * Z) by (apply Rmult_le_compat_l; lra). assert (S440 : / 2 ^ 400 <= 1) by (rewrite <- Rinv_1; apply Rinv_le_contravar; [lra|apply pow_R1_Rle; lra]).
  assert (BZ : Z <= X200 * X200). { eapply Rle_trans; [exact BT|]. apply Rmult_le_compat_r; lra. }
  assert (AT' := ap_weaken _ _ (d' + 4 * v64) (/ 2 ^ 400) _ _ (Rle_refl _) TL AT).
  destruct (sum_near t NN) as (Fs & Ps & Ns).
  { destruct AT' as (_ & _ & _ & UB). assert (E := exp_half (d' + 4 * v64) ltac:(unfold d' in *; lra)). assert (K : exp (d' + 4 * v64) * Z <= 2 * Z) by (apply Rmult_le_compat_r; lra).
    assert (PE := pow_exp (depth t)). assert (PE' := exp_half (INR (depth t) * v64) ltac:(lra)). rewrite exp_Ropp in PE. assert (EP := exp_pos (INR (depth t) * v64)). assert (I2 : / 2 <= / exp (INR (depth t) * v64)) by (apply Rinv_le_contravar; lra).
    assert (BB : bpow radix2 1024 = 64 * (bpow radix2 618 * (X200 * X200))). { rewrite X200_bpow. change 64 with (bpow radix2 6). rewrite <- !bpow_plus. reflexivity. } assert (B18 : 1 <= bpow radix2 618) by (change 1 with (bpow radix2 0); apply bpow_le; lia).
    assert (K2 : 1 * (X200 * X200) <= bpow radix2 618 * (X200 * X200)) by (apply Rmult_le_compat_r; lra). rewrite BB. apply Rlt_le_trans with (/ 2 * (64 * (bpow radix2 618 * (X200 * X200)))); [lra|]. apply Rmult_le_compat_r; lra. }
  assert (NV2 : INR (depth t) * v64 <= / 2) by lra. assert (AS := ap_near (depth t) _ _ _ _ _ (Rlt_le _ _ Q440) NV2 Ps Ns AT').
  assert (DA : 0 <= d' + 4 * v64 + INR (depth t) * v64 <= / 2) by (unfold d' in *; lra). assert (TA : 0 <= 2 * / 2 ^ 400) by lra. assert (TU : 2 * / 2 ^ 400 <= u64 * Z / 2) by lra. assert (AZ := ap_absorb _ _ _ _ DA TA TU AS).
  destruct (norm_value (is_jax bk) dm t Fd Pd Fs Ps) as [FN VN]. rewrite <- VN in AZ.
  destruct (GD m (or_introl eq_refl)) as [GM LM].
  assert (IZ : / Z <= 2 ^ 100). { rewrite <- (Rinv_involutive (2 ^ 100)) by lra. now apply Rinv_le_contravar. } assert (IZ0 := Rinv_0_lt_compat _ Z0).
  assert (SM : 0 <= S (B2R m)) by (destruct GM as [_ [Q _]]; exact Q).
  assert (TB : 2 * b490 / Z <= / 2 ^ 381 / 4). { unfold Rdiv. apply Rle_trans with (2 * b490 * 2 ^ 100); [apply Rmult_le_compat_l; lra|]. unfold b490. rewrite (pow_bpow_inv 381), (pow_bpow 100). change 2 with (bpow radix2 1) at 1. change (/ 4) with (bpow radix2 (-2)). rewrite <- !bpow_plus. apply bpow_le. lia. }
  assert (H501 : / 2 ^ 380 = 2 * / 2 ^ 381). { change 381%nat with (1 + 380)%nat. rewrite pow_add, pow_1. field. } assert (Q501 := pow2_inv_pos 381). assert (S501 : / 2 ^ 381 <= 1) by (rewrite <- Rinv_1; apply Rinv_le_contravar; [lra|apply pow_R1_Rle; lra]).
  assert (XZ : S (B2R m) / Z <= X200). { unfold Rdiv. apply Rle_trans with (2 ^ 100 * 2 ^ 100); [apply Rmult_le_compat; lra|]. rewrite <- pow_add. unfold X200. apply Rle_refl. }
  destruct (quot_ap _ _ _ _ _ _ _ GM (conj FN AZ)) as [FQ MQ]; try (unfold d' in *; lra).
  apply ap_approx; [exact FQ|]. eapply ap_weaken; [| |exact MQ].
  - unfold D, d'. rewrite H34. lra.
  - assert (ST : s75 <= / 2 ^ 381) by (unfold s75; rewrite (pow_bpow_inv 381); apply bpow_le; lia). lra.
Qed.

Lemma C154_single_peak_pf :
  forall bk pow exp64 log64 log1p64 ndtr64 log_ndtr64 c expit alpha mmin mmax lam mpp sigpp delta_m top grid t m d p q self Z,
  let primary := fun x => two_component64 pow exp64 log64 log1p64 ndtr64 log_ndtr64 c x alpha mmin mmax lam mpp sigpp top in
  let kwargs := (single_peak_kw (B2R alpha) (B2R mmin) (B2R mmax) (B2R lam) (B2R mpp) (B2R sigpp) (B2R delta_m) ++ class_kwargs SinglePeak (sm_mmax self))%list in
  nearest_expit expit -> steps_within 40 grid -> INR (List.length grid) <= 2 ^ 40 -> fraction_double lam ->
  leaves t = norm_terms64 (is_jax bk) expit primary mmin top delta_m grid ->
  sm_mmax self = Fin (B2R top) -> sm_m1s self = map Fin (reals grid) ->
  (forall x, x = m \/ In x grid ->
     window_arguments x mmin top delta_m /\ 0 <= p (B2R x) <= 2 ^ 100 /\ 0 <= q (B2R x) <= 2 ^ 100 /\
     powerlaw bk pl_kw (Fin (B2R x)) (Fin (- B2R alpha)) (Fin (B2R mmax)) (Fin (B2R mmin)) = Ok (Fin (p (B2R x))) /\
     truncnorm bk tn_kw (Fin (B2R x)) (Fin (B2R mpp)) (Fin (B2R sigpp)) (Fin (B2R top)) (Fin (B2R mmin)) = Ok (Fin (q (B2R x))) /\
     approximates d 0 (p (B2R x)) (powerlaw64 pow log64 x (Bopp alpha) mmax mmin) /\
     approximates d 0 (q (B2R x)) (truncnorm64 exp64 log64 log1p64 ndtr64 log_ndtr64 c x mpp sigpp top mmin)) ->
  norm_p_m1 bk (class_primary SinglePeak bk) self (Fin (B2R delta_m)) (ddel "delta_m" kwargs) = Ok (Fin Z) -> / 2 ^ 100 <= Z ->
  let D := 2 * d + / 2 ^ 34 + (INR (depth t) + 14) * (2 * u64) in
  0 <= d -> D <= / 4 ->
  exists v, p_m1 bk (class_primary SinglePeak bk) self [("mass_1"%string, [Fin (B2R m)])] kwargs = Ok [Fin v] /\
    approximates D (/ 2 ^ 380) v (p_m1_64 (is_jax bk) expit primary mmin top delta_m t m).
Proof.
  intros bk pow exp64 log64 log1p64 ndtr64 log_ndtr64 c expit alpha mmin mmax lam mpp sigpp delta_m top grid t m d p q self Z primary kwargs X SW LG FL LT Emx Eg H NZ HZ D D0 D1.
  set (f := fun x => (1 - B2R lam) * p x + B2R lam * q x). assert (U := u64_pos). assert (P34 := pow2_inv_pos 34). assert (NP := pos_INR (depth t)). assert (NU : 0 <= INR (depth t) * (2 * u64)) by (apply Rmult_le_pos; lra).
  unfold D in *. replace (2 * d + / 2 ^ 34 + (INR (depth t) + 14) * (2 * u64)) with (2 * (d + 6 * u64) + / 2 ^ 34 + (INR (depth t) + 8) * (2 * u64)) in * by ring.
  apply (C154_smoothed_primary_pf bk expit primary mmin top delta_m grid t m (d + 6 * u64) f (class_primary SinglePeak bk) self kwargs Z); auto; try lra.
  intros x Hx. destruct (H x Hx) as (Ax & Px & Qx & Rp & Rq & Ap & Aq). split; [exact Ax|]. destruct FL as (Fl & Bl0 & Bl1).
  assert (K1 : 0 <= (1 - B2R lam) * p (B2R x) <= (1 - B2R lam) * 2 ^ 100) by (split; [apply Rmult_le_pos; lra|apply Rmult_le_compat_l; lra]). assert (K2 : 0 <= B2R lam * q (B2R x) <= B2R lam * 2 ^ 100) by (split; [apply Rmult_le_pos; lra|apply Rmult_le_compat_l; lra]).
  assert (XX : 2 ^ 100 <= 2 ^ 200) by (apply Rle_pow; [lra|lia]).
  destruct (C153_two_components_pf bk pow exp64 log64 log1p64 ndtr64 log_ndtr64 c x alpha mmin mmax lam mpp sigpp top (p (B2R x)) (q (B2R x)) d) as [RE AE]; auto; try (split; auto; lra); try lra.
  split; [unfold f; lra|]. split; [|exact AE]. unfold kwargs. rewrite Emx. exact RE.
Qed.

