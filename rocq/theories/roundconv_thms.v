(** Proofs of the property theorems stated in [Props_roundconv]. *)
From Coq Require Import Reals ZArith Lra Lia Psatz Bool.
From Coquelicot Require Import Coquelicot.
From Flocq Require Import Core BinarySingleNaN Relative.
From Coq Require Import List.
From Verif Require Import Xf Py Xf_facts Conversions_model Double Double_facts Rounded_model SpecRound RoundedPl_model RoundedConv_model SpecConv Conversions_facts SpecRoundConv round_thms roundpl_thms roundwin_thms roundtn_thms conv_thms.
Import ListNotations.
Local Open Scope R_scope.

Lemma Rabs_minus_le x y : Rabs (x - y) <= Rabs x + Rabs y.
Proof. unfold Rminus. eapply Rle_trans; [apply Rabs_triang|]. rewrite Rabs_Ropp. lra. Qed.
(** A computed number [x] near the exact one [X], which is between 2^-B and 2^B. *)
Definition pn (n B : nat) (X : R) (x : b64) : Prop := is_finite x = true /\ near n X (B2R x) /\ / 2 ^ B <= X <= 2 ^ B.
Lemma near_factor2 n X y : (n <= 30)%nat -> 0 < X -> near n X y -> X / 2 <= y <= 2 * X.
Proof.
  intros Hn HX N. assert (Y := near_pos _ _ _ HX N). destruct N as [A B]. assert (H := pw_half n ltac:(lia)). nra.
Qed.
Lemma bernoulli n : 1 - INR n * u64 <= (1 - u64) ^ n.
Proof.
  assert (U := u64_pos). induction n as [|n IH]; [simpl; lra|]. rewrite S_INR. change ((1 - u64) ^ S n) with ((1 - u64) * (1 - u64) ^ n).
  assert (P := pos_INR n). apply Rle_trans with ((1 - u64) * (1 - INR n * u64)); [nra|]. apply Rmult_le_compat_l; lra.
Qed.
Lemma near_small n X y : (n <= 30)%nat -> 0 <= X -> near n X y -> Rabs (y - X) <= (INR n + 1) * u64 * X.
Proof.
  intros Hn HX [A B]. destruct u_small as (U0 & U1 & _). assert (Be := bernoulli n). assert (In : 0 <= INR n <= 30). { split; [apply pos_INR|]. apply le_INR in Hn. replace 30 with (INR 30) by (simpl; lra). exact Hn. }
  assert (nu : 0 <= INR n * u64 <= / 2) by nra. assert (Y : 0 <= y) by (assert (P := pw n); nra).
  assert (L : (1 - INR n * u64) * X <= y). { eapply Rle_trans; [|exact A]. apply Rmult_le_compat_r; lra. }
  assert (M : (1 - INR n * u64) * y <= X). { eapply Rle_trans; [|exact B]. apply Rmult_le_compat_r; lra. }
  assert (S : 1 <= (1 - INR n * u64) * (1 + (INR n + 1) * u64)). { assert (INR n * (INR n + 1) * u64 <= 1) by nra. nra. }
  apply Rabs_le_between. split; [nra|]. assert ((1 - INR n * u64) * y <= (1 - INR n * u64) * ((1 + (INR n + 1) * u64) * X)); [|nra].
  eapply Rle_trans; [exact M|]. nra.
Qed.
Lemma inv_split B C : / 2 ^ (B + C) = / 2 ^ B * / 2 ^ C.
Proof. rewrite pow_add. apply Rinv_mult_distr; apply Rgt_not_eq, pow2_pos. Qed.
Lemma low_1022 X B : (B <= 900)%nat -> / 2 ^ B <= X -> bpow radix2 (-1022) <= X / 4.
Proof.
  intros HB H. apply Rle_trans with (/ 2 ^ B / 4); [|lra]. rewrite pow_bpow_inv. replace (bpow radix2 (- Z.of_nat B) / 4) with (bpow radix2 (- Z.of_nat B) * bpow radix2 (-2)) by (change (bpow radix2 (-2)) with (/ 4); reflexivity).
  rewrite <- bpow_plus. apply bpow_le. lia.
Qed.
Lemma high_1000 X B : (B <= 900)%nat -> X <= 2 ^ B -> 4 * X <= bpow radix2 1000.
Proof.
  intros HB H. apply Rle_trans with (4 * 2 ^ B); [lra|]. rewrite pow_bpow. change 4 with (bpow radix2 2). rewrite <- bpow_plus. apply bpow_le. lia.
Qed.
Lemma pn_pos n B X x : pn n B X x -> 0 < X /\ 0 < B2R x.
Proof. intros (_ & N & L & _). assert (P := pow2_inv_pos B). split; [lra|]. apply (near_pos n X); [lra|exact N]. Qed.
Lemma pn_mult n B X x m C Y y : pn n B X x -> pn m C Y y -> (n <= 30)%nat -> (m <= 30)%nat -> (B + C <= 900)%nat -> pn (n + m + 1) (B + C) (X * Y) (Bmult mode_NE x y).
Proof.
  intros PX PY Hn Hm HB. destruct (pn_pos _ _ _ _ PX) as [X0 x0]. destruct (pn_pos _ _ _ _ PY) as [Y0 y0]. destruct PX as (Fx & NX & LX & UX). destruct PY as (Fy & NY & LY & UY).
  assert (BX := near_factor2 _ _ _ Hn X0 NX). assert (BY := near_factor2 _ _ _ Hm Y0 NY).
  assert (L : / 2 ^ (B + C) <= X * Y). { rewrite inv_split. assert (P := pow2_inv_pos B). assert (Q := pow2_inv_pos C). apply Rmult_le_compat; lra. }
  assert (U : X * Y <= 2 ^ (B + C)). { rewrite pow_add. apply Rmult_le_compat; lra. }
  assert (L2 := low_1022 _ _ HB L). assert (U2 := high_1000 _ _ HB U).
  assert (L3 : X * Y / 4 <= B2R x * B2R y). { replace (X * Y / 4) with (X / 2 * (Y / 2)) by field. apply Rmult_le_compat; lra. }
  assert (U3 : B2R x * B2R y <= 4 * (X * Y)). { replace (4 * (X * Y)) with (2 * X * (2 * Y)) by ring. apply Rmult_le_compat; lra. }
  destruct (Bmult_fin x y Fx Fy) as [F V]. { apply small_lt; [apply Rmult_le_pos; lra|lra]. }
  split; [exact F|]. split; [|split; assumption]. rewrite V. apply near_trans with (B2R x * B2R y); [apply near_mult; auto; lra|]. apply rnd_near_normal. lra.
Qed.
Lemma pn_div n B X x m C Y y : pn n B X x -> pn m C Y y -> (n <= 30)%nat -> (m <= 30)%nat -> (B + C <= 900)%nat -> pn (n + m + 1) (B + C) (X / Y) (Bdiv mode_NE x y).
Proof.
  intros PX PY Hn Hm HB. destruct (pn_pos _ _ _ _ PX) as [X0 x0]. destruct (pn_pos _ _ _ _ PY) as [Y0 y0]. destruct PX as (Fx & NX & LX & UX). destruct PY as (Fy & NY & LY & UY).
  assert (BX := near_factor2 _ _ _ Hn X0 NX). assert (BY := near_factor2 _ _ _ Hm Y0 NY). assert (IY := Rinv_0_lt_compat _ Y0). assert (Iy := Rinv_0_lt_compat _ y0).
  assert (P := pow2_inv_pos B). assert (Q := pow2_inv_pos C). assert (Q' := pow2_pos C).
  assert (LI : / 2 ^ C <= / Y) by (apply Rinv_le_contravar; lra). assert (UI : / Y <= 2 ^ C). { rewrite <- (Rinv_involutive (2 ^ C)) by lra. apply Rinv_le_contravar; lra. }
  assert (L : / 2 ^ (B + C) <= X / Y). { rewrite inv_split. apply Rmult_le_compat; lra. }
  assert (U : X / Y <= 2 ^ (B + C)). { rewrite pow_add. apply Rmult_le_compat; lra. }
  assert (L2 := low_1022 _ _ HB L). assert (U2 := high_1000 _ _ HB U).
  assert (Ly : / Y / 2 <= / B2R y). { replace (/ Y / 2) with (/ (2 * Y)) by (field; lra). apply Rinv_le_contravar; lra. }
  assert (Uy : / B2R y <= 2 * / Y). { replace (2 * / Y) with (/ (Y / 2)) by (field; lra). apply Rinv_le_contravar; lra. }
  assert (L3 : X / Y / 4 <= B2R x / B2R y). { replace (X / Y / 4) with (X / 2 * (/ Y / 2)) by (field; lra). apply Rmult_le_compat; lra. }
  assert (U3 : B2R x / B2R y <= 4 * (X / Y)). { replace (4 * (X / Y)) with (2 * X * (2 * / Y)) by (field; lra). apply Rmult_le_compat; lra. }
  destruct (div_near n m x y X Y Fx X0 Y0 NX NY) as [F N].
  { split; [|lra]. assert (bpow radix2 (-1020) = 4 * bpow radix2 (-1022)) by (change 4 with (bpow radix2 2); rewrite <- bpow_plus; reflexivity).
    assert (/ 2 ^ (B + C) / 4 <= B2R x / B2R y) by lra. apply Rle_trans with (/ 2 ^ (B + C) / 4); [|assumption].
    rewrite pow_bpow_inv. replace (bpow radix2 (- Z.of_nat (B + C)) / 4) with (bpow radix2 (- Z.of_nat (B + C)) * bpow radix2 (-2)) by (change (bpow radix2 (-2)) with (/ 4); reflexivity). rewrite <- bpow_plus. apply bpow_le. lia. }
  split; [exact F|]. split; [exact N|]. split; assumption.
Qed.
Lemma pn_mono n m B X x : (n <= m)%nat -> pn n B X x -> pn m B X x.
Proof. intros H P. destruct (pn_pos _ _ _ _ P) as [A A']. destruct P as (F & N & G). split; [exact F|]. split; [|exact G]. apply (near_mono n); auto; lra. Qed.
Lemma pn_plus n B X x m Y y : pn n B X x -> pn m B Y y -> (n <= 30)%nat -> (m <= n)%nat -> (B <= 800)%nat -> pn (n + 1) (S B) (X + Y) (Bplus mode_NE x y).
Proof.
  intros PX PY Hn Hm HB. apply (pn_mono m n) in PY; [|exact Hm]. destruct (pn_pos _ _ _ _ PX) as [X0 x0]. destruct (pn_pos _ _ _ _ PY) as [Y0 y0]. destruct PX as (Fx & NX & LX & UX). destruct PY as (Fy & NY & LY & UY).
  assert (BX := near_factor2 _ _ _ Hn X0 NX). assert (BY := near_factor2 _ _ _ Hn Y0 NY). assert (P := pow2_pos B).
  assert (E : 2 ^ S B = 2 * 2 ^ B) by reflexivity. assert (G : / 2 ^ S B = / 2 ^ B / 2) by (rewrite E; field; lra).
  assert (H : 4 * (X + Y) <= bpow radix2 1000). { apply (high_1000 _ (S B)); [lia|rewrite E; lra]. }
  destruct (Bplus_fin x y Fx Fy) as [F V]. { apply small_lt; lra. }
  split; [exact F|]. split; [|rewrite G, E; lra]. rewrite V. apply near_trans with (B2R x + B2R y); [now apply near_plus|]. apply rnd_near_plus; try apply B2R_double. lra.
Qed.
Lemma pn_exact B w : is_finite w = true -> / 2 ^ B <= B2R w <= 2 ^ B -> pn 0 B (B2R w) w.
Proof. intros F H. split; [exact F|]. split; [apply near_refl|exact H]. Qed.
Lemma pow_up B C : (B <= C)%nat -> / 2 ^ C <= / 2 ^ B /\ 2 ^ B <= 2 ^ C.
Proof.
  intros H. assert (P := pow2_pos B). assert (E : 2 ^ B <= 2 ^ C) by (apply Rle_pow; [lra|exact H]). split; [apply Rinv_le_contravar; lra|exact E].
Qed.
Lemma pn_weak n B C X x : (B <= C)%nat -> pn n B X x -> pn n C X x.
Proof. intros H (F & N & L & U). destruct (pow_up B C H). split; [exact F|]. split; [exact N|]. lra. Qed.
Lemma one_pn : pn 0 0 1 one64.
Proof. destruct one_val as [F V]. split; [exact F|]. rewrite V. split; [apply near_refl|]. simpl. lra. Qed.

Lemma mean_pn K a b m : (K <= 100)%nat -> between K a -> between K b -> between K m ->
  pn 3 (K + S K + K) (beta_mean (B2R a) (B2R b) (B2R m)) (mu_of64 a b m).
Proof.
  intros HK [Fa Ha] [Fb Hb] [Fm Hm]. assert (A := pn_exact K a Fa Ha). assert (B := pn_exact K b Fb Hb). assert (M := pn_exact K m Fm Hm).
  assert (S := pn_plus _ _ _ _ _ _ _ A B ltac:(lia) (le_n 0) ltac:(lia)).
  assert (D := pn_div _ _ _ _ _ _ _ _ A S ltac:(lia) ltac:(lia) ltac:(lia)).
  assert (P := pn_mult _ _ _ _ _ _ _ _ D M ltac:(lia) ltac:(lia) ltac:(lia)). unfold beta_mean, mu_of64. rewrite Rmult_comm. exact P.
Qed.
Lemma variance_pn K a b m : (K <= 100)%nat -> between K a -> between K b -> between K m ->
  pn 10 (K + K + (S K + S K + S (S K)) + (K + K)) (beta_variance (B2R a) (B2R b) (B2R m)) (var_of64 a b m).
Proof.
  intros HK [Fa Ha] [Fb Hb] [Fm Hm]. assert (A := pn_exact K a Fa Ha). assert (B := pn_exact K b Fb Hb). assert (M := pn_exact K m Fm Hm).
  assert (S := pn_plus _ _ _ _ _ _ _ A B ltac:(lia) (le_n 0) ltac:(lia)). cbn [Nat.add] in S.
  assert (S1 := pn_plus _ _ _ _ _ _ _ S (pn_weak 0 0 (Datatypes.S K) _ _ ltac:(lia) one_pn) ltac:(lia) ltac:(lia) ltac:(lia)).
  assert (Q := pn_mult _ _ _ _ _ _ _ _ S S ltac:(lia) ltac:(lia) ltac:(lia)).
  assert (N := pn_mult _ _ _ _ _ _ _ _ A B ltac:(lia) ltac:(lia) ltac:(lia)).
  assert (DD := pn_mult _ _ _ _ _ _ _ _ Q S1 ltac:(lia) ltac:(lia) ltac:(lia)).
  assert (D := pn_div _ _ _ _ _ _ _ _ N DD ltac:(lia) ltac:(lia) ltac:(lia)).
  assert (M2 := pn_mult _ _ _ _ _ _ _ _ M M ltac:(lia) ltac:(lia) ltac:(lia)).
  assert (P := pn_mult _ _ _ _ _ _ _ _ D M2 ltac:(lia) ltac:(lia) ltac:(lia)). 
  unfold beta_variance, var_of64. cbv zeta. 
  replace (B2R m ^ 2 * (B2R a * B2R b / ((B2R a + B2R b) ^ 2 * (B2R a + B2R b + 1)))) with (B2R a * B2R b / ((B2R a + B2R b) * (B2R a + B2R b) * (B2R a + B2R b + 1)) * (B2R m * B2R m)).
  2:{ destruct (pn_pos _ _ _ _ S) as [S0 _]. field. lra. }
  exact P.
Qed.
Lemma prod_err x y X Y e f a b : Rabs (x - X) <= e -> Rabs (y - Y) <= f -> Rabs X <= a -> Rabs Y <= b -> Rabs (x * y - X * Y) <= e * b + a * f + e * f.
Proof.
  intros Hx Hy HX HY. replace (x * y - X * Y) with ((x - X) * Y + X * (y - Y) + (x - X) * (y - Y)) by ring.
  assert (A := Rabs_pos (x - X)). assert (B := Rabs_pos (y - Y)). assert (C := Rabs_pos X). assert (D := Rabs_pos Y).
  eapply Rle_trans; [apply Rabs_triang|]. apply Rplus_le_compat; [eapply Rle_trans; [apply Rabs_triang|]; apply Rplus_le_compat|]; rewrite Rabs_mult; apply Rmult_le_compat; lra.
Qed.
Lemma abs_near x X e a : Rabs (x - X) <= e -> Rabs X <= a -> Rabs x <= a + e.
Proof. intros H K. replace x with (X + (x - X)) by ring. eapply Rle_trans; [apply Rabs_triang|]. lra. Qed.
Lemma rnd_step x X e a : Rabs (x - X) <= e -> Rabs X <= a -> Rabs (rnd64 x - X) <= e + u64 * (a + e) + bpow radix2 (-1075).
Proof.
  intros H K. assert (R1 := rnd_err x). assert (A := abs_near _ _ _ _ H K). assert (U := u64_pos). replace (rnd64 x - X) with ((rnd64 x - x) + (x - X)) by ring.
  eapply Rle_trans; [apply Rabs_triang|]. assert (u64 * Rabs x <= u64 * (a + e)) by (apply Rmult_le_compat_l; lra). lra.
Qed.
Lemma tiny_le X : / 2 ^ 900 <= X -> bpow radix2 (-1075) <= u64 * X.
Proof.
  intros H. apply Rle_trans with (u64 * / 2 ^ 900); [|apply Rmult_le_compat_l; [left; apply u64_pos|exact H]]. unfold u64. rewrite (pow_bpow_inv 53), (pow_bpow_inv 900), <- bpow_plus. apply bpow_le. lia.
Qed.
(** A rounded product of a number known up to a relative and one known up to an absolute error. *)
Lemma mult_step (x y : b64) X Y c d a : is_finite x = true -> is_finite y = true -> / 2 ^ 900 <= X <= 2 ^ 600 -> Rabs (B2R x - X) <= c * u64 * X -> Rabs Y <= 1 -> Rabs (B2R y - Y) <= d * u64 ->
  0 <= c <= 20 -> 0 <= d <= 20 -> c + d + 2.1 <= a ->
  is_finite (Bmult mode_NE x y) = true /\ Rabs (B2R (Bmult mode_NE x y) - X * Y) <= a * u64 * X.
Proof.
  intros Fx Fy [HX HX2] Ex HY Ey Hc Hd Ha. destruct u_small as (U0 & U1 & _). assert (P := pow2_inv_pos 900). assert (X0 : 0 < X) by lra. assert (T := tiny_le _ HX).
  assert (E := prod_err _ _ X Y _ _ X 1 Ex Ey ltac:(rewrite Rabs_pos_eq; lra) HY). clear Ex Ey.
  assert (HC : c * u64 <= / 1000000) by nra. assert (HD : d * u64 <= / 1000000) by nra. assert (HD0 : 0 <= d * u64) by nra. assert (HC0 : 0 <= c * u64) by nra.
  assert (E2 : Rabs (B2R x * B2R y - X * Y) <= (c + d + 0.01) * u64 * X).
  { eapply Rle_trans; [exact E|]. replace (c * u64 * X * 1 + X * (d * u64) + c * u64 * X * (d * u64)) with ((c * u64 + d * u64 + c * u64 * (d * u64)) * X) by ring. apply Rmult_le_compat_r; [lra|].
    assert (c * u64 * (d * u64) <= 20 * u64 * / 1000000) by (apply Rmult_le_compat; try lra; apply Rmult_le_compat_r; lra). lra. }
  assert (HXY : Rabs (X * Y) <= X). { rewrite Rabs_mult, (Rabs_pos_eq X) by lra. assert (A := Rabs_pos Y). rewrite <- (Rmult_1_r X) at 2. apply Rmult_le_compat_l; lra. }
  assert (S := rnd_step _ _ _ _ E2 HXY).
  assert (HS : (c + d + 0.01) * u64 * X <= X). { rewrite <- (Rmult_1_l X) at 2. apply Rmult_le_compat_r; lra. }
  destruct (Bmult_fin x y Fx Fy) as [F V].
  { apply small2. assert (A := abs_near _ _ _ _ E2 HXY). apply Rle_trans with (2 * 2 ^ 600); [lra|]. change (2 * 2 ^ 600) with (2 ^ 601). rewrite (pow_bpow 601). apply bpow_le. lia. }
  split; [exact F|]. rewrite V. eapply Rle_trans; [exact S|]. assert (B : u64 * (X + (c + d + 0.01) * u64 * X) <= u64 * (1.001 * X)).
  { apply Rmult_le_compat_l; [lra|]. assert ((c + d + 0.01) * u64 * X <= 0.001 * X) by (apply Rmult_le_compat_r; lra). lra. }
  assert (C : (c + d + 2.1) * u64 * X <= a * u64 * X) by (apply Rmult_le_compat_r; [lra|]; apply Rmult_le_compat_r; lra). nra.
Qed.
(** The common tail of both conversions: difference of two products, divided by the variance. *)
Lemma tail_step (x y w : b64) X Y v a b p q : is_finite x = true -> is_finite y = true -> is_finite w = true ->
  Rabs (B2R x - X) <= a * u64 * p -> Rabs (B2R y - Y) <= b * u64 * q -> Rabs X <= p -> Rabs Y <= q -> Rabs (B2R w - v) <= 3 * u64 * v -> / 2 ^ 450 <= v <= 2 ^ 450 -> / 2 ^ 400 <= q / v -> p <= 1 -> q <= 2 ^ 300 * v ->
  0 <= a <= 15 -> 0 <= b <= 15 ->
  is_finite (Bdiv mode_NE (Bminus mode_NE x y) w) = true /\ Rabs (B2R (Bdiv mode_NE (Bminus mode_NE x y) w) - (X - Y) / v) <= 24 * u64 * (p / v + q / v).
Proof.
  intros Fx Fy Fw Ex Ey HX HY Ew Hv Hq Hp Hq2 Ha Hb. destruct u_small as (U0 & U1 & _).
  assert (P450 := pow2_inv_pos 450). assert (v0 : 0 < v) by lra. assert (p0 : 0 <= p) by (assert (Z := Rabs_pos X); lra). assert (q0 : 0 <= q) by (assert (Z := Rabs_pos Y); lra).
  assert (Q450 : 2 ^ 450 * 2 ^ 300 = 2 ^ 750) by (rewrite <- pow_add; reflexivity).
  assert (Hq3 : q <= 2 ^ 750). { eapply Rle_trans; [exact Hq2|]. rewrite <- Q450, Rmult_comm. apply Rmult_le_compat_r; [left; apply pow2_pos|lra]. }
  assert (O750 : 1 <= 2 ^ 750) by (apply pow_R1_Rle; lra).
  assert (Hau : 0 <= a * u64 <= / 1000000) by (split; nra). assert (Hbu : 0 <= b * u64 <= / 1000000) by (split; nra).
  assert (aup : a * u64 * p <= / 1000000 * p) by (apply Rmult_le_compat_r; lra). assert (buq : b * u64 * q <= / 1000000 * q) by (apply Rmult_le_compat_r; lra).
  assert (E1 : Rabs ((B2R x - B2R y) - (X - Y)) <= a * u64 * p + b * u64 * q). { replace (B2R x - B2R y - (X - Y)) with ((B2R x - X) - (B2R y - Y)) by ring. eapply Rle_trans; [apply Rabs_minus_le|]. lra. }
  assert (HN : Rabs (X - Y) <= p + q). { eapply Rle_trans; [apply Rabs_minus_le|]. lra. }
  assert (AN := abs_near _ _ _ _ E1 HN).
  destruct (Bminus_fin x y Fx Fy) as [FN VN]. { apply small2. apply Rle_trans with (2 ^ 752); [change (2 ^ 752) with (2 * (2 * 2 ^ 750)); lra|rewrite (pow_bpow 752); apply bpow_le; lia]. }
  assert (RN := rnd_minus_err _ _ (B2R_double x) (B2R_double y)). set (N := B2R (Bminus mode_NE x y)) in *. rewrite <- VN in RN.
  assert (E2 : Rabs (N - (X - Y)) <= (a + 1.01) * u64 * p + (b + 1.01) * u64 * q).
  { replace (N - (X - Y)) with ((N - (B2R x - B2R y)) + ((B2R x - B2R y) - (X - Y))) by ring. eapply Rle_trans; [apply Rabs_triang|].
    assert (u64 * Rabs (B2R x - B2R y) <= u64 * (1.01 * p + 1.01 * q)) by (apply Rmult_le_compat_l; lra). lra. }
  clear E1 AN RN VN aup buq Ex Ey HX HY.
  assert (VV : 0.999 * v <= B2R w <= 1.001 * v). { apply Rabs_le_between in Ew. assert (3 * u64 * v <= 0.001 * v) by (apply Rmult_le_compat_r; lra). lra. }
  assert (w0 : 0 < B2R w) by lra. assert (Iv := Rinv_0_lt_compat _ v0). assert (Iw := Rinv_0_lt_compat _ w0).
  assert (IW : / B2R w <= 1.002 * / v). { apply Rmult_le_reg_l with (B2R w); [exact w0|]. rewrite Rinv_r by lra. apply Rmult_le_reg_r with v; [exact v0|]. replace (B2R w * (1.002 * / v) * v) with (1.002 * B2R w) by (field; lra). lra. }
  set (r := p / v). set (s := q / v). assert (r0 : 0 <= r) by (unfold r; apply Rdiv_le_0_compat; lra). assert (s0 : 0 <= s) by (unfold s; apply Rdiv_le_0_compat; lra).
  assert (E3 : Rabs (N / B2R w - (X - Y) / v) <= ((a + 4.2) * r + (b + 4.2) * s) * u64).
  { replace (N / B2R w - (X - Y) / v) with (((N - (X - Y)) - (X - Y) * ((B2R w - v) / v)) * / B2R w) by (field; lra). rewrite Rabs_mult, (Rabs_pos_eq (/ B2R w)) by lra.
    assert (Q1 : Rabs ((B2R w - v) / v) <= 3 * u64). { unfold Rdiv. rewrite Rabs_mult, (Rabs_pos_eq (/ v)) by lra. apply Rmult_le_reg_r with v; [exact v0|]. rewrite Rmult_assoc, Rinv_l, Rmult_1_r by lra. exact Ew. }
    assert (Q2 : Rabs (N - (X - Y) - (X - Y) * ((B2R w - v) / v)) <= (a + 4.01) * u64 * p + (b + 4.01) * u64 * q).
    { eapply Rle_trans; [apply Rabs_minus_le|]. rewrite (Rabs_mult (X - Y)). assert (Rabs (X - Y) * Rabs ((B2R w - v) / v) <= (p + q) * (3 * u64)) by (apply Rmult_le_compat; try apply Rabs_pos; assumption). lra. }
    apply Rle_trans with (((a + 4.01) * u64 * p + (b + 4.01) * u64 * q) * (1.002 * / v)); [apply Rmult_le_compat; try lra; apply Rabs_pos|].
    replace (((a + 4.01) * u64 * p + (b + 4.01) * u64 * q) * (1.002 * / v)) with ((((a + 4.01) * 1.002) * r + ((b + 4.01) * 1.002) * s) * u64) by (unfold r, s; field; lra).
    apply Rmult_le_compat_r; [lra|]. apply Rplus_le_compat; apply Rmult_le_compat_r; lra. }
  assert (HR : Rabs ((X - Y) / v) <= r + s). { unfold Rdiv. rewrite Rabs_mult, (Rabs_pos_eq (/ v)) by lra. replace (r + s) with ((p + q) * / v) by (unfold r, s; field; lra). apply Rmult_le_compat_r; lra. }
  assert (E4 : ((a + 4.2) * r + (b + 4.2) * s) * u64 <= 0.001 * (r + s)).
  { replace (((a + 4.2) * r + (b + 4.2) * s) * u64) with (((a + 4.2) * u64) * r + ((b + 4.2) * u64) * s) by ring. rewrite Rmult_plus_distr_l. apply Rplus_le_compat; apply Rmult_le_compat_r; lra. }
  assert (S := rnd_step _ _ _ _ E3 HR).
  assert (T : bpow radix2 (-1075) <= u64 * s). { apply tiny_le. destruct (pow_up 400 900 ltac:(lia)) as [Z _]. unfold s. lra. }
  destruct (Bdiv_fin (Bminus mode_NE x y) w FN) as [F V]; [lra| |].
  { fold N. apply small2. assert (A := abs_near _ _ _ _ E3 HR). eapply Rle_trans; [exact A|].
    assert (rb : r <= 2 ^ 450). { unfold r. apply Rle_trans with (1 * / v); [apply Rmult_le_compat_r; lra|]. rewrite Rmult_1_l. rewrite <- (Rinv_involutive (2 ^ 450)) by (apply Rgt_not_eq, pow2_pos). apply Rinv_le_contravar; lra. }
    assert (sb : s <= 2 ^ 300). { unfold s. apply Rmult_le_reg_r with v; [exact v0|]. replace (q / v * v) with q by (field; lra). exact Hq2. }
    destruct (pow_up 300 450 ltac:(lia)) as [_ Z].
    apply Rle_trans with (2 ^ 452); [change (2 ^ 452) with (2 * (2 * 2 ^ 450)); lra|rewrite (pow_bpow 452); apply bpow_le; lia]. }
  split; [exact F|]. rewrite V. fold N. eapply Rle_trans; [exact S|].
  assert (B : u64 * (r + s + ((a + 4.2) * r + (b + 4.2) * s) * u64) <= u64 * (1.001 * (r + s))) by (apply Rmult_le_compat_l; lra).
  assert (C1 : (a + 4.2) * r <= 19.2 * r) by (apply Rmult_le_compat_r; lra). assert (C2 : (b + 4.2) * s <= 19.2 * s) by (apply Rmult_le_compat_r; lra).
  assert (C3 : ((a + 4.2) * r + (b + 4.2) * s) * u64 <= (19.2 * r + 19.2 * s) * u64) by (apply Rmult_le_compat_r; lra).
  assert (0 <= u64 * r) by (apply Rmult_le_pos; lra). assert (0 <= u64 * s) by (apply Rmult_le_pos; lra). lra.
Qed.
(** Mean and variance on the unit interval. *)
Lemma unit_pn mu var amax : between 150 mu -> between 150 var -> between 150 amax ->
  pn 1 300 (B2R mu / B2R amax) (unit_mu64 mu amax) /\ pn 2 450 (B2R var / B2R amax ^ 2) (unit_var64 var amax).
Proof.
  intros [Fm Hm] [Fv Hv] [Fa Ha]. assert (M := pn_exact 150 mu Fm Hm). assert (V := pn_exact 150 var Fv Hv). assert (A := pn_exact 150 amax Fa Ha). split.
  - exact (pn_div _ _ _ _ _ _ _ _ M A ltac:(lia) ltac:(lia) ltac:(lia)).
  - assert (A2 := pn_mult _ _ _ _ _ _ _ _ A A ltac:(lia) ltac:(lia) ltac:(lia)). assert (D := pn_div _ _ _ _ _ _ _ _ V A2 ltac:(lia) ltac:(lia) ltac:(lia)).
    replace (B2R amax ^ 2) with (B2R amax * B2R amax) by ring. exact D.
Qed.
Lemma unit_facts mu var amax : between 150 mu -> between 150 var -> between 150 amax -> B2R mu < B2R amax ->
  let m := B2R mu / B2R amax in let v := B2R var / B2R amax ^ 2 in let x := unit_mu64 mu amax in let w := unit_var64 var amax in let o := Bminus mode_NE one64 x in
  (is_finite x = true /\ is_finite w = true /\ is_finite o = true) /\ (/ 2 ^ 300 <= m < 1 /\ / 2 ^ 450 <= v <= 2 ^ 450) /\
  (Rabs (B2R x - m) <= 2 * u64 * m /\ Rabs (B2R w - v) <= 3 * u64 * v /\ Rabs (B2R o - (1 - m)) <= 3.1 * u64).
Proof.
  intros Hm Hv Ha L m v x w o. destruct (unit_pn mu var amax Hm Hv Ha) as [M V]. fold m x in M. fold v w in V. destruct M as (Fx & Nx & Mb). destruct V as (Fw & Nw & Vb). destruct u_small as (U0 & U1 & _).
  assert (P := pow2_inv_pos 300). assert (P' := pow2_inv_pos 450).
  assert (a0 : 0 < B2R amax). { destruct Ha as [_ [Ha _]]. assert (Z := pow2_inv_pos 150). lra. }
  assert (m1 : m < 1). { unfold m. apply Rmult_lt_reg_r with (B2R amax); [exact a0|]. replace (B2R mu / B2R amax * B2R amax) with (B2R mu) by (field; lra). lra. }
  assert (Ex := near_small 1 m _ ltac:(lia) ltac:(lra) Nx). assert (Ew := near_small 2 v _ ltac:(lia) ltac:(lra) Nw). replace (INR 1 + 1) with 2 in Ex by (simpl; lra). replace (INR 2 + 1) with 3 in Ew by (simpl; lra).
  assert (um : 2 * u64 * m <= 2 * u64 * 1) by (apply Rmult_le_compat_l; lra).
  destruct one_val as [O1 O2]. assert (B1 : Rabs (1 - B2R x) <= 1.01). { apply Rabs_le_between in Ex. apply Rabs_le_between. lra. }
  destruct (Bminus_fin one64 x O1 Fx) as [Fo Vo]. { rewrite O2. apply small2. apply b900_ge. lra. }
  assert (E := rnd_minus_err _ _ (B2R_double one64) (B2R_double x)). rewrite <- Vo, O2 in E. fold o in E, Fo.
  split; [now repeat split|]. split; [lra|]. split; [exact Ex|]. split; [exact Ew|]. replace (B2R o - (1 - m)) with ((B2R o - (1 - B2R x)) - (B2R x - m)) by ring.
  eapply Rle_trans; [apply Rabs_minus_le|]. assert (u64 * Rabs (1 - B2R x) <= u64 * 1.01) by (apply Rmult_le_compat_l; lra). lra.
Qed.
Lemma alpha_err mu var amax : between 150 mu -> between 150 var -> between 150 amax -> B2R mu < B2R amax ->
  let m := B2R mu / B2R amax in let v := B2R var / B2R amax ^ 2 in
  is_finite (alpha_of64 mu var amax) = true /\ Rabs (B2R (alpha_of64 mu var amax) - beta_alpha (B2R mu) (B2R var) (B2R amax)) <= 24 * u64 * (m ^ 2 / v + m).
Proof.
  intros Hm Hv Ha L m v. destruct (unit_facts mu var amax Hm Hv Ha L) as ((Fx & Fw & Fo) & ((m0 & m1) & v0) & (Ex & Ew & Eo)). destruct (unit_pn mu var amax Hm Hv Ha) as [M V]. fold m in M, m0, m1, Ex, Eo. fold v in V, v0, Ew.
  assert (P := pow2_inv_pos 300). assert (P' := pow2_inv_pos 450). destruct u_small as (U0 & U1 & _).
  destruct (pn_mult _ _ _ _ _ _ _ _ M M ltac:(lia) ltac:(lia) ltac:(lia)) as (Fq & Nq & Bq). destruct (pn_mult _ _ _ _ _ _ _ _ M V ltac:(lia) ltac:(lia) ltac:(lia)) as (Fb & Nb & Bb). cbn [Nat.add] in Nq, Nb, Bq, Bb.
  assert (mm0 : 0 < m * m) by (apply Rmult_lt_0_compat; lra). assert (mv0 : 0 < m * v) by (apply Rmult_lt_0_compat; lra).
  assert (Eq := near_small 3 (m * m) _ ltac:(lia) ltac:(lra) Nq). assert (Eb := near_small 4 (m * v) _ ltac:(lia) ltac:(lra) Nb). replace (INR 3 + 1) with 4 in Eq by (simpl; lra). replace (INR 4 + 1) with 5 in Eb by (simpl; lra).
  assert (O1 : Rabs (1 - m) <= 1) by (apply Rabs_le_between; lra).
  destruct (mult_step _ _ (m * m) (1 - m) 4 3.1 10 Fq Fo) as [FA EA]; try lra; try assumption.
  destruct (tail_step _ _ (unit_var64 var amax) (m * m * (1 - m)) (m * v) v 10 5 (m * m) (m * v) FA Fb Fw) as [F E]; try lra; try assumption.
  - rewrite Rabs_mult, (Rabs_pos_eq (m * m)) by lra. rewrite <- (Rmult_1_r (m * m)) at 2. apply Rmult_le_compat_l; lra.
  - rewrite Rabs_pos_eq; lra.
  - replace (m * v / v) with m by (field; lra). destruct (pow_up 300 400 ltac:(lia)). lra.
  - replace 1 with (1 * 1) by ring. apply Rmult_le_compat; lra.
  - apply Rmult_le_compat_r; [lra|]. apply Rle_trans with 1; [lra|]. apply pow_R1_Rle. lra.
  - split; [exact F|]. unfold beta_alpha. cbv zeta. fold m v. replace (m * (m * (1 - m) / v - 1)) with ((m * m * (1 - m) - m * v) / v) by (field; lra). replace (m ^ 2 / v + m) with (m * m / v + m * v / v) by (field; lra). exact E.
Qed.
Lemma beta_err mu var amax : between 150 mu -> between 150 var -> between 150 amax -> B2R mu < B2R amax ->
  let m := B2R mu / B2R amax in let v := B2R var / B2R amax ^ 2 in
  is_finite (beta_of64 mu var amax) = true /\ Rabs (B2R (beta_of64 mu var amax) - beta_beta (B2R mu) (B2R var) (B2R amax)) <= 24 * u64 * (m / v + 1).
Proof.
  intros Hm Hv Ha L m v. destruct (unit_facts mu var amax Hm Hv Ha L) as ((Fx & Fw & Fo) & ((m0 & m1) & v0) & (Ex & Ew & Eo)). fold m in m0, m1, Ex, Eo. fold v in v0, Ew.
  assert (P := pow2_inv_pos 300). assert (P' := pow2_inv_pos 450). destruct u_small as (U0 & U1 & U2 & _).
  assert (O1 : Rabs (1 - m) <= 1) by (apply Rabs_le_between; lra).
  assert (O2 : Rabs ((1 - m) * (1 - m)) <= 1) by (rewrite Rabs_mult; assert (Z := Rabs_pos (1 - m)); nra).
  set (o := Bminus mode_NE one64 (unit_mu64 mu amax)) in *.
  assert (E2 := prod_err _ _ _ _ _ _ _ _ Eo Eo O1 O1).
  assert (E3 : Rabs (B2R o * B2R o - (1 - m) * (1 - m)) <= 6.3 * u64). { eapply Rle_trans; [exact E2|]. assert (3.1 * u64 * (3.1 * u64) <= 0.1 * u64) by nra. lra. }
  destruct (Bmult_fin o o Fo Fo) as [Fs Vs]. { apply small2, b900_ge. assert (A := abs_near _ _ _ _ E3 O2). lra. }
  assert (E4 : Rabs (B2R (square64 o) - (1 - m) * (1 - m)) <= 7.4 * u64).
  { unfold square64. rewrite Vs. eapply Rle_trans; [apply (rnd_step _ _ _ _ E3 O2)|]. assert (T := tiny_le (/ 2 ^ 900) ltac:(lra)). assert (Z : / 2 ^ 900 <= 0.01). { destruct (pow_up 7 900 ltac:(lia)) as [Z _]. replace (2 ^ 7) with 128 in Z by (simpl; lra). lra. }
    assert (u64 * / 2 ^ 900 <= u64 * 0.01) by (apply Rmult_le_compat_l; lra). assert (u64 * (1 + 6.3 * u64) <= u64 * 1.01) by (apply Rmult_le_compat_l; lra). lra. }
  assert (B600 : forall B, (B <= 600)%nat -> / 2 ^ 900 <= / 2 ^ B /\ 2 ^ B <= 2 ^ 600). { intros B HB. split; [apply (pow_up B 900); lia|apply (pow_up B 600); lia]. }
  assert (one600 : 1 <= 2 ^ 600) by (apply pow_R1_Rle; lra).
  destruct (mult_step _ _ m ((1 - m) * (1 - m)) 2 7.4 12 Fx Fs) as [FA EA]; try lra; try assumption.
  destruct (mult_step _ _ v (1 - m) 3 3.1 9 Fw Fo) as [FB EB]; try lra; try assumption.
  destruct (Bmult_fin o (unit_var64 var amax) Fo Fw) as [FB' VB'].
  { rewrite Rmult_comm. apply small2. assert (EE := prod_err _ _ _ _ _ _ v 1 Ew Eo ltac:(rewrite Rabs_pos_eq; lra) O1). assert (AA : Rabs (v * (1 - m)) <= v). { rewrite Rabs_mult, (Rabs_pos_eq v) by lra. rewrite <- (Rmult_1_r v) at 2. apply Rmult_le_compat_l; lra. }
    assert (A := abs_near _ _ _ _ EE AA). eapply Rle_trans; [exact A|]. apply Rle_trans with (2 * v).
    - assert (3 * u64 * v <= 0.01 * v) by (apply Rmult_le_compat_r; lra). assert (v * (3.1 * u64) <= v * 0.01) by (apply Rmult_le_compat_l; lra). assert (3 * u64 * v * (3.1 * u64) <= 0.01 * v * 1) by (apply Rmult_le_compat; try lra; apply Rmult_le_pos; lra). lra.
    - apply Rle_trans with (2 ^ 451); [change (2 ^ 451) with (2 * 2 ^ 450); lra|]. rewrite (pow_bpow 451). apply bpow_le. lia. }
  assert (VB : B2R (Bmult mode_NE (unit_var64 var amax) o) = rnd64 (B2R (unit_var64 var amax) * B2R o)).
  { apply Bmult_fin; try assumption. destruct (B2R_double (Bmult mode_NE o (unit_var64 var amax))) as [_ Z]. rewrite VB' in Z. rewrite Rmult_comm. exact Z. }
  rewrite VB, Rmult_comm, <- VB' in EB.
  destruct (tail_step _ _ (unit_var64 var amax) (m * ((1 - m) * (1 - m))) (v * (1 - m)) v 12 9 m v FA FB' Fw) as [F E]; try lra; try assumption.
  - apply Rle_trans with (m * 1); [|lra]. rewrite Rabs_mult, (Rabs_pos_eq m) by lra. apply Rmult_le_compat_l; lra.
  - rewrite Rabs_mult, (Rabs_pos_eq v) by lra. rewrite <- (Rmult_1_r v) at 2. apply Rmult_le_compat_l; lra.
  - replace (v / v) with 1 by (field; lra). rewrite <- Rinv_1. apply Rinv_le_contravar; [lra|apply pow_R1_Rle; lra].
  - split; [exact F|]. unfold beta_beta. cbv zeta. fold m v. replace ((1 - m) * (m * (1 - m) / v - 1)) with ((m * ((1 - m) * (1 - m)) - v * (1 - m)) / v) by (field; lra). replace (m / v + 1) with (m / v + v / v) by (field; lra). exact E.
Qed.
Lemma between_near n B X x K : (n <= 30)%nat -> (S B <= K)%nat -> pn n B X x -> between K x.
Proof.
  intros Hn HK P. destruct (pn_pos _ _ _ _ P) as [X0 _]. destruct P as (F & N & L & U). split; [exact F|]. assert (H := near_factor2 _ _ _ Hn X0 N). destruct (pow_up (S B) K HK) as [A C].
  assert (E : 2 ^ S B = 2 * 2 ^ B) by reflexivity. assert (G : / 2 ^ S B = / 2 ^ B / 2) by (rewrite E; field; apply Rgt_not_eq, pow2_pos). rewrite G in A. rewrite E in C. lra.
Qed.
Lemma pos_strict (x : b64) : is_finite_strict x = true -> Bsign x = false -> 0 < B2R x.
Proof. destruct x as [s|s| |s m e H]; try discriminate. cbn. intros _ ->. apply F2R_gt_0. reflexivity. Qed.
Lemma neg_strict (x : b64) : is_finite_strict x = true -> Bsign x = true -> B2R x < 0.
Proof. destruct x as [s|s| |s m e H]; try discriminate. cbn. intros _ ->. apply F2R_lt_0. reflexivity. Qed.
(** Two pairs of doubles on either side of the edge of the feasible region. *)
Definition edge_mu1 : b64 := @B754_finite 53 1024 false 7710162562058289 (-54) eq_refl.
Definition edge_var1 : b64 := @B754_finite 53 1024 false 8820425970994683 (-55) eq_refl.
Definition edge_mu2 : b64 := @B754_finite 53 1024 false 5404319552844595 (-54) eq_refl.
Definition edge_var2 : b64 := @B754_finite 53 1024 false 7566047373982433 (-55) eq_refl.

Lemma C147_mean_variance_pf :
  forall alpha beta amax pa pb pm, between 100 alpha -> between 100 beta -> between 100 amax ->
  let mean := beta_mean (B2R alpha) (B2R beta) (B2R amax) in let variance := beta_variance (B2R alpha) (B2R beta) (B2R amax) in
  (exists vmu vvar, alpha_beta_max_to_mu_var_max (Sc (Fin (B2R alpha)) pa) (Sc (Fin (B2R beta)) pb) (Sc (Fin (B2R amax)) pm) = Ok (vmu, vvar, Sc (Fin (B2R amax)) pm) /\
                    is_num vmu mean /\ is_num vvar variance) /\
  0 < mean /\ 0 < variance /\
  positive_double (mu_of64 alpha beta amax) /\ positive_double (var_of64 alpha beta amax) /\
  Rabs (ln (B2R (mu_of64 alpha beta amax)) - ln mean) <= 3 * (u64 / (1 - u64)) /\
  Rabs (ln (B2R (var_of64 alpha beta amax)) - ln variance) <= 10 * (u64 / (1 - u64)).
Proof.
  intros a b m pa pb pm Ha Hb Hm mean variance. assert (M := mean_pn 100 a b m ltac:(lia) Ha Hb Hm). assert (V := variance_pn 100 a b m ltac:(lia) Ha Hb Hm). fold mean in M. fold variance in V.
  assert (P := pow2_inv_pos 100). destruct Ha as [Fa Ha]. destruct Hb as [Fb Hb]. destruct Hm as [Fm Hm].
  destruct (pn_pos _ _ _ _ M) as [M0 M1]. destruct (pn_pos _ _ _ _ V) as [V0 V1]. destruct M as (FM & NM & _). destruct V as (FV & NV & _). split.
  - destruct (a2m_scalar (B2R a) (B2R b) (B2R m) pa pb pm) as [f1 [f2 E]]; try lra. do 2 eexists. split; [exact E|]. split; eexists; (apply f_equal2; [apply f_equal; unfold mean, variance, beta_mean, beta_variance; field; lra|reflexivity]).
  - do 2 (split; [assumption|]). do 2 (split; [split; assumption|]). split.
    + assert (N := near_ln _ _ _ M0 NM). replace (INR 3) with 3 in N by (simpl; lra). exact N.
    + assert (N := near_ln _ _ _ V0 NV). replace (INR 10) with 10 in N by (simpl; lra). exact N.
Qed.

Lemma C147_alpha_beta_pf :
  forall mu var amax qm qv qa s, between 150 mu -> between 150 var -> between 150 amax -> B2R mu < B2R amax ->
  let alpha := beta_alpha (B2R mu) (B2R var) (B2R amax) in let beta := beta_beta (B2R mu) (B2R var) (B2R amax) in
  let m := B2R mu / B2R amax in let v := B2R var / B2R amax ^ 2 in
  let err_alpha := 24 * u64 * (m ^ 2 / v + m) in let err_beta := 24 * u64 * (m / v + 1) in
  let alpha' := B2R (alpha_of64 mu var amax) in let beta' := B2R (beta_of64 mu var amax) in
  (exists va vb, mu_var_max_to_alpha_beta_max (VNum (Fin (B2R mu)) qm) (VNum (Fin (B2R var)) qv) (VNum (Fin (B2R amax)) qa) s = (s, Ok (va, vb)) /\ is_num va alpha /\ is_num vb beta) /\
  is_finite (alpha_of64 mu var amax) = true /\ is_finite (beta_of64 mu var amax) = true /\
  Rabs (alpha' - alpha) <= err_alpha /\ Rabs (beta' - beta) <= err_beta /\
  (err_alpha < alpha -> err_beta < beta -> 0 < alpha' /\ 0 < beta') /\
  (alpha < - err_alpha -> alpha' < 0) /\ (beta < - err_beta -> beta' < 0).
Proof.
  intros mu var amax qm qv qa s Hm Hv Ha L alpha beta m v err_alpha err_beta alpha' beta'.
  destruct (alpha_err mu var amax Hm Hv Ha L) as [FA EA]. destruct (beta_err mu var amax Hm Hv Ha L) as [FB EB]. fold m v err_alpha alpha alpha' in EA. fold m v err_beta beta beta' in EB.
  assert (P := pow2_inv_pos 150). destruct Hm as [Fm Hm]. destruct Hv as [Fv Hv]. destruct Ha as [Fa Ha]. split.
  - destruct (m2a_scalar s (B2R mu) (B2R var) (B2R amax) qm qv qa) as [f1 [f2 E]]; try lra. do 2 eexists. split; [exact E|]. split; eexists; (apply f_equal2; [apply f_equal; unfold m2a_alpha, m2a_beta, alpha, beta, beta_alpha, beta_beta; cbv zeta; field; lra|reflexivity]).
  - do 2 (split; [assumption|]). split; [exact EA|]. split; [exact EB|]. apply Rabs_le_between in EA. apply Rabs_le_between in EB. split; [intros; split; lra|]. split; intros; lra.
Qed.

Lemma C147_round_trip_pf :
  forall alpha beta amax, between 20 alpha -> between 20 beta -> between 20 amax ->
  let mu := mu_of64 alpha beta amax in let var := var_of64 alpha beta amax in
  let a := B2R alpha in let b := B2R beta in
  is_finite (alpha_of64 mu var amax) = true /\ is_finite (beta_of64 mu var amax) = true /\
  Rabs (B2R (alpha_of64 mu var amax) - a) <= 80 * u64 * (a * (a + b + 1) / b) /\
  Rabs (B2R (beta_of64 mu var amax) - b) <= 80 * u64 * ((a + b) * (a + b + 1) / b).
Proof.
  intros alpha beta amax Ha Hb Hm mu var a b. assert (M := mean_pn 20 _ _ _ ltac:(lia) Ha Hb Hm). assert (V := variance_pn 20 _ _ _ ltac:(lia) Ha Hb Hm). fold mu a b in M. fold var a b in V. set (c := B2R amax) in *.
  destruct u_small as (U0 & U1 & _). assert (U2 : u64 <= / 2 ^ 53) by (unfold u64; lra).
  assert (P := pow2_inv_pos 20). assert (Ba := proj2 Ha). assert (Bb := proj2 Hb). assert (Bc := proj2 Hm). fold a in Ba. fold b in Bb. fold c in Bc.
  assert (Bmu : between 150 mu) by (apply (between_near 3 61 _ _ 150 ltac:(lia) ltac:(lia) M)). assert (Bvar : between 150 var) by (apply (between_near 10 144 _ _ 150 ltac:(lia) ltac:(lia) V)).
  assert (Bam : between 150 amax). { destruct Hm as [Fm Hm]. split; [exact Fm|]. destruct (pow_up 20 150 ltac:(lia)). lra. }
  set (m0 := a / (a + b)). set (v0 := a * b / ((a + b) ^ 2 * (a + b + 1))).
  assert (ab : 0 < a * b) by (apply Rmult_lt_0_compat; lra). assert (ab2 : 0 < (a + b) ^ 2) by (apply pow_lt; lra). assert (ab1 : 0 < (a + b) ^ 2 * (a + b + 1)) by (apply Rmult_lt_0_compat; lra).
  assert (m00 : 0 < m0) by (unfold m0; apply Rdiv_lt_0_compat; lra). assert (v00 : 0 < v0) by (unfold v0; apply Rdiv_lt_0_compat; lra).
  assert (om : 1 - m0 = b / (a + b)) by (unfold m0; field; lra).
  assert (m01 : 8 * u64 <= 1 - m0). { rewrite om. apply Rle_trans with (/ 2 ^ 20 * / 2 ^ 21); [lra|]. unfold Rdiv. assert (E : 2 ^ 21 = 2 * 2 ^ 20) by reflexivity. apply Rmult_le_compat; try lra. apply Rinv_le_contravar; lra. }
  destruct (pn_pos _ _ _ _ M) as [M0 M1]. destruct (pn_pos _ _ _ _ V) as [V0 V1].
  assert (c0 : 0 < c) by lra. set (m' := B2R mu / c). set (v' := B2R var / c ^ 2). assert (c2 : 0 < c ^ 2) by (apply pow_lt; exact c0).
  assert (Nm : near 3 m0 m'). { destruct M as (_ & N & _). assert (N' := near_div 3 0 (beta_mean a b c) c (B2R mu) c ltac:(lra) c0 ltac:(lra) c0 N (near_refl c)). replace (beta_mean a b c / c) with m0 in N'; [exact N'|]. unfold beta_mean, m0. field. lra. }
  assert (Nv : near 10 v0 v'). { destruct V as (_ & N & _). assert (N' := near_div 10 0 (beta_variance a b c) (c ^ 2) (B2R var) (c ^ 2) ltac:(lra) c2 ltac:(lra) c2 N (near_refl (c ^ 2))). replace (beta_variance a b c / c ^ 2) with v0 in N'; [exact N'|]. unfold beta_variance, v0. field. split; [lra|]. split; [lra|]. lra. }
  assert (m'0 := near_pos _ _ _ m00 Nm). assert (v'0 := near_pos _ _ _ v00 Nv).
  assert (Em := near_small 3 m0 m' ltac:(lia) ltac:(lra) Nm). replace (INR 3 + 1) with 4 in Em by (simpl; lra).
  assert (um : u64 * m0 <= u64) by (rewrite <- (Rmult_1_r u64) at 2; apply Rmult_le_compat_l; lra).
  assert (m'1 : m' < 1) by (apply Rabs_le_between in Em; lra).
  assert (L : B2R mu < c). { apply Rmult_lt_reg_r with (/ c); [now apply Rinv_0_lt_compat|]. rewrite Rinv_r by lra. exact m'1. }
  destruct (alpha_err mu var amax Bmu Bvar Bam L) as [FA EA]. destruct (beta_err mu var amax Bmu Bvar Bam L) as [FB EB]. fold c in EA, EB. fold m' v' in EA, EB.
  split; [exact FA|]. split; [exact FB|]. clear FA FB M V Bmu Bvar Bam Ha Hb Hm. unfold beta_alpha, beta_beta in EA, EB. cbv zeta in EA, EB. fold m' v' in EA, EB.
  set (X := B2R (alpha_of64 mu var amax)) in *. set (Y := B2R (beta_of64 mu var amax)) in *. clearbody X Y m' v'.
  assert (ea : a = m0 ^ 2 / v0 * (1 - m0) - m0). { unfold m0, v0. field. repeat split; lra. }
  assert (eb : b = m0 / v0 * (1 - m0) ^ 2 - (1 - m0)). { unfold m0, v0. field. repeat split; lra. }
  assert (er : a * (a + b + 1) / b = m0 ^ 2 / v0). { unfold m0, v0. field. repeat split; lra. }
  assert (es : (a + b) * (a + b + 1) / b = m0 / v0). { unfold m0, v0. field. repeat split; lra. }
  assert (vm : v0 <= m0). { unfold v0, m0. replace (a * b / ((a + b) ^ 2 * (a + b + 1))) with (a / (a + b) * (b / (a + b)) * / (a + b + 1)) by (field; lra). fold m0. rewrite <- om.
    assert (I1 : / (a + b + 1) <= 1) by (apply Rle_trans with (/ 1); [apply Rinv_le_contravar; lra|lra]). assert (I0 : 0 < / (a + b + 1)) by (apply Rinv_0_lt_compat; lra).
    apply Rle_trans with (m0 * 1 * 1); [|lra]. apply Rmult_le_compat; try lra; [apply Rmult_le_pos; lra|apply Rmult_le_compat_l; lra]. }
  rewrite er, es. assert (iv := Rinv_0_lt_compat _ v00). assert (s1 : 1 <= m0 / v0). { apply Rmult_le_reg_r with v0; [exact v00|]. unfold Rdiv. rewrite Rmult_assoc, Rinv_l by lra. lra. }
  assert (r1 : m0 <= m0 ^ 2 / v0). { replace (m0 ^ 2 / v0) with (m0 * (m0 / v0)) by (field; lra). rewrite <- (Rmult_1_r m0) at 1. apply Rmult_le_compat_l; lra. }
  assert (Nr : near 16 (m0 ^ 2 / v0) (m' ^ 2 / v')). { replace (m0 ^ 2) with (m0 * m0) by ring. replace (m' ^ 2) with (m' * m') by ring. apply (near_div 6 10); try assumption; try (apply Rmult_le_pos; lra). apply (near_mult 3 3); try lra; assumption. }
  assert (Ns : near 13 (m0 / v0) (m' / v')) by (apply (near_div 3 10); try lra; assumption).
  set (r := m0 ^ 2 / v0) in *. set (s := m0 / v0) in *. assert (r0 : 0 < r) by lra. assert (s0 : 0 < s) by lra.
  assert (Er := near_small 16 r _ ltac:(lia) ltac:(lra) Nr). assert (Es := near_small 13 s _ ltac:(lia) ltac:(lra) Ns). replace (INR 16 + 1) with 17 in Er by (simpl; lra). replace (INR 13 + 1) with 14 in Es by (simpl; lra).
  replace (m' * (m' * (1 - m') / v' - 1)) with (m' ^ 2 / v' * (1 - m') - m') in EA by (field; lra). replace ((1 - m') * (m' * (1 - m') / v' - 1)) with (m' / v' * (1 - m') ^ 2 - (1 - m')) in EB by (field; lra).
  set (r' := m' ^ 2 / v') in *. set (s' := m' / v') in *. clearbody r' s'. rewrite ea at 1. rewrite eb at 1. fold r s. clearbody r s. clear ea eb er es om vm Nr Ns Nm Nv iv.
  assert (Eo : Rabs ((1 - m') - (1 - m0)) <= 4 * u64). { replace (1 - m' - (1 - m0)) with (- (m' - m0)) by ring. rewrite Rabs_Ropp. lra. }
  assert (O1 : Rabs (1 - m0) <= 1) by (apply Rabs_le_between; lra).
  assert (ur : 0 <= u64 * r) by (apply Rmult_le_pos; lra). assert (us : 0 <= u64 * s) by (apply Rmult_le_pos; lra). assert (um0 : 0 <= u64 * m0) by (apply Rmult_le_pos; lra).
  assert (umr : u64 * m0 <= u64 * r) by (apply Rmult_le_compat_l; lra). assert (u1s : u64 * 1 <= u64 * s) by (apply Rmult_le_compat_l; lra).
  assert (uur : u64 * (u64 * r) <= 0.00001 * (u64 * r)) by (apply Rmult_le_compat_r; lra). assert (uus : u64 * (u64 * s) <= 0.00001 * (u64 * s)) by (apply Rmult_le_compat_r; lra). assert (uum : u64 * (u64 * m0) <= 0.00001 * (u64 * m0)) by (apply Rmult_le_compat_r; lra).
  assert (Rr : r' <= 1.001 * r). { apply Rabs_le_between in Er. assert (17 * u64 * r <= 0.001 * r) by (apply Rmult_le_compat_r; lra). lra. }
  assert (Rs : s' <= 1.001 * s). { apply Rabs_le_between in Es. assert (14 * u64 * s <= 0.001 * s) by (apply Rmult_le_compat_r; lra). lra. }
  assert (Rm : m' <= 1.001 * m0). { apply Rabs_le_between in Em. assert (4 * u64 * m0 <= 0.001 * m0) by (apply Rmult_le_compat_r; lra). lra. }
  split.
  - assert (Pr := prod_err _ _ _ _ _ _ r 1 Er Eo ltac:(rewrite Rabs_pos_eq; lra) O1).
    replace (X - (r * (1 - m0) - m0)) with ((X - (r' * (1 - m') - m')) + (r' * (1 - m') - r * (1 - m0)) - (m' - m0)) by ring.
    eapply Rle_trans; [apply Rabs_minus_le|]. assert (T := Rabs_triang (X - (r' * (1 - m') - m')) (r' * (1 - m') - r * (1 - m0))).
    assert (24 * u64 * (r' + m') <= 24 * u64 * (1.001 * r + 1.001 * m0)) by (apply Rmult_le_compat_l; lra). lra.
  - assert (Eoo := prod_err _ _ _ _ _ _ _ _ Eo Eo O1 O1). assert (Eo2 : Rabs ((1 - m') ^ 2 - (1 - m0) ^ 2) <= 8.1 * u64).
    { replace ((1 - m') ^ 2 - (1 - m0) ^ 2) with ((1 - m') * (1 - m') - (1 - m0) * (1 - m0)) by ring. eapply Rle_trans; [exact Eoo|]. assert (4 * u64 * (4 * u64) <= 4 * u64 * 0.01) by (apply Rmult_le_compat_l; lra). lra. }
    assert (O2 : Rabs ((1 - m0) ^ 2) <= 1). { rewrite Rabs_pos_eq by (apply pow2_ge_0). replace 1 with (1 * 1) by ring. replace ((1 - m0) ^ 2) with ((1 - m0) * (1 - m0)) by ring. apply Rmult_le_compat; lra. }
    assert (Pr := prod_err _ _ _ _ _ _ s 1 Es Eo2 ltac:(rewrite Rabs_pos_eq; lra) O2).
    replace (Y - (s * (1 - m0) ^ 2 - (1 - m0))) with ((Y - (s' * (1 - m') ^ 2 - (1 - m'))) + (s' * (1 - m') ^ 2 - s * (1 - m0) ^ 2) - ((1 - m') - (1 - m0))) by ring.
    eapply Rle_trans; [apply Rabs_minus_le|]. assert (T := Rabs_triang (Y - (s' * (1 - m') ^ 2 - (1 - m'))) (s' * (1 - m') ^ 2 - s * (1 - m0) ^ 2)).
    assert (24 * u64 * (s' + 1) <= 24 * u64 * (1.001 * s + 1)) by (apply Rmult_le_compat_l; lra). lra.
Qed.

Lemma C147_admissible_refuted_pf :
  (exists mu var, between 150 mu /\ between 150 var /\ B2R mu < 1 /\ beta_alpha (B2R mu) (B2R var) 1 < 0 /\ beta_beta (B2R mu) (B2R var) 1 < 0 /\
                  0 < B2R (alpha_of64 mu var one64) /\ 0 < B2R (beta_of64 mu var one64)) /\
  (exists mu var, between 150 mu /\ between 150 var /\ B2R mu < 1 /\ 0 < beta_alpha (B2R mu) (B2R var) 1 /\ 0 < beta_beta (B2R mu) (B2R var) 1 /\
                  B2R (alpha_of64 mu var one64) = 0 /\ B2R (beta_of64 mu var one64) < 0).
Proof.
  assert (P := pow_up 3 150 ltac:(lia)). replace (2 ^ 3) with 8 in P by (simpl; lra). destruct P as [P1 P2].
  assert (E : bpow radix2 (-54) = / 18014398509481984) by reflexivity. assert (E' : bpow radix2 (-55) = / 36028797018963968) by reflexivity.
  split.
  - exists edge_mu1, edge_var1. assert (Vm : B2R edge_mu1 = 7710162562058289 * / 18014398509481984) by (rewrite <- E; reflexivity). assert (Vv : B2R edge_var1 = 8820425970994683 * / 36028797018963968) by (rewrite <- E'; reflexivity).
    split; [split; [reflexivity|rewrite Vm; lra]|]. split; [split; [reflexivity|rewrite Vv; lra]|]. split; [rewrite Vm; lra|].
    split; [|split; [|split; apply pos_strict; vm_compute; reflexivity]]; rewrite Vm, Vv; unfold beta_alpha, beta_beta; cbv zeta; lra.
  - exists edge_mu2, edge_var2. assert (Vm : B2R edge_mu2 = 5404319552844595 * / 18014398509481984) by (rewrite <- E; reflexivity). assert (Vv : B2R edge_var2 = 7566047373982433 * / 36028797018963968) by (rewrite <- E'; reflexivity).
    split; [split; [reflexivity|rewrite Vm; lra]|]. split; [split; [reflexivity|rewrite Vv; lra]|]. split; [rewrite Vm; lra|].
    split; [|split; [|split]]; [rewrite Vm, Vv; unfold beta_alpha; cbv zeta; lra|rewrite Vm, Vv; unfold beta_beta; cbv zeta; lra|vm_compute; reflexivity|apply neg_strict; vm_compute; reflexivity].
Qed.

