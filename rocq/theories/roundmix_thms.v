(** Proofs of the property theorems stated in [Props_roundmix]. *)
From Coq Require Import Reals ZArith Lra Lia Psatz Bool String.
From Coquelicot Require Import Coquelicot.
From Flocq Require Import Core BinarySingleNaN Relative.
From Coq Require Import List.
From Verif Require Import Xf Py Xf_facts Double Double_facts Rounded_model SpecRound RoundedPl_model SpecRoundPl RoundedTn_model Utils_model Mass_model Spin_model RoundedMix_model SpecRoundMix round_thms roundpl_thms roundll_thms roundwin_thms roundtn_thms.
Import ListNotations.
Local Open Scope R_scope.

Definition s75 : R := bpow radix2 (-1075).
Lemma s75_pos : 0 < s75. Proof. apply bpow_gt_0. Qed.
Definition X200 : R := 2 ^ 200.
Lemma X200_ge : 1 <= X200. Proof. apply pow_R1_Rle. lra. Qed.
(** The relation on real numbers. *)
Definition ap (d t x y : R) : Prop := 0 <= x /\ 0 <= y /\ exp (- d) * x - t <= y <= exp d * x + t.
Lemma exp_v : 1 + u64 <= exp v64 /\ exp (- v64) <= 1 - u64.
Proof.
  assert (U := u64_pos). destruct v64_facts as (_ & UV & _). destruct u_small as (_ & U1 & _). assert (E := exp_ineq1_le v64). split; [lra|]. rewrite exp_Ropp. assert (K : / (1 + v64) = 1 - u64). { unfold v64. field. lra. }
  rewrite <- K. apply Rinv_le_contravar; lra.
Qed.
Lemma exp_half d : d <= / 2 -> exp d <= 2.
Proof. intros D. assert (E3 := exp_le_3). replace 1 with (/ 2 + / 2) in E3 by field. rewrite exp_plus in E3. assert (P := exp_pos (/ 2)). assert (Q : exp d <= exp (/ 2)) by (destruct D as [D| ->]; [left; now apply exp_increasing|right; reflexivity]). nra. Qed.
Lemma exp_mono a b : a <= b -> exp a <= exp b.
Proof. intros [H| ->]; [left; now apply exp_increasing|right; reflexivity]. Qed.
Lemma exp_le_one d : 0 <= d -> exp (- d) <= 1.
Proof. intros D. rewrite <- exp_0. apply exp_mono. lra. Qed.
Lemma ap_weaken d t d' t' x y : d <= d' -> t <= t' -> ap d t x y -> ap d' t' x y.
Proof.
  intros D T (X & Y & A & B). split; [exact X|]. split; [exact Y|]. assert (E := exp_mono _ _ D). assert (E' : exp (- d') <= exp (- d)) by (apply exp_mono; lra).
  assert (K1 := Rmult_le_compat_r x _ _ X E). assert (K2 := Rmult_le_compat_r x _ _ X E'). lra.
Qed.
Lemma ap_plus d t t' x y x' y' : ap d t x y -> ap d t' x' y' -> ap d (t + t') (x + x') (y + y').
Proof. intros (X & Y & A & B) (X' & Y' & A' & B'). unfold ap. rewrite !Rmult_plus_distr_l. lra. Qed.
Lemma ap_rnd d t x y : 0 <= t -> ap d t x y -> ap (d + v64) (2 * t + s75) x (rnd64 y).
Proof.
  intros T (X & Y & A & B). destruct exp_v as [E1 E2]. destruct u_small as (U & U1 & _). assert (S := s75_pos). assert (R0 := rnd_err y). fold s75 in R0. rewrite (Rabs_pos_eq y) in R0 by exact Y. apply Rabs_le_between in R0.
  split; [exact X|]. split; [apply rnd_lower; [apply zero_double|exact Y]|]. assert (P := exp_pos d). assert (P' := exp_pos (- d)). assert (Q := exp_pos v64).
  replace (exp (- (d + v64))) with (exp (- d) * exp (- v64)) by (rewrite <- exp_plus; f_equal; ring). rewrite exp_plus.
  assert (M1 : 0 <= exp d * x) by (apply Rmult_le_pos; lra). assert (M2 : 0 <= exp (- d) * x) by (apply Rmult_le_pos; lra).
  assert (K1 : (exp d * x) * (1 + u64) <= (exp d * x) * exp v64) by (apply Rmult_le_compat_l; lra). assert (K2 : (exp (- d) * x) * exp (- v64) <= (exp (- d) * x) * (1 - u64)) by (apply Rmult_le_compat_l; lra).
  assert (K3 : (1 + u64) * y <= (1 + u64) * (exp d * x + t)) by (apply Rmult_le_compat_l; lra). assert (K4 : (1 - u64) * (exp (- d) * x - t) <= (1 - u64) * y) by (apply Rmult_le_compat_l; lra). assert (K5 : u64 * t <= 1 * t) by (apply Rmult_le_compat_r; lra). assert (K6 : 0 <= u64 * t) by (apply Rmult_le_pos; lra).
  split; lra.
Qed.
Lemma ap_mult d t x y d' t' x' y' : 0 <= d <= / 2 -> 0 <= d' <= / 2 -> 0 <= t <= 1 -> 0 <= t' <= 1 -> x <= X200 -> x' <= X200 -> ap d t x y -> ap d' t' x' y' -> ap (d + d') (2 * X200 * (t + t') + t) (x * x') (y * y').
Proof.
  intros D D' T T' BX BX' (X & Y & A & B) (X' & Y' & A' & B'). assert (G := X200_ge). split; [now apply Rmult_le_pos|]. split; [now apply Rmult_le_pos|].
  assert (E := exp_half d ltac:(lra)). assert (E' := exp_half d' ltac:(lra)). assert (F := exp_le_one d ltac:(lra)). assert (F' := exp_le_one d' ltac:(lra)). assert (P1 := exp_pos d). assert (P2 := exp_pos d'). assert (P3 := exp_pos (- d)). assert (P4 := exp_pos (- d')).
  replace (exp (- (d + d'))) with (exp (- d) * exp (- d')) by (rewrite <- exp_plus; f_equal; ring). rewrite exp_plus.
  set (a := exp (- d) * x) in *. set (b := exp (- d') * x') in *. set (c := exp d * x) in *. set (e := exp d' * x') in *.
  replace (exp (- d) * exp (- d') * (x * x')) with (a * b) by (unfold a, b; ring). replace (exp d * exp d' * (x * x')) with (c * e) by (unfold c, e; ring).
  assert (a0 : 0 <= a <= X200). { split; [apply Rmult_le_pos; lra|]. apply Rle_trans with (1 * x); [apply Rmult_le_compat_r; lra|lra]. }
  assert (b0 : 0 <= b <= X200). { split; [apply Rmult_le_pos; lra|]. apply Rle_trans with (1 * x'); [apply Rmult_le_compat_r; lra|lra]. }
  assert (c0 : 0 <= c <= 2 * X200). { split; [apply Rmult_le_pos; lra|]. apply Rle_trans with (2 * x); [apply Rmult_le_compat_r; lra|lra]. }
  assert (e0 : 0 <= e <= 2 * X200). { split; [apply Rmult_le_pos; lra|]. apply Rle_trans with (2 * x'); [apply Rmult_le_compat_r; lra|lra]. }
  split.
  - assert (Z1 : a * t' <= X200 * t') by (apply Rmult_le_compat_r; lra). assert (Z2 : b * t <= X200 * t) by (apply Rmult_le_compat_r; lra). assert (Z3 : 0 <= y * y') by now apply Rmult_le_pos.
    assert (Z4 : 0 <= X200 * t) by (apply Rmult_le_pos; lra). assert (Z5 : 0 <= X200 * t') by (apply Rmult_le_pos; lra). assert (Z6 : 0 <= t * t') by (apply Rmult_le_pos; lra).
    destruct (Rle_dec a t) as [L|L].
    + assert (Z7 : a * b <= t * b) by (apply Rmult_le_compat_r; lra). lra.
    + assert (Z7 : (a - t) * (b - t') <= (a - t) * y') by (apply Rmult_le_compat_l; lra). assert (Z8 : (a - t) * y' <= y * y') by (apply Rmult_le_compat_r; lra). lra.
  - assert (Z1 : y * y' <= (c + t) * (e + t')) by (apply Rmult_le_compat; lra). assert (Z2 : c * t' <= 2 * X200 * t') by (apply Rmult_le_compat_r; lra). assert (Z3 : e * t <= 2 * X200 * t) by (apply Rmult_le_compat_r; lra). assert (Z4 : t * t' <= t * 1) by (apply Rmult_le_compat_l; lra). lra.
Qed.
(** The relation on doubles. *)
Lemma approx_ap d t x y : 0 <= x -> approximates d t x y -> is_finite y = true /\ ap d t x (B2R y).
Proof. intros X (F & Y & H). split; [exact F|]. split; [exact X|]. now split. Qed.
Lemma ap_approx d t x y : is_finite y = true -> ap d t x (B2R y) -> approximates d t x y.
Proof. intros F (X & Y & H). split; [exact F|]. now split. Qed.
Lemma X200_bpow : X200 = bpow radix2 200. Proof. exact (pow_bpow 200). Qed.
Lemma ap_bound d t x y : d <= / 2 -> t <= 1 -> x <= X200 -> ap d t x y -> 0 <= y <= 4 * X200.
Proof. intros D T BX (X & Y & _ & B). assert (E := exp_half d D). assert (G := X200_ge). assert (K : exp d * x <= 2 * x) by (apply Rmult_le_compat_r; lra). lra. Qed.
Lemma fin_small x : 0 <= x <= 16 * (X200 * X200) -> Rabs (rnd64 x) < bpow radix2 1024.
Proof. intros [A B]. apply (double_abs x (bpow radix2 404)); [apply bd; lia|exact A|]. rewrite X200_bpow, <- bpow_plus in B. change (200 + 200)%Z with 400%Z in B. replace (bpow radix2 404) with (16 * bpow radix2 400); [exact B|]. change 404%Z with (4 + 400)%Z. now rewrite bpow_plus. Qed.
Lemma mul_approx (y y' : b64) d t x d' t' x' :
  is_finite y = true /\ ap d t x (B2R y) -> is_finite y' = true /\ ap d' t' x' (B2R y') -> 0 <= d <= / 2 -> 0 <= d' <= / 2 -> 0 <= t <= 1 -> 0 <= t' <= 1 -> x <= X200 -> x' <= X200 ->
  is_finite (Bmult mode_NE y y') = true /\ ap (d + d' + v64) (2 * (2 * X200 * (t + t') + t) + s75) (x * x') (B2R (Bmult mode_NE y y')).
Proof.
  intros [F A] [F' A'] D D' T T' BX BX'. assert (G := X200_ge). assert (B1 := ap_bound _ _ _ _ (proj2 D) (proj2 T) BX A). assert (B2 := ap_bound _ _ _ _ (proj2 D') (proj2 T') BX' A').
  destruct (Bmult_fin y y' F F') as [FM V]. { apply fin_small. split; [apply Rmult_le_pos; lra|]. apply Rle_trans with (4 * X200 * (4 * X200)); [apply Rmult_le_compat; lra|lra]. }
  split; [exact FM|]. rewrite V. apply ap_rnd; [|now apply ap_mult]. assert (K : 0 <= 2 * X200 * (t + t')) by (apply Rmult_le_pos; lra). lra.
Qed.
Lemma add_approx (y y' : b64) d t x t' x' :
  is_finite y = true /\ ap d t x (B2R y) -> is_finite y' = true /\ ap d t' x' (B2R y') -> 0 <= d <= / 2 -> 0 <= t <= 1 -> 0 <= t' <= 1 -> x <= 2 * X200 -> x' <= 2 * X200 ->
  is_finite (Bplus mode_NE y y') = true /\ ap (d + v64) (2 * (t + t') + s75) (x + x') (B2R (Bplus mode_NE y y')).
Proof.
  intros [F A] [F' A'] D T T' BX BX'. assert (G := X200_ge). assert (E := exp_half d (proj2 D)).
  assert (B1 : 0 <= B2R y <= 5 * X200). { destruct A as (X & Y & _ & B). assert (K : exp d * x <= 2 * x) by (apply Rmult_le_compat_r; lra). lra. }
  assert (B2 : 0 <= B2R y' <= 5 * X200). { destruct A' as (X & Y & _ & B). assert (K : exp d * x' <= 2 * x') by (apply Rmult_le_compat_r; lra). lra. }
  destruct (Bplus_fin y y' F F') as [FM V]. { apply fin_small. split; [lra|]. assert (K : X200 * 1 <= X200 * X200) by (apply Rmult_le_compat_l; lra). lra. }
  split; [exact FM|]. rewrite V. apply ap_rnd; [lra|now apply ap_plus].
Qed.
Lemma exact_ap (y : b64) x : is_finite y = true -> 0 <= x -> B2R y = x -> is_finite y = true /\ ap 0 0 x (B2R y).
Proof. intros F X V. split; [exact F|]. rewrite V. unfold ap. rewrite Ropp_0, exp_0. lra. Qed.
Lemma fraction_ap (l : b64) : fraction_double l -> is_finite l = true /\ ap 0 0 (B2R l) (B2R l).
Proof. intros [F H]. apply exact_ap; [exact F|lra|reflexivity]. Qed.
Lemma rest_ap (l : b64) : fraction_double l -> is_finite (Bminus mode_NE one64 l) = true /\ ap v64 0 (1 - B2R l) (B2R (Bminus mode_NE one64 l)).
Proof.
  intros [F H]. destruct one_val as [F1 V1]. destruct u_small as (U & U1 & _). destruct exp_v as [E1 E2]. destruct (Bminus_fin one64 l F1 F) as [FM V]. { rewrite V1. apply (double_abs _ 1); [apply one_double|lra|lra]. }
  split; [exact FM|]. rewrite V, V1. assert (R0 := rnd_minus_err 1 (B2R l) one_double (B2R_double l)). rewrite (Rabs_pos_eq (1 - B2R l)) in R0 by lra. apply Rabs_le_between in R0. set (w := 1 - B2R l) in *. assert (W : 0 <= w) by (unfold w; lra).
  split; [exact W|]. split; [apply rnd_lower; [apply zero_double|exact W]|]. assert (K1 := Rmult_le_compat_r w _ _ W E1). assert (K2 := Rmult_le_compat_r w _ _ W E2). lra.
Qed.
Lemma four_val : is_finite (int64 4) = true /\ B2R (int64 4) = 4.
Proof. destruct (int64_val 4) as [F V]; [lia|]. split; [exact F|]. rewrite V. simpl. lra. Qed.
Lemma quarter_ap (y : b64) d x : is_finite y = true /\ ap d 0 x (B2R y) -> x <= 1 -> d <= / 2 -> is_finite (Bdiv mode_NE y (int64 4)) = true /\ ap (d + v64) (2 * 0 + s75) (x / 4) (B2R (Bdiv mode_NE y (int64 4))).
Proof.
  intros [F A] X1 D. destruct four_val as [F4 V4]. assert (G := X200_ge). assert (B := ap_bound d 0 x _ D ltac:(lra) ltac:(lra) A). destruct (Bdiv_fin y (int64 4) F) as [FM V]. { rewrite V4. lra. } { rewrite V4. apply fin_small. assert (K : X200 * 1 <= X200 * X200) by (apply Rmult_le_compat_l; lra). lra. }
  split; [exact FM|]. rewrite V, V4. apply ap_rnd; [lra|]. destruct A as (XX & Y & A1 & A2). unfold ap. lra.
Qed.
Lemma s75_tiny t : t <= 2 ^ 500 -> s75 * t <= / 2 ^ 500.
Proof. intros T. assert (S := s75_pos). rewrite (pow_bpow_inv 500). rewrite (pow_bpow 500) in T. apply Rle_trans with (bpow radix2 (-1075) * bpow radix2 500). { apply Rmult_le_compat_l; [unfold s75 in S; lra|exact T]. } rewrite <- bpow_plus. apply bpow_le. lia. Qed.
Lemma X_small : 100 * X200 <= 2 ^ 500 /\ 100 <= 2 ^ 500.
Proof. unfold X200. assert (P : 2 ^ 7 = 128) by (simpl; lra). assert (A : 2 ^ 7 * 2 ^ 200 <= 2 ^ 500) by (rewrite <- pow_add; apply Rle_pow; [lra|lia]). assert (B : 1 <= 2 ^ 200) by (apply pow_R1_Rle; lra). rewrite P in A. lra. Qed.
Lemma s75_one : s75 <= / 1000000. Proof. unfold s75. apply Rle_trans with (bpow radix2 (-20)); [apply bpow_le; lia|]. rewrite b20. lra. Qed.
Lemma sX_one : s75 * X200 <= / 1000000.
Proof. rewrite X200_bpow. unfold s75. rewrite <- bpow_plus. apply Rle_trans with (bpow radix2 (-20)); [apply bpow_le; lia|]. rewrite b20. lra. Qed.
Lemma mix_le l p q : 0 <= l <= 1 -> p <= X200 -> q <= X200 -> (1 - l) * p + l * q <= X200.
Proof. intros L P Q. assert (A : (1 - l) * p <= (1 - l) * X200) by (apply Rmult_le_compat_l; lra). assert (B : l * q <= l * X200) by (apply Rmult_le_compat_l; lra). lra. Qed.

Lemma C153_two_components_pf :
  forall bk pow exp64 log64 log1p64 ndtr64 log_ndtr64 c mass alpha mmin mmax lam mpp sigpp gmax p q d,
  fraction_double lam -> density_real p -> density_real q -> 0 <= d <= / 4 ->
  powerlaw bk pl_kw (Fin (B2R mass)) (Fin (- B2R alpha)) (Fin (B2R mmax)) (Fin (B2R mmin)) = Ok (Fin p) ->
  truncnorm bk tn_kw (Fin (B2R mass)) (Fin (B2R mpp)) (Fin (B2R sigpp)) (Fin (B2R gmax)) (Fin (B2R mmin)) = Ok (Fin q) ->
  approximates d 0 p (powerlaw64 pow log64 mass (Bopp alpha) mmax mmin) ->
  approximates d 0 q (truncnorm64 exp64 log64 log1p64 ndtr64 log_ndtr64 c mass mpp sigpp gmax mmin) ->
  let exact := (1 - B2R lam) * p + B2R lam * q in
  two_component_single bk (Fin (B2R mass)) (Fin (B2R alpha)) (Fin (B2R mmin)) (Fin (B2R mmax)) (Fin (B2R lam)) (Fin (B2R mpp)) (Fin (B2R sigpp)) (Fin (B2R gmax)) = Ok (Fin exact) /\
  approximates (d + 6 * u64) (/ 2 ^ 500) exact (two_component64 pow exp64 log64 log1p64 ndtr64 log_ndtr64 c mass alpha mmin mmax lam mpp sigpp gmax).
Proof.
  intros bk pow exp64 log64 log1p64 ndtr64 log_ndtr64 c mass alpha mmin mmax lam mpp sigpp gmax p q d Hl [P0 P1] [Q0 Q1] D Rp Rq Ap Aq exact. fold X200 in P1, Q1. assert (G := X200_ge). destruct v64_facts as (U0 & UV & V2 & _). destruct u_small as (_ & U1 & _).
  split. { unfold two_component_single. rewrite fopp_fin, Rp. cbn [bind]. rewrite Rq. cbn [bind]. autorewrite with xf. reflexivity. }
  apply (approx_ap _ _ _ _ P0) in Ap. apply (approx_ap _ _ _ _ Q0) in Aq. assert (L := proj2 Hl).
  assert (M1 := mul_approx _ _ _ _ _ _ _ _ (rest_ap lam Hl) Ap ltac:(lra) ltac:(lra) ltac:(lra) ltac:(lra) ltac:(lra) P1).
  assert (M2 := mul_approx _ _ _ _ _ _ _ _ (fraction_ap lam Hl) Aq ltac:(lra) ltac:(lra) ltac:(lra) ltac:(lra) ltac:(lra) Q1).
  assert (S := s75_pos). assert (S1 := s75_one).
  destruct M1 as [F1 M1]. destruct M2 as [F2 M2]. apply (ap_weaken _ _ (d + 2 * v64) s75) in M1; [|lra|lra]. apply (ap_weaken _ _ (d + 2 * v64) s75) in M2; [|lra|lra].
  assert (B1 : (1 - B2R lam) * p <= 1 * X200) by (apply Rmult_le_compat; lra). assert (B2' : B2R lam * q <= 1 * X200) by (apply Rmult_le_compat; lra).
  destruct (add_approx _ _ _ _ _ _ _ (conj F1 M1) (conj F2 M2) ltac:(lra) ltac:(lra) ltac:(lra) ltac:(lra) ltac:(lra)) as [F3 M3].
  apply ap_approx; [exact F3|]. eapply ap_weaken; [| |exact M3]; [lra|]. destruct X_small as [_ XS]. assert (T := s75_tiny 100 XS). lra.
Qed.

Lemma C153_three_components_pf :
  forall bk pow exp64 log64 log1p64 ndtr64 log_ndtr64 c mass alpha mmin mmax lam lam_1 mpp_1 sigpp_1 mpp_2 sigpp_2 gmax p q r d,
  fraction_double lam -> fraction_double lam_1 -> density_real p -> density_real q -> density_real r -> 0 <= d <= / 4 ->
  powerlaw bk pl_kw (Fin (B2R mass)) (Fin (- B2R alpha)) (Fin (B2R mmax)) (Fin (B2R mmin)) = Ok (Fin p) ->
  truncnorm bk tn_kw (Fin (B2R mass)) (Fin (B2R mpp_1)) (Fin (B2R sigpp_1)) (Fin (B2R gmax)) (Fin (B2R mmin)) = Ok (Fin q) ->
  truncnorm bk tn_kw (Fin (B2R mass)) (Fin (B2R mpp_2)) (Fin (B2R sigpp_2)) (Fin (B2R gmax)) (Fin (B2R mmin)) = Ok (Fin r) ->
  approximates d 0 p (powerlaw64 pow log64 mass (Bopp alpha) mmax mmin) ->
  approximates d 0 q (truncnorm64 exp64 log64 log1p64 ndtr64 log_ndtr64 c mass mpp_1 sigpp_1 gmax mmin) ->
  approximates d 0 r (truncnorm64 exp64 log64 log1p64 ndtr64 log_ndtr64 c mass mpp_2 sigpp_2 gmax mmin) ->
  let exact := (1 - B2R lam) * p + B2R lam * (B2R lam_1 * q + (1 - B2R lam_1) * r) in
  three_component_single bk (Fin (B2R mass)) (Fin (B2R alpha)) (Fin (B2R mmin)) (Fin (B2R mmax)) (Fin (B2R lam)) (Fin (B2R lam_1)) (Fin (B2R mpp_1)) (Fin (B2R sigpp_1)) (Fin (B2R mpp_2)) (Fin (B2R sigpp_2)) (Fin (B2R gmax)) = Ok (Fin exact) /\
  approximates (d + 8 * u64) (/ 2 ^ 500) exact (three_component64 pow exp64 log64 log1p64 ndtr64 log_ndtr64 c mass alpha mmin mmax lam lam_1 mpp_1 sigpp_1 mpp_2 sigpp_2 gmax).
Proof.
  intros bk pow exp64 log64 log1p64 ndtr64 log_ndtr64 c mass alpha mmin mmax lam lam_1 mpp_1 sigpp_1 mpp_2 sigpp_2 gmax p q r d Hl Hl1 [P0 P1] [Q0 Q1] [R0 R1] D Rp Rq Rr Ap Aq Ar exact. fold X200 in P1, Q1, R1. assert (G := X200_ge). destruct v64_facts as (U0 & UV & V2 & _). destruct u_small as (_ & U1 & _).
  assert (EX : exact = (1 - B2R lam) * p + B2R lam * B2R lam_1 * q + B2R lam * (1 - B2R lam_1) * r) by (unfold exact; ring).
  split. { unfold three_component_single. rewrite fopp_fin, Rp. cbn [bind]. rewrite Rq. cbn [bind]. rewrite Rr. cbn [bind]. autorewrite with xf. now rewrite EX. }
  apply (approx_ap _ _ _ _ P0) in Ap. apply (approx_ap _ _ _ _ Q0) in Aq. apply (approx_ap _ _ _ _ R0) in Ar. assert (L := proj2 Hl). assert (L1 := proj2 Hl1).
  assert (LL : 0 <= B2R lam * B2R lam_1 <= 1) by (split; [apply Rmult_le_pos; lra|apply Rle_trans with (1 * 1); [apply Rmult_le_compat; lra|lra]]).
  assert (LM : 0 <= B2R lam * (1 - B2R lam_1) <= 1) by (split; [apply Rmult_le_pos; lra|apply Rle_trans with (1 * 1); [apply Rmult_le_compat; lra|lra]]).
  assert (S := s75_pos). assert (S1 := s75_one). assert (SX := sX_one). assert (SX0 : 0 <= s75 * X200) by (apply Rmult_le_pos; lra).
  assert (M1 := mul_approx _ _ _ _ _ _ _ _ (rest_ap lam Hl) Ap ltac:(lra) ltac:(lra) ltac:(lra) ltac:(lra) ltac:(lra) P1).
  assert (M2 := mul_approx _ _ _ _ _ _ _ _ (fraction_ap lam Hl) (fraction_ap lam_1 Hl1) ltac:(lra) ltac:(lra) ltac:(lra) ltac:(lra) ltac:(lra) ltac:(lra)).
  assert (M3 := mul_approx _ _ _ _ _ _ _ _ (fraction_ap lam Hl) (rest_ap lam_1 Hl1) ltac:(lra) ltac:(lra) ltac:(lra) ltac:(lra) ltac:(lra) ltac:(lra)).
  destruct M1 as [F1 M1]. destruct M2 as [F2 M2]. destruct M3 as [F3 M3].
  apply (ap_weaken _ _ v64 s75) in M2; [|lra|lra]. apply (ap_weaken _ _ (2 * v64) s75) in M3; [|lra|lra]. apply (ap_weaken _ _ (d + 2 * v64) s75) in M1; [|lra|lra].
  destruct (mul_approx _ _ _ _ _ _ _ _ (conj F2 M2) Aq ltac:(lra) ltac:(lra) ltac:(lra) ltac:(lra) ltac:(lra) Q1) as [F4 M4].
  destruct (mul_approx _ _ _ _ _ _ _ _ (conj F3 M3) Ar ltac:(lra) ltac:(lra) ltac:(lra) ltac:(lra) ltac:(lra) R1) as [F5 M5].
  set (T := 4 * (s75 * X200) + 3 * s75) in *. assert (T0 : 0 <= T <= / 1000) by (unfold T; lra).
  apply (ap_weaken _ _ (d + 2 * v64) T) in M4; [|lra|unfold T; lra]. apply (ap_weaken _ _ (d + 3 * v64) T) in M5; [|lra|unfold T; lra].
  assert (B1 : (1 - B2R lam) * p <= 1 * X200) by (apply Rmult_le_compat; lra). assert (B2' : B2R lam * B2R lam_1 * q <= 1 * X200) by (apply Rmult_le_compat; lra). assert (B3 : B2R lam * (1 - B2R lam_1) * r <= 1 * X200) by (apply Rmult_le_compat; lra).
  destruct (add_approx _ _ _ _ _ _ _ (conj F1 M1) (conj F4 M4) ltac:(lra) ltac:(lra) ltac:(lra) ltac:(lra) ltac:(lra)) as [F6 M6].
  apply (ap_weaken _ _ (d + 3 * v64) (3 * s75 + 2 * T)) in M6; [|lra|lra].
  destruct (add_approx _ _ _ _ _ _ _ (conj F6 M6) (conj F5 M5) ltac:(lra) ltac:(lra) ltac:(lra) ltac:(lra) ltac:(lra)) as [F7 M7].
  rewrite EX. apply ap_approx; [exact F7|]. eapply ap_weaken; [| |exact M7]; [lra|]. destruct X_small as [XS _]. assert (TT := s75_tiny (100 * X200) XS). assert (K : s75 * 1 <= s75 * X200) by (apply Rmult_le_compat_l; lra). unfold T. lra.
Qed.

Lemma C153_spin_orientation_pf :
  forall bk exp64 log64 log1p64 ndtr64 log_ndtr64 c ct1 ct2 xi sigma_1 sigma_2 mu_1 mu_2 q r d1 d2,
  fraction_double xi -> density_real q -> density_real r -> 0 <= d1 -> 0 <= d2 -> d1 + d2 <= / 4 ->
  truncnorm bk [] (Fin (B2R ct1)) (Fin (B2R mu_1)) (Fin (B2R sigma_1)) (Fin 1) (Fin (-1)) = Ok (Fin q) ->
  truncnorm bk [] (Fin (B2R ct2)) (Fin (B2R mu_2)) (Fin (B2R sigma_2)) (Fin 1) (Fin (-1)) = Ok (Fin r) ->
  approximates d1 0 q (truncnorm64 exp64 log64 log1p64 ndtr64 log_ndtr64 c ct1 mu_1 sigma_1 one64 (Bopp one64)) ->
  approximates d2 0 r (truncnorm64 exp64 log64 log1p64 ndtr64 log_ndtr64 c ct2 mu_2 sigma_2 one64 (Bopp one64)) ->
  let exact := (1 - B2R xi) / 4 + B2R xi * (q * r) in
  independent_spin_orientation_gaussian_isotropic bk (Fin (B2R ct1)) (Fin (B2R ct2)) (Fin (B2R xi)) (Fin (B2R sigma_1)) (Fin (B2R sigma_2)) (Fin (B2R mu_1)) (Fin (B2R mu_2)) = Ok (Fin exact) /\
  (q * r <= 2 ^ 200 -> approximates (d1 + d2 + 6 * u64) (/ 2 ^ 500) exact (spin_orientation64 exp64 log64 log1p64 ndtr64 log_ndtr64 c ct1 ct2 xi sigma_1 sigma_2 mu_1 mu_2)).
Proof.
  intros bk exp64 log64 log1p64 ndtr64 log_ndtr64 c ct1 ct2 xi sigma_1 sigma_2 mu_1 mu_2 q r d1 d2 Hx [Q0 Q1] [R0 R1] D1 D2 D Rq Rr Aq Ar exact. fold X200 in Q1, R1. assert (G := X200_ge). destruct v64_facts as (U0 & UV & V2 & _). destruct u_small as (_ & U1 & _).
  assert (EX : exact = (1 - B2R xi) / 4 + B2R xi * q * r) by (unfold exact; ring).
  split. { unfold independent_spin_orientation_gaussian_isotropic. rewrite Rq. cbn [bind]. rewrite Rr. cbn [bind]. autorewrite with xf. rewrite fdiv_fin by lra. autorewrite with xf. now rewrite EX. }
  intros QR. fold X200 in QR. apply (approx_ap _ _ _ _ Q0) in Aq. apply (approx_ap _ _ _ _ R0) in Ar. assert (L := proj2 Hx).
  assert (S := s75_pos). assert (S1 := s75_one). assert (SX := sX_one). assert (SX0 : 0 <= s75 * X200) by (apply Rmult_le_pos; lra).
  destruct (quarter_ap _ _ _ (rest_ap xi Hx) ltac:(lra) ltac:(lra)) as [F1 M1].
  assert (B1 : 0 <= B2R xi * q <= 1 * X200) by (split; [apply Rmult_le_pos; lra|apply Rmult_le_compat; lra]).
  destruct (mul_approx _ _ _ _ _ _ _ _ (fraction_ap xi Hx) Aq ltac:(lra) ltac:(lra) ltac:(lra) ltac:(lra) ltac:(lra) Q1) as [F2 M2]. apply (ap_weaken _ _ (d1 + v64) s75) in M2; [|lra|lra].
  destruct (mul_approx _ _ _ _ _ _ _ _ (conj F2 M2) Ar ltac:(lra) ltac:(lra) ltac:(lra) ltac:(lra) ltac:(lra) R1) as [F3 M3].
  set (T := 4 * (s75 * X200) + 3 * s75) in *. assert (T0 : 0 <= T <= / 1000) by (unfold T; lra).
  apply (ap_weaken _ _ (d1 + d2 + 2 * v64) T) in M3; [|lra|unfold T; lra]. apply (ap_weaken _ _ (d1 + d2 + 2 * v64) s75) in M1; [|lra|lra].
  assert (B3 : B2R xi * q * r <= 1 * X200) by (rewrite Rmult_assoc; apply Rmult_le_compat; [lra|apply Rmult_le_pos; lra|lra|exact QR]).
  destruct (add_approx _ _ _ _ _ _ _ (conj F1 M1) (conj F3 M3) ltac:(lra) ltac:(lra) ltac:(lra) ltac:(lra) ltac:(lra)) as [F7 M7].
  rewrite EX. apply ap_approx; [exact F7|]. eapply ap_weaken; [| |exact M7]; [lra|]. destruct X_small as [XS _]. assert (TT := s75_tiny (100 * X200) XS). assert (K : s75 * 1 <= s75 * X200) by (apply Rmult_le_compat_l; lra). unfold T. lra.
Qed.

