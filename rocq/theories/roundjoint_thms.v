(** Proofs of the property theorems stated in [Props_roundjoint]. *)
From Coq Require Import Reals ZArith Lra Lia Psatz Bool String.
From Coquelicot Require Import Coquelicot.
From Flocq Require Import Core BinarySingleNaN Relative.
From Coq Require Import List.
From Verif Require Import Xf Py Xf_facts Py_facts Double Double_facts Rounded_model SpecRound RoundedPl_model SpecRoundPl Utils_model Mass_model Spin_model RoundedBeta_model RoundedTn_model RoundedMix_model RoundedJoint_model SpecRoundMix round_thms roundpl_thms roundll_thms roundwin_thms roundtn_thms roundtrap_thms roundmix_thms roundsmooth_thms.
Import ListNotations.
Local Open Scope R_scope.

Lemma tiny_facts : 0 < / 2 ^ 500 <= 1 /\ 2 * (2 * X200 * (/ 2 ^ 500 + / 2 ^ 500) + / 2 ^ 500) + s75 <= / 2 ^ 296 /\ s75 <= / 2 ^ 500 /\ / 2 ^ 296 <= 1 /\ 1000 * / 2 ^ 296 <= / 2 ^ 280 /\ s75 <= / 2 ^ 900 /\ / 2 ^ 296 <= / 2 ^ 280.
Proof.
  unfold s75. rewrite X200_bpow, !pow_bpow_inv. assert (A : bpow radix2 200 * bpow radix2 (- Z.of_nat 500) = bpow radix2 (-300)) by now rewrite <- bpow_plus.
  assert (B : bpow radix2 (- Z.of_nat 500) <= bpow radix2 (-300)) by (apply bpow_le; lia). assert (C : bpow radix2 (-1075) <= bpow radix2 (-300)) by (apply bpow_le; lia). assert (D : bpow radix2 (- Z.of_nat 296) = 16 * bpow radix2 (-300)) by (change 16 with (bpow radix2 4); rewrite <- bpow_plus; reflexivity).
  assert (E : bpow radix2 (- Z.of_nat 280) = 65536 * bpow radix2 (- Z.of_nat 296)) by (change 65536 with (bpow radix2 16); rewrite <- bpow_plus; reflexivity). assert (P := bpow_gt_0 radix2 (-300)). assert (P5 := bpow_gt_0 radix2 (- Z.of_nat 500)).
  assert (ONE : bpow radix2 (-300) <= / 16) by (change (/ 16) with (bpow radix2 (-4)); apply bpow_le; lia).
  repeat split; try lra; apply bpow_le; lia.
Qed.
Lemma pair_ap (y1 y2 : b64) d1 d2 p1 p2 t1 t2 : density_real p1 -> density_real p2 -> 0 <= d1 <= / 2 -> 0 <= d2 <= / 2 -> 0 <= t1 <= / 2 ^ 500 -> 0 <= t2 <= / 2 ^ 500 ->
  is_finite y1 = true /\ ap d1 t1 p1 (B2R y1) -> is_finite y2 = true /\ ap d2 t2 p2 (B2R y2) ->
  is_finite (Bmult mode_NE y1 y2) = true /\ ap (d1 + d2 + 2 * u64) (/ 2 ^ 296) (p1 * p2) (B2R (Bmult mode_NE y1 y2)).
Proof.
  intros P1 P2 D1 D2 T1 T2 A1 A2. destruct tiny_facts as (T0 & TT & _). destruct v64_facts as (U0 & UV & V2 & _). assert (G := X200_ge). assert (A1' := ap_weaken d1 t1 d1 (/ 2 ^ 500) _ _ (Rle_refl _) (proj2 T1) (proj2 A1)). assert (A2' := ap_weaken d2 t2 d2 (/ 2 ^ 500) _ _ (Rle_refl _) (proj2 T2) (proj2 A2)).
  assert (B1 : p1 <= X200) by apply P1. assert (B2 : p2 <= X200) by apply P2. assert (TP : 0 <= / 2 ^ 500 <= 1) by lra.
  destruct (mul_approx _ _ _ _ _ _ _ _ (conj (proj1 A1) A1') (conj (proj1 A2) A2') D1 D2 TP TP B1 B2) as [F A]. split; [exact F|]. eapply ap_weaken; [| |exact A]; lra.
Qed.
Lemma approx_good d t x (y : b64) : density_real x -> approximates d t x y -> is_finite y = true /\ ap d t x (B2R y).
Proof. intros [X _] A. now apply approx_ap. Qed.

Lemma C156_primary_secondary_pf :
  forall m1 m2 p1 p2 y1 y2 d1 d2, is_finite m1 = true -> is_finite m2 = true -> density_real p1 -> density_real p2 -> p1 * p2 <= 2 ^ 200 -> 0 <= d1 -> 0 <= d2 -> d1 + d2 <= / 4 ->
  approximates d1 (/ 2 ^ 500) p1 y1 -> approximates d2 (/ 2 ^ 500) p2 y2 ->
  let exact := if Rle_dec (B2R m2) (B2R m1) then 2 * p1 * p2 else 0 in
  primary_secondary_general (Fin (B2R m1)) (Fin (B2R m2)) (Fin p1) (Fin p2) = Fin exact /\
  approximates (d1 + d2 + 6 * u64) (/ 2 ^ 280) exact (primary_secondary64 m1 m2 y1 y2).
Proof.
  intros m1 m2 p1 p2 y1 y2 d1 d2 F1 F2 P1 P2 PP D1 D2 DD A1 A2 exact. destruct tiny_facts as (T0 & _ & TS & T1 & T280 & _). destruct v64_facts as (U0 & UV & V2 & _). destruct u_small as (_ & U1 & _). assert (G := X200_ge).
  destruct (pair_ap y1 y2 d1 d2 p1 p2 (/ 2 ^ 500) (/ 2 ^ 500) P1 P2 ltac:(lra) ltac:(lra) ltac:(lra) ltac:(lra) (approx_good _ _ _ _ P1 A1) (approx_good _ _ _ _ P2 A2)) as [F A].
  assert (T296 := pow2_inv_pos 296). assert (PN : 0 <= p1 * p2) by (apply Rmult_le_pos; [apply P1|apply P2]). assert (PX : p1 * p2 <= X200) by exact PP.
  split.
  - unfold primary_secondary_general, exact. rewrite fmul_fin. unfold fge. rewrite fle_fin. destruct (Rle_dec (B2R m2) (B2R m1)) as [L|L]; [rewrite Rleb_true by lra|rewrite Rleb_false by lra]; cbn [of_bool]; rewrite !fmul_fin; f_equal; ring.
  - unfold primary_secondary64. rewrite leb_fin by assumption. set (y := Bmult mode_NE y1 y2) in *.
    assert (B : exists b : R, 0 <= b <= 1 /\ exact = p1 * p2 * b * 2 /\ is_finite (if (if Rle_dec (B2R m2) (B2R m1) then true else false) then one64 else zero64) = true /\ ap 0 0 b (B2R (if (if Rle_dec (B2R m2) (B2R m1) then true else false) then one64 else zero64))).
    { unfold exact. destruct one_val as [O1 O2]. destruct (Rle_dec (B2R m2) (B2R m1)); [exists 1; rewrite O2|exists 0; change (B2R zero64) with 0]; unfold ap; rewrite ?Ropp_0, exp_0; (split; [lra|]); (split; [ring|]); (split; [assumption || reflexivity|]); lra. }
    destruct B as (b & B01 & EB & Fb & Ab). rewrite EB. set (w := if (if Rle_dec (B2R m2) (B2R m1) then true else false) then one64 else zero64) in *.
    assert (Q1 : 1 <= X200 <= X200) by lra. assert (Q2 : 1 <= 1 <= X200) by lra. assert (Q3 : 1 <= 2 <= X200). { split; [lra|]. unfold X200. apply Rle_trans with (2 ^ 1); [simpl; lra|apply Rle_pow; [lra|lia]]. }
    destruct (mul_approx2 y w X200 1 _ _ _ _ _ _ (conj F A) (conj Fb Ab) Q1 Q2) as [FM AM]; try lra.
    assert (AM' : ap (d1 + d2 + 4 * u64) (7 * / 2 ^ 296) (p1 * p2 * b) (B2R (Bmult mode_NE y w))). { eapply ap_weaken; [| |exact AM]; [lra|]. assert (S296 : s75 <= / 2 ^ 296) by (unfold s75; rewrite (pow_bpow_inv 296); apply bpow_le; lia). lra. }
    assert (T64 : 7 * / 2 ^ 296 <= 1). { assert (K : / 2 ^ 296 <= / 2 ^ 3) by (apply Rinv_le_contravar; [apply pow_lt; lra|apply Rle_pow; [lra|lia]]). simpl (2 ^ 3) in K. lra. }
    assert (PB : p1 * p2 * b <= X200). { apply Rle_trans with (p1 * p2 * 1); [apply Rmult_le_compat_l; lra|lra]. }
    destruct two_val as [F4 V4]. assert (A4 : ap 0 0 2 (B2R (int64 2))) by (rewrite V4; unfold ap; rewrite Ropp_0, exp_0; lra).
    destruct (mul_approx2 _ (int64 2) X200 2 _ _ _ _ _ _ (conj FM AM') (conj F4 A4) Q1 Q3) as [FN AN]; try lra.
    apply ap_approx; [exact FN|]. eapply ap_weaken; [| |exact AN]; [lra|]. assert (S296 : s75 <= / 2 ^ 296) by (unfold s75; rewrite (pow_bpow_inv 296); apply bpow_le; lia). lra.
Qed.

Lemma C156_power_law_pair_pf :
  forall bk pow log64 m1 m2 alpha beta mmin mmax p1 p2 d1 d2, is_finite m1 = true -> is_finite m2 = true -> density_real p1 -> density_real p2 -> p1 * p2 <= 2 ^ 200 -> 0 <= d1 -> 0 <= d2 -> d1 + d2 <= / 4 ->
  powerlaw bk [] (Fin (B2R m1)) (Fin (- B2R alpha)) (Fin (B2R mmax)) (Fin (B2R mmin)) = Ok (Fin p1) ->
  powerlaw bk [] (Fin (B2R m2)) (Fin (- B2R beta)) (Fin (B2R mmax)) (Fin (B2R mmin)) = Ok (Fin p2) ->
  approximates d1 (/ 2 ^ 500) p1 (powerlaw64 pow log64 m1 (Bopp alpha) mmax mmin) -> approximates d2 (/ 2 ^ 500) p2 (powerlaw64 pow log64 m2 (Bopp beta) mmax mmin) ->
  let exact := if Rle_dec (B2R m2) (B2R m1) then 2 * p1 * p2 else 0 in
  power_law_primary_secondary_independent bk (Fin (B2R m1)) (Fin (B2R m2)) (Fin (B2R alpha)) (Fin (B2R beta)) (Fin (B2R mmin)) (Fin (B2R mmax)) = Ok (Fin exact) /\
  approximates (d1 + d2 + 6 * u64) (/ 2 ^ 280) exact (power_law_pair64 pow log64 m1 m2 alpha beta mmin mmax).
Proof.
  intros bk pow log64 m1 m2 alpha beta mmin mmax p1 p2 d1 d2 F1 F2 P1 P2 PP D1 D2 DD E1 E2 A1 A2 exact.
  destruct (C156_primary_secondary_pf m1 m2 p1 p2 _ _ d1 d2 F1 F2 P1 P2 PP D1 D2 DD A1 A2) as [R0 AA]. split; [|exact AA].
  unfold power_law_primary_secondary_independent. cbn [fopp]. rewrite E1. cbn [bind]. rewrite E2. cbn [bind]. now rewrite R0.
Qed.

Lemma C156_two_component_pair_pf :
  forall bk pow exp64 log64 log1p64 ndtr64 log_ndtr64 c m1 m2 alpha beta mmin mmax lam mpp sigpp gmax p1 q1 p2 q2 d,
  is_finite m1 = true -> is_finite m2 = true -> fraction_double lam -> density_real p1 -> density_real q1 -> density_real p2 -> density_real q2 -> 0 <= d <= / 16 ->
  let pl := powerlaw64 pow log64 in let tn := truncnorm64 exp64 log64 log1p64 ndtr64 log_ndtr64 c in
  powerlaw bk pl_kw (Fin (B2R m1)) (Fin (- B2R alpha)) (Fin (B2R mmax)) (Fin (B2R mmin)) = Ok (Fin p1) ->
  truncnorm bk tn_kw (Fin (B2R m1)) (Fin (B2R mpp)) (Fin (B2R sigpp)) (Fin (B2R gmax)) (Fin (B2R mmin)) = Ok (Fin q1) ->
  powerlaw bk pl_kw (Fin (B2R m2)) (Fin (- B2R beta)) (Fin (B2R mmax)) (Fin (B2R mmin)) = Ok (Fin p2) ->
  truncnorm bk tn_kw (Fin (B2R m2)) (Fin (B2R mpp)) (Fin (B2R sigpp)) (Fin (B2R gmax)) (Fin (B2R mmin)) = Ok (Fin q2) ->
  approximates d 0 p1 (pl m1 (Bopp alpha) mmax mmin) -> approximates d 0 q1 (tn m1 mpp sigpp gmax mmin) ->
  approximates d 0 p2 (pl m2 (Bopp beta) mmax mmin) -> approximates d 0 q2 (tn m2 mpp sigpp gmax mmin) ->
  let s1 := (1 - B2R lam) * p1 + B2R lam * q1 in let s2 := (1 - B2R lam) * p2 + B2R lam * q2 in
  s1 * s2 <= 2 ^ 200 ->
  let exact := if Rle_dec (B2R m2) (B2R m1) then 2 * s1 * s2 else 0 in
  two_component_primary_secondary_independent bk (Fin (B2R m1)) (Fin (B2R m2)) (Fin (B2R alpha)) (Fin (B2R beta)) (Fin (B2R mmin)) (Fin (B2R mmax)) (Fin (B2R lam)) (Fin (B2R mpp)) (Fin (B2R sigpp)) (Fin (B2R gmax)) = Ok (Fin exact) /\
  approximates (2 * d + 18 * u64) (/ 2 ^ 280) exact (two_component_pair64 pow exp64 log64 log1p64 ndtr64 log_ndtr64 c m1 m2 alpha beta mmin mmax lam mpp sigpp gmax).
Proof.
  intros bk pow exp64 log64 log1p64 ndtr64 log_ndtr64 c m1 m2 alpha beta mmin mmax lam mpp sigpp gmax p1 q1 p2 q2 d F1 F2 HL P1 Q1 P2 Q2 D pl tn E1 E2 E3 E4 A1 A2 A3 A4 s1 s2 SS exact.
  assert (D4 : 0 <= d <= / 4) by lra. destruct u_small as (U0 & U1 & _).
  destruct (C153_two_components_pf bk pow exp64 log64 log1p64 ndtr64 log_ndtr64 c m1 alpha mmin mmax lam mpp sigpp gmax p1 q1 d HL P1 Q1 D4 E1 E2 A1 A2) as [R1 B1]. destruct (C153_two_components_pf bk pow exp64 log64 log1p64 ndtr64 log_ndtr64 c m2 beta mmin mmax lam mpp sigpp gmax p2 q2 d HL P2 Q2 D4 E3 E4 A3 A4) as [R2 B2].
  fold s1 in R1, B1. fold s2 in R2, B2.
  assert (MIX : forall p q, density_real p -> density_real q -> density_real ((1 - B2R lam) * p + B2R lam * q)).
  { intros p q [Pa Pb] [Qa Qb]. destruct HL as [_ HL]. assert (K1 : 0 <= (1 - B2R lam) * p) by (apply Rmult_le_pos; lra). assert (K2 : 0 <= B2R lam * q) by (apply Rmult_le_pos; lra). assert (K3 : (1 - B2R lam) * p <= (1 - B2R lam) * 2 ^ 200) by (apply Rmult_le_compat_l; lra). assert (K4 : B2R lam * q <= B2R lam * 2 ^ 200) by (apply Rmult_le_compat_l; lra). split; lra. }
  assert (DD : d + 6 * u64 + (d + 6 * u64) <= / 4) by lra. assert (D0 : 0 <= d + 6 * u64) by lra.
  destruct (C156_primary_secondary_pf m1 m2 s1 s2 _ _ (d + 6 * u64) (d + 6 * u64) F1 F2 (MIX _ _ P1 Q1) (MIX _ _ P2 Q2) SS D0 D0 DD B1 B2) as [R0 AA]. split.
  - unfold two_component_primary_secondary_independent. rewrite R1. cbn [bind]. rewrite R2. cbn [bind]. now rewrite R0.
  - replace (2 * d + 18 * u64) with (d + 6 * u64 + (d + 6 * u64) + 6 * u64) by ring. exact AA.
Qed.

Lemma C156_spin_magnitude_pf :
  forall bk exp64 log64 betaln64 a1 a2 alpha1 alpha2 beta1 beta2 amax1 amax2 p1 p2 d1 d2, density_real p1 -> density_real p2 -> 0 <= d1 -> 0 <= d2 -> d1 + d2 <= / 4 ->
  beta_dist bk ["scale"%string] (Fin (B2R a1)) (Fin (B2R alpha1)) (Fin (B2R beta1)) (Fin (B2R amax1)) = Ok (Fin p1) ->
  beta_dist bk ["scale"%string] (Fin (B2R a2)) (Fin (B2R alpha2)) (Fin (B2R beta2)) (Fin (B2R amax2)) = Ok (Fin p2) ->
  approximates d1 0 p1 (beta_dist64 exp64 log64 betaln64 a1 alpha1 beta1 amax1) -> approximates d2 0 p2 (beta_dist64 exp64 log64 betaln64 a2 alpha2 beta2 amax2) ->
  independent_spin_magnitude_beta bk (Fin (B2R a1)) (Fin (B2R a2)) (Fin (B2R alpha1)) (Fin (B2R alpha2)) (Fin (B2R beta1)) (Fin (B2R beta2)) (Fin (B2R amax1)) (Fin (B2R amax2)) = Ok (Fin (p1 * p2)) /\
  approximates (d1 + d2 + 2 * u64) (/ 2 ^ 900) (p1 * p2) (spin_magnitude64 exp64 log64 betaln64 a1 a2 alpha1 alpha2 beta1 beta2 amax1 amax2).
Proof.
  intros bk exp64 log64 betaln64 a1 a2 alpha1 alpha2 beta1 beta2 amax1 amax2 p1 p2 d1 d2 P1 P2 D1 D2 DD E1 E2 A1 A2. destruct tiny_facts as (_ & _ & _ & _ & _ & T9 & _). destruct v64_facts as (U0 & UV & V2 & _). split.
  - unfold independent_spin_magnitude_beta. rewrite E1. cbn [bind]. rewrite E2. cbn [bind]. now rewrite fmul_fin.
  - assert (B1 : p1 <= X200) by apply P1. assert (B2 : p2 <= X200) by apply P2. destruct (mul_approx _ _ _ _ _ _ _ _ (approx_good _ _ _ _ P1 A1) (approx_good _ _ _ _ P2 A2)) as [F A]; try lra.
    apply ap_approx; [exact F|]. eapply ap_weaken; [| |exact A]; [lra|]. replace (2 * (2 * X200 * (0 + 0) + 0) + s75) with s75 by ring. exact T9.
Qed.

Lemma C156_iid_spin_pf :
  forall bk exp64 log64 log1p64 ndtr64 log_ndtr64 c betaln64 a1 a2 ct1 ct2 xi sigma amax alpha beta p1 p2 q1 q2 d1 d2 d3 d4,
  fraction_double xi -> density_real p1 -> density_real p2 -> density_real q1 -> density_real q2 -> p1 * p2 <= 2 ^ 200 -> q1 * q2 <= 2 ^ 200 ->
  0 <= d1 -> 0 <= d2 -> 0 <= d3 -> 0 <= d4 -> d1 + d2 + d3 + d4 <= / 4 ->
  let tn := fun x => truncnorm64 exp64 log64 log1p64 ndtr64 log_ndtr64 c x one64 sigma one64 (Bopp one64) in
  let bd := fun x => beta_dist64 exp64 log64 betaln64 x alpha beta amax in
  beta_dist bk ["scale"%string] (Fin (B2R a1)) (Fin (B2R alpha)) (Fin (B2R beta)) (Fin (B2R amax)) = Ok (Fin p1) ->
  beta_dist bk ["scale"%string] (Fin (B2R a2)) (Fin (B2R alpha)) (Fin (B2R beta)) (Fin (B2R amax)) = Ok (Fin p2) ->
  truncnorm bk [] (Fin (B2R ct1)) (Fin 1) (Fin (B2R sigma)) (Fin 1) (Fin (-1)) = Ok (Fin q1) ->
  truncnorm bk [] (Fin (B2R ct2)) (Fin 1) (Fin (B2R sigma)) (Fin 1) (Fin (-1)) = Ok (Fin q2) ->
  approximates d1 0 p1 (bd a1) -> approximates d2 0 p2 (bd a2) -> approximates d3 0 q1 (tn ct1) -> approximates d4 0 q2 (tn ct2) ->
  let exact := ((1 - B2R xi) / 4 + B2R xi * (q1 * q2)) * (p1 * p2) in
  iid_spin bk (Fin (B2R a1)) (Fin (B2R a2)) (Fin (B2R ct1)) (Fin (B2R ct2)) (Fin (B2R xi)) (Fin (B2R sigma)) (Fin (B2R amax)) (Fin (B2R alpha)) (Fin (B2R beta)) = Ok (Fin exact) /\
  approximates (d1 + d2 + d3 + d4 + 10 * u64) (/ 2 ^ 280) exact (iid_spin64 exp64 log64 log1p64 ndtr64 log_ndtr64 c betaln64 a1 a2 ct1 ct2 xi sigma amax alpha beta).
Proof.
  intros bk exp64 log64 log1p64 ndtr64 log_ndtr64 c betaln64 a1 a2 ct1 ct2 xi sigma amax alpha beta p1 p2 q1 q2 d1 d2 d3 d4 HX P1 P2 Q1 Q2 PP QQ D1 D2 D3 D4 DD tn bd E1 E2 E3 E4 A1 A2 A3 A4 exact.
  destruct tiny_facts as (T0 & _ & TS & T1 & T280 & T9 & T29). destruct v64_facts as (U0 & UV & V2 & _). destruct u_small as (_ & U1 & _). destruct one_val as [O1 O2]. assert (G := X200_ge).
  assert (D12 : d1 + d2 <= / 4) by lra. assert (D34 : d3 + d4 <= / 4) by lra.
  destruct (C156_spin_magnitude_pf bk exp64 log64 betaln64 a1 a2 alpha alpha beta beta amax amax p1 p2 d1 d2 P1 P2 D1 D2 D12 E1 E2 A1 A2) as [RM AM].
  assert (E3' : truncnorm bk [] (Fin (B2R ct1)) (Fin (B2R one64)) (Fin (B2R sigma)) (Fin 1) (Fin (-1)) = Ok (Fin q1)) by (rewrite O2; exact E3). assert (E4' : truncnorm bk [] (Fin (B2R ct2)) (Fin (B2R one64)) (Fin (B2R sigma)) (Fin 1) (Fin (-1)) = Ok (Fin q2)) by (rewrite O2; exact E4).
  destruct (C153_spin_orientation_pf bk exp64 log64 log1p64 ndtr64 log_ndtr64 c ct1 ct2 xi sigma sigma one64 one64 q1 q2 d3 d4 HX Q1 Q2 D3 D4 D34 E3' E4' A3 A4) as [RO AO]. specialize (AO QQ). rewrite O2 in RO.
  set (o := (1 - B2R xi) / 4 + B2R xi * (q1 * q2)) in *. assert (QN : 0 <= q1 * q2) by (apply Rmult_le_pos; [apply Q1|apply Q2]). assert (PN : 0 <= p1 * p2) by (apply Rmult_le_pos; [apply P1|apply P2]).
  assert (DO : density_real o). { destruct HX as [_ HX]. assert (K : 0 <= B2R xi * (q1 * q2)) by (apply Rmult_le_pos; lra). assert (K2 : B2R xi * (q1 * q2) <= B2R xi * 2 ^ 200) by (apply Rmult_le_compat_l; lra). unfold X200 in G. assert (K3 : (1 - B2R xi) * 1 <= (1 - B2R xi) * 2 ^ 200) by (apply Rmult_le_compat_l; lra). unfold o. split; lra. }
  assert (DP : density_real (p1 * p2)) by (split; assumption). split.
  - unfold iid_spin, iid_spin_orientation_gaussian_isotropic, iid_spin_magnitude_beta. rewrite RO. cbn [bind]. rewrite RM. cbn [bind]. now rewrite fmul_fin.
  - assert (T900 : / 2 ^ 900 <= / 2 ^ 500) by (apply Rinv_le_contravar; [apply pow_lt; lra|apply Rle_pow; [lra|lia]]). assert (T900' := pow2_inv_pos 900).
    assert (K1 : 0 <= d3 + d4 + 6 * u64 <= / 2) by lra. assert (K2 : 0 <= d1 + d2 + 2 * u64 <= / 2) by lra. assert (K3 : 0 <= / 2 ^ 500 <= / 2 ^ 500) by lra. assert (K4 : 0 <= / 2 ^ 900 <= / 2 ^ 500) by lra.
    destruct (pair_ap _ _ _ _ o (p1 * p2) (/ 2 ^ 500) (/ 2 ^ 900) DO DP K1 K2 K3 K4 (approx_good _ _ _ _ DO AO) (approx_good _ _ _ _ DP AM)) as [F A].
    apply ap_approx; [exact F|]. eapply ap_weaken; [| |exact A]; lra.
Qed.

