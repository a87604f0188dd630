(** Proofs of the property theorems stated in [Props_roundtrap]. *)
From Coq Require Import Reals ZArith Lra Lia Psatz Bool.
From Coquelicot Require Import Rcomplements.
From Flocq Require Import Core BinarySingleNaN Relative.
From Coq Require Import List.
From Verif Require Import Xf Py Xf_facts Py_facts Trap_facts Utils_model Double Double_facts Rounded_model SpecRound RoundedTrap_model SpecRoundTrap round_thms.
Import ListNotations.
Local Open Scope R_scope.
Lemma exact_cons y0 y1 y x0 x1 x : exact_trapezoid (y0 :: y1 :: y) (x0 :: x1 :: x) = (x1 - x0) * (y1 + y0) / 2 + exact_trapezoid (y1 :: y) (x1 :: x).
Proof.
  unfold exact_trapezoid. cbn [List.length]. replace (S (S (List.length x)) - 1)%nat with (S (List.length x)) by lia. cbn [seq map]. rewrite rs_cons. f_equal.
  replace (S (List.length x) - 1)%nat with (List.length x) by lia. rewrite <- seq_shift, map_map. reflexivity.
Qed.
Lemma exact_Rtrap y x : List.length y = List.length x -> exact_trapezoid y x = Rtrap y x.
Proof.
  revert x. induction y as [|y0 y IH]; intros [|x0 x] E; try discriminate; [reflexivity|].
  destruct y as [|y1 y], x as [|x1 x]; try discriminate; [reflexivity|].
  rewrite exact_cons, Rtrap_cons. f_equal. apply IH. cbn [List.length] in *. lia.
Qed.
Definition stp (B : nat) (x0 x1 : b64) : Prop := is_finite x0 = true /\ is_finite x1 = true /\ / 2 ^ B <= B2R x1 - B2R x0 <= 2 ^ B.
Definition okv (B : nat) (w : b64) : Prop := is_finite w = true /\ (B2R w = 0 \/ / 2 ^ B <= B2R w <= 2 ^ B).
Lemma okv_nonneg B w : okv B w -> nonneg_double w.
Proof. intros [F H]. split; [exact F|]. assert (P := pow2_inv_pos B). lra. Qed.
Lemma steps_cons B x0 x1 x : steps_within B (x0 :: x1 :: x) -> stp B x0 x1 /\ steps_within B (x1 :: x).
Proof.
  intros [F H]. inversion F as [|? ? F0 F']; subst. inversion F' as [|? ? F1 F'']; subst. split; [split; [exact F0|split; [exact F1|]]|].
  - apply (H 0%nat). cbn; lia.
  - split; [exact F'|]. intros i L. apply (H (S i)). cbn [List.length] in *; lia.
Qed.
Lemma two_val : is_finite (int64 2) = true /\ B2R (int64 2) = 2.
Proof. destruct (int64_val 2 ltac:(lia)) as (A & B). split; [exact A|]. rewrite B. simpl. lra. Qed.
Lemma p2_add a b : 2 ^ (a + b) = 2 ^ a * 2 ^ b.
Proof. apply pow_add. Qed.
Lemma p2_le a b : (a <= b)%nat -> 2 ^ a <= 2 ^ b.
Proof. intros. apply Rle_pow; [lra|assumption]. Qed.
Lemma p2i_le a b : (a <= b)%nat -> / 2 ^ b <= / 2 ^ a.
Proof. intros. apply Rinv_le_contravar; [apply pow2_pos|now apply p2_le]. Qed.
Lemma near1_lo x y : 0 <= x -> near 1 x y -> x / 2 <= y.
Proof. intros X [A _]. rewrite pow_1 in A. assert (U := u64_pos). nra. Qed.
Lemma near1_hi x y : 0 <= y -> near 1 x y -> y <= 2 * x.
Proof. intros X [_ A]. rewrite pow_1 in A. assert (U := u64_pos). nra. Qed.
Lemma near_zero : near 1 0 (rnd64 0).
Proof. rewrite rnd0. unfold near. lra. Qed.
Lemma near_z n : near n 0 0.
Proof. unfold near. lra. Qed.

(** One term: its value is the exact term up to four roundings; zero or far from underflow and overflow. *)
Lemma term_near B x0 x1 y0 y1 : (B <= 400)%nat -> stp B x0 x1 -> okv B y0 -> okv B y1 ->
  let w := Bdiv mode_NE (Bmult mode_NE (Bminus mode_NE x1 x0) (Bplus mode_NE y1 y0)) (int64 2) in
  let e := (B2R x1 - B2R x0) * (B2R y1 + B2R y0) / 2 in
  is_finite w = true /\ 0 <= B2R w /\ near 4 e (B2R w) /\ 0 <= e <= 2 ^ (2 * B) /\ ((B2R y0 <> 0 \/ B2R y1 <> 0) -> / 2 ^ (2 * B + 1) <= e).
Proof.
  intros HB (Fx0 & Fx1 & D) Y0 Y1 w e. assert (N0 := okv_nonneg _ _ Y0). assert (N1 := okv_nonneg _ _ Y1). destruct N0 as [_ N0], N1 as [_ N1].
  destruct Y0 as [Fy0 Y0], Y1 as [Fy1 Y1]. assert (PB := pow2_pos B). assert (QB := pow2_inv_pos B).
  assert (B2' : 2 ^ B <= 2 ^ 400) by now apply p2_le. assert (Q2 : / 2 ^ 400 <= / 2 ^ B) by now apply p2i_le.
  assert (E400 : 2 ^ 400 = bpow radix2 400) by apply (pow_bpow 400). assert (Q400 : / 2 ^ 400 = bpow radix2 (-400)) by apply (pow_bpow_inv 400).
  set (d := B2R x1 - B2R x0) in *. set (h := B2R y1 + B2R y0) in *.
  assert (Hh : h = 0 \/ / 2 ^ B <= h <= 2 * 2 ^ B) by (unfold h; lra).
  assert (L401 : bpow radix2 401 = 2 * bpow radix2 400) by (change 401%Z with (1 + 400)%Z; rewrite bpow_plus; reflexivity).
  assert (G0 := bpow_gt_0 radix2 400). assert (Gm := bpow_gt_0 radix2 (-400)).
  (* difference *)
  destruct (Bminus_fin x1 x0 Fx1 Fx0) as (D1 & D2). { apply small_lt; [fold d; lra|]. fold d. apply Rle_trans with (bpow radix2 400); [lra|apply bpow_le; lia]. } fold d in D2.
  assert (ND : near 1 d (rnd64 d)). { unfold d, Rminus. apply rnd_near_plus; [apply B2R_double|apply opp_double, B2R_double|fold (Rminus (B2R x1) (B2R x0)); fold d; lra]. }
  (* sum *)
  destruct (Bplus_fin y1 y0 Fy1 Fy0) as (S1 & S2). { apply small_lt; fold h; [lra|]. apply Rle_trans with (bpow radix2 401); [lra|apply bpow_le; lia]. } fold h in S2.
  assert (NS : near 1 h (rnd64 h)). { unfold h. apply rnd_near_plus; [apply B2R_double|apply B2R_double|fold h; lra]. }
  set (dd := rnd64 d) in *. set (hh := rnd64 h) in *.
  assert (Pd : 0 <= dd) by (apply rnd_nonneg; lra). assert (Ph : 0 <= hh) by (apply rnd_nonneg; lra).
  assert (Dl := near1_lo d dd ltac:(lra) ND). assert (Du := near1_hi _ _ Pd ND). assert (Hl := near1_lo h hh ltac:(lra) NS). assert (Hu := near1_hi _ _ Ph NS).
  assert (NP : near 2 (d * h) (dd * hh)). { apply (near_mult 1 1); auto; lra. }
  assert (T804 : bpow radix2 804 = 16 * (bpow radix2 400 * bpow radix2 400)) by (rewrite <- bpow_plus; change 804%Z with (4 + (400 + 400))%Z; rewrite bpow_plus; reflexivity).
  assert (Up : dd * hh <= bpow radix2 804).
  { rewrite T804. apply Rle_trans with ((2 * 2 ^ B) * (4 * 2 ^ B)); [apply Rmult_le_compat; lra|]. assert (2 ^ B * 2 ^ B <= bpow radix2 400 * bpow radix2 400) by (apply Rmult_le_compat; lra). assert (0 < bpow radix2 400 * bpow radix2 400) by now apply Rmult_lt_0_compat. lra. }
  assert (Lo : h = 0 \/ bpow radix2 (-803) <= dd * hh).
  { destruct Hh as [Z|Hh]; [now left|right]. replace (bpow radix2 (-803)) with ((bpow radix2 (-400) / 2) * (bpow radix2 (-400) / 2) / 2).
    - assert ((bpow radix2 (-400) / 2) * (bpow radix2 (-400) / 2) <= dd * hh) by (apply Rmult_le_compat; lra). assert (0 <= dd * hh) by now apply Rmult_le_pos. lra.
    - change (-803)%Z with (-3 + (-400 + -400))%Z. rewrite !bpow_plus. change (bpow radix2 (-3)) with (/ 8). field. }
  assert (PP : 0 <= dd * hh) by now apply Rmult_le_pos.
  destruct (Bmult_fin _ _ D1 S1) as (M1 & M2). { rewrite D2, S2. fold dd hh. apply small_lt; [exact PP|]. eapply Rle_trans; [exact Up|]. apply bpow_le; lia. }
  rewrite D2, S2 in M2. fold dd hh in M2.
  assert (NM : near 1 (dd * hh) (rnd64 (dd * hh))).
  { destruct Lo as [Z|Lo]; [|apply rnd_near_normal; eapply Rle_trans; [|exact Lo]; apply bpow_le; lia]. replace (dd * hh) with 0; [apply near_zero|]. unfold hh. rewrite Z, rnd0. ring. }
  set (m := rnd64 (dd * hh)) in *. assert (Pm : 0 <= m) by now apply rnd_nonneg. assert (Ml := near1_lo _ _ PP NM). assert (Mu := near1_hi _ _ Pm NM).
  destruct two_val as (T1 & T2).
  assert (L806 : bpow radix2 806 = 4 * bpow radix2 804) by (change 806%Z with (2 + 804)%Z; rewrite bpow_plus; reflexivity).
  assert (G804 := bpow_gt_0 radix2 804).
  destruct (Bdiv_fin (Bmult mode_NE (Bminus mode_NE x1 x0) (Bplus mode_NE y1 y0)) (int64 2) M1) as (W1 & W2). { rewrite T2; lra. }
  { rewrite M2, T2. fold m. apply small_lt; [lra|]. apply Rle_trans with (bpow radix2 806); [lra|apply bpow_le; lia]. }
  fold w in W1, W2. rewrite M2, T2 in W2. fold m in W2.
  assert (NW : near 1 (m / 2) (rnd64 (m / 2))).
  { destruct Lo as [Z|Lo].
    - assert (Z' : dd * hh = 0) by (unfold hh; rewrite Z, rnd0; ring). assert (m = 0) by (unfold m; rewrite Z'; apply rnd0). replace (m / 2) with 0 by lra. apply near_zero.
    - apply rnd_near_normal. apply Rle_trans with (bpow radix2 (-803) / 4); [|lra]. change (-803)%Z with (2 + -805)%Z. rewrite bpow_plus. change (bpow radix2 2) with 4. assert (bpow radix2 (-1022) <= bpow radix2 (-805)) by (apply bpow_le; lia). lra. }
  split; [exact W1|]. rewrite W2. split; [apply rnd_nonneg; lra|].
  split.
  - apply (near_trans 3 1 e (m / 2)); [|exact NW]. assert (NN := near_trans 2 1 _ _ _ NP NM). destruct NN as [N3 N4]. change (2 + 1)%nat with 3%nat in N3, N4. unfold near, e. set (c := (1 - u64) ^ 3) in *. split; lra.
  - assert (Ph' : 0 <= h) by lra. assert (D0 : 0 <= d) by lra. split; [|].
    + split; [unfold e; assert (0 <= d * h) by (now apply Rmult_le_pos); lra|]. unfold e. assert (d * h <= 2 ^ B * (2 * 2 ^ B)) by (apply Rmult_le_compat; lra). assert (PE : 2 ^ (2 * B) = 2 ^ B * 2 ^ B) by (rewrite <- p2_add; f_equal; lia). rewrite PE. lra.
    + intros NZ. assert (h <> 0) by (unfold h; lra). destruct Hh as [Z|Hh]; [contradiction|]. unfold e. assert (/ 2 ^ B * / 2 ^ B <= d * h) by (apply Rmult_le_compat; lra).
      assert (PE : / 2 ^ (2 * B + 1) = / 2 ^ B * / 2 ^ B / 2). { replace (2 * B + 1)%nat with (B + B + 1)%nat by lia. rewrite !p2_add, pow_1. field. lra. } rewrite PE. lra.
Qed.
Lemma trap_terms_near B y x : (B <= 400)%nat -> List.length y = List.length x -> steps_within B x -> Forall (okv B) y ->
  Forall nonneg_double (trap_terms64 y x) /\ near 4 (exact_trapezoid (reals y) (reals x)) (Rsum (reals (trap_terms64 y x))) /\
  0 <= exact_trapezoid (reals y) (reals x) <= INR (List.length x) * 2 ^ (2 * B) /\ S (List.length (trap_terms64 y x)) = Nat.max 1 (List.length x) /\
  (Exists (fun w : b64 => B2R w <> 0) y -> (1 < List.length x)%nat -> / 2 ^ (2 * B + 1) <= exact_trapezoid (reals y) (reals x)).
Proof.
  intros HB. revert x. induction y as [|y0 y IH]; intros [|x0 x] E SX FY; try discriminate.
  - change (exact_trapezoid (reals []) (reals [])) with 0. change (Rsum (reals (trap_terms64 [] []))) with 0. assert (P2 := pow2_pos (2 * B)). split; [constructor|]. split; [apply near_z|]. split; [simpl (INR _); lra|]. split; [reflexivity|]. intros H; inversion H.
  - destruct y as [|y1 y], x as [|x1 x]; try discriminate.
    + change (exact_trapezoid (reals [y0]) (reals [x0])) with 0. change (Rsum (reals (trap_terms64 [y0] [x0]))) with 0. assert (P2 := pow2_pos (2 * B)). split; [constructor|]. split; [apply near_z|]. split; [simpl (INR _); lra|]. split; [reflexivity|]. intros _ L. exfalso. cbn in L. lia.
    + destruct (steps_cons _ _ _ _ SX) as (S0 & SX'). inversion FY as [|? ? Y0 FY']; subst. inversion FY' as [|? ? Y1 _]; subst.
      destruct (term_near B x0 x1 y0 y1 HB S0 Y0 Y1) as (T1 & T2 & T3 & T4 & T5). destruct (IH (x1 :: x) ltac:(cbn in *; lia) SX' FY') as (I1 & I2 & I3 & I4 & I5).
      change (trap_terms64 (y0 :: y1 :: y) (x0 :: x1 :: x)) with (Bdiv mode_NE (Bmult mode_NE (Bminus mode_NE x1 x0) (Bplus mode_NE y1 y0)) (int64 2) :: trap_terms64 (y1 :: y) (x1 :: x)).
      change (reals (y0 :: y1 :: y)) with (B2R y0 :: B2R y1 :: reals y). change (reals (x0 :: x1 :: x)) with (B2R x0 :: B2R x1 :: reals x). rewrite exact_cons.
      change (B2R y1 :: reals y) with (reals (y1 :: y)). change (B2R x1 :: reals x) with (reals (x1 :: x)).
      split; [constructor; [split; assumption|exact I1]|].
      split. { change (reals (?a :: ?l)) with (B2R a :: reals l). cbn [reals map]. rewrite rs_cons. apply near_plus; [exact T3|exact I2]. }
      split. { change (List.length (x0 :: x1 :: x)) with (S (List.length (x1 :: x))). rewrite S_INR. lra. }
      split. { cbn [List.length] in *. lia. }
      intros X L. destruct I3 as [I3 _], T4 as [T4 _].
      inversion X as [? ? Z|? ? X']; subst.
      * assert (G := T5 (or_introl Z)). lra.
      * inversion X' as [? ? Z|? ? X'']; subst; [assert (G := T5 (or_intror Z)); lra|].
        destruct x as [|x2 x]; [destruct y; [inversion X''|discriminate]|]. assert (G := I5 X' ltac:(cbn; lia)). lra.
Qed.
Lemma sum_trap B y x t : (B <= 400)%nat -> List.length y = List.length x -> steps_within B x -> Forall (okv B) y -> leaves t = trap_terms64 y x -> (Z.of_nat (List.length x) <= 2 ^ 50)%Z ->
  is_finite (sum64 t) = true /\ 0 <= B2R (sum64 t) /\ near (depth t + 4) (exact_trapezoid (reals y) (reals x)) (B2R (sum64 t)) /\ (Z.of_nat (depth t) <= 2 ^ 50)%Z /\ (1 < List.length x)%nat.
Proof.
  intros HB E SX FY LT NX. destruct (trap_terms_near B y x HB E SX FY) as (I1 & I2 & I3 & I4 & _). assert (LN := leaves_ne t). rewrite LT in LN.
  assert (DL : (Z.of_nat (depth t) <= 2 ^ 50)%Z) by lia. assert (PH := pw_half _ DL).
  assert (VE : values t = reals (trap_terms64 y x)) by (unfold values, reals; now rewrite LT).
  set (ex := exact_trapezoid (reals y) (reals x)) in *.
  assert (Hs : Rsum (reals (trap_terms64 y x)) <= 2 * ex). { destruct I2 as [_ I2]. assert (U := pw_half 4 ltac:(lia)). assert (0 <= Rsum (reals (trap_terms64 y x))). { rewrite <- VE. apply values_nonneg. now rewrite LT. } nra. }
  assert (EU : ex <= bpow radix2 850).
  { destruct I3 as [_ I3]. eapply Rle_trans; [exact I3|]. assert (IN := INR_2_50 _ NX). assert (P2 := pow2_pos (2 * B)). assert (P50 := pow2_pos 50). assert (2 ^ (2 * B) <= 2 ^ 800) by (apply p2_le; lia).
    apply Rle_trans with (2 ^ 50 * 2 ^ 800); [apply Rmult_le_compat; try lra; apply pos_INR|]. rewrite <- p2_add. rewrite pow_bpow. apply bpow_le. lia. }
  destruct (sum_near t) as (A & B' & C).
  - now rewrite LT.
  - rewrite VE. apply Rle_lt_trans with (2 * bpow radix2 850); [lra|]. apply Rlt_le_trans with (/ 2 * bpow radix2 1024).
    + change 1024%Z with (171 + (3 + 850))%Z. rewrite (bpow_plus radix2 171), (bpow_plus radix2 3). change (bpow radix2 3) with 8. assert (1 <= bpow radix2 171) by (change 1 with (bpow radix2 0); apply bpow_le; lia). assert (G := bpow_gt_0 radix2 850). set (b := bpow radix2 850) in *. set (a := bpow radix2 171) in *. nra.
    + apply Rmult_le_compat_r; [apply bpow_ge_0|exact PH].
  - split; [exact A|]. split; [exact B'|]. split; [|split; [exact DL|lia]]. rewrite VE in C. replace (depth t + 4)%nat with (4 + depth t)%nat by lia. now apply (near_trans 4 (depth t) _ _ _ I2).
Qed.
Lemma okv_forall B y : values_within B y -> Forall (okv B) y.
Proof. intros H. exact H. Qed.
Lemma okv_mono B C w : (B <= C)%nat -> okv B w -> okv C w.
Proof. intros L [F H]. split; [exact F|]. destruct H as [H|H]; [now left|right]. assert (A := p2_le _ _ L). assert (A' := p2i_le _ _ L). lra. Qed.
Lemma stp_mono B C x : (B <= C)%nat -> steps_within B x -> steps_within C x.
Proof. intros L [F H]. split; [exact F|]. intros i Hi. specialize (H i Hi). assert (A := p2_le _ _ L). assert (A' := p2i_le _ _ L). lra. Qed.
Lemma small_values : B2R (int64 0) = 0 /\ B2R (int64 1) = 1 /\ B2R (int64 2) = 2 /\ B2R (int64 3) = 3.
Proof.
  assert (A0 := proj2 (int64_val 0 ltac:(lia))). assert (A1 := proj2 (int64_val 1 ltac:(lia))). assert (A2 := proj2 (int64_val 2 ltac:(lia))). assert (A3 := proj2 (int64_val 3 ltac:(lia))).
  rewrite A0, A1, A2, A3. simpl (INR _). split; [|split; [|split]]; lra.
Qed.
Lemma ex_steps B : (2 <= B)%nat -> steps_within B [int64 0; int64 1; int64 3] /\ values_within B [int64 1; int64 2; int64 0].
Proof.
  intros HB. destruct small_values as (V0 & V1 & V2 & V3). assert (A := p2_le 2 B HB). assert (A' := p2i_le 2 B HB). simpl (2 ^ 2) in A, A'. split; [split|].
  - repeat constructor.
  - intros i Hi. cbn [List.length] in Hi. unfold reals. cbn [map]. rewrite V0, V1, V3. destruct i as [|[|i]]; [cbn [nth]; lra|cbn [nth]; lra|lia].
  - unfold values_within. constructor; [split; [reflexivity|right; rewrite V1; lra]|]. constructor; [split; [reflexivity|right; rewrite V2; lra]|]. constructor; [split; [reflexivity|left; exact V0]|]. constructor.
Qed.
Lemma C121_trapezoid_met_pf :
  exists y x t, List.length y = List.length x /\ steps_within 400 x /\ values_within 400 y /\ (Z.of_nat (List.length x) <= 2 ^ 50)%Z /\ leaves t = trap_terms64 y x /\
  exact_trapezoid (reals y) (reals x) = 7 / 2.
Proof.
  exists [int64 1; int64 2; int64 0], [int64 0; int64 1; int64 3].
  exists (Add (One (nth 0 (trap_terms64 [int64 1; int64 2; int64 0] [int64 0; int64 1; int64 3]) (int64 0))) (One (nth 1 (trap_terms64 [int64 1; int64 2; int64 0] [int64 0; int64 1; int64 3]) (int64 0)))).
  destruct (ex_steps 400 ltac:(lia)) as (H1 & H2). destruct small_values as (V0 & V1 & V2 & V3). split; [reflexivity|]. split; [exact H1|]. split; [exact H2|]. split; [cbn; lia|]. split; [reflexivity|].
  unfold reals. cbn [map]. rewrite V0, V1, V2, V3. rewrite !exact_cons. unfold exact_trapezoid. cbn. lra.
Qed.
Lemma C121_trapezoid_pf :
  forall y x t, List.length y = List.length x -> steps_within 400 x -> values_within 400 y -> (Z.of_nat (List.length x) <= 2 ^ 50)%Z ->
  leaves t = trap_terms64 y x ->
  let exact := exact_trapezoid (reals y) (reals x) in
  let n := (depth t + 4)%nat in
  is_finite (sum64 t) = true /\ (1 - u64) ^ n * exact <= B2R (sum64 t) <= exact / (1 - u64) ^ n /\
  trapezoid (map Fin (reals y)) (map Fin (reals x)) = Fin exact.
Proof.
  intros y x t E SX FY NX LT exact n. destruct (sum_trap 400 y x t ltac:(lia) E SX FY LT NX) as (A & _ & [C1 C2] & _). split; [exact A|]. split.
  - split; [exact C1|]. assert (P := pw n). apply (Rmult_le_reg_l ((1 - u64) ^ n)); [lra|]. replace ((1 - u64) ^ n * (exact / (1 - u64) ^ n)) with exact by (field; lra). exact C2.
  - rewrite trapezoid_fin. f_equal. symmetry. apply exact_Rtrap. unfold reals. now rewrite !map_length.
Qed.

Lemma norm_bounds y x t : List.length y = List.length x -> steps_within 100 x -> values_within 100 y -> (Z.of_nat (List.length x) <= 2 ^ 50)%Z ->
  Exists (fun w : b64 => B2R w <> 0) y -> leaves t = trap_terms64 y x ->
  let exact := exact_trapezoid (reals y) (reals x) in
  0 < exact /\ 0 < B2R (sum64 t) /\ bpow radix2 (-203) <= B2R (sum64 t) <= bpow radix2 252 /\ near (depth t + 4) exact (B2R (sum64 t)) /\ is_finite (sum64 t) = true.
Proof.
  intros E SX FY NX X LT exact. destruct (sum_trap 100 y x t ltac:(lia) E SX FY LT NX) as (A & A0 & C & D & L).
  destruct (trap_terms_near 100 y x ltac:(lia) E SX FY) as (_ & _ & I3 & _ & I5). specialize (I5 X L). fold exact in I3, I5, C.
  assert (EL : bpow radix2 (-201) <= exact) by (change (bpow radix2 (-201)) with (bpow radix2 (- Z.of_nat 201)); rewrite <- (pow_bpow_inv 201); exact I5).
  assert (G := bpow_gt_0 radix2 (-201)). assert (E0 : 0 < exact) by lra. assert (S0 := near_pos _ _ _ E0 C).
  split; [exact E0|]. split; [exact S0|]. split; [|split; [exact C|exact A]].
  assert (PH := pw_half (depth t) D). assert (P4 : 1 - 4 * u64 <= (1 - u64) ^ 4) by (assert (U := u64_pos); simpl; nra). assert (U4 : 4 * u64 <= / 2). { unfold u64. assert (8 <= 2 ^ 53) by (replace 53%nat with (3 + 50)%nat by lia; rewrite p2_add; assert (1 <= 2 ^ 50) by (apply pow_R1_Rle; lra); simpl (2 ^ 3); lra). apply Rmult_le_reg_r with (2 ^ 53); [lra|]. replace (4 * / 2 ^ 53 * 2 ^ 53) with 4 by (field; lra). lra. }
  assert (PW : / 4 <= (1 - u64) ^ (depth t + 4)). { rewrite pow_add. assert (Q := pw 4). nra. }
  destruct C as [C1 C2]. split.
  - change (-203)%Z with (-2 + -201)%Z. rewrite bpow_plus. change (bpow radix2 (-2)) with (/ 4). nra.
  - assert (exact <= bpow radix2 250).
    { destruct I3 as [_ I3]. eapply Rle_trans; [exact I3|]. assert (IN := INR_2_50 _ NX). assert (P2 := pow2_pos (2 * 100)). apply Rle_trans with (2 ^ 50 * 2 ^ (2 * 100)); [apply Rmult_le_compat_r; lra|]. rewrite <- p2_add, pow_bpow. apply bpow_le. lia. }
    change 252%Z with (2 + 250)%Z. rewrite bpow_plus. change (bpow radix2 2) with 4. nra.
Qed.
Lemma div_norm (v N : b64) : okv 100 v -> is_finite N = true -> bpow radix2 (-203) <= B2R N <= bpow radix2 252 ->
  is_finite (Bdiv mode_NE v N) = true /\ near 1 (B2R v / B2R N) (B2R (Bdiv mode_NE v N)) /\ okv 400 (Bdiv mode_NE v N) /\ 0 <= B2R v / B2R N.
Proof.
  intros Hv FN HN. assert (Nv := okv_nonneg _ _ Hv). destruct Nv as [Fv Nv]. destruct Hv as [_ Hv]. assert (G := bpow_gt_0 radix2 (-203)). assert (NP : 0 < B2R N) by lra.
  assert (IN1 : / B2R N <= bpow radix2 203) by (change 203%Z with (- -203)%Z; rewrite (bpow_opp radix2 (-203)); apply Rinv_le_contravar; lra).
  assert (IN2 : bpow radix2 (-252) <= / B2R N) by (change (-252)%Z with (- (252))%Z; rewrite (bpow_opp radix2 252); apply Rinv_le_contravar; lra). assert (IP := Rinv_0_lt_compat _ NP).
  assert (E100 : 2 ^ 100 = bpow radix2 100) by apply (pow_bpow 100). assert (Q100 : / 2 ^ 100 = bpow radix2 (-100)) by apply (pow_bpow_inv 100).
  assert (Q0 : 0 <= B2R v / B2R N) by (unfold Rdiv; apply Rmult_le_pos; lra).
  assert (G1 := bpow_gt_0 radix2 100). assert (G2 := bpow_gt_0 radix2 (-100)). assert (G3 := bpow_gt_0 radix2 (-252)).
  assert (QU : B2R v / B2R N <= bpow radix2 303). { change 303%Z with (100 + 203)%Z. rewrite bpow_plus. unfold Rdiv. apply Rmult_le_compat; lra. }
  assert (QL : B2R v = 0 \/ bpow radix2 (-352) <= B2R v / B2R N). { destruct Hv as [Z|Hv]; [now left|right]. change (-352)%Z with (-100 + -252)%Z. rewrite bpow_plus. unfold Rdiv. apply Rmult_le_compat; lra. }
  destruct (Bdiv_fin v N Fv ltac:(lra)) as (W1 & W2). { apply small_lt; [exact Q0|]. eapply Rle_trans; [exact QU|]. apply bpow_le; lia. }
  split; [exact W1|]. rewrite W2.
  assert (NW : near 1 (B2R v / B2R N) (rnd64 (B2R v / B2R N))). { destruct QL as [Z|QL]; [rewrite Z; unfold Rdiv; rewrite Rmult_0_l; apply near_zero|]. apply rnd_near_normal. eapply Rle_trans; [|exact QL]. apply bpow_le; lia. }
  split; [exact NW|]. split; [|exact Q0]. split; [exact W1|]. rewrite W2. destruct QL as [Z|QL]; [left; rewrite Z; unfold Rdiv; rewrite Rmult_0_l; apply rnd0|right].
  assert (R0 := rnd_nonneg _ Q0). assert (A := near1_lo _ _ Q0 NW). assert (B := near1_hi _ _ R0 NW). rewrite pow_bpow_inv, pow_bpow. change (Z.of_nat 400) with 400%Z. split.
  - apply Rle_trans with (bpow radix2 (-353)); [apply bpow_le; lia|]. change (-352)%Z with (1 + -353)%Z in QL. rewrite bpow_plus in QL. change (bpow radix2 1) with 2 in QL. lra.
  - apply Rle_trans with (bpow radix2 304); [|apply bpow_le; lia]. change 304%Z with (1 + 303)%Z. rewrite bpow_plus. change (bpow radix2 1) with 2. lra.
Qed.
Lemma exact_near n y z x : List.length y = List.length x -> List.length z = List.length x -> (forall i, (S i < List.length x)%nat -> 0 <= nth (S i) x 0 - nth i x 0) -> Forall2 (near n) y z -> near n (exact_trapezoid y x) (exact_trapezoid z x).
Proof.
  intros L1 L2 H F. revert x L1 L2 H. induction F as [|y0 z0 y z N0 F IH]; intros x L1 L2 H.
  - destruct x; [apply near_z|discriminate].
  - destruct F as [|y1 z1 y z N1 F].
    + destruct x as [|x0 [|x1 x]]; try discriminate. apply near_z.
    + destruct x as [|x0 [|x1 x]]; try discriminate. rewrite !exact_cons. apply near_plus.
      * assert (D := H 0%nat ltac:(cbn; lia)). cbn [nth] in D. destruct (near_plus n _ _ _ _ N1 N0) as [A B]. unfold near. split; nra.
      * apply IH; cbn [List.length] in *; try lia. intros i Hi. apply (H (S i)). lia.
Qed.
Lemma exact_scale c y x : List.length y = List.length x -> exact_trapezoid (map (fun v => v / c) y) x = exact_trapezoid y x / c.
Proof.
  intros L. rewrite !exact_Rtrap by (try rewrite map_length; exact L).
  revert x L. induction y as [|y0 y IH]; intros [|x0 x] L; try discriminate; [cbn; unfold Rdiv; ring|].
  destruct y as [|y1 y], x as [|x1 x]; try discriminate; [cbn; unfold Rdiv; ring|]. cbn [map]. rewrite !Rtrap_cons.
  change (y1 / c :: map (fun v => v / c) y) with (map (fun v => v / c) (y1 :: y)). rewrite IH by (cbn in *; lia). unfold Rdiv. ring.
Qed.
Lemma C121_normalised_pf :
  forall y x t t', List.length y = List.length x -> steps_within 100 x -> values_within 100 y -> (Z.of_nat (List.length x) <= 2 ^ 50)%Z ->
  Exists (fun w : b64 => B2R w <> 0) y -> leaves t = trap_terms64 y x ->
  let p := normalise64 t y in
  leaves t' = trap_terms64 p x ->
  let n := (depth t + depth t' + 9)%nat in
  let m := (depth t + 5)%nat in
  is_finite (sum64 t') = true /\ (1 - u64) ^ n <= B2R (sum64 t') <= / (1 - u64) ^ n /\
  (1 - u64) ^ m <= exact_trapezoid (reals p) (reals x) <= / (1 - u64) ^ m /\
  forall i, (i < List.length y)%nat -> let exact := nth i (reals y) 0 / exact_trapezoid (reals y) (reals x) in
    (1 - u64) ^ m * exact <= nth i (reals p) 0 <= exact / (1 - u64) ^ m.
Proof.
  intros y x t t' E SX FY NX X LT p LT' n m. destruct (norm_bounds y x t E SX FY NX X LT) as (E0 & S0 & SB & C & FS).
  set (ex := exact_trapezoid (reals y) (reals x)) in *. set (N := sum64 t) in *.
  assert (DV : forall v, In v y -> is_finite (Bdiv mode_NE v N) = true /\ near 1 (B2R v / B2R N) (B2R (Bdiv mode_NE v N)) /\ okv 400 (Bdiv mode_NE v N) /\ 0 <= B2R v / B2R N).
  { intros v I. apply div_norm; auto. unfold values_within in FY. rewrite Forall_forall in FY. now apply FY. }
  assert (LP : List.length p = List.length x) by (unfold p, normalise64; now rewrite map_length).
  assert (OP : Forall (okv 400) p). { unfold p, normalise64. apply Forall_forall. intros w I. apply in_map_iff in I. destruct I as (v & <- & I). now apply DV. }
  assert (SX' := stp_mono 100 400 x ltac:(lia) SX).
  destruct (sum_trap 400 p x t' ltac:(lia) LP SX' OP LT' NX) as (A & A0 & C' & _).
  assert (NP : near 1 (ex / B2R N) (exact_trapezoid (reals p) (reals x))).
  { unfold ex. rewrite <- (exact_scale (B2R N) (reals y) (reals x)) by (unfold reals; now rewrite !map_length). apply exact_near.
    - unfold reals. now rewrite !map_length.
    - unfold reals. now rewrite !map_length.
    - intros i Hi. destruct SX as [_ H]. unfold reals in Hi. rewrite map_length in Hi. specialize (H i Hi). assert (P := pow2_inv_pos 100). lra.
    - unfold reals, p, normalise64. rewrite !map_map. clear -DV. induction y as [|v y IH]; constructor; [now apply DV; left|]. apply IH. intros w I. apply DV. now right. }
  assert (N1 : near (depth t + 4) 1 (ex / B2R N)).
  { destruct C as [C1 C2]. assert (IP := Rinv_0_lt_compat _ S0). unfold near. rewrite !Rmult_1_r. split.
    - apply (Rmult_le_reg_r (B2R N)); [exact S0|]. unfold Rdiv. rewrite Rmult_assoc, Rinv_l, Rmult_1_r by lra. exact C2.
    - apply (Rmult_le_reg_r (B2R N)); [exact S0|]. rewrite Rmult_1_l. replace ((1 - u64) ^ (depth t + 4) * (ex / B2R N) * B2R N) with ((1 - u64) ^ (depth t + 4) * ex) by (field; lra). exact C1. }
  assert (NM : near m 1 (exact_trapezoid (reals p) (reals x))) by (unfold m; replace (depth t + 5)%nat with (depth t + 4 + 1)%nat by lia; now apply (near_trans _ _ _ _ _ N1)).
  assert (NN : near n 1 (B2R (sum64 t'))) by (unfold n; replace (depth t + depth t' + 9)%nat with (m + (depth t' + 4))%nat by (unfold m; lia); now apply (near_trans _ _ _ _ _ NM)).
  assert (UP : forall k a b, near k a b -> (1 - u64) ^ k * a <= b <= a / (1 - u64) ^ k).
  { intros k a b [H1 H2]. assert (P := pw k). split; [exact H1|]. apply (Rmult_le_reg_l ((1 - u64) ^ k)); [lra|]. replace ((1 - u64) ^ k * (a / (1 - u64) ^ k)) with a by (field; lra). exact H2. }
  split; [exact A|]. split; [apply UP in NN; unfold Rdiv in NN; rewrite Rmult_1_r, Rmult_1_l in NN; exact NN|].
  split; [apply UP in NM; unfold Rdiv in NM; rewrite Rmult_1_r, Rmult_1_l in NM; exact NM|].
  intros i Hi exact. apply UP. assert (I := nth_In y (B754_zero false) Hi). destruct (DV _ I) as (D1 & D2 & D3 & D4). set (v := nth i y (B754_zero false)) in *.
  assert (Ev : nth i (reals y) 0 = B2R v) by (unfold v, reals; rewrite <- (map_nth (fun w : b64 => B2R w)); reflexivity).
  assert (Ep : nth i (reals p) 0 = B2R (Bdiv mode_NE v N)). { unfold v, reals, p, normalise64. rewrite map_map. rewrite <- (map_nth (fun w : b64 => B2R (Bdiv mode_NE w N))). apply nth_indep. rewrite map_length. exact Hi. }
  rewrite Ep. unfold exact. rewrite Ev. unfold m. replace (depth t + 5)%nat with (depth t + 4 + 1)%nat by lia. apply (near_trans _ 1 _ (B2R v / B2R N)); [|exact D2].
  assert (V0 : nonneg_double v). { unfold values_within in FY. rewrite Forall_forall in FY. apply (okv_nonneg 100). now apply FY. } destruct V0 as [_ V0].
  replace (depth t + 4)%nat with (0 + (depth t + 4))%nat by lia. apply near_div; auto. apply near_refl.
Qed.

Lemma C121_normalised_met_pf :
  exists y x t t', List.length y = List.length x /\ steps_within 100 x /\ values_within 100 y /\ (Z.of_nat (List.length x) <= 2 ^ 50)%Z /\
  Exists (fun w : b64 => B2R w <> 0) y /\ leaves t = trap_terms64 y x /\ leaves t' = trap_terms64 (normalise64 t y) x /\ exact_trapezoid (reals y) (reals x) = 7 / 2.
Proof.
  set (y := [int64 1; int64 2; int64 0]). set (x := [int64 0; int64 1; int64 3]).
  set (t := Add (One (nth 0 (trap_terms64 y x) (int64 0))) (One (nth 1 (trap_terms64 y x) (int64 0)))). exists y, x, t.
  exists (Add (One (nth 0 (trap_terms64 (normalise64 t y) x) (int64 0))) (One (nth 1 (trap_terms64 (normalise64 t y) x) (int64 0)))).
  destruct (ex_steps 100 ltac:(lia)) as (H1 & H2). destruct small_values as (V0 & V1 & V2 & V3). split; [reflexivity|]. split; [exact H1|]. split; [exact H2|]. split; [cbn; lia|].
  split; [left; rewrite V1; lra|]. split; [reflexivity|]. split; [reflexivity|].
  unfold reals, x, y. cbn [map]. rewrite V0, V1, V2, V3. rewrite !exact_cons. unfold exact_trapezoid. cbn. lra.
Qed.
Lemma pos_sign (w : b64) : 0 < B2R w -> Bsign w = false.
Proof. destruct w as [s|s| |s m e H]; cbn [B2R Bsign]; intros P; try lra. destruct s; [|reflexivity]. exfalso. revert P. apply Rle_not_lt. apply F2R_le_0. cbn. lia. Qed.
Lemma mult_tiny (a b : b64) : is_finite a = true -> is_finite b = true -> 0 < B2R a -> 0 < B2R b -> B2R a * B2R b <= bpow radix2 (-1076) -> Bmult mode_NE a b = B754_zero false.
Proof.
  intros Fa Fb Pa Pb H. assert (T : rnd64 (B2R a * B2R b) = 0) by (apply rnd_tiny; [apply Rmult_le_pos; lra|exact H]).
  assert (C := Bmult_correct 53 1024 _ _ mode_NE a b). change (round radix2 (SpecFloat.fexp 53 1024) (round_mode mode_NE) (B2R a * B2R b)) with (rnd64 (B2R a * B2R b)) in C.
  rewrite T, Rabs_R0, Rlt_bool_true in C by apply bpow_gt_0. destruct C as (C1 & C2 & C3). rewrite Fa, Fb in C2. cbn in C2.
  destruct (zero_form _ C2 C1) as (s & E). rewrite E in C3 |- *. cbn in C3. rewrite (C3 eq_refl), (pos_sign a Pa), (pos_sign b Pb). reflexivity.
Qed.
Lemma zero_two : Bdiv mode_NE (B754_zero false) (int64 2) = B754_zero false :> b64.
Proof. reflexivity. Qed.
Lemma sum_zeros t : Forall (fun w : b64 => w = B754_zero false) (leaves t) -> sum64 t = B754_zero false.
Proof. induction t as [w|l IHl r IHr]; cbn [leaves sum64]; intros F; [now inversion F|]. apply Forall_app in F. destruct F as [Fl Fr]. rewrite (IHl Fl), (IHr Fr). reflexivity. Qed.
Lemma terms_tiny y x : List.length y = List.length x -> Forall positive_double y -> Forall (fun w : b64 => is_finite w = true) x ->
  (forall i, (S i < List.length x)%nat -> 0 < nth (S i) (reals x) 0 - nth i (reals x) 0 <= 2 ^ 1000 /\
     nth i (reals y) 0 <= 2 ^ 1000 /\ nth (S i) (reals y) 0 <= 2 ^ 999 /\ nth i (reals y) 0 <= 2 ^ 999 /\
     (nth (S i) (reals x) 0 - nth i (reals x) 0) * (nth (S i) (reals y) 0 + nth i (reals y) 0) <= / 2 ^ 1078) ->
  Forall (fun w : b64 => w = B754_zero false) (trap_terms64 y x).
Proof.
  revert x. induction y as [|y0 y IH]; intros [|x0 x] L P F H; try discriminate; [constructor|].
  destruct y as [|y1 y], x as [|x1 x]; try discriminate; [constructor|].
  change (trap_terms64 (y0 :: y1 :: y) (x0 :: x1 :: x)) with (Bdiv mode_NE (Bmult mode_NE (Bminus mode_NE x1 x0) (Bplus mode_NE y1 y0)) (int64 2) :: trap_terms64 (y1 :: y) (x1 :: x)).
  inversion P as [|? ? [Fy0 P0] P']; subst. inversion P' as [|? ? [Fy1 P1] _]; subst. inversion F as [|? ? Fx0 F']; subst. inversion F' as [|? ? Fx1 _]; subst.
  constructor.
  - destruct (H 0%nat ltac:(cbn; lia)) as (D & _ & Y1 & Y0 & T). unfold reals in D, Y1, Y0, T. cbn [map nth] in D, Y1, Y0, T.
    assert (E999 : 2 ^ 1000 = 2 * 2 ^ 999) by (replace 1000%nat with (1 + 999)%nat by lia; rewrite p2_add, pow_1; reflexivity).
    assert (B1000 : 2 ^ 1000 = bpow radix2 1000) by apply (pow_bpow 1000).
    destruct (Bminus_fin x1 x0 Fx1 Fx0) as (D1 & D2). { apply small_lt; lra. }
    destruct (Bplus_fin y1 y0 Fy1 Fy0) as (S1 & S2). { apply small_lt; lra. }
    assert (ND : near 1 (B2R x1 - B2R x0) (rnd64 (B2R x1 - B2R x0))). { unfold Rminus. apply rnd_near_plus; [apply B2R_double|apply opp_double, B2R_double|lra]. }
    assert (NS : near 1 (B2R y1 + B2R y0) (rnd64 (B2R y1 + B2R y0))). { apply rnd_near_plus; [apply B2R_double|apply B2R_double|lra]. }
    assert (QD := near_pos 1 _ _ ltac:(apply D) ND). assert (QS := near_pos 1 _ _ (Rplus_lt_0_compat _ _ P1 P0) NS).
    assert (Du := near1_hi _ _ ltac:(left; exact QD) ND). assert (Hu := near1_hi _ _ ltac:(left; exact QS) NS).
    rewrite (mult_tiny _ _ D1 S1); [apply zero_two|rewrite D2; exact QD|rewrite S2; exact QS|]. rewrite D2, S2.
    apply Rle_trans with ((2 * (B2R x1 - B2R x0)) * (2 * (B2R y1 + B2R y0))); [apply Rmult_le_compat; lra|].
    rewrite pow_bpow_inv in T. change (- Z.of_nat 1078)%Z with (-1078)%Z in T. change (-1076)%Z with (2 + -1078)%Z. rewrite bpow_plus. change (bpow radix2 2) with 4. lra.
  - apply IH; [cbn [List.length] in *; lia|exact P'|exact F'|]. intros i Hi. apply (H (S i)). cbn [List.length] in *; lia.
Qed.
Lemma div_zero_inf (v : b64) : positive_double v -> Bdiv mode_NE v (B754_zero false) = B754_infinity false :> b64.
Proof. intros [F P]. assert (G := pos_sign v P). destruct v as [s|s| |s m e H]; cbn in *; try discriminate; try lra. now rewrite G. Qed.
Lemma exact_pos y x : List.length y = List.length x -> (1 < List.length x)%nat -> Forall (fun v => 0 < v) y -> (forall i, (S i < List.length x)%nat -> 0 < nth (S i) x 0 - nth i x 0) -> 0 < exact_trapezoid y x.
Proof.
  intros L N P H. destruct y as [|y0 [|y1 y]], x as [|x0 [|x1 x]]; cbn [List.length] in *; try lia. clear N. revert y0 y1 x0 x1 x L P H.
  induction y as [|y2 y IH]; intros y0 y1 x0 x1 x L P H; rewrite exact_cons; inversion P as [|? ? P0 P']; subst; inversion P' as [|? ? P1 P'']; subst; assert (D := H 0%nat ltac:(cbn; lia)); cbn [nth] in D.
  - destruct x; [|discriminate]. change (exact_trapezoid [y1] [x1]) with 0. assert (0 < (x1 - x0) * (y1 + y0)) by (apply Rmult_lt_0_compat; lra). lra.
  - destruct x as [|x2 x]; [discriminate|]. assert (I := IH y1 y2 x1 x2 x ltac:(cbn in *; lia) P' ltac:(intros i Hi; apply (H (S i)); cbn in *; lia)). assert (0 < (x1 - x0) * (y1 + y0)) by (apply Rmult_lt_0_compat; lra). lra.
Qed.
Lemma C121_underflow_refuted_pf :
  forall y x t, List.length y = List.length x -> Forall positive_double y -> Forall (fun w : b64 => is_finite w = true) x ->
  (forall i, (S i < List.length x)%nat -> 0 < nth (S i) (reals x) 0 - nth i (reals x) 0 <= 2 ^ 1000 /\ nth i (reals y) 0 <= 2 ^ 999 /\ nth (S i) (reals y) 0 <= 2 ^ 999 /\
     (nth (S i) (reals x) 0 - nth i (reals x) 0) * (nth (S i) (reals y) 0 + nth i (reals y) 0) <= / 2 ^ 1078) ->
  leaves t = trap_terms64 y x ->
  let exact := exact_trapezoid (reals y) (reals x) in
  sum64 t = B754_zero false /\ Forall (fun w => w = B754_infinity false) (normalise64 t y) /\
  0 < exact /\ exact_trapezoid (map (fun v => v / exact) (reals y)) (reals x) = 1.
Proof.
  intros y x t L P F H LT exact.
  assert (Z : sum64 t = B754_zero false).
  { apply sum_zeros. rewrite LT. apply terms_tiny; auto. intros i Hi. destruct (H i Hi) as (H1 & H2 & H3 & H4). assert (2 ^ 999 <= 2 ^ 1000) by (apply p2_le; lia). repeat split; try assumption; lra. }
  split; [exact Z|]. split.
  - unfold normalise64. rewrite Z. apply Forall_forall. intros w I. apply in_map_iff in I. destruct I as (v & <- & I). apply div_zero_inf. rewrite Forall_forall in P. now apply P.
  - assert (E0 : 0 < exact).
    { apply exact_pos.
      - unfold reals. now rewrite !map_length.
      - assert (LN := leaves_ne t). rewrite LT in LN. unfold reals. rewrite map_length. destruct y as [|y0 [|y1 y]], x as [|x0 [|x1 x]]; cbn in *; lia.
      - unfold reals. apply Forall_forall. intros v I. apply in_map_iff in I. destruct I as (w & <- & I). rewrite Forall_forall in P. now apply P.
      - intros i Hi. unfold reals in Hi. rewrite map_length in Hi. now apply H. }
    split; [exact E0|]. rewrite exact_scale by (unfold reals; now rewrite !map_length). fold exact. field. lra.
Qed.

Definition tiny : b64 := @B754_finite 53 1024 false 1 (-1074) eq_refl.
Definition step_ : b64 := @B754_finite 53 1024 false 4503599627370496 (-62) eq_refl.
Lemma C121_underflow_met_pf :
  exists y x t, List.length y = List.length x /\ Forall positive_double y /\ Forall (fun w : b64 => is_finite w = true) x /\
  (forall i, (S i < List.length x)%nat -> 0 < nth (S i) (reals x) 0 - nth i (reals x) 0 <= 2 ^ 1000 /\ nth i (reals y) 0 <= 2 ^ 999 /\ nth (S i) (reals y) 0 <= 2 ^ 999 /\
     (nth (S i) (reals x) 0 - nth i (reals x) 0) * (nth (S i) (reals y) 0 + nth i (reals y) 0) <= / 2 ^ 1078) /\
  leaves t = trap_terms64 y x.
Proof.
  set (y := [tiny; tiny]). set (x := [int64 0; step_]). exists y, x, (One (nth 0 (trap_terms64 y x) (int64 0))).
  assert (T : B2R tiny = bpow radix2 (-1074)) by (unfold tiny, B2R, F2R; cbn [Fnum Fexp cond_Zopp]; apply Rmult_1_l).
  assert (S' : B2R step_ = / 1024). { change (B2R step_) with (IZR 4503599627370496 * bpow radix2 (-62)). change (IZR 4503599627370496) with (bpow radix2 52). rewrite <- bpow_plus. reflexivity. }
  assert (Z0 : B2R (int64 0) = 0) by apply small_values. assert (G := bpow_gt_0 radix2 (-1074)).
  assert (G1 : bpow radix2 (-1074) <= 1) by (change 1 with (bpow radix2 0); apply bpow_le; lia).
  assert (O1 : 1 <= 2 ^ 999) by (apply pow_R1_Rle; lra). assert (O2 : 1 <= 2 ^ 1000) by (apply pow_R1_Rle; lra).
  split; [reflexivity|]. split; [repeat constructor; rewrite T; exact G|]. split; [repeat constructor|]. split; [|reflexivity].
  intros i Hi. cbn [List.length x] in Hi. destruct i as [|i]; [|cbn in Hi; lia]. unfold reals, x, y. cbn [map nth]. rewrite T, S', Z0. repeat split; try lra.
  rewrite pow_bpow_inv. change (- Z.of_nat 1078)%Z with (-4 + -1074)%Z. rewrite bpow_plus. change (bpow radix2 (-4)) with (/ 16). lra.
Qed.
