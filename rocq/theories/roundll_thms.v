(** Proofs of the property theorems stated in [Props_roundll]. *)
From Coq Require Import Reals Lra Lia Psatz ZArith Bool.
From Coquelicot Require Import Rcomplements.
From Flocq Require Import Core BinarySingleNaN Relative Plus_error.
From Coq Require Import List.
From Verif Require Import Xf Py Xf_facts Double Double_facts Rounded_model SpecRound SpecHyper Hyperpe_model hypera_thms round_thms RoundedLogl_model SpecRoundLogl.
Import ListNotations.
Local Open Scope R_scope.
Lemma rnd_plus_err x y : is_double x -> is_double y -> Rabs (rnd64 (x + y) - (x + y)) <= u64 * Rabs (x + y).
Proof. intros X Y. replace (x + y) with (x - - y) by ring. apply rnd_minus_err; [exact X|now apply opp_double]. Qed.
Lemma rnd_int_mult n y : is_double y -> Rabs (rnd64 (- INR n * y) - - INR n * y) <= u64 * Rabs (- INR n * y).
Proof.
  intros [Y _]. destruct (FLT_format_generic radix2 (-1074) 53 y Y) as [f F _ E].
  assert (X : - INR n * y = F2R (Float radix2 (- Z.of_nat n * (Fnum f * 2 ^ (Fexp f - -1074))) (-1074))).
  { rewrite F. unfold F2R. cbn [Fnum Fexp]. rewrite mult_IZR, mult_IZR, opp_IZR, <- INR_IZR_INZ.
    replace (Fexp f) with ((Fexp f - -1074) + -1074)%Z at 1 by lia. rewrite bpow_plus.
    replace (IZR (2 ^ (Fexp f - -1074))) with (bpow radix2 (Fexp f - -1074)); [ring|]. symmetry. apply (IZR_Zpower radix2). lia. }
  rewrite X.
  destruct (relative_error_N_FLT_F2R_emin_ex radix2 (-1074) 53 eq_refl (fun x => negb (Z.even x)) (- Z.of_nat n * (Fnum f * 2 ^ (Fexp f - -1074)))) as (e & E1 & E2).
  unfold rnd64, format64. rewrite E2. match goal with |- Rabs (?x * (1 + e) - ?x) <= _ => replace (x * (1 + e) - x) with (x * e) by ring end.
  rewrite Rabs_mult. fold (u_ro radix2 53) in E1. rewrite u64_ro in E1. match goal with |- Rabs ?x * _ <= _ => assert (A := Rabs_pos x) end. nra.
Qed.
Definition Rsuma (l : list R) : R := Rsum (map Rabs l).
Lemma rsuma_app l m : Rsuma (l ++ m) = Rsuma l + Rsuma m.
Proof. unfold Rsuma. rewrite map_app. induction (map Rabs l) as [|x k IH]; cbn [app]; [change (Rsum []) with 0; lra|]. rewrite !rs_cons, IH. ring. Qed.
Lemma rsum_app (l m : list R) : Rsum (l ++ m) = Rsum l + Rsum m.
Proof. induction l as [|x k IH]; cbn [app]; [change (Rsum []) with 0; lra|]. rewrite !rs_cons, IH. ring. Qed.
Lemma rsuma_pos l : 0 <= Rsuma l.
Proof. unfold Rsuma. induction l as [|x k IH]; cbn [map]; [change (Rsum []) with 0; lra|]. rewrite rs_cons. assert (A := Rabs_pos x). lra. Qed.
Lemma rsum_abs l : Rabs (Rsum l) <= Rsuma l.
Proof. unfold Rsuma. induction l as [|x k IH]; cbn [map]; [change (Rsum []) with 0; rewrite Rabs_R0; lra|]. rewrite !rs_cons. eapply Rle_trans; [apply Rabs_triang|]. lra. Qed.
Lemma up_pow n : 1 <= (1 + u64) ^ n.
Proof. apply pow_R1_Rle. assert (U := u64_pos). lra. Qed.
Lemma up_mono n m : (n <= m)%nat -> (1 + u64) ^ n <= (1 + u64) ^ m.
Proof. intros H. apply Rle_pow; [assert (U := u64_pos); lra|exact H]. Qed.
Lemma up_two d : (Z.of_nat d <= 2 ^ 50)%Z -> (1 + u64) ^ d <= 2.
Proof.
  intros H. assert (P := pw_half d H). assert (U := u64_pos). assert (Q := pw d).
  assert (M : (1 + u64) ^ d * (1 - u64) ^ d <= 1). { rewrite <- Rpow_mult_distr. replace 1 with (1 ^ d) at 3 by apply pow1. apply pow_incr. nra. }
  assert (G := up_pow d). nra.
Qed.
Lemma rnd_small x y : Rabs (x - y) <= u64 * Rabs y -> Rabs y <= 2 ^ 1000 -> Rabs x < bpow radix2 1024.
Proof.
  intros H S. assert (U := u64_pos). apply Rle_lt_trans with (2 * 2 ^ 1000).
  - assert (A := Rabs_pos y). replace x with ((x - y) + y) by ring. eapply Rle_trans; [apply Rabs_triang|]. nra.
  - rewrite tech_pow_Rmult, pow_bpow. apply bpow_lt. lia.
Qed.
Lemma sum_signed B t : Forall (fun w : b64 => is_finite w = true) (leaves t) -> (Z.of_nat (depth t) <= 2 ^ 50)%Z -> 2 * Rsuma (values t) <= B -> B <= 2 ^ 1000 ->
  is_finite (sum64 t) = true /\ Rabs (B2R (sum64 t) - Rsum (values t)) <= ((1 + u64) ^ depth t - 1) * Rsuma (values t).
Proof.
  intros F D HB HM. revert F D HB. induction t as [w|l IHl r IHr]; intros F D HB.
  - cbn [leaves] in F. inversion F as [|? ? W _]; subst. cbn [sum64 depth]. split; [exact W|]. unfold values, Rsuma. cbn [leaves map]. rewrite !rs_cons. change (Rsum []) with 0.
    rewrite Rplus_0_r, Rminus_diag_eq, Rabs_R0 by reflexivity. simpl. lra.
  - cbn [leaves] in F. apply Forall_app in F. destruct F as [Fl Fr]. cbn [depth] in D.
    rewrite values_add in *. rewrite rsuma_app in *. rewrite rsum_app.
    assert (Al := rsuma_pos (values l)). assert (Ar := rsuma_pos (values r)).
    destruct (IHl Fl ltac:(lia) ltac:(lra)) as [L1 L2]. destruct (IHr Fr ltac:(lia) ltac:(lra)) as [R1 R2].
    set (m := Nat.max (depth l) (depth r)) in *.
    assert (Ml : (1 + u64) ^ depth l <= (1 + u64) ^ m) by (apply up_mono; lia). assert (Mr : (1 + u64) ^ depth r <= (1 + u64) ^ m) by (apply up_mono; lia).
    assert (Two : (1 + u64) ^ m <= 2) by (apply up_two; lia).
    assert (Sl := rsum_abs (values l)). assert (Sr := rsum_abs (values r)).
    set (A := Rsuma (values l) + Rsuma (values r)) in *.
    assert (E : Rabs (B2R (sum64 l) + B2R (sum64 r) - (Rsum (values l) + Rsum (values r))) <= ((1 + u64) ^ m - 1) * A).
    { replace (_ - _) with ((B2R (sum64 l) - Rsum (values l)) + (B2R (sum64 r) - Rsum (values r))) by ring. eapply Rle_trans; [apply Rabs_triang|]. unfold A. nra. }
    assert (T : Rabs (B2R (sum64 l) + B2R (sum64 r)) <= (1 + u64) ^ m * A).
    { replace (B2R (sum64 l) + B2R (sum64 r)) with ((B2R (sum64 l) + B2R (sum64 r) - (Rsum (values l) + Rsum (values r))) + (Rsum (values l) + Rsum (values r))) by ring.
      eapply Rle_trans; [apply Rabs_triang|]. assert (Rabs (Rsum (values l) + Rsum (values r)) <= A) by (eapply Rle_trans; [apply Rabs_triang|]; unfold A; lra). lra. }
    assert (Z := rnd_plus_err _ _ (B2R_double (sum64 l)) (B2R_double (sum64 r))).
    assert (A0 : 0 <= A) by (unfold A; lra).
    destruct (Bplus_fin (sum64 l) (sum64 r) L1 R1) as [P1 P2].
    { eapply rnd_small; [exact Z|]. nra. }
    cbn [sum64 depth]. split; [exact P1|]. rewrite P2. fold m.
    replace (rnd64 _ - _) with ((rnd64 (B2R (sum64 l) + B2R (sum64 r)) - (B2R (sum64 l) + B2R (sum64 r))) + (B2R (sum64 l) + B2R (sum64 r) - (Rsum (values l) + Rsum (values r)))) by ring.
    eapply Rle_trans; [apply Rabs_triang|]. cbn [pow]. assert (U := u64_pos). assert (u64 * Rabs (B2R (sum64 l) + B2R (sum64 r)) <= u64 * ((1 + u64) ^ m * A)) by (apply Rmult_le_compat_l; lra).
    lra.
Qed.
Lemma ln_abs_le x B : 0 < B -> / B <= x <= B -> Rabs (ln x) <= B.
Proof.
  intros HB [L U]. assert (0 < / B) by now apply Rinv_0_lt_compat. assert (X : 0 < x) by lra.
  assert (H1 : forall y, 0 < y -> ln y <= y). { intros y Hy. assert (Q := exp_ineq1_le (ln y)). rewrite exp_ln in Q by exact Hy. lra. }
  apply Rabs_le_between. split; [|specialize (H1 x X); lra]. assert (Q := H1 (/ x) ltac:(now apply Rinv_0_lt_compat)). rewrite ln_Rinv in Q by exact X.
  assert (/ x <= B) by (rewrite <- (Rinv_inv B); apply Rinv_le_contravar; lra). lra.
Qed.
Lemma rs_le {A} (f g : A -> R) l : (forall x, In x l -> f x <= g x) -> Rsum (map f l) <= Rsum (map g l).
Proof. induction l as [|x l IH]; intros H; cbn [map]; [lra|]. rewrite !rs_cons. assert (I := IH (fun y Y => H y (or_intror Y))). assert (J := H x (or_introl eq_refl)). lra. Qed.
Lemma rs_const {A} (c : R) (l : list A) : Rsum (map (fun _ => c) l) = INR (List.length l) * c.
Proof. induction l as [|x l IH]; [cbn; change (Rsum []) with 0; lra|]. cbn [map]. rewrite rs_cons, IH. cbn [List.length]. rewrite S_INR. ring. Qed.
Lemma rs_plus {A} (f g : A -> R) l : Rsum (map (fun x => f x + g x) l) = Rsum (map f l) + Rsum (map g l).
Proof. induction l as [|x l IH]; cbn [map]; [change (Rsum []) with 0; lra|]. rewrite !rs_cons, IH. ring. Qed.
(** The means and the efficiency are positive doubles of moderate size, so their logarithms are small. *)
Lemma eff_size N t : (List.length (leaves t) <= N)%nat -> (Z.of_nat N <= 2 ^ 50)%Z -> Forall moderate (leaves t) ->
  positive_double (efficiency64 N t) /\ Rabs (ln (B2R (efficiency64 N t))) <= 2 ^ 460.
Proof.
  intros L N0 M. destruct (C110_means_pf N t L N0 M) as (_ & F & X & [B1 B2] & _).
  assert (LV := leaves_ne t). assert (N1 : (1 <= N)%nat) by lia. assert (NR := INR_2_50 N N0). assert (N1R : 1 <= INR N) by (change 1 with (INR 1); now apply le_INR).
  assert (W : Forall (within 400) (leaves t)) by (eapply Forall_impl; [|exact M]; intros a Ha; exact Ha).
  destruct (within_sum 400 (leaves t) W) as [W1 W2]. fold (values t) in W1, W2.
  assert (LL : 1 <= INR (List.length (leaves t)) <= 2 ^ 50). { split; [change 1 with (INR 1); apply le_INR; lia|]. eapply Rle_trans; [|exact NR]. apply le_INR. lia. }
  assert (P4 : 0 < / 2 ^ 400) by apply pow2_inv_pos. assert (P5 : 0 < 2 ^ 400) by apply pow2_pos. assert (P6 : 0 < 2 ^ 50) by apply pow2_pos.
  set (e := Rsum (values t) / INR N) in *.
  assert (E1 : / 2 ^ 450 <= e).
  { unfold e. replace (/ 2 ^ 450) with (/ 2 ^ 400 / 2 ^ 50). 2:{ replace 450%nat with (400 + 50)%nat by reflexivity. rewrite pow_add. field. }
    apply Rle_trans with (/ 2 ^ 400 / INR N); unfold Rdiv; [apply Rmult_le_compat_l; [lra|]; apply Rinv_le_contravar; lra|]. apply Rmult_le_compat_r; [left; apply Rinv_0_lt_compat; lra|]. nra. }
  assert (E2 : e <= 2 ^ 450).
  { unfold e. replace (2 ^ 450) with (2 ^ 50 * 2 ^ 400) by (rewrite <- pow_add; reflexivity). apply Rle_trans with (Rsum (values t)); [|nra].
    apply Rmult_le_reg_r with (INR N); [lra|]. unfold Rdiv. rewrite Rmult_assoc, Rinv_l by lra. assert (0 < Rsum (values t)) by nra. nra. }
  assert (D : (Z.of_nat (depth t + 1) <= 2 ^ 50)%Z) by lia. assert (H := pw_half _ D). assert (Hp := pw (depth t + 1)).
  assert (Y : is_finite (efficiency64 N t) = true /\ 0 < B2R (efficiency64 N t)) by (split; [exact F|nra]).
  split; [exact Y|]. apply ln_abs_le; [apply pow2_pos|].
  assert (B3 : B2R (efficiency64 N t) <= 2 * e).
  { eapply Rle_trans; [exact B2|]. unfold Rdiv. rewrite (Rmult_comm e). apply Rmult_le_compat_r; [lra|]. rewrite <- (Rinv_inv 2). apply Rinv_le_contravar; lra. }
  assert (Q : 2 ^ 460 = 2 ^ 10 * 2 ^ 450) by (rewrite <- pow_add; reflexivity). assert (P450 := pow2_pos 450). assert (T : 2 ^ 10 = 1024) by (simpl; lra). rewrite T in Q.
  split.
  - rewrite Q, Rinv_mult. assert (0 < / 2 ^ 450) by now apply Rinv_0_lt_compat. nra.
  - rewrite Q. nra.
Qed.
Lemma Zpen : nan_to_num_nan (Fin 0) (fmul PInf (Fin 0)) = Fin 0.
Proof. cbn [fmul]. unfold inf_of_sign, Rltb. destruct (Rlt_dec 0 0); [lra|]. reflexivity. Qed.
Lemma C138_log_likelihood_pf :
  forall eta log64 K N events injections t,
  log_accuracy log64 eta -> 0 <= eta <= 1 ->
  Forall (fun e => List.length (leaves e) = K /\ Forall moderate (leaves e)) events -> (Z.of_nat K <= 2 ^ 50)%Z -> (Z.of_nat (List.length events) <= 2 ^ 50)%Z ->
  (List.length (leaves injections) <= N)%nat -> (Z.of_nat N <= 2 ^ 50)%Z -> Forall moderate (leaves injections) ->
  leaves t = ln_bfs64 log64 K events ->
  let n := List.length events in
  let computed := ln_l64 log64 t n N injections in
  let efficiency := Rsum (values injections) / INR N in
  let exact := Rsum (map (fun e => ln (mean (values e))) events) - INR n * ln efficiency in
  let size := Rsum (map (fun e => Rabs (ln (mean (values e)))) events) + INR n * Rabs (ln efficiency) in
  let drift := (Rsum (map (fun e => INR (depth e + 1)) events) + INR n * INR (depth injections + 1)) * (u64 / (1 - u64)) in
  is_finite computed = true /\
  (forall maximum_uncertainty variance, flt maximum_uncertainty variance = false -> cut maximum_uncertainty (B2X computed) variance = Fin (B2R computed)) /\
  Rabs (B2R computed - exact) <= drift + ((1 + eta) * (1 + u64) ^ (depth t + 2) - 1) * (size + drift).
Proof.
  intros eta lg K N ev inj t LA [H0 H1] E K0 NE L N0 I LT n computed eff exact size drift.
  assert (U := u64_pos). assert (NP : 0 <= INR n) by apply pos_INR.
  assert (C := C110_log_likelihood_pf K N ev inj E K0 L N0 I). cbv zeta in C. fold n eff exact drift in C.
  destruct (eff_size N inj L N0 I) as [EP ES]. destruct (LA _ EP) as [G1 G2].
  assert (EV : forall e, In e ev -> positive_double (mean64 K e) /\ Rabs (ln (B2R (mean64 K e))) <= 2 ^ 460 /\ is_finite (lg (mean64 K e)) = true /\
    Rabs (B2R (lg (mean64 K e)) - ln (B2R (mean64 K e))) <= eta * Rabs (ln (B2R (mean64 K e))) /\ Rabs (ln (B2R (mean64 K e)) - ln (mean (values e))) <= INR (depth e + 1) * (u64 / (1 - u64))).
  { intros e He. rewrite Forall_forall in E. destruct (E e He) as [LE ME]. destruct (eff_size K e ltac:(lia) K0 ME) as [X1 X2]. change (mean64 K e) with (efficiency64 K e).
    destruct (LA _ X1) as [X3 X4]. destruct (C110_means_pf K e ltac:(lia) K0 ME) as (_ & _ & _ & _ & X5).
    split; [exact X1|]. split; [exact X2|]. split; [exact X3|]. split; [exact X4|].
    unfold mean. replace (List.length (values e)) with K by (unfold values; now rewrite map_length). exact X5. }
  set (M := fun e => ln (B2R (mean64 K e))) in *. set (LG := fun e => B2R (lg (mean64 K e))).
  set (Q := Rsum (map (fun e => Rabs (M e)) ev) + INR n * Rabs (ln (B2R (efficiency64 N inj)))).
  set (g := B2R (lg (efficiency64 N inj))) in *. set (le := ln (B2R (efficiency64 N inj))) in *.
  assert (VT : values t = map LG ev) by (unfold values; rewrite LT; unfold ln_bfs64; rewrite map_map; reflexivity).
  assert (SA : Rsuma (values t) = Rsum (map (fun e => Rabs (LG e)) ev)) by (unfold Rsuma; rewrite VT, map_map; reflexivity).
  assert (G3 : Rabs g <= (1 + eta) * Rabs le). { replace g with ((g - le) + le) by ring. eapply Rle_trans; [apply Rabs_triang|]. lra. }
  assert (LGM : forall e, In e ev -> Rabs (LG e) <= (1 + eta) * Rabs (M e)).
  { intros e He. destruct (EV e He) as (_ & _ & _ & X & _). fold (LG e) in X. fold (M e) in X. replace (LG e) with ((LG e - M e) + M e) by ring. eapply Rle_trans; [apply Rabs_triang|]. lra. }
  assert (SB : Rsuma (values t) <= (1 + eta) * Rsum (map (fun e => Rabs (M e)) ev)).
  { rewrite SA, Rmult_comm, <- (rs_scale (fun e => Rabs (M e))). apply rs_le. intros e He. rewrite Rmult_comm. now apply LGM. }
  assert (NB := INR_2_50 _ NE). fold n in NB. assert (P460 := pow2_pos 460).
  assert (MB : Rsum (map (fun e => Rabs (M e)) ev) <= INR n * 2 ^ 460).
  { unfold n. rewrite <- (rs_const (2 ^ 460) ev). apply rs_le. intros e He. apply (EV e He). }
  assert (BIG : INR n * 2 ^ 460 <= 2 ^ 510) by (replace (2 ^ 510) with (2 ^ 50 * 2 ^ 460) by (rewrite <- pow_add; reflexivity); apply Rmult_le_compat_r; lra).
  assert (M0 : 0 <= Rsum (map (fun e => Rabs (M e)) ev)). { assert (Z := rsuma_pos (map M ev)). unfold Rsuma in Z. now rewrite map_map in Z. }
  assert (B510 : 16 * 2 ^ 510 <= 2 ^ 1000). { replace (2 ^ 1000) with (2 ^ 4 * 2 ^ 510 * 2 ^ 486) by (rewrite <- !pow_add; reflexivity). assert (1 <= 2 ^ 486) by (apply pow_R1_Rle; lra). assert (P := pow2_pos 510). simpl (2 ^ 4). nra. }
  assert (P510 := pow2_pos 510).
  assert (LF : Forall (fun w : b64 => is_finite w = true) (leaves t)).
  { rewrite LT. unfold ln_bfs64. apply Forall_forall. intros w Hw. apply in_map_iff in Hw. destruct Hw as (e & <- & He). apply (EV e He). }
  assert (DT : (depth t < n)%nat). { assert (Z := leaves_ne t). rewrite LT in Z. unfold ln_bfs64 in Z. now rewrite map_length in Z. }
  assert (DZ : (Z.of_nat (depth t) <= 2 ^ 50)%Z) by (unfold n in DT; lia).
  destruct (sum_signed (2 ^ 1000) t LF DZ) as [S1 S2]; [nra|lra|].
  set (A := Rsuma (values t)) in *. set (B := INR n * Rabs g).
  assert (A0 : 0 <= A) by apply rsuma_pos. assert (B0 : 0 <= B) by (unfold B; assert (Z := Rabs_pos g); nra).
  assert (LEB : INR n * Rabs le <= INR n * 2 ^ 460) by (apply Rmult_le_compat_l; lra).
  assert (LE0 : 0 <= INR n * Rabs le) by (assert (Z := Rabs_pos le); nra).
  assert (BB : B <= (1 + eta) * (INR n * Rabs le)) by (unfold B; nra).
  (* the product *)
  destruct (int64_val n ltac:(unfold n; lia)) as [I1 I2].
  assert (PE := rnd_int_mult n g (B2R_double _)). assert (PA : Rabs (- INR n * g) = B) by (unfold B; rewrite Rabs_mult, Rabs_Ropp, (Rabs_pos_eq (INR n)) by lra; reflexivity).
  destruct (Bmult_fin (Bopp (int64 n)) (lg (efficiency64 N inj))) as [T1 T2]; [now rewrite is_finite_Bopp|exact G1| |].
  { rewrite B2R_Bopp, I2. fold g. eapply rnd_small; [exact PE|]. rewrite PA. nra. }
  rewrite B2R_Bopp, I2 in T2. fold g in T2. fold (total_selection64 lg n N inj) in T1, T2. set (P := B2R (total_selection64 lg n N inj)) in *. rewrite PA in PE. rewrite <- T2 in PE.
  set (S := B2R (sum64 t)) in *. rewrite VT in S2. set (d := depth t) in *.
  assert (Ud := up_pow d). assert (Ud1 : (1 + u64) ^ d <= 2) by now apply up_two.
  assert (E1 : Rabs (S + P - (Rsum (map LG ev) - INR n * g)) <= ((1 + u64) ^ (d + 1) - 1) * (A + B)).
  { replace (_ - _) with ((S - Rsum (map LG ev)) + (P - - INR n * g)) by ring. eapply Rle_trans; [apply Rabs_triang|].
    rewrite pow_add, pow_1. assert (u64 <= (1 + u64) ^ d * (1 + u64) - 1) by nra. assert ((1 + u64) ^ d <= (1 + u64) ^ d * (1 + u64)) by nra. nra. }
  assert (SS : Rabs (Rsum (map LG ev) - INR n * g) <= A + B).
  { unfold Rminus. eapply Rle_trans; [apply Rabs_triang|]. rewrite Rabs_Ropp. replace (Rabs (INR n * g)) with B by (unfold B; rewrite Rabs_mult, (Rabs_pos_eq (INR n)) by lra; reflexivity).
    apply Rplus_le_compat_r. unfold A. rewrite VT. apply rsum_abs. }
  assert (SP : Rabs (S + P) <= (1 + u64) ^ (d + 1) * (A + B)).
  { replace (S + P) with ((S + P - (Rsum (map LG ev) - INR n * g)) + (Rsum (map LG ev) - INR n * g)) by ring. eapply Rle_trans; [apply Rabs_triang|]. lra. }
  assert (Ud2 : (1 + u64) ^ (d + 1) <= 4) by (rewrite pow_add, pow_1; nra).
  assert (Z := rnd_plus_err S P (B2R_double _) (B2R_double _)).
  destruct (Bplus_fin (sum64 t) (total_selection64 lg n N inj) S1 T1) as [R1 R2].
  { fold S P. eapply rnd_small; [exact Z|]. nra. }
  fold (ln_l64 lg t n N inj) in R1, R2. fold computed in R1, R2. fold S P in R2.
  split; [exact R1|]. split.
  { intros mu var HF. unfold cut. rewrite (B2X_fin _ R1), HF. cbn [of_bool]. rewrite Zpen.
    change (nan_to_num_nan NInf (Fin (B2R computed))) with (Fin (B2R computed)). change (fsub (Fin (B2R computed)) (Fin 0)) with (Fin (B2R computed - 0)). rewrite Rminus_0_r.
    cbn [xfl]. rewrite fl_double by apply B2R_double. reflexivity. }
  (* the logarithms *)
  assert (E2 : Rabs (Rsum (map LG ev) - INR n * g - (Rsum (map M ev) - INR n * le)) <= eta * Q).
  { replace (_ - _) with ((Rsum (map LG ev) - Rsum (map M ev)) + (- INR n * (g - le))) by ring. eapply Rle_trans; [apply Rabs_triang|].
    rewrite Rabs_mult, Rabs_Ropp, (Rabs_pos_eq (INR n)) by lra. unfold Q. fold le. rewrite Rmult_plus_distr_l. apply Rplus_le_compat.
    - rewrite Rmult_comm, <- (rs_scale (fun e => Rabs (M e))). apply sum_abs_bound. intros e He. destruct (EV e He) as (_ & _ & _ & X & _). rewrite Rmult_comm. exact X.
    - nra. }
  assert (AB : A + B <= (1 + eta) * Q) by (unfold Q; fold le; nra).
  assert (QS : Q <= size + drift).
  { unfold Q, size, drift. fold le.
    assert (X1 : Rsum (map (fun e => Rabs (M e)) ev) <= Rsum (map (fun e => Rabs (ln (mean (values e)))) ev) + Rsum (map (fun e => INR (depth e + 1)) ev) * (u64 / (1 - u64))).
    { rewrite <- (rs_scale (fun e => INR (depth e + 1))), <- rs_plus. apply rs_le. intros e He. destruct (EV e He) as (_ & _ & _ & _ & X). fold (M e) in X.
      replace (M e) with ((M e - ln (mean (values e))) + ln (mean (values e))) by ring. eapply Rle_trans; [apply Rabs_triang|]. lra. }
    destruct (C110_means_pf N inj L N0 I) as (_ & _ & _ & _ & X2). fold eff le in X2.
    assert (X3 : Rabs le <= Rabs (ln eff) + INR (depth inj + 1) * (u64 / (1 - u64))).
    { replace le with ((le - ln eff) + ln eff) by ring. eapply Rle_trans; [apply Rabs_triang|]. lra. }
    nra. }
  assert (Q0 : 0 <= Q) by (unfold Q; fold le; lra).
  assert (E3 : Rabs (B2R computed - (Rsum (map M ev) - INR n * le)) <= ((1 + eta) * (1 + u64) ^ (d + 2) - 1) * Q).
  { rewrite R2.
    replace (_ - _) with ((rnd64 (S + P) - (S + P)) + ((S + P - (Rsum (map LG ev) - INR n * g)) + (Rsum (map LG ev) - INR n * g - (Rsum (map M ev) - INR n * le)))) by ring.
    eapply Rle_trans; [apply Rabs_triang|]. eapply Rle_trans; [apply Rplus_le_compat_l, Rabs_triang|].
    assert (W1 : u64 * Rabs (S + P) <= u64 * ((1 + u64) ^ (d + 1) * (A + B))) by (apply Rmult_le_compat_l; lra).
    replace ((1 + u64) ^ (d + 2)) with ((1 + u64) ^ (d + 1) * (1 + u64)) by (rewrite !pow_add; ring).
    set (w := (1 + u64) ^ (d + 1)) in *. assert (w1 : 1 <= w) by apply up_pow.
    assert (W2 : (w * (1 + u64) - 1) * (A + B) <= (w * (1 + u64) - 1) * ((1 + eta) * Q)) by (apply Rmult_le_compat_l; nra).
    nra. }
  fold d. replace (B2R computed - exact) with ((B2R computed - (Rsum (map M ev) - INR n * le)) + (Rsum (map M ev) - INR n * le - exact)) by ring.
  eapply Rle_trans; [apply Rabs_triang|]. rewrite Rplus_comm. apply Rplus_le_compat; [exact C|].
  eapply Rle_trans; [exact E3|]. apply Rmult_le_compat_l; [|exact QS]. assert (1 <= (1 + u64) ^ (d + 2)) by apply up_pow. nra.
Qed.

Lemma above_one x : is_double x -> 1 < x -> 1 + bpow radix2 (-52) <= x.
Proof.
  intros [G _] H. replace (1 + bpow radix2 (-52)) with (succ radix2 format64 1).
  - apply succ_le_lt; [apply valid64| |exact G|exact H]. change 1 with (bpow radix2 0). apply generic_format_bpow. unfold format64, FLT_exp. lia.
  - unfold succ. rewrite Rle_bool_true by lra. f_equal. change 1 with (bpow radix2 0). rewrite ulp_bpow. reflexivity.
Qed.
Lemma below_one x : is_double x -> 0 < x -> x < 1 -> x <= 1 - bpow radix2 (-53).
Proof.
  intros [G _] P H. replace (1 - bpow radix2 (-53)) with (pred radix2 format64 1).
  - apply pred_ge_gt; [apply valid64|exact G| |exact H]. change 1 with (bpow radix2 0). apply generic_format_bpow. unfold format64, FLT_exp. lia.
  - change 1 with (bpow radix2 0). rewrite pred_bpow by apply valid64. reflexivity.
Qed.
Lemma ln_normal x : is_double x -> 0 < x -> x <> 1 -> bpow radix2 (-1022) <= Rabs (ln x).
Proof.
  intros D P N. apply Rle_trans with (bpow radix2 (-53)); [apply bpow_le; lia|].
  assert (T : forall y, 0 < y -> ln y <= y - 1). { intros y Hy. assert (Q := exp_ineq1_le (ln y)). rewrite exp_ln in Q by exact Hy. lra. }
  destruct (Rlt_le_dec x 1) as [H|H].
  - assert (B := below_one x D P H). assert (Q := T x P). rewrite Rabs_left1 by lra. lra.
  - assert (H' : 1 < x) by lra. assert (B := above_one x D H'). assert (Q := T (/ x) ltac:(now apply Rinv_0_lt_compat)). rewrite ln_Rinv in Q by exact P.
    assert (B2 : bpow radix2 (-52) = 2 * bpow radix2 (-53)) by (change (-52)%Z with (1 + -53)%Z; rewrite bpow_plus; reflexivity).
    assert (P53 := bpow_gt_0 radix2 (-53)). assert (S53 : bpow radix2 (-53) <= / 4) by (change (/ 4) with (bpow radix2 (-2)); apply bpow_le; lia).
    assert (L : bpow radix2 (-53) <= ln x).
    { assert (bpow radix2 (-53) <= 1 - / x); [|lra]. apply (Rmult_le_reg_r x); [exact P|]. rewrite Rmult_minus_distr_r, Rinv_l by lra. nra. }
    rewrite Rabs_pos_eq by lra. exact L.
Qed.
Lemma C138_correctly_rounded_pf :
  forall log64, correctly_rounded_log log64 -> log_accuracy log64 u64.
Proof.
  intros lg H x X. destruct (H x X) as [F V]. split; [exact F|]. rewrite V. destruct X as [Fx Px].
  destruct (Req_dec (B2R x) 1) as [E|E].
  - rewrite E, ln_1. unfold rnd64. rewrite round_0 by apply valid_rnd_N. rewrite Rminus_0_r, Rabs_R0. lra.
  - assert (N := ln_normal _ (B2R_double x) Px E).
    destruct (relative_error_N_FLT_ex radix2 (-1074) 53 eq_refl (fun x => negb (Z.even x)) (ln (B2R x)) N) as (e & E1 & E2).
    unfold rnd64, format64. rewrite E2. replace (ln (B2R x) * (1 + e) - ln (B2R x)) with (ln (B2R x) * e) by ring. rewrite Rabs_mult. fold (u_ro radix2 53) in E1. rewrite u64_ro in E1.
    assert (A := Rabs_pos (ln (B2R x))). nra.
Qed.

