(** Proofs of the property theorems stated in [Props_roundvar]. *)
From Coq Require Import Reals Lra Lia Psatz ZArith Bool.
From Coquelicot Require Import Rcomplements.
From Flocq Require Import Core BinarySingleNaN Relative Plus_error.
From Coq Require Import List.
From Verif Require Import Xf Py Xf_facts Double Double_facts Rounded_model SpecRound SpecHyper Hyperpe_model hypera_thms hyperb_thms round_thms roundll_thms RoundedVariance_model.
Import ListNotations.
Local Open Scope R_scope.
Lemma INR_le_pow K p : (Z.of_nat K <= 2 ^ Z.of_nat p)%Z -> INR K <= 2 ^ p.
Proof. intros H. rewrite INR_IZR_INZ. apply Rle_trans with (IZR (2 ^ Z.of_nat p)); [now apply IZR_le|]. right. rewrite <- pow_IZR. reflexivity. Qed.
Lemma rho_two d : (Z.of_nat d <= 2 ^ 50)%Z -> rho ^ d <= 2.
Proof. intros H. assert (P := pw_half d H). assert (E := rho_pow d). assert (G := rho_ge d). nra. Qed.
Lemma rho_step : rho - 1 = u64 * rho.
Proof. destruct rho_facts as (_ & _ & E). lra. Qed.
Lemma up_rho n : (1 + u64) ^ n <= rho ^ n.
Proof. apply pow_incr. assert (U := u64_pos). destruct rho_facts as (A & B & C). lra. Qed.
Lemma rho_split n m : rho ^ (n + m) = rho ^ n * rho ^ m. Proof. apply pow_add. Qed.

(** One more rounding, away from underflow. *)
Lemma round_step G k x y : bpow radix2 (-200) <= G -> Rabs (y - x) <= (rho ^ k - 1) * G -> Rabs x <= G ->
  Rabs (rnd64 y - x) <= (rho ^ (k + 1) - 1) * G.
Proof.
  intros HG H X. assert (U := u64_pos). assert (R := rho_ge k). destruct rho_facts as (R1 & R2 & R3). assert (RS := rho_step).
  assert (G0 : 0 < G) by (eapply Rlt_le_trans; [apply bpow_gt_0|exact HG]).
  assert (Y : Rabs y <= rho ^ k * G). { replace (rho ^ k * G) with (G + (rho ^ k - 1) * G) by ring. eapply abs_step; [exact H|exact X]. }
  assert (E := rnd_err y).
  assert (T : bpow radix2 (-1075) <= u64 * u64 * G).
  { apply Rle_trans with (u64 * u64 * bpow radix2 (-200)); [|apply Rmult_le_compat_l; [nra|exact HG]].
    unfold u64. rewrite pow_bpow_inv, <- !bpow_plus. apply bpow_le. lia. }
  replace (rnd64 y - x) with ((rnd64 y - y) + (y - x)) by ring. eapply Rle_trans; [apply Rabs_triang|].
  rewrite rho_split, pow_1.
  assert (u64 * Rabs y <= u64 * (rho ^ k * G)) by (apply Rmult_le_compat_l; lra).
  assert (K : u64 * (rho ^ k * G) + u64 * u64 * G <= (rho - 1) * (rho ^ k * G)).
  { rewrite RS. replace (u64 * rho * (rho ^ k * G)) with (u64 * (rho ^ k * G) + u64 * ((rho - 1) * (rho ^ k * G))) by ring.
    assert (Z : u64 * (1 * G) <= (rho - 1) * (rho ^ k * G)). { apply Rmult_le_compat; try lra; try nra. }
    nra. }
  replace ((rho ^ k * rho - 1) * G) with ((rho - 1) * (rho ^ k * G) + (rho ^ k - 1) * G) by ring. lra.
Qed.

(** A quotient of an approximate numerator and an approximate positive denominator. *)
Lemma div_err m k F v v' d d' : 0 <= F -> 0 < d -> near k d d' -> Rabs (v' - v) <= (rho ^ m - 1) * F -> Rabs v <= F ->
  Rabs (v' / d' - v / d) <= (rho ^ (m + k) - 1) * (F / d) /\ Rabs (v / d) <= F / d.
Proof.
  intros F0 D N H V. assert (D' := near_pos _ _ _ D N). assert (I := near_inv k d d' D D' N).
  assert (ID : 0 < / d) by now apply Rinv_0_lt_compat. assert (ID' : 0 < / d') by now apply Rinv_0_lt_compat.
  destruct (near_abs k (/ d) (/ d') ltac:(lra) I) as [A B].
  assert (Rm := rho_ge m). assert (Rk := rho_ge k).
  split.
  - replace (v' / d' - v / d) with ((v' - v) * / d' + v * (/ d' - / d)) by (unfold Rdiv; ring).
    eapply Rle_trans; [apply Rabs_triang|]. rewrite !Rabs_mult, (Rabs_pos_eq (/ d')) by lra.
    assert (X1 : Rabs (v' - v) * / d' <= (rho ^ m - 1) * F * (rho ^ k * / d)) by (apply Rmult_le_compat; try lra; apply Rabs_pos).
    assert (X2 : Rabs v * Rabs (/ d' - / d) <= F * ((rho ^ k - 1) * / d)) by (apply Rmult_le_compat; try lra; apply Rabs_pos).
    rewrite rho_split. unfold Rdiv. lra.
  - unfold Rdiv. rewrite Rabs_mult, (Rabs_pos_eq (/ d)) by lra. apply Rmult_le_compat_r; lra.
Qed.

(** The square of the detection efficiency. *)
Lemma eff_square N t : (List.length (leaves t) <= N)%nat -> (Z.of_nat N <= 2 ^ 50)%Z -> Forall moderate (leaves t) ->
  let M := Rsum (values t) / INR N in
  is_finite (square64 (efficiency64 N t)) = true /\ 0 < M /\ near (2 * depth t + 3) (M * M) (B2R (square64 (efficiency64 N t))).
Proof.
  intros L N1 F M. assert (D := leaves_ne t).
  destruct (within_near 400 N t ltac:(lia) L N1 F) as (Am & Bm & Cm). fold M in Bm, Cm.
  set (m := B2R (efficiency64 N t)) in *. assert (U := u64_pos).
  assert (H1 := pw_half (depth t + 1) ltac:(lia)).
  assert (MP : 0 < M) by (assert (X := pow2_inv_pos (50 + 400)); lra). assert (mP := near_pos _ _ _ MP Cm).
  assert (mL : / 2 ^ 451 <= m). { destruct Cm as [X _]. apply Rle_trans with (/ 2 * / 2 ^ (50 + 400)); [|assert (Y := pow2_inv_pos (50 + 400)); apply Rle_trans with ((1 - u64) ^ (depth t + 1) * M); [apply Rmult_le_compat; lra|exact X]].
    right. change (2 ^ 451) with (2 * 2 ^ (50 + 400)). apply Rinv_mult_distr; [lra|]. apply Rgt_not_eq, pow2_pos. }
  assert (mU : m <= 2 ^ 401). { destruct Cm as [_ X]. change (2 ^ 401) with (2 * 2 ^ 400). nra. }
  assert (mm1 : / 2 ^ 902 <= m * m). { replace 902%nat with (451 + 451)%nat by lia. rewrite pow_add, Rinv_mult_distr by (apply Rgt_not_eq, pow2_pos). assert (X := pow2_inv_pos 451). apply Rmult_le_compat; lra. }
  assert (mm2 : m * m <= 2 ^ 802). { replace 802%nat with (401 + 401)%nat by lia. rewrite pow_add. apply Rmult_le_compat; lra. }
  assert (NM : near 1 (m * m) (rnd64 (m * m))). { apply rnd_near_normal. eapply Rle_trans; [|exact mm1]. rewrite pow_bpow_inv. apply bpow_le; lia. }
  destruct (Bmult_fin (efficiency64 N t) (efficiency64 N t) Am Am) as (FM & VM). { fold m. apply small_lt; [nra|]. eapply Rle_trans; [exact mm2|]. rewrite pow_bpow. apply bpow_le; lia. }
  fold (square64 (efficiency64 N t)) in FM, VM. fold m in VM. rewrite <- VM in NM.
  split; [exact FM|]. split; [exact MP|].
  replace (2 * depth t + 3)%nat with ((depth t + 1 + (depth t + 1)) + 1)%nat by lia.
  eapply near_trans; [|exact NM]. apply near_mult; auto; lra.
Qed.

Lemma sum_sq_le (l : list R) : Forall (fun x => 0 < x) l -> Rsum (squares l) <= Rsum l ^ 2 /\ 0 <= Rsum l.
Proof.
  induction l as [|x l IH]; intros H; [change (Rsum (squares [])) with 0; change (Rsum []) with 0; split; [simpl|]; lra|].
  inversion H as [|? ? X H']; subst. destruct (IH H') as [A B].
  change (squares (x :: l)) with (x * x :: squares l). rewrite !rs_cons. split; [|lra]. simpl in *. nra.
Qed.
Lemma sum_sq_pos (l : list R) : Forall (fun x => 0 < x) l -> l <> [] -> 0 < Rsum l /\ 0 < Rsum (squares l).
Proof.
  destruct l as [|x l]; intros H E; [congruence|]. inversion H as [|? ? X H']; subst.
  change (squares (x :: l)) with (x * x :: squares l). rewrite !rs_cons. destruct (sum_sq_le l H') as [_ B].
  assert (0 <= Rsum (squares l)). { clear - H'. induction l as [|y l IH]; [change (Rsum (squares [])) with 0; lra|]. inversion H' as [|? ? Y H2]; subst. specialize (IH H2). change (squares (y :: l)) with (y * y :: squares l). rewrite rs_cons. nra. }
  split; nra.
Qed.
Lemma values_pos t : Forall moderate (leaves t) -> Forall (fun x => 0 < x) (values t) /\ values t <> [].
Proof.
  intros F. split.
  - unfold values. apply Forall_map. eapply Forall_impl; [|exact F]. intros w [_ H]. assert (X := pow2_inv_pos 400). lra.
  - unfold values. assert (D := leaves_ne t). destruct (leaves t); [simpl in D; lia|discriminate].
Qed.
(** [1 / n_eff]: at most 1, and an upper bound of the variance. *)
Lemma inv_neff t : Forall moderate (leaves t) -> 0 < / (Rsum (values t) ^ 2 / Rsum (squares (values t))) <= 1 /\
  / (Rsum (values t) ^ 2 / Rsum (squares (values t))) = Rsum (squares (values t)) / Rsum (values t) ^ 2.
Proof.
  intros F. destruct (values_pos t F) as [P E]. destruct (sum_sq_pos _ P E) as [A B]. destruct (sum_sq_le _ P) as [C _].
  assert (Q : 0 < Rsum (values t) ^ 2) by (apply pow_lt; lra).
  assert (I : / (Rsum (values t) ^ 2 / Rsum (squares (values t))) = Rsum (squares (values t)) / Rsum (values t) ^ 2) by (field; split; lra).
  rewrite I. split; [|reflexivity]. split; [apply Rdiv_lt_0_compat; lra|]. apply Rle_div_l; lra.
Qed.
Lemma mcv_neff K t : List.length (leaves t) = K -> Forall moderate (leaves t) ->
  Rabs (mc_variance K (values t)) <= / (Rsum (values t) ^ 2 / Rsum (squares (values t))).
Proof.
  intros L F. destruct (values_pos t F) as [P E]. destruct (inv_neff t F) as [_ I]. rewrite I. destruct (sum_sq_pos _ P E) as [A B].
  assert (LV : List.length (values t) = K) by (unfold values; now rewrite map_length).
  assert (K0 : (0 < K)%nat) by (destruct (values t); [congruence|simpl in LV; lia]).
  assert (KP : 0 < INR K) by now apply lt_0_INR.
  destruct (mcv_bounds K (values t) K0 LV P) as [[Z _] _]. rewrite Rabs_pos_eq by exact Z.
  unfold mc_variance, mean, squares. rewrite map_length, LV.
  replace ((Rsum (map (fun x => x * x) (values t)) / INR K - Rsum (values t) / INR K * (Rsum (values t) / INR K)) / (INR K * (Rsum (values t) / INR K * (Rsum (values t) / INR K))))
    with (Rsum (map (fun x => x * x) (values t)) / Rsum (values t) ^ 2 - / INR K) by (field; split; lra).
  assert (0 < / INR K) by now apply Rinv_0_lt_compat. lra.
Qed.

(** The selection term. *)
Lemma selection_term n N t t2 : (0 < n)%nat -> (Z.of_nat n <= 2 ^ 25)%Z -> (List.length (leaves t) <= N)%nat -> (Z.of_nat N <= 2 ^ 46)%Z ->
  Forall moderate (leaves t) -> adds_squares t t2 ->
  let mu := Rsum (values t) / INR N in
  let var := Rsum (squares (values t)) / INR N ^ 2 - mu ^ 2 / INR N in
  let G := / (Rsum (values t) ^ 2 / Rsum (squares (values t))) + / INR N in
  is_finite (selection_variance64 n N t t2) = true /\
  Rabs (B2R (selection_variance64 n N t t2) - INR n ^ 2 * (var / mu ^ 2)) <= (rho ^ (4 * depth t + depth t2 + 13) - 1) * (INR n ^ 2 * G) /\
  Rabs (INR n ^ 2 * (var / mu ^ 2)) <= INR n ^ 2 * G /\ G <= 2.
Proof.
  intros n0 n1 L N1 F SQ mu var G. assert (D := leaves_ne t). assert (D2 := leaves_ne t2).
  assert (L2 : List.length (leaves t2) = List.length (leaves t)) by (rewrite SQ; apply map_length).
  assert (N48 : (Z.of_nat N <= 2 ^ 48)%Z) by (apply Z.le_trans with (2 ^ 46)%Z; [exact N1|simpl; lia]).
  assert (N50 : (Z.of_nat N <= 2 ^ 50)%Z) by (apply Z.le_trans with (2 ^ 46)%Z; [exact N1|simpl; lia]).
  destruct (C111_efficiency_variance_error_pf N t t2 L N48 F SQ) as [V1 V2]. cbv zeta in V2. fold mu in V2. fold var in V2. rewrite rho_inv in V2.
  destruct (eff_square N t L N50 F) as (Q1 & Q2 & Q3). fold mu in Q2, Q3.
  destruct (values_pos t F) as [P E]. destruct (sum_sq_pos _ P E) as [A B]. destruct (inv_neff t F) as [I1 I2].
  assert (NP : 1 <= INR N) by (change 1 with (INR 1); apply le_INR; lia). assert (NU : INR N <= 2 ^ 46) by (apply (INR_le_pow N 46); exact N1).
  set (Fs := Rsum (squares (values t)) / INR N ^ 2 + mu ^ 2 / INR N) in *.
  assert (GE : Fs / (mu * mu) = G). { unfold Fs, G, mu. rewrite I2. field. repeat split; lra. }
  assert (MM : 0 < mu * mu) by nra.
  assert (N2 : 0 < INR N ^ 2) by (apply pow_lt; lra).
  assert (T1 : 0 < Rsum (squares (values t)) / INR N ^ 2) by (apply Rdiv_lt_0_compat; lra).
  assert (T2 : 0 < mu ^ 2 / INR N) by (apply Rdiv_lt_0_compat; [apply pow_lt|]; lra).
  assert (F0 : 0 <= Fs) by (unfold Fs; lra).
  assert (VF : Rabs var <= Fs) by (unfold var, Fs; apply Rabs_le_between; lra).
  destruct (div_err _ _ Fs var (B2R (efficiency_variance64 N t t2)) (mu * mu) (B2R (square64 (efficiency64 N t))) F0 MM Q3 V2 VF) as [E1 E2].
  rewrite GE in E1, E2.
  assert (IN1 : / 2 ^ 46 <= / INR N <= 1). { split; [apply Rinv_le_contravar; lra|]. rewrite <- Rinv_1. apply Rinv_le_contravar; lra. }
  assert (GL : bpow radix2 (-200) <= G). { apply Rle_trans with (/ 2 ^ 46); [rewrite pow_bpow_inv; apply bpow_le; lia|]. unfold G. lra. }
  assert (GU : G <= 2) by (unfold G; lra).
  assert (G0 : 0 < G) by (eapply Rlt_le_trans; [apply bpow_gt_0|exact GL]).
  set (k := (2 * depth t + depth t2 + 8 + (2 * depth t + 3))%nat) in *.
  set (x := var / (mu * mu)) in *.
  set (q := B2R (efficiency_variance64 N t t2) / B2R (square64 (efficiency64 N t))) in *.
  assert (S1 := round_step G k x q GL E1 E2).
  assert (Rk1 : rho ^ (k + 1) <= 2). { apply rho_two. unfold k. change (2 ^ 50)%Z with (16 * 2 ^ 46)%Z. lia. }
  assert (Rk2 : rho ^ (k + 1 + 1) <= 2). { apply rho_two. unfold k. change (2 ^ 50)%Z with (16 * 2 ^ 46)%Z. lia. }
  assert (RQ : Rabs (rnd64 q) <= 4). { apply Rle_trans with (G + (rho ^ (k + 1) - 1) * G); [eapply abs_step; [exact S1|exact E2]|]. nra. }
  assert (Q0 : B2R (square64 (efficiency64 N t)) <> 0) by (apply Rgt_not_eq, (near_pos _ _ _ MM Q3)).
  destruct (Bdiv_fin (efficiency_variance64 N t t2) (square64 (efficiency64 N t)) V1 Q0) as (B1 & B2).
  { fold q. eapply Rle_lt_trans; [exact RQ|]. replace 4 with (bpow radix2 2) by (simpl; lra). apply bpow_lt; lia. }
  fold q in B2. rewrite <- B2 in S1, RQ.
  set (r := Bdiv mode_NE (efficiency_variance64 N t t2) (square64 (efficiency64 N t))) in *.
  assert (NN : (Z.of_nat (n * n) <= 2 ^ 53)%Z). { rewrite Nat2Z.inj_mul. apply Z.le_trans with (2 ^ 25 * 2 ^ 25)%Z; [apply Z.mul_le_mono_nonneg; lia|simpl; lia]. }
  destruct (int64_val (n * n) NN) as (J1 & J2). rewrite mult_INR in J2.
  assert (nP : 1 <= INR n) by (change 1 with (INR 1); apply le_INR; lia).
  assert (nU : INR n * INR n <= 2 ^ 50). { rewrite <- mult_INR. apply (INR_le_pow (n * n) 50). rewrite Nat2Z.inj_mul. change (2 ^ Z.of_nat 50)%Z with (2 ^ 25 * 2 ^ 25)%Z. apply Z.mul_le_mono_nonneg; lia. }
  set (c := INR n * INR n) in *. assert (c1 : 1 <= c) by (unfold c; nra).
  assert (GL' : bpow radix2 (-200) <= c * G) by nra.
  assert (S2 := round_step (c * G) (k + 1) (c * x) (c * B2R r) GL').
  assert (S2' : Rabs (rnd64 (c * B2R r) - c * x) <= (rho ^ (k + 1 + 1) - 1) * (c * G)).
  { apply S2.
    - replace (c * B2R r - c * x) with (c * (B2R r - x)) by ring. rewrite Rabs_mult, (Rabs_pos_eq c) by lra.
      replace ((rho ^ (k + 1) - 1) * (c * G)) with (c * ((rho ^ (k + 1) - 1) * G)) by ring. apply Rmult_le_compat_l; lra.
    - rewrite Rabs_mult, (Rabs_pos_eq c) by lra. apply Rmult_le_compat_l; lra. }
  assert (CX : Rabs (c * x) <= c * G) by (rewrite Rabs_mult, (Rabs_pos_eq c) by lra; apply Rmult_le_compat_l; lra).
  destruct (Bmult_fin (int64 (n * n)) r J1 B1) as (M1 & M2).
  { rewrite J2. fold c. apply Rle_lt_trans with (2 ^ 52).
    - apply Rle_trans with (c * G + (rho ^ (k + 1 + 1) - 1) * (c * G)); [eapply abs_step; [exact S2'|exact CX]|].
      change (2 ^ 52) with (2 * (2 * 2 ^ 50)). assert (c * G <= 2 ^ 50 * 2) by (apply Rmult_le_compat; lra). assert (0 <= c * G) by nra. nra.
    - rewrite pow_bpow. apply bpow_lt; lia. }
  unfold selection_variance64. fold r. rewrite J2 in M2. fold c in M2.
  replace (mu ^ 2) with (mu * mu) by ring. fold x. replace (INR n ^ 2) with c by (unfold c; ring).
  split; [exact M1|]. split; [|split; [exact CX|exact GU]]. rewrite M2.
  replace (4 * depth t + depth t2 + 13)%nat with (k + 1 + 1)%nat by (unfold k; lia). exact S2'.
Qed.

Lemma Rsuma_map {A} (f : A -> b64) l : Rsuma (map (fun w : b64 => B2R w) (map f l)) = Rsum (map (fun x => Rabs (B2R (f x))) l).
Proof. unfold Rsuma. now rewrite !map_map. Qed.
Lemma rs_pos {A} (f : A -> R) l : (forall x, In x l -> 0 <= f x) -> 0 <= Rsum (map f l).
Proof.
  induction l as [|x l IH]; intros H; [change (Rsum (map f [])) with 0; lra|]. cbn [map]. rewrite rs_cons.
  assert (0 <= f x) by (apply H; now left). assert (0 <= Rsum (map f l)) by (apply IH; intros y Y; apply H; now right). lra.
Qed.
Lemma rs_minus {A} (f g : A -> R) l : Rsum (map (fun x => f x - g x) l) = Rsum (map f l) - Rsum (map g l).
Proof. induction l as [|x l IH]; [change (Rsum (map f [])) with 0; change (Rsum (map g [])) with 0; change (Rsum (map (fun x => f x - g x) [])) with 0; lra|]. cbn [map]. rewrite !rs_cons, IH. ring. Qed.
Lemma rs_mult {A} (f : A -> R) c l : Rsum (map (fun x => c * f x) l) = c * Rsum (map f l).
Proof. rewrite (map_ext _ (fun x => f x * c)) by (intros; ring). rewrite rs_scale. ring. Qed.

Lemma cut_decide (th l v : b64) x b : is_finite th = true -> is_finite l = true -> Rabs (B2R l) < 2 ^ 969 -> is_finite v = true -> Rabs (B2R v - x) <= b ->
  (x + b <= B2R th -> B2X (cut_b th l v) = Fin (B2R l)) /\ (B2R th < x - b -> B2X (cut_b th l v) = Fin (- MAXF)).
Proof.
  intros Ft Fl Hl Fv Hv. apply Rabs_le_between in Hv. split; intros H.
  - assert (E : Bltb th v = false) by (rewrite Bltb_correct by auto; apply Rlt_bool_false; lra).
    unfold cut_b. rewrite E.
    assert (NN : nan_to_num_b (B754_infinity true) l = l) by (destruct l as [s|s| |s m e HH]; try discriminate; try destruct s; reflexivity). rewrite NN.
    destruct (Bminus_fin l (B754_zero false) Fl eq_refl) as (A & B). { cbn [B2R]. rewrite Rminus_0_r, (rnd_double _ (B2R_double l)). apply (B2R_double l). }
    cbn [B2R] in B. rewrite Rminus_0_r, (rnd_double _ (B2R_double l)) in B. rewrite <- B.
    destruct (Bminus mode_NE l (B754_zero false)) as [s|s| |s m e HH]; try discriminate; try destruct s; reflexivity.
  - rewrite C60_ieee754_pf. rewrite (B2X_fin l Fl).
    apply cut_over; [rewrite <- B2X_lt, Bltb_correct by auto; apply Rlt_bool_true; lra|]. rewrite p970. change (2 ^ 970) with (2 * 2 ^ 969).
    apply Rabs_def2 in Hl. assert (Z := pow2_pos 969). lra.
Qed.

Lemma C140_total_variance_pf :
  forall K N events injections injections2 tv,
  Forall (fun e => List.length (leaves (fst e)) = K /\ Forall moderate (leaves (fst e)) /\ adds_squares (fst e) (snd e)) events ->
  (Z.of_nat K <= 2 ^ 46)%Z -> (Z.of_nat (List.length events) <= 2 ^ 25)%Z ->
  (List.length (leaves injections) <= N)%nat -> (Z.of_nat N <= 2 ^ 46)%Z -> Forall moderate (leaves injections) -> adds_squares injections injections2 ->
  leaves tv = map (fun e => event_variance64 K (fst e) (snd e)) events ->
  let n := List.length events in
  let computed := total_variance64 tv n N injections injections2 in
  let efficiency := Rsum (values injections) / INR N in
  let efficiency_variance := Rsum (squares (values injections)) / INR N ^ 2 - efficiency ^ 2 / INR N in
  let exact := Rsum (map (fun e => mc_variance K (values (fst e))) events) + INR n ^ 2 * (efficiency_variance / efficiency ^ 2) in
  let n_eff := fun t => Rsum (values t) ^ 2 / Rsum (squares (values t)) in
  let error := fun k => / (1 - u64) ^ k - 1 in
  let bound := Rsum (map (fun e => error (2 * depth (fst e) + depth (snd e) + depth tv + 10)%nat / n_eff (fst e)) events)
               + error (4 * depth injections + depth injections2 + 14)%nat * (INR n ^ 2 * (/ n_eff injections + / INR N)) in
  is_finite computed = true /\ Rabs (B2R computed - exact) <= bound /\
  forall threshold ln_l, is_finite threshold = true -> is_finite ln_l = true -> Rabs (B2R ln_l) < 2 ^ 969 ->
    (exact + bound <= B2R threshold -> B2X (cut_b threshold ln_l computed) = Fin (B2R ln_l)) /\
    (B2R threshold < exact - bound -> B2X (cut_b threshold ln_l computed) = Fin (- MAXF)).
Proof.
  intros K N events t t2 tv HE K1 n1 L N1 F SQ HV n computed efficiency efficiency_variance exact n_eff error bound.
  cut (is_finite computed = true /\ Rabs (B2R computed - exact) <= bound).
  { intros [A B]. split; [exact A|]. split; [exact B|]. intros th l Ft Fl Hl. now apply cut_decide. }
  assert (U := u64_pos). assert (Dv := leaves_ne tv). rewrite HV, map_length in Dv.
  assert (n0 : (0 < n)%nat) by (unfold n; lia).
  destruct (selection_term n N t t2 n0 n1 L N1 F SQ) as (S1 & S2 & S3 & S4). cbv zeta in S2, S3, S4.
  fold efficiency in S2, S3. fold efficiency_variance in S2, S3. fold (n_eff t) in S2, S3, S4.
  set (G := / n_eff t + / INR N) in *. set (c := INR n ^ 2) in *. set (X := c * (efficiency_variance / efficiency ^ 2)) in *.
  set (sel := selection_variance64 n N t t2) in *.
  rewrite Forall_forall in HE.
  set (p := fun e : order * order => (2 * depth (fst e) + depth (snd e) + 9)%nat).
  set (g := fun e : order * order => / n_eff (fst e)).
  set (v := fun e : order * order => mc_variance K (values (fst e))).
  set (v' := fun e : order * order => event_variance64 K (fst e) (snd e)) in *.
  assert (K48 : (Z.of_nat K <= 2 ^ 48)%Z) by (apply Z.le_trans with (2 ^ 46)%Z; [exact K1|simpl; lia]).
  assert (PE : forall e, In e events -> is_finite (v' e) = true /\ Rabs (B2R (v' e) - v e) <= (rho ^ p e - 1) * g e /\ Rabs (v e) <= g e /\ 0 < g e <= 1 /\ rho ^ p e <= 2).
  { intros e I. destruct (HE e I) as (A & B & C). destruct (C111_variance_error_pf K (fst e) (snd e) A K48 B C) as [V1 V2]. cbv zeta in V2. rewrite rho_inv in V2.
    split; [exact V1|]. split; [exact V2|]. split; [now apply mcv_neff|]. split; [apply inv_neff; exact B|].
    assert (D1 := leaves_ne (fst e)). assert (D2 := leaves_ne (snd e)). assert (LL : List.length (leaves (snd e)) = K) by (rewrite C, map_length; exact A).
    apply rho_two. unfold p. change (2 ^ 50)%Z with (16 * 2 ^ 46)%Z. lia. }
  assert (PA : forall e, In e events -> Rabs (B2R (v' e)) <= rho ^ p e * g e).
  { intros e I. destruct (PE e I) as (_ & A & B & _). replace (rho ^ p e * g e) with (g e + (rho ^ p e - 1) * g e) by ring. eapply abs_step; [exact A|exact B]. }
  assert (nU : INR n <= 2 ^ 25) by (apply (INR_le_pow n 25); exact n1).
  assert (n1R : 1 <= INR n) by (change 1 with (INR 1); apply le_INR; lia).
  assert (SA : Rsuma (values tv) = Rsum (map (fun e => Rabs (B2R (v' e))) events)) by (unfold values; rewrite HV; apply Rsuma_map).
  assert (SV : Rsum (values tv) = Rsum (map (fun e => B2R (v' e)) events)) by (unfold values; rewrite HV, map_map; reflexivity).
  assert (SB : Rsuma (values tv) <= Rsum (map (fun e => rho ^ p e * g e) events)) by (rewrite SA; apply rs_le; exact PA).
  assert (SC : Rsum (map (fun e => rho ^ p e * g e) events) <= INR n * 2).
  { unfold n. rewrite <- rs_const. apply rs_le. intros e I. destruct (PE e I) as (_ & _ & _ & A & B). assert (R := rho_ge (p e)). nra. }
  destruct (sum_signed (2 ^ 30) tv) as [T1 T2].
  { rewrite HV. apply Forall_map, Forall_forall. intros e I. apply (PE e I). }
  { apply Z.le_trans with (2 ^ 25)%Z; [fold n in Dv; lia|simpl; lia]. }
  { change (2 ^ 30) with (2 * (2 * (2 * (2 * (2 * 2 ^ 25))))). lra. }
  { apply Rle_pow; [lra|lia]. }
  set (d := depth tv) in *. set (s := B2R (sum64 tv)) in *.
  assert (RD := rho_ge d). assert (UR := up_rho d).
  assert (SAp := rsuma_pos (values tv)).
  assert (W : Rabs (s - Rsum (map v events)) <= Rsum (map (fun e => (rho ^ (p e + d) - 1) * g e) events)).
  { replace (s - Rsum (map v events)) with ((s - Rsum (values tv)) + (Rsum (values tv) - Rsum (map v events))) by ring. eapply Rle_trans; [apply Rabs_triang|].
    assert (W1 : Rabs (s - Rsum (values tv)) <= Rsum (map (fun e => (rho ^ d - 1) * (rho ^ p e * g e)) events)).
    { rewrite rs_mult. eapply Rle_trans; [exact T2|]. assert (UP := up_pow d). apply Rmult_le_compat; lra. }
    assert (W2 : Rabs (Rsum (values tv) - Rsum (map v events)) <= Rsum (map (fun e => (rho ^ p e - 1) * g e) events)).
    { rewrite SV. apply sum_abs_bound. intros e I. apply (PE e I). }
    apply Rle_trans with (Rsum (map (fun e => (rho ^ d - 1) * (rho ^ p e * g e)) events) + Rsum (map (fun e => (rho ^ p e - 1) * g e) events)); [lra|].
    rewrite <- rs_plus. right. f_equal. apply map_ext. intros e. rewrite rho_split. ring. }
  set (a := fun e => rho ^ (p e + d) * g e).
  assert (VG : Rabs (Rsum (map v events)) <= Rsum (map g events)).
  { eapply Rle_trans; [apply rsum_abs|]. unfold Rsuma. rewrite map_map. apply rs_le. intros e I. apply (PE e I). }
  set (q := (4 * depth t + depth t2 + 13)%nat) in *.
  assert (Y0 : Rabs (s + B2R sel - exact) <= Rsum (map (fun e => (rho ^ (p e + d) - 1) * g e) events) + (rho ^ q - 1) * (c * G)).
  { unfold exact. fold c. fold X. fold v. replace (s + B2R sel - (Rsum (map v events) + X)) with ((s - Rsum (map v events)) + (B2R sel - X)) by ring.
    eapply Rle_trans; [apply Rabs_triang|]. lra. }
  assert (Y1 : Rabs (s + B2R sel) <= Rsum (map a events) + rho ^ q * (c * G)).
  { replace (Rsum (map a events) + rho ^ q * (c * G)) with ((Rsum (map g events) + c * G) + (Rsum (map (fun e => (rho ^ (p e + d) - 1) * g e) events) + (rho ^ q - 1) * (c * G))).
    - eapply abs_step; [exact Y0|]. unfold exact. fold c. fold X. fold v. eapply Rle_trans; [apply Rabs_triang|]. lra.
    - replace (Rsum (map a events)) with (Rsum (map g events) + Rsum (map (fun e => (rho ^ (p e + d) - 1) * g e) events)); [ring|].
      rewrite <- rs_plus. f_equal. apply map_ext. intros e. unfold a. ring. }
  assert (Z := rnd_plus_err _ _ (B2R_double (sum64 tv)) (B2R_double sel)). fold s in Z.
  assert (Rq : rho ^ q <= 2). { assert (Di := leaves_ne t). assert (Di2 := leaves_ne t2). assert (L2 : List.length (leaves t2) = List.length (leaves t)) by (rewrite SQ; apply map_length). apply rho_two. unfold q. change (2 ^ 50)%Z with (16 * 2 ^ 46)%Z. lia. }
  assert (cU : c <= 2 ^ 50). { unfold c. change (2 ^ 50) with (2 ^ (25 + 25)). rewrite pow_add. simpl (INR n ^ 2). rewrite Rmult_1_r. apply Rmult_le_compat; lra. }
  assert (c1 : 1 <= c) by (unfold c; simpl; nra).
  assert (NP : 0 < / INR N). { apply Rinv_0_lt_compat, lt_0_INR. assert (Di := leaves_ne t). lia. }
  assert (GP : 0 < G). { unfold G. assert (I := proj1 (inv_neff t F)). fold (n_eff t) in I. lra. }
  assert (cG : 0 <= c * G <= 2 ^ 51). { split; [nra|]. change (2 ^ 51) with (2 * 2 ^ 50). assert (c * G <= 2 ^ 50 * 2) by (apply Rmult_le_compat; lra). lra. }
  assert (aU : Rsum (map a events) <= 2 ^ 27).
  { apply Rle_trans with (INR n * 4); [|change (2 ^ 27) with (2 * (2 * 2 ^ 25)); lra]. unfold n. rewrite <- rs_const. apply rs_le. intros e I. destruct (PE e I) as (_ & _ & _ & A & B).
    unfold a. rewrite rho_split. assert (rho ^ d <= 2). { apply rho_two. apply Z.le_trans with (2 ^ 25)%Z; [fold n in Dv; lia|simpl; lia]. } assert (R := rho_ge (p e)). assert (rho ^ p e * rho ^ d <= 2 * 2) by (apply Rmult_le_compat; lra). nra. }
  destruct (Bplus_fin (sum64 tv) sel T1 S1) as [P1 P2].
  { fold s. eapply rnd_small; [exact Z|]. eapply Rle_trans; [exact Y1|]. apply Rle_trans with (2 ^ 27 + 2 * 2 ^ 51); [assert (rho ^ q * (c * G) <= 2 * 2 ^ 51) by (assert (Rq1 := rho_ge q); apply Rmult_le_compat; lra); lra|].
    apply Rle_trans with (2 ^ 53); [|apply Rle_pow; [lra|lia]]. assert (2 ^ 27 <= 2 ^ 51) by (apply Rle_pow; [lra|lia]). change (2 ^ 53) with (2 * (2 * 2 ^ 51)). lra. }
  unfold computed, total_variance64. fold sel. split; [exact P1|]. rewrite P2. fold s.
  replace (rnd64 (s + B2R sel) - exact) with ((rnd64 (s + B2R sel) - (s + B2R sel)) + (s + B2R sel - exact)) by ring. eapply Rle_trans; [apply Rabs_triang|].
  destruct rho_facts as (R1 & R2 & R3).
  assert (E1 : u64 * Rabs (s + B2R sel) <= (rho - 1) * (Rsum (map a events) + rho ^ q * (c * G))) by (apply Rmult_le_compat; try lra; apply Rabs_pos).
  unfold bound, error. fold c. fold G. rewrite rho_inv.
  assert (EB : Rsum (map (fun e => (/ (1 - u64) ^ (2 * depth (fst e) + depth (snd e) + d + 10) - 1) / n_eff (fst e)) events) =
    (rho - 1) * Rsum (map a events) + Rsum (map (fun e => (rho ^ (p e + d) - 1) * g e) events)).
  { rewrite <- rs_mult, <- rs_plus. f_equal. apply map_ext. intros e. rewrite rho_inv. unfold a, g.
    replace (2 * depth (fst e) + depth (snd e) + d + 10)%nat with (p e + d + 1)%nat by (unfold p; lia). rewrite (rho_split (p e + d) 1), pow_1. unfold Rdiv. ring. }
  rewrite EB. replace (4 * depth t + depth t2 + 14)%nat with (q + 1)%nat by (unfold q; lia). rewrite (rho_split q 1), pow_1. lra.
Qed.

