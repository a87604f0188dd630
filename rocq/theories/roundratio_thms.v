(** Proofs of the property theorems stated in [Props_roundratio]. *)
From Coq Require Import Reals ZArith Lra Lia Psatz Bool String.
From Coquelicot Require Import Coquelicot.
From Flocq Require Import Core BinarySingleNaN Relative.
From Coq Require Import List.
From Verif Require Import Xf Py Xf_facts Py_facts Double Double_facts Rounded_model SpecRound RoundedPl_model SpecRoundPl Utils_model Powerlaw_facts Mass_model RoundedTn_model RoundedMix_model RoundedRatio_model SpecRoundMix round_thms roundpl_thms roundll_thms roundwin_thms roundtn_thms roundtrap_thms roundrate_thms roundmix_thms roundsmooth_thms roundjoint_thms.
Import ListNotations.
Local Open Scope R_scope.

Lemma moderate_band w : moderate w -> is_finite w = true /\ 0 < B2R w /\ band (-400) 400 (B2R w).
Proof.
  intros [F H]. assert (P := pow2_inv_pos 400). split; [exact F|]. split; [lra|]. unfold band. rewrite Rabs_pos_eq by lra. change (-400)%Z with (- Z.of_nat 400)%Z. change 400%Z with (Z.of_nat 400). rewrite <- pow_bpow, <- pow_bpow_inv. exact H.
Qed.
Lemma cl_refl x : 0 < x -> cl 0 x x.
Proof. intros X. apply cl_abs; auto. rewrite Rminus_diag_eq, Rabs_R0 by reflexivity. lra. Qed.
Lemma ratio_val (mmin m1 : b64) : moderate mmin -> moderate m1 -> is_finite (Bdiv mode_NE mmin m1) = true /\ cl v64 (B2R mmin / B2R m1) (B2R (Bdiv mode_NE mmin m1)) /\ B2R (Bdiv mode_NE mmin m1) = rnd64 (B2R mmin / B2R m1).
Proof.
  intros M1 M2. destruct (moderate_band _ M1) as (F1 & P1 & B1). destruct (moderate_band _ M2) as (F2 & P2 & B2).
  assert (H2 : 0 <= / 2) by lra. assert (Z1 : (-1000 <= -400 - 400 - 2)%Z) by lia. assert (Z2 : (400 - -400 + 2 <= 1000)%Z) by lia.
  destruct (div_cl mmin m1 _ _ 0 0 _ _ _ _ F1 F2 P1 P2 (cl_refl _ P1) (cl_refl _ P2) H2 H2 B1 B2 Z1 Z2) as [F C].
  split; [exact F|]. split; [replace v64 with (0 + 0 + v64) by ring; exact C|]. destruct (Bdiv_fin mmin m1 F1) as [_ V]; [lra| |exact V].
  assert (BB := band_div _ _ _ _ _ _ B1 B2). destruct BB as [_ BB]. apply (double_abs (B2R mmin / B2R m1) (bpow radix2 (400 - -400))); [apply bd; lia|apply Rlt_le, Rdiv_lt_0_compat; lra|]. rewrite Rabs_pos_eq in BB by (apply Rlt_le, Rdiv_lt_0_compat; lra). exact BB.
Qed.
Lemma times_zero (p : b64) : (exists s, Bmult mode_NE p zero64 = B754_zero s) \/ Bmult mode_NE p zero64 = B754_nan.
Proof. destruct p; cbn; eauto. Qed.
Lemma Rpower_one_base e : Rpower 1 e = 1.
Proof. unfold Rpower. now rewrite ln_1, Rmult_0_r, exp_0. Qed.
Lemma Rpower_ne_one x e : 0 < x < 1 -> e <> 0 -> Rpower x e <> 1.
Proof. intros X E H. apply (f_equal ln) in H. unfold Rpower in H. rewrite ln_exp, ln_1 in H. assert (L : ln x < 0) by (rewrite <- ln_1; apply ln_increasing; lra). apply Rmult_integral in H. destruct H; [contradiction|lra]. Qed.

Lemma C157_outside_pf :
  forall pow log64 m1 q beta mmin, moderate mmin -> moderate m1 -> is_finite q = true ->
  let ratio := B2R mmin / B2R m1 in
  let computed := mass_ratio64 pow log64 m1 q beta mmin in
  1 < B2R q \/ (B2R q < ratio /\ B2R q <> rnd64 ratio) -> (exists s, computed = B754_zero s) \/ computed = B754_nan.
Proof.
  intros pow log64 m1 q beta mmin M1 M2 Fq ratio computed. destruct (ratio_val _ _ M1 M2) as (F & C & V). destruct one_val as [O1 O2]. unfold computed, mass_ratio64, powerlaw64. rewrite !leb_fin by assumption. rewrite O2, V. fold ratio.
  intros H. assert (E : (if Rle_dec (rnd64 ratio) (B2R q) then true else false) && (if Rle_dec (B2R q) 1 then true else false) = false).
  { destruct (Rle_dec (B2R q) 1); [|apply andb_false_r]. destruct (Rle_dec (rnd64 ratio) (B2R q)); [|reflexivity]. exfalso. destruct H as [H|[H N]]; [lra|]. assert (B := rnd_lower ratio (B2R q) (B2R_double q) (Rlt_le _ _ H)). lra. }
  try rewrite E. try (rewrite andb_comm in E; rewrite E). apply times_zero.
Qed.

Lemma C157_accuracy_pf :
  forall (n : nat) bk pow log64 m1 q beta mmin, (1 <= n)%nat -> accurate n pow -> moderate mmin -> moderate m1 -> moderate q -> is_finite beta = true -> B2R beta <> -1 -> Rabs (B2R beta) <= 1000 ->
  let ratio := B2R mmin / B2R m1 in let low := B2R (Bdiv mode_NE mmin m1) in
  / 2 ^ 400 <= low < 1 -> ratio < 1 -> ratio <= B2R q <= 1 ->
  let e := 1 + B2R beta in let L := Rpower low e in
  / 2 ^ 400 <= L <= 2 ^ 400 -> / 2 ^ 400 <= Rpower (B2R q) (B2R beta) <= 2 ^ 400 ->
  let delta := u64 * Rabs (ln L) + INR n * (u64 / (1 - u64)) in
  let lost := amplification (B2R beta) 1 low * (exp delta - 1) in
  let shift := Rabs e * (u64 / (1 - u64)) * ((Rpower ratio e + L) / Rabs (1 - L)) in
  lost <= / 4 -> shift <= / 4 ->
  let exact := exact_powerlaw (B2R beta) 1 ratio (B2R q) in
  let computed := mass_ratio64 pow log64 m1 q beta mmin in
  mass_ratio_factor bk (Fin (B2R m1)) (Fin (B2R q)) (Fin (B2R beta)) (Fin (B2R mmin)) = Ok (Fin exact) /\
  is_finite computed = true /\ 0 < B2R computed /\ 0 < exact /\
  Rabs (ln (B2R computed) - ln exact) <= (INR n + 4) * (u64 / (1 - u64)) + 2 * lost + 2 * shift.
Proof.
  intros n bk pow log64 m1 q beta mmin N HP M1 M2 Mq Fb NB AB ratio low LB R1 RQ e L LL QL delta lost shift HL HS exact computed.
  destruct (ratio_val _ _ M1 M2) as (F & C & V). fold ratio in C, V. fold low in C, V. destruct one_val as [O1 O2]. destruct (moderate_band _ M1) as (_ & P1 & _). destruct (moderate_band _ M2) as (_ & P2 & _). assert (RP : 0 < ratio) by (apply Rdiv_lt_0_compat; lra).
  assert (P400 := pow2_inv_pos 400). assert (E1 : 1 <= 2 ^ 400) by (apply pow_R1_Rle; lra). assert (I1 : / 2 ^ 400 <= 1) by (rewrite <- Rinv_1; apply Rinv_le_contravar; lra).
  assert (LQ : low <= B2R q) by (rewrite V; apply rnd_upper; [apply B2R_double|lra]).
  assert (ML : moderate (Bdiv mode_NE mmin m1)) by (split; [exact F|]; fold low; lra). assert (MO : moderate one64) by (split; [exact O1|rewrite O2; lra]).
  assert (K := C117_error_partial_pf n pow log64 q beta one64 (Bdiv mode_NE mmin m1) N HP ML MO Mq Fb). cbv zeta in K. fold low in K. rewrite O2 in K. fold e in K. fold L in K. rewrite Rpower_one_base, ln_1, Rabs_R0 in K. rewrite (Rmax_right 0) in K by apply Rabs_pos. fold delta in K. fold lost in K. fold (mass_ratio64 pow log64 m1 q beta mmin) in K. fold computed in K.
  destruct K as (K1 & K2 & K3 & _ & K5); try lra; try exact NB; try exact AB; try exact HL.
  set (E' := exact_powerlaw (B2R beta) 1 low (B2R q)) in *. set (A := Rpower ratio e) in *. assert (PA : 0 < A) by apply Rpower_pos. assert (PL : 0 < L) by apply Rpower_pos.
  assert (NE : e <> 0) by (unfold e; lra). assert (NA : A <> 1) by (apply Rpower_ne_one; lra). assert (NL : L <> 1) by (apply Rpower_ne_one; lra).
  assert (DL : 0 < Rabs (1 - L)) by (apply Rabs_pos_lt; lra). assert (U := v64_facts). fold v64 in *.
  assert (DIF : Rabs (L - A) <= (A + L) * (Rabs e * v64)).
  { rewrite (Rplus_comm A L). eapply Rle_trans; [apply ln_diff; assumption|]. apply Rmult_le_compat_l; [lra|]. unfold L, A, Rpower. rewrite !ln_exp. replace (e * ln low - e * ln ratio) with (e * (ln low - ln ratio)) by ring. rewrite Rabs_mult. apply Rmult_le_compat_l; [apply Rabs_pos|]. destruct C as [_ C]. rewrite (Rabs_pos_eq low), (Rabs_pos_eq ratio) in C by lra. exact C. }
  set (r := (1 - A) / (1 - L)). assert (RR : Rabs (r - 1) <= shift * Rabs 1).
  { rewrite Rabs_R1, Rmult_1_r. replace (r - 1) with ((L - A) / (1 - L)) by (unfold r; field; lra). unfold Rdiv. rewrite Rabs_mult, Rabs_inv. unfold shift. replace (Rabs e * v64 * ((A + L) / Rabs (1 - L))) with ((A + L) * (Rabs e * v64) * / Rabs (1 - L)) by (unfold Rdiv; ring). apply Rmult_le_compat_r; [apply Rlt_le, Rinv_0_lt_compat; exact DL|exact DIF]. }
  assert (S0 : 0 <= shift). { rewrite Rabs_R1, Rmult_1_r in RR. eapply Rle_trans; [apply Rabs_pos|exact RR]. }
  assert (S1 : 0 <= shift < 1) by lra. destruct (cl_rel shift 1 r S1 R1_neq_R0 RR) as [Pr Lr]. rewrite Rmult_1_l in Pr. rewrite Rabs_R1, ln_1, Rminus_0_r, (Rabs_pos_eq r) in Lr by lra.
  assert (SH : shift / (1 - shift) <= 2 * shift). { apply Rle_div_l; [lra|]. assert (Q : 0 <= shift * (1 - 2 * shift)) by (apply Rmult_le_pos; lra). lra. }
  assert (EE : E' = exact * r). { unfold E', exact, exact_powerlaw, r. fold e. fold L. fold A. rewrite !Rpower_one_base. field. split; lra. }
  assert (PE : 0 < exact). { apply (Rmult_lt_reg_r r); [exact Pr|]. rewrite Rmult_0_l, <- EE. exact K3. }
  split; [|split; [exact K1|split; [exact K2|split; [exact PE|]]]].
  - unfold mass_ratio_factor. rewrite fdiv_fin by lra. fold ratio. rewrite powerlaw_ok; [|lra|right; left; intros []]. rewrite powerlaw_body_in by lra. unfold plpdf, plnorm. rewrite Reqb_false by exact NB. fold e. fold A. unfold exact, exact_powerlaw. fold e. fold A. rewrite Rpower_one_base. do 2 f_equal. unfold Rdiv. ring.
  - rewrite EE, ln_mult in K5 by assumption. apply Rabs_le_between in K5. apply Rabs_le_between in Lr. apply Rabs_le_between. lra.
Qed.

Lemma C157_log_slope_pf :
  forall (n : nat) bk pow log64 m1 q beta mmin, INR n <= 2 ^ 40 -> accurate n pow -> accurate_log n log64 -> moderate mmin -> moderate m1 -> moderate q -> is_finite beta = true -> B2R beta = -1 ->
  let ratio := B2R mmin / B2R m1 in let low := B2R (Bdiv mode_NE mmin m1) in
  / 2 ^ 400 <= low < 1 -> ratio < 1 -> ratio <= B2R q <= 1 ->
  let lost := (u64 / (1 - u64)) / ln (1 / low) in lost <= / 4 ->
  let exact := exact_log_uniform 1 ratio (B2R q) in
  let computed := mass_ratio64 pow log64 m1 q beta mmin in
  mass_ratio_factor bk (Fin (B2R m1)) (Fin (B2R q)) (Fin (B2R beta)) (Fin (B2R mmin)) = Ok (Fin exact) /\
  is_finite computed = true /\ 0 < B2R computed /\ 0 < exact /\
  Rabs (ln (B2R computed) - ln exact) <= (2 * INR n + 2) * (u64 / (1 - u64)) + 4 * lost.
Proof.
  intros n bk pow log64 m1 q beta mmin N HP HG M1 M2 Mq Fb EB ratio low LB R1 RQ lost HL exact computed.
  destruct (ratio_val _ _ M1 M2) as (F & C & V). fold ratio in C, V. fold low in C, V. destruct one_val as [O1 O2]. destruct (moderate_band _ M1) as (_ & P1 & _). destruct (moderate_band _ M2) as (_ & P2 & _). assert (RP : 0 < ratio) by (apply Rdiv_lt_0_compat; lra).
  assert (P400 := pow2_inv_pos 400). assert (E1 : 1 <= 2 ^ 400) by (apply pow_R1_Rle; lra). assert (I1 : / 2 ^ 400 <= 1) by (rewrite <- Rinv_1; apply Rinv_le_contravar; lra).
  assert (LQ : low <= B2R q) by (rewrite V; apply rnd_upper; [apply B2R_double|lra]).
  assert (ML : moderate (Bdiv mode_NE mmin m1)) by (split; [exact F|]; fold low; lra). assert (MO : moderate one64) by (split; [exact O1|rewrite O2; lra]).
  assert (K := C117_log_slope_error_partial_pf n pow log64 q beta one64 (Bdiv mode_NE mmin m1) N HP HG ML MO Mq Fb). cbv zeta in K. fold low in K. rewrite O2 in K. fold lost in K. fold (mass_ratio64 pow log64 m1 q beta mmin) in K. fold computed in K.
  destruct K as (K1 & K2 & K3 & _ & K5); try lra; try exact EB; try exact HL.
  set (E' := exact_log_uniform 1 low (B2R q)) in *. assert (U := v64_facts). fold v64 in *.
  assert (LL : ln (1 / low) = - ln low) by (unfold Rdiv; rewrite Rmult_1_l; apply ln_Rinv; lra). assert (LR : ln (1 / ratio) = - ln ratio) by (unfold Rdiv; rewrite Rmult_1_l; apply ln_Rinv; lra).
  assert (BL : 0 < ln (1 / low)) by (rewrite LL; assert (ln low < 0) by (rewrite <- ln_1; apply ln_increasing; lra); lra). assert (BR : 0 < ln (1 / ratio)) by (rewrite LR; assert (ln ratio < 0) by (rewrite <- ln_1; apply ln_increasing; lra); lra).
  assert (DIF : Rabs (ln (1 / ratio) - ln (1 / low)) <= v64). { rewrite LL, LR. replace (- ln ratio - - ln low) with (ln low - ln ratio) by ring. destruct C as [_ C]. rewrite (Rabs_pos_eq low), (Rabs_pos_eq ratio) in C by lra. exact C. }
  set (r := ln (1 / ratio) / ln (1 / low)). assert (RR : Rabs (r - 1) <= lost * Rabs 1).
  { rewrite Rabs_R1, Rmult_1_r. replace (r - 1) with ((ln (1 / ratio) - ln (1 / low)) / ln (1 / low)) by (unfold r; field; lra). unfold Rdiv at 1. rewrite Rabs_mult, Rabs_inv, (Rabs_pos_eq (ln (1 / low))) by lra. unfold lost. apply Rmult_le_compat_r; [apply Rlt_le, Rinv_0_lt_compat; exact BL|exact DIF]. }
  assert (S0 : 0 <= lost). { rewrite Rabs_R1, Rmult_1_r in RR. eapply Rle_trans; [apply Rabs_pos|exact RR]. }
  assert (S1 : 0 <= lost < 1) by lra. destruct (cl_rel lost 1 r S1 R1_neq_R0 RR) as [Pr Lr]. rewrite Rmult_1_l in Pr. rewrite Rabs_R1, ln_1, Rminus_0_r, (Rabs_pos_eq r) in Lr by lra.
  assert (SH : lost / (1 - lost) <= 2 * lost). { apply Rle_div_l; [lra|]. assert (Q : 0 <= lost * (1 - 2 * lost)) by (apply Rmult_le_pos; lra). lra. }
  assert (PQ : 0 < B2R q) by lra.
  assert (EE : E' = exact * r). { unfold E', exact, exact_log_uniform, r. field. repeat split; lra. }
  assert (PE : 0 < exact). { apply (Rmult_lt_reg_r r); [exact Pr|]. rewrite Rmult_0_l, <- EE. exact K3. }
  assert (ANY : forall b, mass_ratio_factor b (Fin (B2R m1)) (Fin (B2R q)) (Fin (B2R beta)) (Fin (B2R mmin)) = Ok (Fin exact)).
  { intros b. unfold mass_ratio_factor. rewrite fdiv_fin by lra. fold ratio. rewrite powerlaw_ok; [|lra|right; left; intros []]. rewrite powerlaw_body_in by lra. unfold plpdf, plnorm. rewrite EB, Reqb_true by reflexivity. unfold exact, exact_log_uniform. do 2 f_equal. replace (-1) with (- (1)) by ring. rewrite Rpower_Ropp, Rpower_1 by exact PQ. field. repeat split; lra. }
  split; [apply ANY|]. split; [exact K1|split; [exact K2|split; [exact PE|]]].
  rewrite EE, ln_mult in K5 by assumption. apply Rabs_le_between in K5. apply Rabs_le_between in Lr. apply Rabs_le_between. lra.
Qed.

Lemma C157_exception_occurs_pf :
  forall pow log64, accurate 1 pow ->
  let mmin := one64 in let m1 := int64 3 in let q := Bdiv mode_NE one64 (int64 3) in let beta := one64 in
  B2R q * B2R m1 < B2R mmin /\ mass_ratio_factor Jax (Fin (B2R m1)) (Fin (B2R q)) (Fin (B2R beta)) (Fin (B2R mmin)) = Ok (Fin 0) /\
  is_finite (mass_ratio64 pow log64 m1 q beta mmin) = true /\ 0 < B2R (mass_ratio64 pow log64 m1 q beta mmin).
Proof.
  intros pow log64 HP mmin m1 q beta. destruct one_val as [O1 O2]. destruct (int64_val 3) as [T1 T2]; [lia|]. replace (INR 3) with 3 in T2 by (simpl; lra).
  assert (P400 := pow2_inv_pos 400). assert (E4 : 4 <= 2 ^ 400) by (apply Rle_trans with (2 ^ 2); [simpl; lra|apply Rle_pow; [lra|lia]]). assert (I4 : / 2 ^ 400 <= / 4) by (apply Rinv_le_contravar; lra). assert (I16 : / 2 ^ 400 <= / 16). { apply Rinv_le_contravar; [lra|]. apply Rle_trans with (2 ^ 4); [simpl; lra|apply Rle_pow; [lra|lia]]. }
  assert (MO : moderate one64) by (split; [exact O1|rewrite O2; lra]). assert (M3 : moderate (int64 3)) by (split; [exact T1|rewrite T2; lra]).
  destruct (ratio_val _ _ MO M3) as (F & _ & _). fold q in F.
  assert (VQ : B2R q = 6004799503160661 * bpow radix2 (-54)). { unfold q. rewrite <- SF2R_B2SF. assert (E : B2SF (Bdiv mode_NE one64 (int64 3)) = SpecFloat.S754_finite false 6004799503160661 (-54)) by (vm_compute; reflexivity). rewrite E. reflexivity. }
  assert (B54 : bpow radix2 (-54) * 18014398509481984 = 1). { replace 18014398509481984 with (bpow radix2 54) by (simpl; lra). rewrite <- bpow_plus. reflexivity. }
  assert (QB : 3 / 10 <= B2R q /\ B2R q * 3 < 1) by (rewrite VQ; lra). unfold mmin, m1, beta. split; [rewrite O2, T2; lra|]. split.
  - unfold mass_ratio_factor. rewrite O2, T2, fdiv_fin by lra. rewrite powerlaw_ok; [|lra|left; reflexivity]. rewrite powerlaw_body_out by lra. reflexivity.
  - assert (Mq : moderate q) by (split; [exact F|lra]). set (x := B2R q) in *. assert (RP : Rpower x (1 + 1) = x * x) by (rewrite Rpower_plus, Rpower_1 by lra; reflexivity). assert (XX : 9 / 100 <= x * x <= / 9) by nra.
    assert (K := C117_error_partial_pf 1 pow log64 q one64 one64 q (le_n 1) HP Mq MO Mq O1). cbv zeta in K. fold x in K. rewrite O2, Rpower_one_base, RP, ln_1, Rabs_R0, Rpower_1, Rabs_R1 in K by lra. fold v64 in K. rewrite (Rmax_right 0) in K by apply Rabs_pos.
    destruct u_small as (U0 & U1 & _). assert (V := v64_facts). assert (LX : Rabs (ln (x * x)) <= 16) by (apply ln_abs_le; lra). change (INR 1) with 1 in K.
    set (delta := u64 * Rabs (ln (x * x)) + 1 * v64) in *. assert (DB : 0 <= delta <= 18 * u64). { unfold delta. assert (Q := Rabs_pos (ln (x * x))). nra. }
    assert (EX : exp delta - 1 <= 36 * u64). { assert (E := exp_ineq1_le (- delta)). rewrite exp_Ropp in E. assert (P := exp_pos delta). assert (exp delta * (1 + - delta) <= 1) by (apply (Rmult_le_compat_l (exp delta)) in E; [rewrite Rinv_r in E by lra; lra|lra]). nra. }
    assert (AM : 0 <= amplification 1 1 x <= 2). { unfold amplification. rewrite Rpower_one_base, RP, Rabs_pos_eq by lra. split; [apply Rle_div_r; lra|apply Rle_div_l; lra]. }
    assert (E0 : 0 <= exp delta - 1) by (assert (E := exp_ineq1_le delta); lra). destruct K as (K1 & K2 & _); try lra; [nra|]. split; assumption.
Qed.

Lemma C157_mass_and_ratio_pf :
  forall bk pow exp64 log64 log1p64 ndtr64 log_ndtr64 c m1 q alpha beta mmin mmax lam mpp sigpp gmax p g r d e,
  fraction_double lam -> density_real p -> density_real g -> density_real r -> 0 <= d -> 0 <= e -> d + e <= / 8 ->
  powerlaw bk pl_kw (Fin (B2R m1)) (Fin (- B2R alpha)) (Fin (B2R mmax)) (Fin (B2R mmin)) = Ok (Fin p) ->
  truncnorm bk tn_kw (Fin (B2R m1)) (Fin (B2R mpp)) (Fin (B2R sigpp)) (Fin (B2R gmax)) (Fin (B2R mmin)) = Ok (Fin g) ->
  mass_ratio_factor bk (Fin (B2R m1)) (Fin (B2R q)) (Fin (B2R beta)) (Fin (B2R mmin)) = Ok (Fin r) ->
  approximates d 0 p (powerlaw64 pow log64 m1 (Bopp alpha) mmax mmin) -> approximates d 0 g (truncnorm64 exp64 log64 log1p64 ndtr64 log_ndtr64 c m1 mpp sigpp gmax mmin) ->
  approximates e 0 r (mass_ratio64 pow log64 m1 q beta mmin) ->
  let exact := ((1 - B2R lam) * p + B2R lam * g) * r in
  two_component_primary_mass_ratio bk (Fin (B2R m1)) (Fin (B2R q)) (Fin (B2R alpha)) (Fin (B2R beta)) (Fin (B2R mmin)) (Fin (B2R mmax)) (Fin (B2R lam)) (Fin (B2R mpp)) (Fin (B2R sigpp)) (Fin (B2R gmax)) = Ok (Fin exact) /\
  approximates (d + e + 8 * u64) (/ 2 ^ 280) exact (two_component_ratio64 pow exp64 log64 log1p64 ndtr64 log_ndtr64 c m1 q alpha beta mmin mmax lam mpp sigpp gmax).
Proof.
  intros bk pow exp64 log64 log1p64 ndtr64 log_ndtr64 c m1 q alpha beta mmin mmax lam mpp sigpp gmax p g r d e HL Pp Pg Pr D0 E0 DE E1 E2 E3 A1 A2 A3 exact.
  assert (D4 : 0 <= d <= / 4) by lra. destruct u_small as (U0 & U1 & _). destruct tiny_facts as (T0 & _ & _ & _ & _ & _ & T29).
  destruct (C153_two_components_pf bk pow exp64 log64 log1p64 ndtr64 log_ndtr64 c m1 alpha mmin mmax lam mpp sigpp gmax p g d HL Pp Pg D4 E1 E2 A1 A2) as [R1 B1]. set (s := (1 - B2R lam) * p + B2R lam * g) in *.
  assert (Ps : density_real s). { destruct Pp as [Pa Pb], Pg as [Qa Qb]. destruct HL as [_ HL]. assert (K1 : 0 <= (1 - B2R lam) * p) by (apply Rmult_le_pos; lra). assert (K2 : 0 <= B2R lam * g) by (apply Rmult_le_pos; lra). assert (K3 : (1 - B2R lam) * p <= (1 - B2R lam) * 2 ^ 200) by (apply Rmult_le_compat_l; lra). assert (K4 : B2R lam * g <= B2R lam * 2 ^ 200) by (apply Rmult_le_compat_l; lra). unfold s. split; lra. }
  split.
  - unfold two_component_primary_mass_ratio. rewrite R1. cbn [bind]. rewrite E3. cbn [bind]. now rewrite fmul_fin.
  - assert (K1 : 0 <= d + 6 * u64 <= / 2) by lra. assert (K2 : 0 <= e <= / 2) by lra. assert (K3 : 0 <= / 2 ^ 500 <= / 2 ^ 500) by lra. assert (K4 : 0 <= 0 <= / 2 ^ 500) by lra.
    destruct (pair_ap _ _ _ _ s r (/ 2 ^ 500) 0 Ps Pr K1 K2 K3 K4 (approx_good _ _ _ _ Ps B1) (approx_good _ _ _ _ Pr A3)) as [F A]. apply ap_approx; [exact F|]. eapply ap_weaken; [| |exact A]; lra.
Qed.

