(** Proofs of the property theorems stated in [Props_roundbeta]. *)
From Coq Require Import Reals ZArith Lra Lia Psatz Bool.
From Coquelicot Require Import Coquelicot.
From Flocq Require Import Core BinarySingleNaN Relative.
From Coq Require Import List.
From Verif Require Import Xf Py Xf_facts Special Gauss_facts Utils_model Beta_facts Double Double_facts Rounded_model SpecRound SpecHyper RoundedPl_model RoundedBeta_model SpecRoundLogl SpecRoundTn SpecRoundBeta hyperb_thms round_thms roundpl_thms roundwin_thms roundll_thms roundtn_thms.
Import ListNotations.
Local Open Scope R_scope.

Lemma b60_900 r : Rabs r <= 2 ^ 60 -> Rabs r <= bpow radix2 900.
Proof. intros H. eapply Rle_trans; [exact H|]. rewrite (pow_bpow 60). apply bpow_le. lia. Qed.
Lemma abs_diff_le x X e : Rabs (x - X) <= e -> Rabs x <= Rabs X + e.
Proof. intros H. replace x with ((x - X) + X) by ring. eapply Rle_trans; [apply Rabs_triang|]. lra. Qed.
Lemma mul_facts eta u A L : 0 <= eta <= / 1000000 -> 0 < u <= / 1000000 -> 0 <= A * L -> 
  3 * u * (1 + (eta + 4 * u)) * (A * L) + (eta + 4 * u) * (A * L) + u * ((1 + 3 * u) * (1 + (eta + 4 * u)) * (A * L)) <= (eta + 9 * u) * (A * L).
Proof.
  intros He Hu HP. set (P := A * L) in *. assert (Q1 : eta + 4 * u <= / 100) by lra. assert (Q2 : 0 <= eta + 4 * u) by lra. set (d := eta + 4 * u) in *.
  assert (M1 : u * d <= u * / 100) by (apply Rmult_le_compat_l; lra). assert (M2 : (1 + 3 * u) * (1 + d) <= 1 + / 10) by nra.
  assert (M3 : u * ((1 + 3 * u) * (1 + d)) <= u * (1 + / 10)) by (apply Rmult_le_compat_l; lra).
  replace (3 * u * (1 + d) * P + d * P + u * ((1 + 3 * u) * (1 + d) * P)) with ((3 * u + 3 * (u * d) + d + u * ((1 + 3 * u) * (1 + d))) * P) by ring.
  apply Rmult_le_compat_r; [exact HP|]. unfold d in *. lra.
Qed.
Lemma mul_err (x y : b64) a l A L eta : 0 <= eta <= / 1000000 -> is_finite x = true -> is_finite y = true -> Rabs a <= A -> Rabs l <= L ->
  Rabs (B2R x - a) <= 3 * u64 * A -> Rabs (B2R y - l) <= (eta + 4 * u64) * L -> A * L <= 2 ^ 50 ->
  is_finite (Bmult mode_NE x y) = true /\ Rabs (B2R (Bmult mode_NE x y) - a * l) <= (eta + 9 * u64) * (A * L) + u64.
Proof.
  intros He Fx Fy Ha Hl Ex Ey HB. destruct u_small as (U0 & U1 & U2 & _ & T0 & _). assert (A0 : 0 <= A) by (assert (Q := Rabs_pos a); lra). assert (L0 : 0 <= L) by (assert (Q := Rabs_pos l); lra).
  assert (P0 : 0 <= A * L) by now apply Rmult_le_pos. assert (MF := mul_facts eta u64 A L He ltac:(lra) P0).
  assert (Ax := abs_diff_le _ _ _ Ex). assert (Ay := abs_diff_le _ _ _ Ey). set (d := eta + 4 * u64) in *. assert (D0 : 0 <= d <= / 100) by (unfold d; lra).
  assert (Ax' : Rabs (B2R x) <= (1 + 3 * u64) * A) by lra. assert (Ay' : Rabs (B2R y) <= (1 + d) * L) by lra.
  assert (PX : Rabs (B2R x * B2R y) <= (1 + 3 * u64) * (1 + d) * (A * L)). { rewrite Rabs_mult. replace ((1 + 3 * u64) * (1 + d) * (A * L)) with (((1 + 3 * u64) * A) * ((1 + d) * L)) by ring. apply Rmult_le_compat; try apply Rabs_pos; assumption. }
  assert (E1 : Rabs (B2R x * B2R y - a * l) <= 3 * u64 * (1 + d) * (A * L) + d * (A * L)).
  { replace (B2R x * B2R y - a * l) with ((B2R x - a) * B2R y + a * (B2R y - l)) by ring. eapply Rle_trans; [apply Rabs_triang|]. rewrite !Rabs_mult. apply Rplus_le_compat.
    - replace (3 * u64 * (1 + d) * (A * L)) with ((3 * u64 * A) * ((1 + d) * L)) by ring. apply Rmult_le_compat; try apply Rabs_pos; assumption.
    - replace (d * (A * L)) with (A * (d * L)) by ring. apply Rmult_le_compat; try apply Rabs_pos; assumption. }
  assert (PB : Rabs (B2R x * B2R y) <= 2 ^ 60). { eapply Rle_trans; [exact PX|]. apply Rle_trans with (2 * (A * L)); [apply Rmult_le_compat_r; [exact P0|]|replace (2 ^ 60) with (1024 * 2 ^ 50) by (simpl; lra); lra].
    apply Rle_trans with ((1 + / 100) * (1 + / 100)); [apply Rmult_le_compat; lra|lra]. }
  destruct (Bmult_fin x y Fx Fy) as [F V]; [apply small2, b60_900; exact PB|]. split; [exact F|]. rewrite V. assert (R1 := rnd_err (B2R x * B2R y)).
  assert (R2 : u64 * Rabs (B2R x * B2R y) <= u64 * ((1 + 3 * u64) * (1 + d) * (A * L))) by (apply Rmult_le_compat_l; lra).
  replace (rnd64 (B2R x * B2R y) - a * l) with ((rnd64 (B2R x * B2R y) - B2R x * B2R y) + (B2R x * B2R y - a * l)) by ring. eapply Rle_trans; [apply Rabs_triang|]. lra.
Qed.
Lemma sum_err (x y : b64) X Y e f M : is_finite x = true -> is_finite y = true -> Rabs (B2R x - X) <= e -> Rabs (B2R y - Y) <= f -> Rabs X + Rabs Y <= M -> e + f <= 2 -> M <= 2 ^ 50 ->
  is_finite (Bplus mode_NE x y) = true /\ Rabs (B2R (Bplus mode_NE x y) - (X + Y)) <= e + f + u64 * (M + 2).
Proof.
  intros Fx Fy Ex Ey HM Hef HB. assert (U0 := u64_pos). assert (Ax := abs_diff_le _ _ _ Ex). assert (Ay := abs_diff_le _ _ _ Ey).
  assert (A : Rabs (B2R x + B2R y) <= M + 2) by (eapply Rle_trans; [apply Rabs_triang|]; lra).
  destruct (Bplus_fin x y Fx Fy) as [F V]. { apply small2, b60_900. eapply Rle_trans; [exact A|]. replace (2 ^ 60) with (1024 * 2 ^ 50) by (simpl; lra). assert (1 <= 2 ^ 50) by (apply pow_R1_Rle; lra). lra. }
  split; [exact F|]. rewrite V. assert (E := rnd_plus_err _ _ (B2R_double x) (B2R_double y)). assert (R2 : u64 * Rabs (B2R x + B2R y) <= u64 * (M + 2)) by (apply Rmult_le_compat_l; lra).
  replace (rnd64 (B2R x + B2R y) - (X + Y)) with ((rnd64 (B2R x + B2R y) - (B2R x + B2R y)) + ((B2R x - X) + (B2R y - Y))) by ring. eapply Rle_trans; [apply Rabs_triang|].
  assert (T := Rabs_triang (B2R x - X) (B2R y - Y)). lra.
Qed.
Lemma diff_err (x y : b64) X Y e f M : is_finite x = true -> is_finite y = true -> Rabs (B2R x - X) <= e -> Rabs (B2R y - Y) <= f -> Rabs X + Rabs Y <= M -> e + f <= 2 -> M <= 2 ^ 50 ->
  is_finite (Bminus mode_NE x y) = true /\ Rabs (B2R (Bminus mode_NE x y) - (X - Y)) <= e + f + u64 * (M + 2).
Proof.
  intros Fx Fy Ex Ey HM Hef HB. assert (U0 := u64_pos). assert (Ax := abs_diff_le _ _ _ Ex). assert (Ay := abs_diff_le _ _ _ Ey).
  assert (A : Rabs (B2R x - B2R y) <= M + 2) by (unfold Rminus; eapply Rle_trans; [apply Rabs_triang|]; rewrite Rabs_Ropp; lra).
  destruct (Bminus_fin x y Fx Fy) as [F V]. { apply small2, b60_900. eapply Rle_trans; [exact A|]. replace (2 ^ 60) with (1024 * 2 ^ 50) by (simpl; lra). assert (1 <= 2 ^ 50) by (apply pow_R1_Rle; lra). lra. }
  split; [exact F|]. rewrite V. assert (E := rnd_minus_err _ _ (B2R_double x) (B2R_double y)). assert (R2 : u64 * Rabs (B2R x - B2R y) <= u64 * (M + 2)) by (apply Rmult_le_compat_l; lra).
  replace (rnd64 (B2R x - B2R y) - (X - Y)) with ((rnd64 (B2R x - B2R y) - (B2R x - B2R y)) + ((B2R x - X) + - (B2R y - Y))) by ring. eapply Rle_trans; [apply Rabs_triang|].
  assert (T := Rabs_triang (B2R x - X) (- (B2R y - Y))). rewrite Rabs_Ropp in T. lra.
Qed.
Lemma minus_one_val (x : b64) : is_finite x = true -> Rabs (B2R x) <= 2 ^ 50 -> is_finite (Bminus mode_NE x one64) = true /\ Rabs (B2R (Bminus mode_NE x one64) - (B2R x - 1)) <= u64 * Rabs (B2R x - 1).
Proof.
  intros F H. destruct one_val as [F1 V1]. destruct (Bminus_fin x one64 F F1) as [G V].
  { apply small2, b60_900. rewrite V1. unfold Rminus. eapply Rle_trans; [apply Rabs_triang|]. rewrite Rabs_Ropp, Rabs_R1. replace (2 ^ 60) with (1024 * 2 ^ 50) by (simpl; lra). assert (1 <= 2 ^ 50) by (apply pow_R1_Rle; lra). lra. }
  split; [exact G|]. rewrite V, V1. apply rnd_minus_err; [apply B2R_double|apply one_double].
Qed.
Lemma log_beta alpha beta s x : 0 < alpha -> 0 < beta -> 0 < x < s ->
  ln (exact_beta alpha beta s x) = (alpha - 1) * ln x + (beta - 1) * ln (s - x) - ln (Beta_fun alpha beta) - (alpha + beta - 1) * ln s /\ 0 < exact_beta alpha beta s x.
Proof.
  intros Ha Hb Hx. destruct (Beta_exists alpha beta Ha Hb) as [HB _]. assert (E : forall p q, 0 < Rpower p q) by (intros; apply exp_pos). unfold exact_beta.
  assert (N : 0 < Rpower x (alpha - 1) * Rpower (s - x) (beta - 1)) by now apply Rmult_lt_0_compat. assert (D : 0 < Beta_fun alpha beta * Rpower s (alpha + beta - 1)) by now apply Rmult_lt_0_compat.
  split; [|now apply Rdiv_lt_0_compat]. rewrite (ln_div _ _ N D), !ln_mult by auto. unfold Rpower. rewrite !ln_exp. ring.
Qed.
Lemma log_diff_val log64 eta (s x : b64) : 0 <= eta <= / 1000000 -> log_accuracy log64 eta -> is_finite s = true -> is_finite x = true -> 0 < B2R x < B2R s ->
  is_finite (log64 (Bminus mode_NE s x)) = true /\ Rabs (B2R (log64 (Bminus mode_NE s x)) - ln (B2R s - B2R x)) <= (eta + 4 * u64) * (Rabs (ln (B2R s - B2R x)) + 1).
Proof.
  intros He HL Fs Fx Hx. destruct u_small as (U0 & U1 & _). set (D := B2R s - B2R x) in *. assert (D0 : 0 < D) by (unfold D; lra).
  destruct (Bminus_fin s x Fs Fx) as [F V].
  { assert (Q := proj2 (B2R_double s)). apply Rle_lt_trans with (Rabs (B2R s)); [|exact Q]. rewrite !Rabs_pos_eq; [|lra|apply rnd_lower; [apply zero_double|lra]]. apply rnd_upper; [apply B2R_double|lra]. }
  assert (E := rnd_minus_err _ _ (B2R_double s) (B2R_double x)). rewrite <- V in E. fold D in E. set (y := Bminus mode_NE s x) in *. rewrite (Rabs_pos_eq D) in E by lra. apply Rabs_le_between in E.
  assert (UD : u64 * D <= / 4 * D) by (apply Rmult_le_compat_r; lra). assert (Y0 : 0 < B2R y) by lra. destruct (HL y (conj F Y0)) as [G EL]. split; [exact G|].
  assert (CL : Rabs (ln (B2R y) - ln D) <= 2 * u64).
  { destruct (cl_rel u64 D (B2R y) ltac:(lra) ltac:(lra)) as [_ CL]; [rewrite (Rabs_pos_eq D) by lra; apply Rabs_le_between; lra|]. rewrite (Rabs_pos_eq D), (Rabs_pos_eq (B2R y)) in CL by lra. eapply Rle_trans; [exact CL|]. apply half_div. lra. }
  assert (AL := abs_diff_le _ _ _ CL). assert (N0 := Rabs_pos (ln D)).
  replace (B2R (log64 y) - ln D) with ((B2R (log64 y) - ln (B2R y)) + (ln (B2R y) - ln D)) by ring. eapply Rle_trans; [apply Rabs_triang|].
  assert (M : eta * Rabs (ln (B2R y)) <= eta * (Rabs (ln D) + 2 * u64)) by (apply Rmult_le_compat_l; lra). assert (M2 : eta * u64 <= u64) by nra. assert (M3 : 0 <= u64 * Rabs (ln D)) by (apply Rmult_le_pos; lra). lra.
Qed.

Lemma C150_always_a_number_pf :
  forall exp64 log64 betaln64 xx alpha beta scale, never_negative exp64 ->
  let computed := beta_dist64 exp64 log64 betaln64 xx alpha beta scale in
  is_finite computed = true /\ 0 <= B2R computed /\
  (is_finite xx = true -> is_finite scale = true -> B2R xx < 0 \/ B2R scale < B2R xx -> B2R computed = 0).
Proof.
  intros exp64 log64 betaln64 xx alpha beta scale H computed. unfold computed, beta_dist64. set (l := ln_beta64 _ _ _ _ _ _).
  destruct (ntn_finite (exp64 l)) as [F S]; [destruct (H l) as [N|[N _]]; auto|]. set (E := nan_to_num_b zero64 (exp64 l)) in *.
  destruct (mult_bool E (Bleb zero64 xx && Bleb xx scale)%bool F S) as (F1 & S1 & V1). set (E1 := Bmult mode_NE E _) in *.
  split; [exact F1|]. split; [assert (Q := B2R_sign E1 F1); rewrite S1 in Q; exact Q|].
  intros Fx Fs O. rewrite V1, !leb_fin by (assumption || reflexivity). change (B2R zero64) with 0. destruct (Rle_dec 0 (B2R xx)); [|reflexivity]. destruct (Rle_dec (B2R xx) (B2R scale)); [lra|reflexivity].
Qed.

Lemma C150_accuracy_pf :
  forall eta e exp64 log64 betaln64 xx alpha beta scale,
  0 <= eta <= / 2 ^ 20 -> exp_accuracy exp64 eta -> log_accuracy log64 eta ->
  positive_double alpha -> positive_double beta -> positive_double xx -> is_finite scale = true -> B2R xx < B2R scale -> B2R alpha + B2R beta <= 2 ^ 48 ->
  is_finite (betaln64 alpha beta) = true -> Rabs (B2R (betaln64 alpha beta) - ln (Beta_fun (B2R alpha) (B2R beta))) <= e ->
  let exact := exact_beta (B2R alpha) (B2R beta) (B2R scale) (B2R xx) in
  let computed := beta_dist64 exp64 log64 betaln64 xx alpha beta scale in
  let bound := (3 * eta + 16 * u64) * (1 + term_sizes (B2R alpha) (B2R beta) (B2R scale) (B2R xx)) + e in
  bound <= / 2 -> / 2 ^ 1000 <= exact <= 2 ^ 1000 ->
  is_finite computed = true /\ 0 < B2R computed /\
  beta_dist_body (Fin (B2R xx)) (Fin (B2R alpha)) (Fin (B2R beta)) (Fin (B2R scale)) = Fin exact /\
  Rabs (ln (B2R computed) - ln exact) <= bound.
Proof.
  intros eta e exp64 log64 betaln64 xx alpha beta scale He HE HL [Fa Pa] [Fb Pb] [Fx Px] Fs Hx HAB FB EB exact computed bound BB HR.
  destruct u_small as (U0 & U1 & U2 & U3 & T0 & _).
  assert (He' : 0 <= eta <= / 1000000) by (split; [apply He|]; eapply Rle_trans; [apply He|]; apply Rinv_le_contravar; simpl; lra).
  assert (P48 : 2 ^ 48 <= 2 ^ 50) by (apply Rle_pow; [lra|lia]). assert (E0 : 0 <= e) by (eapply Rle_trans; [apply Rabs_pos|exact EB]).
  set (a := B2R alpha) in *. set (b := B2R beta) in *. set (s := B2R scale) in *. set (x := B2R xx) in *.
  destruct (log_beta a b s x Pa Pb (conj Px Hx)) as [LX EXP]. fold exact in LX, EXP.
  assert (EXB : beta_dist_body (Fin x) (Fin a) (Fin b) (Fin s) = Fin exact) by (rewrite beta_dist_body_in; [reflexivity|lra..]).
  set (lB := ln (Beta_fun a b)) in *. unfold term_sizes in bound. fold lB in bound.
  set (W1 := Rabs (a - 1) * Rabs (ln x)) in *. set (W2 := Rabs (b - 1) * (Rabs (ln (s - x)) + 1)) in *. set (W3 := Rabs lB) in *. set (W4 := (a + b + 1) * Rabs (ln s)) in *.
  assert (N1 : 0 <= W1) by (apply Rmult_le_pos; apply Rabs_pos). assert (N2 : 0 <= W2) by (apply Rmult_le_pos; [apply Rabs_pos|assert (Q := Rabs_pos (ln (s - x))); lra]). assert (N3 : 0 <= W3) by apply Rabs_pos. assert (N4 : 0 <= W4) by (apply Rmult_le_pos; [lra|apply Rabs_pos]).
  set (W := W1 + W2 + W3 + W4) in *. assert (W0 : 0 <= W) by (unfold W; lra).
  assert (KW : 16 * u64 * (1 + W) <= / 2) by (assert (Q : 0 <= eta * (1 + W)) by (apply Rmult_le_pos; lra); unfold bound in BB; lra).
  assert (WB : 1 + W <= 2 ^ 48). { unfold u64 in KW. apply (Rmult_le_compat_l (2 ^ 49)) in KW; [|apply pow_le; lra]. replace (2 ^ 49 * (16 * / 2 ^ 53 * (1 + W))) with (1 + W) in KW by (replace (2 ^ 53) with (16 * 2 ^ 49) by (simpl; lra); field; apply pow_nonzero; lra). replace (2 ^ 48) with (2 ^ 49 * / 2) by (simpl; lra). exact KW. }
  assert (Ka : Rabs a <= 2 ^ 50) by (rewrite Rabs_pos_eq; lra). assert (Kb : Rabs b <= 2 ^ 50) by (rewrite Rabs_pos_eq; lra).
  (* the four terms *)
  destruct (minus_one_val alpha Fa Ka) as [Fa1 Ea1]. destruct (minus_one_val beta Fb Kb) as [Fb1 Eb1]. fold a in Ea1. fold b in Eb1.
  destruct (HL xx (conj Fx Px)) as [Fl El]. fold x in El. destruct (log_diff_val log64 eta scale xx He' HL Fs Fx (conj Px Hx)) as [Fd Ed]. fold s x in Ed.
  assert (Ss : 0 < s) by (unfold x, s in *; lra). destruct (HL scale (conj Fs Ss)) as [Fq Eq]. fold s in Eq.
  assert (WEAK : forall r, eta * Rabs r <= (eta + 4 * u64) * Rabs r) by (intros r; assert (Q := Rabs_pos r); nra).
  assert (WEAK3 : forall r, u64 * Rabs r <= 3 * u64 * Rabs r) by (intros r; assert (Q := Rabs_pos r); nra).
  destruct (mul_err _ _ (a - 1) (ln x) (Rabs (a - 1)) (Rabs (ln x)) eta He' Fa1 Fl) as [Ft1 Et1]; [lra|lra|eapply Rle_trans; [exact Ea1|apply WEAK3]|eapply Rle_trans; [exact El|apply WEAK]|fold W1; unfold W in WB; lra|]. fold W1 in Et1.
  assert (AD := Rabs_pos (ln (s - x))).
  destruct (mul_err _ _ (b - 1) (ln (s - x)) (Rabs (b - 1)) (Rabs (ln (s - x)) + 1) eta He' Fb1 Fd) as [Ft2 Et2]; [lra|lra|eapply Rle_trans; [exact Eb1|apply WEAK3]|exact Ed|fold W2; unfold W in WB; lra|]. fold W2 in Et2.
  assert (SUM : is_finite (Bplus mode_NE alpha beta) = true /\ Rabs (B2R (Bplus mode_NE alpha beta) - (a + b)) <= u64 * (a + b)).
  { destruct (Bplus_fin alpha beta Fa Fb) as [G V]; [apply small2, b60_900; fold a b; rewrite Rabs_pos_eq by lra; apply Rle_trans with (2 ^ 48); [exact HAB|apply Rle_pow; [lra|lia]]|].
    split; [exact G|]. rewrite V. assert (Q := rnd_plus_err _ _ (B2R_double alpha) (B2R_double beta)). fold a b in Q |- *. rewrite (Rabs_pos_eq (a + b)) in Q by lra. exact Q. }
  destruct SUM as [Fab Eab]. set (ab := Bplus mode_NE alpha beta) in *. assert (Kab := abs_diff_le _ _ _ Eab). rewrite (Rabs_pos_eq (a + b)) in Kab by lra.
  assert (UAB : u64 * (a + b) <= a + b) by (apply u_le_one; lra). assert (UUAB : u64 * (u64 * (a + b)) <= u64 * (a + b)) by (apply u_le_one; apply Rmult_le_pos; lra).
  destruct (minus_one_val ab Fab) as [Fab1 Eab1]; [replace (2 ^ 50) with (4 * 2 ^ 48) by (simpl; lra); lra|].
  assert (Eab2 : Rabs (B2R (Bminus mode_NE ab one64) - (a + b - 1)) <= 3 * u64 * (a + b + 1)).
  { replace (B2R (Bminus mode_NE ab one64) - (a + b - 1)) with ((B2R (Bminus mode_NE ab one64) - (B2R ab - 1)) + (B2R ab - (a + b))) by ring. eapply Rle_trans; [apply Rabs_triang|].
    assert (K1 : Rabs (B2R ab - 1) <= a + b + u64 * (a + b) + 1) by (unfold Rminus; eapply Rle_trans; [apply Rabs_triang|]; rewrite Rabs_Ropp, Rabs_R1; lra).
    apply (Rmult_le_compat_l u64) in K1; [|lra]. lra. }
  assert (Hc : Rabs (a + b - 1) <= a + b + 1) by (apply Rabs_le_between; lra).
  destruct (mul_err _ _ (a + b - 1) (ln s) (a + b + 1) (Rabs (ln s)) eta He' Fab1 Fq) as [Ft4 Et4]; [exact Hc|lra|exact Eab2|eapply Rle_trans; [exact Eq|apply WEAK]|fold W4; unfold W in WB; lra|]. fold W4 in Et4.
  (* their sum *)
  assert (S1 : Rabs ((a - 1) * ln x) <= W1) by (rewrite Rabs_mult; apply Rle_refl). assert (S2 : Rabs ((b - 1) * ln (s - x)) <= W2) by (rewrite Rabs_mult; apply Rmult_le_compat_l; [apply Rabs_pos|lra]).
  assert (S4 : Rabs ((a + b - 1) * ln s) <= W4) by (rewrite Rabs_mult; apply Rmult_le_compat_r; [apply Rabs_pos|exact Hc]).
  set (t1 := Bmult mode_NE (Bminus mode_NE alpha one64) (log64 xx)) in *. set (t2 := Bmult mode_NE (Bminus mode_NE beta one64) (log64 (Bminus mode_NE scale xx))) in *. set (t4 := Bmult mode_NE (Bminus mode_NE ab one64) (log64 scale)) in *.
  assert (EW : (eta + 9 * u64) * W1 + (eta + 9 * u64) * W2 + (eta + 9 * u64) * W4 <= (eta + 9 * u64) * W) by (assert (Q : 0 <= (eta + 9 * u64) * W3) by (apply Rmult_le_pos; lra); unfold W; lra).
  assert (V1 : 0 <= (eta + 9 * u64) * W1) by (apply Rmult_le_pos; lra). assert (V2 : 0 <= (eta + 9 * u64) * W2) by (apply Rmult_le_pos; lra). assert (V4 : 0 <= (eta + 9 * u64) * W4) by (apply Rmult_le_pos; lra). assert (VE : 0 <= eta * W) by (apply Rmult_le_pos; lra). assert (VU : 0 <= u64 * W) by (apply Rmult_le_pos; lra).
  assert (BB' : (3 * eta + 16 * u64) * (1 + W) + e <= / 2) by exact BB.
  destruct (sum_err t1 t2 _ _ _ _ W Ft1 Ft2 Et1 Et2) as [Fs1 Es1]; [unfold W; lra|lra|lra|]. set (s1 := Bplus mode_NE t1 t2) in *.
  assert (A1 : Rabs ((a - 1) * ln x + (b - 1) * ln (s - x)) <= W1 + W2) by (eapply Rle_trans; [apply Rabs_triang|]; lra).
  destruct (diff_err s1 (betaln64 alpha beta) _ lB _ e W Fs1 FB Es1 EB) as [Fs2 Es2]; [unfold W; fold W3; lra|lra|lra|]. set (s2 := Bminus mode_NE s1 (betaln64 alpha beta)) in *.
  assert (A2 : Rabs ((a - 1) * ln x + (b - 1) * ln (s - x) - lB) <= W1 + W2 + W3) by (unfold Rminus at 1; eapply Rle_trans; [apply Rabs_triang|]; rewrite Rabs_Ropp; fold W3; lra).
  destruct (diff_err s2 t4 _ _ _ _ W Fs2 Ft4 Es2 Et4) as [Fs3 Es3]; [unfold W; lra|lra|lra|].
  change (Bminus mode_NE s2 t4) with (ln_beta64 log64 betaln64 xx alpha beta scale) in Fs3, Es3. rewrite <- LX in Es3. set (l := ln_beta64 log64 betaln64 xx alpha beta scale) in *.
  assert (El' : Rabs (B2R l - ln exact) <= (eta + 16 * u64) * (1 + W) + e) by (eapply Rle_trans; [exact Es3|]; lra).
  assert (El1 : Rabs (B2R l - ln exact) <= 1) by (eapply Rle_trans; [exact El'|]; lra). apply Rabs_le_between in El1.
  assert (RG : / 2 ^ 1010 <= exp (B2R l) <= 2 ^ 1010).
  { assert (X3 := exp_le_3). assert (EE : exp (ln exact) = exact) by (apply exp_ln; exact EXP).
    assert (B1 : exp (B2R l) <= exact * exp 1). { rewrite <- EE, <- exp_plus. apply exp_le_. lra. } assert (B2 : exact * / exp 1 <= exp (B2R l)). { rewrite <- exp_Ropp, <- EE at 1. rewrite <- exp_plus. apply exp_le_. lra. }
    assert (E10 : 2 ^ 1010 = 2 ^ 1000 * 1024) by (replace 1010%nat with (1000 + 10)%nat by reflexivity; rewrite pow_add; f_equal; simpl; lra). rewrite E10. assert (PP : 0 < 2 ^ 1000) by (apply pow_lt; lra). clear E10 X3 EE. split.
    - rewrite Rinv_mult. apply Rle_trans with (exact * / exp 1); [|exact B2]. assert (0 < / 2 ^ 1000) by now apply Rinv_0_lt_compat. apply Rmult_le_compat; [lra|lra|lra|]. apply Rinv_le_contravar; [apply exp_pos|]. assert (Q := exp_le_3). lra.
    - assert (Q := exp_le_3). assert (Q' := exp_pos 1). apply Rle_trans with (exact * exp 1); [exact B1|]. apply Rmult_le_compat; lra. }
  destruct (HE l Fs3 RG) as [Fe Ee]. assert (X0 := exp_pos (B2R l)). assert (Ee2 : Rabs (B2R (exp64 l) - exp (B2R l)) <= eta * Rabs (exp (B2R l))) by (rewrite (Rabs_pos_eq (exp _)); lra).
  assert (CL := cl_rel eta (exp (B2R l)) (B2R (exp64 l)) ltac:(lra) ltac:(lra) Ee2). apply Rabs_le_between in Ee. assert (PE : 0 < B2R (exp64 l)) by (assert (QM : eta * exp (B2R l) <= / 4 * exp (B2R l)) by (apply Rmult_le_compat_r; lra); lra). destruct CL as [_ CL]. rewrite (Rabs_pos_eq (exp (B2R l))), (Rabs_pos_eq (B2R (exp64 l))), ln_exp in CL by lra.
  assert (CL2 : Rabs (ln (B2R (exp64 l)) - B2R l) <= 2 * eta). { eapply Rle_trans; [exact CL|]. apply half_div. lra. }
  assert (SG := round_thms.pos_sign (exp64 l) Fe PE). assert (NT := ntn_fin zero64 (exp64 l) Fe).
  assert (VC : is_finite computed = true /\ B2R computed = B2R (exp64 l)).
  { unfold computed, beta_dist64. fold l. rewrite NT. destruct (mult_bool (exp64 l) (Bleb zero64 xx && Bleb xx scale)%bool Fe SG) as (F1 & _ & Q1). split; [exact F1|]. rewrite Q1, !leb_fin by (assumption || reflexivity). fold x s.
    change (B2R zero64) with 0. destruct (Rle_dec 0 x); [|lra]. destruct (Rle_dec x s); [|lra]. reflexivity. }
  destruct VC as [FC VC]. rewrite VC. split; [exact FC|]. split; [exact PE|]. split; [exact EXB|].
  replace (ln (B2R (exp64 l)) - ln exact) with ((ln (B2R (exp64 l)) - B2R l) + (B2R l - ln exact)) by ring. eapply Rle_trans; [apply Rabs_triang|]. unfold bound. lra.
Qed.

Lemma C150_limits_refuted_pf :
  forall exp64 log64 betaln64 xx alpha beta scale, log_of_zero log64 -> exp_of_nan exp64 ->
  is_finite xx = true -> is_finite scale = true -> 0 < B2R scale -> positive_double alpha -> positive_double beta ->
  (B2R alpha = 1 /\ B2R xx = 0) \/ (B2R beta = 1 /\ B2R xx = B2R scale) ->
  let exact := exact_beta (B2R alpha) (B2R beta) (B2R scale) (B2R xx) in
  B2R (beta_dist64 exp64 log64 betaln64 xx alpha beta scale) = 0 /\ exact = / (Beta_fun (B2R alpha) (B2R beta) * B2R scale) /\ 0 < exact.
Proof.
  intros exp64 log64 betaln64 xx alpha beta scale HZ HN Fx Fs Ps [Fa Pa] [Fb Pb] H exact. destruct one_val as [F1 V1].
  destruct (Beta_exists _ _ Pa Pb) as [PB _].
  assert (EX : exact = / (Beta_fun (B2R alpha) (B2R beta) * B2R scale)).
  { assert (RP : forall y g, 0 < y -> Rpower y g = Rpower y (g - 1) * y) by (intros y g Y; rewrite <- (Rpower_1 y) at 3 by exact Y; rewrite <- Rpower_plus; f_equal; ring).
    assert (R0 : forall y, Rpower y 0 = 1) by (intros y; unfold Rpower; rewrite Rmult_0_l; apply exp_0).
    assert (P : forall y g, 0 < Rpower y g) by (intros; apply exp_pos). set (B := Beta_fun (B2R alpha) (B2R beta)) in *. unfold exact, exact_beta. fold B.
    destruct H as [[Va Vx]|[Vb Vx]].
    - rewrite Va, Vx. replace (1 - 1) with 0 by ring. rewrite R0, Rminus_0_r. replace (1 + B2R beta - 1) with (B2R beta) by ring. rewrite (RP (B2R scale) (B2R beta) Ps). field. repeat split; apply Rgt_not_eq, Rlt_gt; auto.
    - rewrite Vb, Vx. replace (1 - 1) with 0 by ring. rewrite R0. replace (B2R alpha + 1 - 1) with (B2R alpha) by ring. rewrite (RP (B2R scale) (B2R alpha) Ps). field. repeat split; apply Rgt_not_eq, Rlt_gt; auto. }
  split; [|split; [exact EX|rewrite EX; apply Rinv_0_lt_compat; now apply Rmult_lt_0_compat]]. clear EX exact.
  assert (NANMUL : forall g y, is_finite g = true -> B2R g = 1 -> is_finite y = true -> B2R y = 0 -> Bmult mode_NE (Bminus mode_NE g one64) (log64 y) = B754_nan).
  { intros g y Fg Vg Fy Vy. rewrite (HZ y Fy Vy). destruct (Bminus_fin g one64 Fg F1) as [G V]; [rewrite Vg, V1; replace (1 - 1) with 0 by ring; apply small2; rewrite Rabs_R0; apply bpow_ge_0|].
    rewrite Vg, V1 in V. replace (1 - 1) with 0 in V by ring. rewrite (rnd_double 0 zero_double) in V. destruct (Bminus mode_NE g one64) as [q|q| |q m ee B]; try discriminate G; [reflexivity|]. exfalso. revert V. cbn [B2R]. intros V. apply eq_0_F2R in V. destruct q; discriminate V. }
  assert (L : ln_beta64 log64 betaln64 xx alpha beta scale = B754_nan).
  { unfold ln_beta64. assert (K : Bplus mode_NE (Bmult mode_NE (Bminus mode_NE alpha one64) (log64 xx)) (Bmult mode_NE (Bminus mode_NE beta one64) (log64 (Bminus mode_NE scale xx))) = B754_nan).
    { destruct H as [[Va Vx]|[Vb Vx]].
      - rewrite (NANMUL alpha xx Fa Va Fx Vx). now destruct (Bmult mode_NE (Bminus mode_NE beta one64) _).
      - assert (D : is_finite (Bminus mode_NE scale xx) = true /\ B2R (Bminus mode_NE scale xx) = 0).
        { destruct (Bminus_fin scale xx Fs Fx) as [G V]; [rewrite Vx; replace (B2R scale - B2R scale) with 0 by ring; apply small2; rewrite Rabs_R0; apply bpow_ge_0|]. split; [exact G|]. rewrite V, Vx. replace (B2R scale - B2R scale) with 0 by ring. apply rnd_double, zero_double. }
        destruct D as [D1 D2]. rewrite (NANMUL beta _ Fb Vb D1 D2). now destruct (Bmult mode_NE (Bminus mode_NE alpha one64) _). }
    rewrite K. reflexivity. }
  unfold beta_dist64. rewrite L, HN. cbn [nan_to_num_b].
  destruct (mult_bool zero64 (Bleb zero64 xx && Bleb xx scale)%bool eq_refl eq_refl) as (_ & _ & V). rewrite V. now destruct (Bleb zero64 xx && Bleb xx scale)%bool.
Qed.

