(** Proofs of the property theorems stated in [Props_roundrate]. *)
From Coq Require Import Reals ZArith Lra Lia Psatz Bool String.
From Coquelicot Require Import Coquelicot.
From Flocq Require Import Core BinarySingleNaN Relative.
From Coq Require Import List.
From Verif Require Import Xf Py Xf_facts Double Double_facts Rounded_model SpecRound RoundedPl_model SpecRoundPl Redshift_model RoundedRate_model SpecRoundRate round_thms roundpl_thms roundwin_thms roundtn_thms.
Import ListNotations.
Local Open Scope R_scope.

Lemma cl_logclose d x (y : b64) : 0 < x -> is_finite y = true -> cl d x (B2R y) -> log_close d x y.
Proof. intros X F [A B]. assert (Y : 0 < B2R y) by nra. rewrite (Rabs_pos_eq (B2R y)), (Rabs_pos_eq x) in B by lra. split; [exact F|]. now split. Qed.
Lemma cl_abs d x y : 0 < x -> 0 < y -> Rabs (ln y - ln x) <= d -> cl d x y.
Proof. intros X Y H. split; [nra|]. now rewrite (Rabs_pos_eq y), (Rabs_pos_eq x) by lra. Qed.
Lemma cl_mono d d' x y : d <= d' -> cl d x y -> cl d' x y.
Proof. intros D [A B]. split; [exact A|lra]. Qed.
Lemma cl_plus_one d x y : 0 < x -> cl d x y -> cl d (1 + x) (1 + y).
Proof.
  intros X [A B]. assert (Y : 0 < y) by nra. rewrite (Rabs_pos_eq y), (Rabs_pos_eq x) in B by lra. apply Rabs_le_between in B. assert (D : 1 <= exp d). { assert (E := exp_ineq1_le d). lra. }
  assert (K : forall p q, 0 < p -> 0 < q -> ln q - ln p <= d -> ln (1 + q) - ln (1 + p) <= d).
  { intros p q P Q L. assert (U : q <= p * exp d). { apply ln_le_inv; [exact Q|apply Rmult_lt_0_compat; [exact P|apply exp_pos]|]. rewrite ln_mult, ln_exp by (auto; apply exp_pos). lra. }
    assert (V : 1 + q <= (1 + p) * exp d) by lra. assert (W : ln (1 + q) <= ln ((1 + p) * exp d)) by (apply ln_le; lra). rewrite ln_mult, ln_exp in W by (try lra; apply exp_pos). lra. }
  apply cl_abs; [lra|lra|]. apply Rabs_le_between. assert (K1 := K x y X Y ltac:(lra)). assert (K2 := K y x Y X ltac:(lra)). lra.
Qed.
Lemma band_real x : moderate_real x -> band (-300) 300 x /\ 0 < x.
Proof.
  intros [A B]. assert (P := pow2_inv_pos 300). split; [|lra]. unfold band. rewrite Rabs_pos_eq by lra. rewrite (pow_bpow_inv 300) in A. rewrite (pow_bpow 300) in B. now split.
Qed.
(** The power with a rounded base. *)
Lemma pow_base n pow (x e : b64) r d : accurate n pow -> is_finite x = true -> is_finite e = true -> 0 < r -> cl d r (B2R x) -> Rabs (B2R e) * d <= / 2 -> moderate_real (Rpower r (B2R e)) ->
  is_finite (pow x e) = true /\ 0 < B2R (pow x e) /\ cl (Rabs (B2R e) * d + INR n * v64) (Rpower r (B2R e)) (B2R (pow x e)).
Proof.
  intros C Fx Fe Hr [A B] S M. assert (X : 0 < B2R x) by nra. rewrite (Rabs_pos_eq (B2R x)), (Rabs_pos_eq r) in B by lra. destruct (band_real _ M) as [Bd P]. assert (P' := Rpower_pos (B2R x) (B2R e)).
  assert (C1 : cl (Rabs (B2R e) * d) (Rpower r (B2R e)) (Rpower (B2R x) (B2R e))).
  { apply cl_abs; [exact P|exact P'|]. unfold Rpower. rewrite !ln_exp, <- Rmult_minus_distr_l, Rabs_mult. apply Rmult_le_compat_l; [apply Rabs_pos|exact B]. }
  assert (Bd' := band_cl _ _ _ _ _ S C1 Bd). destruct (C x e Fx Fe X) as (F & N1 & N2).
  { rewrite (pow_bpow_inv 1000), (pow_bpow 1000). apply (band_mono _ _ (- Z.of_nat 1000) (Z.of_nat 1000)) in Bd'; [|lia|lia]. unfold band in Bd'. rewrite Rabs_pos_eq in Bd' by lra. exact Bd'. }
  assert (N : near n (Rpower (B2R x) (B2R e)) (B2R (pow x e))) by (split; auto). split; [exact F|]. split; [exact (near_pos _ _ _ P' N)|]. eapply cl_trans; [exact C1|]. apply cl_near; auto.
Qed.
Lemma one_plus (x : b64) b : (b <= 800)%Z -> is_finite x = true -> 0 <= B2R x <= bpow radix2 b ->
  is_finite (Bplus mode_NE one64 x) = true /\ cl v64 (1 + B2R x) (B2R (Bplus mode_NE one64 x)) /\ 0 < B2R (Bplus mode_NE one64 x).
Proof.
  intros Hb F H. destruct one_val as [F1 V1]. destruct (Bplus_fin one64 x F1 F) as [G V].
  { rewrite V1. apply Rle_lt_trans with (bpow radix2 801); [|apply bpow_lt; lia]. assert (K : bpow radix2 b <= bpow radix2 800) by now apply bpow_le. assert (K1 : 1 <= bpow radix2 800) by (change 1 with (bpow radix2 0); apply bpow_le; lia).
    assert (K2 : bpow radix2 801 = 2 * bpow radix2 800) by (change 801%Z with (1 + 800)%Z; rewrite bpow_plus; reflexivity). assert (D : is_double (bpow radix2 801)) by (apply bd; lia).
    rewrite Rabs_pos_eq by (apply rnd_lower; [apply zero_double|lra]). apply rnd_upper; [exact D|lra]. }
  split; [exact G|]. rewrite V, V1. split; [apply cl_plus; [apply one_double|apply B2R_double|lra]|]. apply Rlt_le_trans with 1; [lra|]. apply rnd_lower; [apply one_double|lra].
Qed.
Lemma z_plus (z : b64) : redshift_double z -> is_finite (Bplus mode_NE one64 z) = true /\ cl v64 (1 + B2R z) (B2R (Bplus mode_NE one64 z)) /\ 0 < B2R (Bplus mode_NE one64 z) /\ band 0 101 (1 + B2R z).
Proof.
  intros [F H]. rewrite (pow_bpow 100) in H. destruct (one_plus z 100 ltac:(lia) F H) as (A & B & C). split; [exact A|]. split; [exact B|]. split; [exact C|].
  unfold band. rewrite Rabs_pos_eq by lra. change (bpow radix2 0) with 1. assert (K : bpow radix2 101 = 2 * bpow radix2 100) by (change 101%Z with (1 + 100)%Z; rewrite bpow_plus; reflexivity). assert (K1 : 1 <= bpow radix2 100) by (change 1 with (bpow radix2 0); apply bpow_le; lia). change (bpow radix2 (Z.of_nat 100)) with (bpow radix2 100) in H. lra.
Qed.
Lemma pos_of_cl d x y : 0 < x -> cl d x y -> 0 < y.
Proof. intros X [A _]. nra. Qed.
Lemma div_cl (x y : b64) X Y d e a b a' b' : is_finite x = true -> is_finite y = true -> 0 < X -> 0 < Y -> cl d X (B2R x) -> cl e Y (B2R y) -> d <= / 2 -> e <= / 2 -> band a b X -> band a' b' Y ->
  (-1000 <= a - b' - 2)%Z -> (b - a' + 2 <= 1000)%Z ->
  is_finite (Bdiv mode_NE x y) = true /\ cl (d + e + v64) (X / Y) (B2R (Bdiv mode_NE x y)).
Proof.
  intros Fx Fy HX HY Cx Cy Hd He Bx By L H. assert (Y0 := pos_of_cl _ _ _ HY Cy). assert (Bx' := band_cl _ _ _ _ _ Hd Cx Bx). assert (By' := band_cl _ _ _ _ _ He Cy By). assert (Bq := band_div _ _ _ _ _ _ Bx' By').
  destruct (Bdiv_fin x y Fx) as [F V]; [lra|eapply band_fin; [|exact Bq]; lia|]. split; [exact F|]. rewrite V. eapply cl_trans; [apply cl_div; [exact Cx|exact Cy]|]. apply cl_normal. apply Rle_trans with (2 := proj1 Bq). apply bpow_le. lia.
Qed.
Lemma mult_cl (x y : b64) X Y d e a b a' b' : is_finite x = true -> is_finite y = true -> cl d X (B2R x) -> cl e Y (B2R y) -> d <= / 2 -> e <= / 2 -> band a b X -> band a' b' Y ->
  (-1000 <= a + a' - 2)%Z -> (b + b' + 2 <= 1000)%Z ->
  is_finite (Bmult mode_NE x y) = true /\ cl (d + e + v64) (X * Y) (B2R (Bmult mode_NE x y)).
Proof.
  intros Fx Fy Cx Cy Hd He Bx By L H. assert (Bx' := band_cl _ _ _ _ _ Hd Cx Bx). assert (By' := band_cl _ _ _ _ _ He Cy By). assert (Bq := band_mult _ _ _ _ _ _ Bx' By').
  destruct (Bmult_fin x y Fx Fy) as [F V]; [eapply band_fin; [|exact Bq]; lia|]. split; [exact F|]. rewrite V. eapply cl_trans; [apply cl_mult; [exact Cx|exact Cy]|]. apply cl_normal. apply Rle_trans with (2 := proj1 Bq). apply bpow_le. lia.
Qed.
Lemma plus_band x : moderate_real x -> band 0 301 (1 + x).
Proof.
  intros [A B]. assert (P := pow2_inv_pos 300). rewrite (pow_bpow 300) in B. change (bpow radix2 (Z.of_nat 300)) with (bpow radix2 300) in B. unfold band. rewrite Rabs_pos_eq by lra. change (bpow radix2 0) with 1.
  assert (K : bpow radix2 301 = 2 * bpow radix2 300) by (change 301%Z with (1 + 300)%Z; rewrite bpow_plus; reflexivity). assert (K1 : 1 <= bpow radix2 300) by (change 1 with (bpow radix2 0); apply bpow_le; lia). lra.
Qed.
(** One plus a computed power. *)
Lemma one_plus_pow (w : b64) x d : is_finite w = true -> moderate_real x -> cl d x (B2R w) -> d <= / 2 -> is_finite (Bplus mode_NE one64 w) = true /\ cl (d + v64) (1 + x) (B2R (Bplus mode_NE one64 w)).
Proof.
  intros F M C D. destruct (band_real _ M) as [Bd P]. assert (W := pos_of_cl _ _ _ P C). assert (Bd' := band_cl _ _ _ _ _ D C Bd). destruct Bd' as [_ U]. rewrite Rabs_pos_eq in U by lra.
  destruct (one_plus w (300 + 1) ltac:(lia) F) as (G & C1 & _); [lra|]. split; [exact G|]. eapply cl_trans; [apply (cl_plus_one d x (B2R w) P C)|exact C1].
Qed.

Lemma C152_powerlaw_pf :
  forall n pow z lamb, accurate n pow -> redshift_double z -> is_finite lamb = true ->
  let exact := Rpower (1 + B2R z) (B2R lamb) in
  let bound := 2 * u64 * (Rabs (B2R lamb) + INR n) in
  moderate_real exact -> bound <= / 2 ->
  powerlaw_psi (Fin (B2R z)) [("lamb"%string, Fin (B2R lamb))] = Ok (Fin exact) /\ log_close bound exact (powerlaw_psi64 pow z lamb).
Proof.
  intros n pow z lamb HP Hz Fl exact bound M BB. destruct v64_facts as (U0 & UV & V2 & _). assert (N0 := pos_INR n). assert (A0 := Rabs_pos (B2R lamb)).
  destruct (z_plus z Hz) as (Fz & Cz & Pz & _). assert (Z1 : 0 < 1 + B2R z) by (destruct Hz as [_ H]; lra). assert (K : Rabs (B2R lamb) * v64 <= Rabs (B2R lamb) * (2 * u64)) by (apply Rmult_le_compat_l; lra). assert (K2 : INR n * v64 <= INR n * (2 * u64)) by (apply Rmult_le_compat_l; lra).
  assert (K3 : 0 <= INR n * u64) by (apply Rmult_le_pos; lra). split.
  - unfold powerlaw_psi. cbn -[fpow fadd Rpower]. autorewrite with xf. now rewrite fpow_fin.
  - destruct (pow_base n pow (Bplus mode_NE one64 z) lamb (1 + B2R z) v64 HP Fz Fl Z1 Cz) as (F & P & C); [unfold bound in BB; lra|exact M|]. apply cl_logclose; [apply Rpower_pos|exact F|]. eapply cl_mono; [|exact C]. unfold bound. lra.
Qed.

Lemma C152_madau_pf :
  forall n pow z gamma kappa z_peak, accurate n pow -> redshift_double z -> redshift_double z_peak -> is_finite gamma = true -> is_finite kappa = true ->
  let exact := exact_madau (B2R gamma) (B2R kappa) (B2R z_peak) (B2R z) in
  let bound := 2 * u64 * (Rabs (B2R gamma) + 4 * Rabs (B2R kappa) + 3 * INR n + 4) in
  moderate_real (Rpower (1 + B2R z) (B2R gamma)) -> moderate_real (Rpower ((1 + B2R z) / (1 + B2R z_peak)) (B2R kappa)) -> moderate_real (Rpower (1 + B2R z_peak) (- B2R kappa)) ->
  bound <= / 2 ->
  madau_psi (Fin (B2R z)) [("gamma"%string, Fin (B2R gamma)); ("kappa"%string, Fin (B2R kappa)); ("z_peak"%string, Fin (B2R z_peak))] = Ok (Fin exact) /\
  log_close bound exact (madau_psi64 pow z gamma kappa z_peak).
Proof.
  intros n pow z gamma kappa z_peak HP Hz Hp Fg Fk exact bound M1 M2 M3 BB. destruct v64_facts as (U0 & UV & V2 & _). assert (N0 := pos_INR n). assert (A0 := Rabs_pos (B2R gamma)). assert (A1 := Rabs_pos (B2R kappa)).
  destruct (z_plus z Hz) as (Fz & Cz & Pz & Bz). destruct (z_plus z_peak Hp) as (Fp & Cp & Pp & Bp). assert (Z1 : 0 < 1 + B2R z) by (destruct Hz as [_ H]; lra). assert (Z2 : 0 < 1 + B2R z_peak) by (destruct Hp as [_ H]; lra).
  set (g := Rabs (B2R gamma)) in *. set (k := Rabs (B2R kappa)) in *. set (m := INR n) in *. set (v := v64) in *.
  assert (TOT : (g + 4 * k + 3 * m + 4) * v <= bound) by (unfold bound; rewrite (Rmult_comm (2 * u64)); apply Rmult_le_compat_l; lra).
  assert (Gv : 0 <= g * v) by (apply Rmult_le_pos; lra). assert (Kv : 0 <= k * v) by (apply Rmult_le_pos; lra). assert (Mv : 0 <= m * v) by (apply Rmult_le_pos; lra).
  assert (RP : 0 < (1 + B2R z) / (1 + B2R z_peak)) by now apply Rdiv_lt_0_compat.
  split.
  { unfold madau_psi. cbn -[fpow fadd fdiv fmul fopp Rpower]. autorewrite with xf. rewrite fdiv_fin by lra. rewrite !fpow_fin by assumption. autorewrite with xf. assert (Q := Rpower_pos ((1 + B2R z) / (1 + B2R z_peak)) (B2R kappa)). rewrite fdiv_fin by lra. autorewrite with xf. reflexivity. }
  destruct (pow_base n pow (Bplus mode_NE one64 z) gamma (1 + B2R z) v HP Fz Fg Z1 Cz) as (FA & PA & CA); [fold g; lra|exact M1|]. fold g m v in CA.
  destruct (div_cl _ _ _ _ v v 0 101 0 101 Fz Fp Z1 Z2 Cz Cp) as (Fr & Cr); [lra|lra|exact Bz|exact Bp|lia|lia|].
  destruct (pow_base n pow _ kappa _ _ HP Fr Fk RP Cr) as (FR & PR & CR); [fold k v; lra|exact M2|]. fold k m v in CR.
  destruct (one_plus_pow _ _ _ FR M2 CR) as (FD & CD); [lra|]. fold v in CD.
  assert (Fo : is_finite (Bopp kappa) = true) by (rewrite is_finite_Bopp; exact Fk). assert (Vo : B2R (Bopp kappa) = - B2R kappa) by apply B2R_Bopp. assert (Ao : Rabs (B2R (Bopp kappa)) = k) by (rewrite Vo; apply Rabs_Ropp).
  destruct (pow_base n pow (Bplus mode_NE one64 z_peak) (Bopp kappa) (1 + B2R z_peak) v HP Fp Fo Z2 Cp) as (FE & PE & CE); [rewrite Ao; lra|rewrite Vo; exact M3|]. rewrite Ao, Vo in CE. fold m v in CE.
  destruct (one_plus_pow _ _ _ FE M3 CE) as (FF & CF); [lra|]. fold v in CF.
  destruct (band_real _ M1) as [BA PA']. destruct (band_real _ M2) as [_ PR']. destruct (band_real _ M3) as [_ PE'].
  assert (PD : 0 < 1 + Rpower ((1 + B2R z) / (1 + B2R z_peak)) (B2R kappa)) by lra.
  destruct (div_cl _ _ _ _ _ _ (-300) 300 0 301 FA FD PA' PD CA CD) as (FQ & CQ); [lra|lra|exact BA|now apply plus_band|lia|lia|]. fold v in CQ.
  assert (BQ : band (-300 - 301) (300 - 0) (Rpower (1 + B2R z) (B2R gamma) / (1 + Rpower ((1 + B2R z) / (1 + B2R z_peak)) (B2R kappa)))) by (apply band_div; [exact BA|now apply plus_band]).
  destruct (mult_cl _ _ _ _ _ _ (-300 - 301) (300 - 0) 0 301 FQ FF CQ CF) as (FM & CM); [lra|lra|exact BQ|now apply plus_band|lia|lia|]. fold v in CM.
  apply cl_logclose; [|exact FM|].
  - unfold exact, exact_madau. apply Rmult_lt_0_compat; [apply Rdiv_lt_0_compat; lra|lra].
  - eapply cl_mono; [|exact CM]. lra.
Qed.

Lemma C152_volume_pf :
  forall d e psi dvc (psi64 dvc64 z z_max : b64), redshift_double z -> is_finite z_max = true -> log_close d psi psi64 -> log_close e dvc dvc64 -> moderate_real psi -> moderate_real dvc -> d + e + 6 * u64 <= / 2 ->
  let computed := differential64 psi64 dvc64 z z_max in
  (B2R z <= B2R z_max -> log_close (d + e + 6 * u64) (psi / (1 + B2R z) * dvc) computed) /\
  (B2R z_max < B2R z -> is_finite computed = true /\ B2R computed = 0).
Proof.
  intros d e psi dvc psi64 dvc64 z z_max Hz Fm (Fp & Pp & Ep) (Fd & Pd & Ed) Mp Md BB computed. destruct v64_facts as (U0 & UV & V2 & _). destruct (z_plus z Hz) as (Fz & Cz & Pz & Bz). assert (Z1 : 0 < 1 + B2R z) by (destruct Hz as [_ H]; lra).
  destruct (band_real _ Mp) as [Bp Pp']. destruct (band_real _ Md) as [Bd' Pd']. assert (D0 : 0 <= d) by (eapply Rle_trans; [apply Rabs_pos|exact Ep]). assert (E0 : 0 <= e) by (eapply Rle_trans; [apply Rabs_pos|exact Ed]).
  assert (Cp := cl_abs _ _ _ Pp' Pp Ep). assert (Cd := cl_abs _ _ _ Pd' Pd Ed).
  destruct (div_cl _ _ _ _ _ _ (-300) 300 0 101 Fp Fz Pp' Z1 Cp Cz) as (Fq & Cq); [lra|lra|exact Bp|exact Bz|lia|lia|].
  assert (BQ : band (-300 - 101) (300 - 0) (psi / (1 + B2R z))) by (now apply band_div).
  destruct (mult_cl _ _ _ _ _ _ (-300 - 101) (300 - 0) (-300) 300 Fq Fd Cq Cd) as (FM & CM); [lra|lra|exact BQ|exact Bd'|lia|lia|].
  assert (PX : 0 < psi / (1 + B2R z) * dvc) by (apply Rmult_lt_0_compat; [now apply Rdiv_lt_0_compat|exact Pd']). assert (PM := pos_of_cl _ _ _ PX CM). assert (SG := round_thms.pos_sign _ FM PM).
  destruct (mult_bool _ (Bleb z z_max) FM SG) as (F1 & _ & V1). change (is_finite computed = true) in F1. rewrite leb_fin in V1 by (assumption || apply Hz).
  assert (V1' : B2R computed = if Rle_dec (B2R z) (B2R z_max) then B2R (Bmult mode_NE (Bdiv mode_NE psi64 (Bplus mode_NE one64 z)) dvc64) else 0).
  { unfold computed, differential64. rewrite leb_fin by (assumption || apply Hz). rewrite V1. now destruct (Rle_dec (B2R z) (B2R z_max)). }
  split; intros H; destruct (Rle_dec (B2R z) (B2R z_max)) as [K|K]; try lra.
  - apply cl_logclose; [exact PX|exact F1|]. rewrite V1'. eapply cl_mono; [|exact CM]. lra.
  - split; [exact F1|exact V1'].
Qed.

