(** Proofs of the property theorems stated in [Props_roundz]. *)
From Coq Require Import Reals ZArith Lra Lia Psatz Bool String.
From Coquelicot Require Import Coquelicot.
From Flocq Require Import Core BinarySingleNaN Relative.
From Coq Require Import List.
From Verif Require Import Xf Py Xf_facts Py_facts Double Double_facts Rounded_model SpecRound RoundedPl_model SpecRoundPl Utils_model Redshift_model RoundedTrap_model SpecRoundTrap RoundedRate_model SpecRoundRate RoundedRedshift_model SpecRoundMix Trap_facts Smoothed_facts round_thms roundpl_thms roundll_thms roundwin_thms roundtn_thms roundtrap_thms roundrate_thms roundmix_thms roundsmooth_thms.
Import ListNotations.
Local Open Scope R_scope.

(** Any density divided by its trapezoid integral. *)
Lemma normalised_ap (sp : b64 -> b64) (S : R -> R) grid t m d' Z : 0 <= d' -> 2 * d' + (INR (depth t) + 6) * (2 * u64) <= / 4 ->
  steps_within 40 grid -> INR (List.length grid) <= 2 ^ 40 -> (forall x, x = m \/ In x grid -> good d' (S (B2R x)) (sp x)) ->
  leaves t = trap_terms64 (map sp grid) grid -> Z = exact_trapezoid (map S (reals grid)) (reals grid) -> / 2 ^ 100 <= Z ->
  approximates (2 * d' + (INR (depth t) + 6) * (2 * u64)) (/ 2 ^ 380) (S (B2R m) / Z) (Bdiv mode_NE (sp m) (sum64 t)).
Proof.
  intros D0 D1 SW LG GD LT EZ HZ.
  destruct v64_facts as (U0 & UV & V2 & _). destruct u_small as (_ & U1 & _).
  assert (NP := pos_INR (depth t)). assert (NV : INR (depth t) * v64 <= INR (depth t) * (2 * u64)) by (apply Rmult_le_compat_l; lra). assert (NV0 : 0 <= INR (depth t) * v64) by (apply Rmult_le_pos; lra).
  assert (P100 := pow2_inv_pos 100). assert (Z0 : 0 < Z) by lra. assert (D' : 0 <= d' <= / 4) by lra.
  assert (FG : Forall2 (good d') (map S (reals grid)) (map sp grid)).
  { unfold reals. rewrite map_map. assert (HG : forall x, In x grid -> good d' (S (B2R x)) (sp x)) by (intros; apply GD; now right). clear - HG. induction grid as [|x g IH]; cbn [map]; constructor; [apply HG; now left|]. apply IH. intros y Hy. apply HG. now right. }
  destruct (terms_ap d' (map sp grid) (map S (reals grid)) grid D' FG ltac:(now rewrite map_length) SW) as (NN & AT & BT). rewrite <- EZ in AT, BT.
  rewrite <- LT in NN, AT. change (reals (leaves t)) with (values t) in AT.
  destruct b490_facts as (B0 & BS & _ & _ & _ & _ & BT' & B6). assert (G := X200_ge). assert (LP := pos_INR (List.length grid)). destruct b100_X as (X1 & X2 & X3 & X4 & X5).
  assert (T0 : 0 < t440) by (unfold t440; apply pow2_inv_pos). assert (GG : X200 * 1 <= X200 * X200) by (apply Rmult_le_compat_l; lra).
  assert (TL : INR (List.length grid) * t440 <= / 2 ^ 400). { apply Rle_trans with (2 ^ 40 * t440); [apply Rmult_le_compat_r; lra|]. unfold t440. change 440%nat with (40 + 400)%nat. rewrite pow_add, Rinv_mult by (apply pow_nonzero; lra). rewrite <- Rmult_assoc, Rinv_r by (apply pow_nonzero; lra). lra. }
  assert (T440 : 4 * / 2 ^ 400 <= u64 * / 2 ^ 100). { unfold u64. rewrite (pow_bpow_inv 400), (pow_bpow_inv 53), (pow_bpow_inv 100). change 4 with (bpow radix2 2). rewrite <- !bpow_plus. apply bpow_le. lia. }
  assert (Q440 := pow2_inv_pos 400). assert (UZ : u64 * / 2 ^ 100 <= u64 * Z) by (apply Rmult_le_compat_l; lra). assert (S440 : / 2 ^ 400 <= 1) by (rewrite <- Rinv_1; apply Rinv_le_contravar; [lra|apply pow_R1_Rle; lra]).
  assert (BZ : Z <= X200 * X200). { eapply Rle_trans; [exact BT|]. apply Rmult_le_compat_r; lra. }
  assert (AT' := ap_weaken _ _ (d' + 4 * v64) (/ 2 ^ 400) _ _ (Rle_refl _) TL AT).
  destruct (sum_near t NN) as (Fs & Ps & Ns).
  { destruct AT' as (_ & _ & _ & UB). assert (E := exp_half (d' + 4 * v64) ltac:(lra)). assert (K : exp (d' + 4 * v64) * Z <= 2 * Z) by (apply Rmult_le_compat_r; lra).
    assert (PE := pow_exp (depth t)). assert (PE' := exp_half (INR (depth t) * v64) ltac:(lra)). rewrite exp_Ropp in PE. assert (EP := exp_pos (INR (depth t) * v64)). assert (I2 : / 2 <= / exp (INR (depth t) * v64)) by (apply Rinv_le_contravar; lra).
    assert (BB : bpow radix2 1024 = 64 * (bpow radix2 618 * (X200 * X200))). { rewrite X200_bpow. change 64 with (bpow radix2 6). rewrite <- !bpow_plus. reflexivity. } assert (B18 : 1 <= bpow radix2 618) by (change 1 with (bpow radix2 0); apply bpow_le; lia).
    assert (K2 : 1 * (X200 * X200) <= bpow radix2 618 * (X200 * X200)) by (apply Rmult_le_compat_r; lra). rewrite BB. apply Rlt_le_trans with (/ 2 * (64 * (bpow radix2 618 * (X200 * X200)))); [lra|]. apply Rmult_le_compat_r; lra. }
  assert (NV2 : INR (depth t) * v64 <= / 2) by lra. assert (AS := ap_near (depth t) _ _ _ _ _ (Rlt_le _ _ Q440) NV2 Ps Ns AT').
  assert (DA : 0 <= d' + 4 * v64 + INR (depth t) * v64 <= / 2) by lra. assert (TA : 0 <= 2 * / 2 ^ 400) by lra. assert (TU : 2 * / 2 ^ 400 <= u64 * Z / 2) by lra. assert (AZ := ap_absorb _ _ _ _ DA TA TU AS).
  destruct (GD m (or_introl eq_refl)) as [GM LM].
  assert (IZ : / Z <= 2 ^ 100). { rewrite <- (Rinv_inv (2 ^ 100)). now apply Rinv_le_contravar. } assert (IZ0 := Rinv_0_lt_compat _ Z0).
  assert (SM : 0 <= S (B2R m)) by (destruct GM as [_ [Q _]]; exact Q).
  assert (TB : 2 * b490 / Z <= / 2 ^ 381 / 4). { unfold Rdiv. apply Rle_trans with (2 * b490 * 2 ^ 100); [apply Rmult_le_compat_l; lra|]. unfold b490. rewrite (pow_bpow_inv 381), (pow_bpow 100). change 2 with (bpow radix2 1) at 1. change (/ 4) with (bpow radix2 (-2)). rewrite <- !bpow_plus. apply bpow_le. lia. }
  assert (H501 : / 2 ^ 380 = 2 * / 2 ^ 381). { change 381%nat with (1 + 380)%nat. rewrite pow_add, pow_1. field. } assert (Q501 := pow2_inv_pos 381). assert (S501 : / 2 ^ 381 <= 1) by (rewrite <- Rinv_1; apply Rinv_le_contravar; [lra|apply pow_R1_Rle; lra]).
  assert (XZ : S (B2R m) / Z <= X200). { unfold Rdiv. apply Rle_trans with (2 ^ 100 * 2 ^ 100); [apply Rmult_le_compat; lra|]. rewrite <- pow_add. unfold X200. apply Rle_refl. }
  destruct (quot_ap _ _ _ _ _ _ _ GM (conj Fs AZ)) as [FQ MQ]; try lra.
  apply ap_approx; [exact FQ|]. eapply ap_weaken; [| |exact MQ].
  - lra.
  - assert (ST : s75 <= / 2 ^ 381) by (unfold s75; rewrite (pow_bpow_inv 381); apply bpow_le; lia). lra.
Qed.
Lemma close_ap d x (y : b64) : 0 < x -> log_close d x y -> is_finite y = true /\ ap d 0 x (B2R y).
Proof.
  intros X (F & Y & H). apply Rabs_le_between in H. split; [exact F|]. split; [lra|]. split; [lra|]. assert (E : B2R y = exp (ln (B2R y))) by now rewrite exp_ln. rewrite E. assert (E2 : x = exp (ln x)) by now rewrite exp_ln. rewrite E2 at 1 2. rewrite <- !exp_plus.
  assert (A : exp (- d + ln x) <= exp (ln (B2R y))) by (apply exp_mono; lra). assert (B : exp (ln (B2R y)) <= exp (d + ln x)) by (apply exp_mono; lra). lra.
Qed.

Lemma C155_redshift_density_pf :
  forall r psi64 dvc64 z_max zs t z d e psi dvc parameters Z,
  steps_within 40 zs -> INR (List.length zs) <= 2 ^ 40 -> is_finite z_max = true ->
  leaves t = volume_terms64 psi64 dvc64 z_max zs ->
  rs_zmax r = B2R z_max -> rs_zs r = map Fin (reals zs) ->
  (forall x, x = z \/ In x zs ->
     redshift_double x /\ moderate_real (psi (B2R x)) /\ moderate_real (dvc (B2R x)) /\ psi (B2R x) / (1 + B2R x) * dvc (B2R x) <= 2 ^ 100 /\
     ra_psi (rs_rate r) (Fin (B2R x)) parameters = Ok (Fin (psi (B2R x))) /\ dvc_dz r (Fin (B2R x)) parameters = Ok (Fin (dvc (B2R x))) /\
     log_close d (psi (B2R x)) (psi64 x) /\ log_close e (dvc (B2R x)) (dvc64 x)) ->
  normalisation r parameters = Ok (Fin Z) -> / 2 ^ 100 <= Z ->
  let D := 2 * d + 2 * e + (INR (depth t) + 12) * (2 * u64) in
  0 <= d -> 0 <= e -> D <= / 4 ->
  exists v, probability r [("redshift"%string, [Fin (B2R z)])] parameters = Ok [Fin v] /\
    approximates D (/ 2 ^ 380) v (probability64 psi64 dvc64 z_max t z) /\ (B2R z_max < B2R z -> v = 0).
Proof.
  intros r psi64 dvc64 zm zs t z d e psi dvc pars Z SW LG Fm LT Em Eg H NZ HZ D D0 E0 D1.
  set (S := fun x : R => psi x / (1 + x) * dvc x * (if Rleb x (B2R zm) then 1 else 0)).
  assert (U := u64_pos). assert (NP := pos_INR (depth t)). assert (NU : 0 <= INR (depth t) * (2 * u64)) by (apply Rmult_le_pos; lra). unfold D in D1.
  assert (HV : forall x, x = z \/ In x zs -> differential_spacetime_volume_at r true pars (Fin (B2R x)) = Ok (Fin (S (B2R x)))).
  { intros x Hx. destruct (H x Hx) as ((_ & Hz) & _ & _ & _ & Rp & Rd & _). unfold differential_spacetime_volume_at. rewrite Rp. cbn [bind]. rewrite Rd. cbn [bind]. rewrite fadd_fin, fdiv_fin, fmul_fin, Em, fle_fin by lra. unfold S. destruct (Rleb (B2R x) (B2R zm)); cbn [of_bool]; now rewrite fmul_fin. }
  assert (HM : forall l, (forall x, In x l -> x = z \/ In x zs) -> mapM (differential_spacetime_volume_at r true pars) (map Fin (reals l)) = Ok (map Fin (map S (reals l)))).
  { induction l as [|x l IH]; intros Hl; [reflexivity|]. cbn [reals map mapM]. rewrite HV by (apply Hl; now left). cbn [bind]. unfold reals in IH. rewrite IH by (intros; apply Hl; now right). reflexivity. }
  assert (EZ : Z = exact_trapezoid (map S (reals zs)) (reals zs)).
  { unfold normalisation, differential_spacetime_volume in NZ. cbn [dlookup dget String.eqb] in NZ. rewrite Eg in NZ. change (dlookup "redshift" [("redshift"%string, map Fin (reals zs))]) with (Ok (map Fin (reals zs)) : result (list xf)) in NZ. cbn [bind] in NZ. rewrite HM in NZ by (intros; now right). cbn [bind] in NZ. rewrite trapezoid_fin in NZ. injection NZ as <-. symmetry. apply exact_Rtrap. now rewrite map_length. }
  assert (P100 := pow2_inv_pos 100). assert (Z0 : 0 < Z) by lra.
  exists (S (B2R z) / Z). split; [|split].
  - unfold probability. rewrite NZ. cbn [bind]. unfold differential_spacetime_volume. change (dlookup "redshift" [("redshift"%string, [Fin (B2R z)])]) with (Ok (map Fin (reals [z])) : result (list xf)). cbn [bind]. rewrite HM by (intros x [<-|[]]; now left). cbn [bind map reals]. rewrite fdiv_fin by lra. reflexivity.
  - unfold probability64. replace D with (2 * (d + e + 6 * u64) + (INR (depth t) + 6) * (2 * u64)) by (unfold D; ring). apply (normalised_ap (volume64 psi64 dvc64 zm) S zs); auto; try lra.
    intros x Hx. destruct (H x Hx) as (Rx & Mp & Md & B & _ & _ & Cp & Cd). destruct b490_facts as (B0 & _).
    destruct (C152_volume_pf d e (psi (B2R x)) (dvc (B2R x)) (psi64 x) (dvc64 x) x zm Rx Fm Cp Cd Mp Md ltac:(lra)) as [IN OUT]. fold (volume64 psi64 dvc64 zm x) in IN, OUT.
    assert (P300 := pow2_inv_pos 300). destruct Rx as (_ & Rx). assert (PP : 0 < psi (B2R x) / (1 + B2R x) * dvc (B2R x)). { apply Rmult_lt_0_compat; [apply Rdiv_lt_0_compat|]; unfold moderate_real in *; lra. }
    unfold good, S. destruct (Rleb_spec (B2R x) (B2R zm)) as [L|L].
    + rewrite Rmult_1_r. split; [|exact B]. destruct (close_ap _ _ _ PP (IN L)) as [F A]. split; [exact F|]. eapply ap_weaken; [| |exact A]; lra.
    + rewrite Rmult_0_r. apply Rnot_le_lt in L. destruct (OUT L) as [F V]. split; [|apply Rlt_le, pow_lt; lra]. split; [exact F|]. rewrite V. unfold ap. rewrite !Rmult_0_r. lra.
  - intros L. unfold S. rewrite Rleb_false by exact L. unfold Rdiv. rewrite Rmult_0_r. apply Rmult_0_l.
Qed.

Lemma C155_powerlaw_pf :
  forall n pow lamb r dvc64 z_max zs t z e dvc parameters Z,
  accurate n pow -> is_finite lamb = true -> rs_rate r = powerlaw_rate -> dget "lamb" parameters = Some (Fin (B2R lamb)) ->
  let psi64 := fun x => powerlaw_psi64 pow x lamb in
  steps_within 40 zs -> INR (List.length zs) <= 2 ^ 40 -> is_finite z_max = true ->
  leaves t = volume_terms64 psi64 dvc64 z_max zs ->
  rs_zmax r = B2R z_max -> rs_zs r = map Fin (reals zs) ->
  (forall x, x = z \/ In x zs ->
     redshift_double x /\ moderate_real (Rpower (1 + B2R x) (B2R lamb)) /\ moderate_real (dvc (B2R x)) /\ Rpower (1 + B2R x) (B2R lamb) / (1 + B2R x) * dvc (B2R x) <= 2 ^ 100 /\
     dvc_dz r (Fin (B2R x)) parameters = Ok (Fin (dvc (B2R x))) /\ log_close e (dvc (B2R x)) (dvc64 x)) ->
  normalisation r parameters = Ok (Fin Z) -> / 2 ^ 100 <= Z ->
  let D := 2 * e + (INR (depth t) + 2 * Rabs (B2R lamb) + 2 * INR n + 12) * (2 * u64) in
  0 <= e -> D <= / 4 ->
  exists v, probability r [("redshift"%string, [Fin (B2R z)])] parameters = Ok [Fin v] /\
    approximates D (/ 2 ^ 380) v (probability64 psi64 dvc64 z_max t z) /\ (B2R z_max < B2R z -> v = 0).
Proof.
  intros n pow lamb r dvc64 zm zs t z e dvc pars Z HP Fl Er El psi64 SW LG Fm LT Em Eg H NZ HZ D E0 D1.
  assert (U := u64_pos). assert (NP := pos_INR (depth t)). assert (N0 := pos_INR n). assert (A0 := Rabs_pos (B2R lamb)). unfold D in *.
  assert (K1 : 0 <= INR (depth t) * u64) by (apply Rmult_le_pos; lra). assert (K2 : 0 <= INR n * u64) by (apply Rmult_le_pos; lra). assert (K3 : 0 <= Rabs (B2R lamb) * u64) by (apply Rmult_le_pos; lra).
  replace (2 * e + (INR (depth t) + 2 * Rabs (B2R lamb) + 2 * INR n + 12) * (2 * u64)) with (2 * (2 * u64 * (Rabs (B2R lamb) + INR n)) + 2 * e + (INR (depth t) + 12) * (2 * u64)) in * by ring.
  apply (C155_redshift_density_pf r psi64 dvc64 zm zs t z (2 * u64 * (Rabs (B2R lamb) + INR n)) e (fun x => Rpower (1 + x) (B2R lamb)) dvc pars Z); auto; try lra.
  intros x Hx. destruct (H x Hx) as (R1 & R2 & R3 & R4 & R5 & R6). assert (BB : 2 * u64 * (Rabs (B2R lamb) + INR n) <= / 2) by lra. destruct (C152_powerlaw_pf n pow x lamb HP R1 Fl R2 BB) as [P Q].
  split; [exact R1|]. split; [exact R2|]. split; [exact R3|]. split; [exact R4|]. split; [|split; [exact R5|split; [exact Q|exact R6]]].
  rewrite Er. cbn [ra_psi powerlaw_rate]. rewrite <- P. unfold powerlaw_psi, dlookup. rewrite El. reflexivity.
Qed.

Lemma C155_madau_pf :
  forall n pow gamma kappa z_peak r dvc64 z_max zs t z e dvc parameters Z,
  accurate n pow -> is_finite gamma = true -> is_finite kappa = true -> redshift_double z_peak -> rs_rate r = madau_rate ->
  dget "gamma" parameters = Some (Fin (B2R gamma)) -> dget "kappa" parameters = Some (Fin (B2R kappa)) -> dget "z_peak" parameters = Some (Fin (B2R z_peak)) ->
  let psi64 := fun x => madau_psi64 pow x gamma kappa z_peak in
  let psi := exact_madau (B2R gamma) (B2R kappa) (B2R z_peak) in
  steps_within 40 zs -> INR (List.length zs) <= 2 ^ 40 -> is_finite z_max = true ->
  leaves t = volume_terms64 psi64 dvc64 z_max zs ->
  rs_zmax r = B2R z_max -> rs_zs r = map Fin (reals zs) -> moderate_real (Rpower (1 + B2R z_peak) (- B2R kappa)) ->
  (forall x, x = z \/ In x zs ->
     redshift_double x /\ moderate_real (Rpower (1 + B2R x) (B2R gamma)) /\ moderate_real (Rpower ((1 + B2R x) / (1 + B2R z_peak)) (B2R kappa)) /\
     moderate_real (psi (B2R x)) /\ moderate_real (dvc (B2R x)) /\ psi (B2R x) / (1 + B2R x) * dvc (B2R x) <= 2 ^ 100 /\
     dvc_dz r (Fin (B2R x)) parameters = Ok (Fin (dvc (B2R x))) /\ log_close e (dvc (B2R x)) (dvc64 x)) ->
  normalisation r parameters = Ok (Fin Z) -> / 2 ^ 100 <= Z ->
  let D := 2 * e + (INR (depth t) + 2 * Rabs (B2R gamma) + 8 * Rabs (B2R kappa) + 6 * INR n + 20) * (2 * u64) in
  0 <= e -> D <= / 4 ->
  exists v, probability r [("redshift"%string, [Fin (B2R z)])] parameters = Ok [Fin v] /\
    approximates D (/ 2 ^ 380) v (probability64 psi64 dvc64 z_max t z) /\ (B2R z_max < B2R z -> v = 0).
Proof.
  intros n pow gamma kappa zp r dvc64 zm zs t z e dvc pars Z HP Fg Fk Hp Er Eg' Ek Ep psi64 psi SW LG Fm LT Em Eg M H NZ HZ D E0 D1.
  assert (U := u64_pos). assert (NP := pos_INR (depth t)). assert (N0 := pos_INR n). assert (A0 := Rabs_pos (B2R gamma)). assert (A1 := Rabs_pos (B2R kappa)). unfold D in *.
  assert (K1 : 0 <= INR (depth t) * u64) by (apply Rmult_le_pos; lra). assert (K2 : 0 <= INR n * u64) by (apply Rmult_le_pos; lra). assert (K3 : 0 <= Rabs (B2R gamma) * u64) by (apply Rmult_le_pos; lra). assert (K4 : 0 <= Rabs (B2R kappa) * u64) by (apply Rmult_le_pos; lra).
  set (b := 2 * u64 * (Rabs (B2R gamma) + 4 * Rabs (B2R kappa) + 3 * INR n + 4)).
  replace (2 * e + (INR (depth t) + 2 * Rabs (B2R gamma) + 8 * Rabs (B2R kappa) + 6 * INR n + 20) * (2 * u64)) with (2 * b + 2 * e + (INR (depth t) + 12) * (2 * u64)) in * by (unfold b; ring).
  assert (B0 : 0 <= b) by (unfold b; lra).
  apply (C155_redshift_density_pf r psi64 dvc64 zm zs t z b e psi dvc pars Z); auto; try lra.
  intros x Hx. destruct (H x Hx) as (R1 & R2 & R3 & R4 & R5 & R6 & R7 & R8). assert (BB : b <= / 2) by lra. destruct (C152_madau_pf n pow x gamma kappa zp HP R1 Hp Fg Fk R2 R3 M BB) as [P Q].
  split; [exact R1|]. split; [exact R4|]. split; [exact R5|]. split; [exact R6|]. split; [|split; [exact R7|split; [exact Q|exact R8]]].
  rewrite Er. cbn [ra_psi madau_rate]. unfold psi. rewrite <- P. unfold madau_psi, dlookup. rewrite Eg', Ek, Ep. reflexivity.
Qed.

