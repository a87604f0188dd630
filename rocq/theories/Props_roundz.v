(** Property theorems (roundz). Proofs are in [roundz_thms]; the vocabulary is in [Spec]. *)
From Coq Require Import Reals ZArith Lra Lia Psatz Bool String.
From Coquelicot Require Import Coquelicot.
From Flocq Require Import Core BinarySingleNaN Relative.
From Coq Require Import List.
From Verif Require Import Xf Py Xf_facts Py_facts Double Double_facts Rounded_model SpecRound RoundedPl_model SpecRoundPl Utils_model Redshift_model RoundedTrap_model SpecRoundTrap RoundedRate_model SpecRoundRate RoundedRedshift_model SpecRoundMix Trap_facts Smoothed_facts round_thms roundpl_thms roundll_thms roundwin_thms roundtn_thms roundtrap_thms roundrate_thms roundmix_thms roundsmooth_thms.
Import ListNotations.
Local Open Scope R_scope.
From Verif Require Import roundz_thms.

(** C155. The normalised redshift density in double precision: if the rate evolution and the comoving volume element are computed with errors of at most d and e in the logarithm at the sample
    and at the grid points, and the exact normalisation is at least 2^-100, then the computed density is a finite number, not negative, and agrees with the exact one up to a factor
    exp(2 d + 2 e + (n + 12) 2 u) and 2^-380, where n is the depth of the tree in which the terms of the integral are added. Beyond the maximum redshift both vanish. *)

Theorem C155_redshift_density :
  forall r psi64 dvc64 z_max zs t z d e psi dvc parameters Z,
  steps_within 40 zs -> INR (List.length zs) <= 2 ^ 40 -> is_finite z_max = true ->
  leaves t = volume_terms64 psi64 dvc64 z_max zs ->
  rs_zmax r = B2R z_max -> rs_zs r = map Fin (reals zs) ->
  (forall x, x = z \/ In x zs ->
     redshift_double x /\ moderate_real (psi (B2R x)) /\ moderate_real (dvc (B2R x)) /\ psi (B2R x) / (1 + B2R x) * dvc (B2R x) <= 2 ^ 100 /\
     ra_psi (rs_rate r) (Fin (B2R x)) parameters = Ok (Fin (psi (B2R x))) /\ dvc_dz r (Fin (B2R x)) parameters = Ok (Fin (dvc (B2R x))) /\
     log_close d (psi (B2R x)) (psi64 x) /\ log_close e (dvc (B2R x)) (dvc64 x)) ->
  normalisation r parameters = Ok (Fin Z) -> / 2 ^ 100 <= Z ->
  let D := 2 * d + 2 * e + (INR (depth t) + 12) * (2 * u64) in
  0 <= d -> 0 <= e -> D <= / 4 ->
  exists v, probability r [("redshift"%string, [Fin (B2R z)])] parameters = Ok [Fin v] /\
    approximates D (/ 2 ^ 380) v (probability64 psi64 dvc64 z_max t z) /\ (B2R z_max < B2R z -> v = 0).
Proof. exact C155_redshift_density_pf. Qed.
Print Assumptions C155_redshift_density.

(** C155. The power-law model, with a power function accurate to n units: the slope enters through the rounding of 1 + z. *)

Theorem C155_powerlaw :
  forall n pow lamb r dvc64 z_max zs t z e dvc parameters Z,
  accurate n pow -> is_finite lamb = true -> rs_rate r = powerlaw_rate -> dget "lamb" parameters = Some (Fin (B2R lamb)) ->
  let psi64 := fun x => powerlaw_psi64 pow x lamb in
  steps_within 40 zs -> INR (List.length zs) <= 2 ^ 40 -> is_finite z_max = true ->
  leaves t = volume_terms64 psi64 dvc64 z_max zs ->
  rs_zmax r = B2R z_max -> rs_zs r = map Fin (reals zs) ->
  (forall x, x = z \/ In x zs ->
     redshift_double x /\ moderate_real (Rpower (1 + B2R x) (B2R lamb)) /\ moderate_real (dvc (B2R x)) /\ Rpower (1 + B2R x) (B2R lamb) / (1 + B2R x) * dvc (B2R x) <= 2 ^ 100 /\
     dvc_dz r (Fin (B2R x)) parameters = Ok (Fin (dvc (B2R x))) /\ log_close e (dvc (B2R x)) (dvc64 x)) ->
  normalisation r parameters = Ok (Fin Z) -> / 2 ^ 100 <= Z ->
  let D := 2 * e + (INR (depth t) + 2 * Rabs (B2R lamb) + 2 * INR n + 12) * (2 * u64) in
  0 <= e -> D <= / 4 ->
  exists v, probability r [("redshift"%string, [Fin (B2R z)])] parameters = Ok [Fin v] /\
    approximates D (/ 2 ^ 380) v (probability64 psi64 dvc64 z_max t z) /\ (B2R z_max < B2R z -> v = 0).
Proof. exact C155_powerlaw_pf. Qed.
Print Assumptions C155_powerlaw.

(** C155. The Madau-Dickinson model. *)

Theorem C155_madau :
  forall n pow gamma kappa z_peak r dvc64 z_max zs t z e dvc parameters Z,
  accurate n pow -> is_finite gamma = true -> is_finite kappa = true -> redshift_double z_peak -> rs_rate r = madau_rate ->
  dget "gamma" parameters = Some (Fin (B2R gamma)) -> dget "kappa" parameters = Some (Fin (B2R kappa)) -> dget "z_peak" parameters = Some (Fin (B2R z_peak)) ->
  let psi64 := fun x => madau_psi64 pow x gamma kappa z_peak in
  let psi := exact_madau (B2R gamma) (B2R kappa) (B2R z_peak) in
  steps_within 40 zs -> INR (List.length zs) <= 2 ^ 40 -> is_finite z_max = true ->
  leaves t = volume_terms64 psi64 dvc64 z_max zs ->
  rs_zmax r = B2R z_max -> rs_zs r = map Fin (reals zs) -> moderate_real (Rpower (1 + B2R z_peak) (- B2R kappa)) ->
  (forall x, x = z \/ In x zs ->
     redshift_double x /\ moderate_real (Rpower (1 + B2R x) (B2R gamma)) /\ moderate_real (Rpower ((1 + B2R x) / (1 + B2R z_peak)) (B2R kappa)) /\
     moderate_real (psi (B2R x)) /\ moderate_real (dvc (B2R x)) /\ psi (B2R x) / (1 + B2R x) * dvc (B2R x) <= 2 ^ 100 /\
     dvc_dz r (Fin (B2R x)) parameters = Ok (Fin (dvc (B2R x))) /\ log_close e (dvc (B2R x)) (dvc64 x)) ->
  normalisation r parameters = Ok (Fin Z) -> / 2 ^ 100 <= Z ->
  let D := 2 * e + (INR (depth t) + 2 * Rabs (B2R gamma) + 8 * Rabs (B2R kappa) + 6 * INR n + 20) * (2 * u64) in
  0 <= e -> D <= / 4 ->
  exists v, probability r [("redshift"%string, [Fin (B2R z)])] parameters = Ok [Fin v] /\
    approximates D (/ 2 ^ 380) v (probability64 psi64 dvc64 z_max t z) /\ (B2R z_max < B2R z -> v = 0).
Proof. exact C155_madau_pf. Qed.
Print Assumptions C155_madau.

From Verif Require Import Cosmo_model Props_roundrate.
(** A volume element of 1, lamb = 2, the grid 1, 2, 3 and the sample 2: the exact density there is 3/6. *)
Definition flat : redshift := {| rs_mixin := {| mx_names := []; mx_cosmo := Instance {| co_dl := fun z => z; co_ddl := fun _ => Fin 1; co_dvc := fun _ => Fin (/ (4 * PI)) |} |};
  rs_zmax := B2R (int64 3); rs_zs := map Fin (reals [one64; int64 2; int64 3]); rs_rate := powerlaw_rate |}.
Definition flat_madau : redshift := {| rs_mixin := rs_mixin flat; rs_zmax := rs_zmax flat; rs_zs := rs_zs flat; rs_rate := madau_rate |}.
Lemma moderate_small x : / 16 <= x <= 16 -> moderate_real x.
Proof. intros X. assert (Q : 16 <= 2 ^ 300) by (apply Rle_trans with (2 ^ 4); [simpl; lra|apply Rle_pow; [lra|lia]]). split; [|lra]. apply Rle_trans with (/ 16); [|lra]. apply Rinv_le_contravar; lra. Qed.
Lemma Rpower_square x : 0 < x -> Rpower x 2 = x * x.
Proof. intros X. replace 2 with (1 + 1) by ring. now rewrite Rpower_plus, Rpower_1. Qed.
Lemma flat_dvc r x p : rs_mixin r = rs_mixin flat -> dvc_dz r x p = Ok (Fin 1).
Proof. intros E. unfold dvc_dz, cosmology_of. rewrite E. cbn [flat rs_mixin mx_cosmo bind co_dvc]. rewrite fmul_fin. assert (P := PI_RGT_0). do 2 f_equal. field. lra. Qed.
Lemma flat_grid : let zs := [one64; int64 2; int64 3] in
  is_finite (int64 2) = true /\ is_finite (int64 3) = true /\ B2R one64 = 1 /\ B2R (int64 2) = 2 /\ B2R (int64 3) = 3 /\ steps_within 40 zs /\ INR (List.length zs) <= 2 ^ 40 /\
  (forall x, x = int64 2 \/ In x zs -> redshift_double x /\ 1 <= B2R x <= 3 /\ (B2R x = 1 \/ B2R x = 2 \/ B2R x = 3)).
Proof.
  destruct one_val as [F1 V1]. destruct (int64_val 2) as [F2 V2]; [lia|]. destruct (int64_val 3) as [F3 V3]; [lia|]. replace (INR 2) with 2 in V2 by (simpl; lra). replace (INR 3) with 3 in V3 by (simpl; lra).
  assert (P40 : 4 <= 2 ^ 40) by (apply Rle_trans with (2 ^ 2); [simpl; lra|apply Rle_pow; [lra|lia]]). assert (P2 : 4 <= 2 ^ 100) by (apply Rle_trans with (2 ^ 2); [simpl; lra|apply Rle_pow; [lra|lia]]). assert (I40 : / 2 ^ 40 <= / 4) by (apply Rinv_le_contravar; lra).
  cbv zeta. split; [exact F2|]. split; [exact F3|]. split; [exact V1|]. split; [exact V2|]. split; [exact V3|]. split; [|split].
  - split; [repeat constructor; assumption|]. intros i Hi. cbn [List.length] in Hi. unfold reals. cbn [map]. rewrite V1, V2, V3. destruct i as [|[|i]]; cbn [nth]; [lra|lra|lia].
  - simpl. lra.
  - unfold redshift_double. intros x [->|[<-|[<-|[<-|[]]]]]; rewrite ?V1, ?V2, ?V3; (split; [split; [assumption|lra]|lra]).
Qed.
Lemma dvc_one : log_close 0 1 one64.
Proof. destruct one_val as [F1 V1]. split; [exact F1|]. rewrite V1. split; [lra|]. rewrite Rminus_diag_eq, Rabs_R0 by reflexivity. lra. Qed.
Example C155_met :
  let z := int64 2 in let psi64 := fun x => powerlaw_psi64 best_pow x (int64 2) in
  exists t, leaves t = volume_terms64 psi64 (fun _ => one64) (int64 3) [one64; int64 2; int64 3] /\
    probability flat [("redshift"%string, [Fin (B2R z)])] [("lamb"%string, Fin (B2R (int64 2)))] = Ok [Fin (/ 2)] /\
    approximates (38 * u64) (/ 2 ^ 380) (/ 2) (probability64 psi64 (fun _ => one64) (int64 3) t z).
Proof.
  cbv zeta. set (psi64 := fun x => powerlaw_psi64 best_pow x (int64 2)). destruct flat_grid as (F2 & F3 & V1 & V2 & V3 & SW & LG & G). destruct u_small as (U0 & U1 & _).
  set (sp := volume64 psi64 (fun _ => one64) (int64 3)). set (te := fun a b : b64 => Bdiv mode_NE (Bmult mode_NE (Bminus mode_NE b a) (Bplus mode_NE (sp b) (sp a))) (int64 2)).
  set (t := Add (One (te one64 (int64 2))) (One (te (int64 2) (int64 3)))). exists t. split; [reflexivity|]. set (pars := [("lamb"%string, Fin (B2R (int64 2)))]).
  assert (PS : forall x, 1 <= x -> differential_spacetime_volume_at flat true pars (Fin x) = Ok (Fin (if Rleb x 3 then 1 + x else 0))).
  { intros x X. unfold differential_spacetime_volume_at. rewrite flat_dvc by reflexivity. cbn [flat rs_rate ra_psi powerlaw_rate]. unfold powerlaw_psi. change (dlookup "lamb" pars) with (Ok (Fin (B2R (int64 2))) : result xf). cbn [bind]. rewrite V2, fadd_fin, fpow_fin, Rpower_square, fdiv_fin, fmul_fin, fle_fin by lra. cbn [flat rs_zmax]. rewrite V3.
    destruct (Rleb x 3); cbn [of_bool]; rewrite fmul_fin; do 2 f_equal; [field; lra|ring]. }
  assert (NZ : normalisation flat pars = Ok (Fin 6)).
  { unfold normalisation, differential_spacetime_volume. cbn [dlookup dget String.eqb]. change (dlookup "redshift" [("redshift"%string, rs_zs flat)]) with (Ok (rs_zs flat) : result (list xf)). cbn [bind flat rs_zs reals map mapM]. fold flat. rewrite V1, V2, V3, !PS by lra. cbn [bind]. rewrite !Rleb_true by lra.
    change [Fin (1 + 1); Fin (1 + 2); Fin (1 + 3)] with (map Fin [1 + 1; 1 + 2; 1 + 3]). change [Fin 1; Fin 2; Fin 3] with (map Fin [1; 2; 3]). rewrite trapezoid_fin, !Rtrap_cons. do 2 f_equal. assert (Z0 : Rtrap [1 + 3] [3] = 0) by reflexivity. rewrite Z0. field. }
  assert (P100 : 16 <= 2 ^ 100) by (apply Rle_trans with (2 ^ 4); [simpl; lra|apply Rle_pow; [lra|lia]]). assert (I100 : / 2 ^ 100 <= / 16) by (apply Rinv_le_contravar; lra).
  assert (A2 : Rabs (B2R (int64 2)) = 2) by (rewrite V2; apply Rabs_pos_eq; lra).
  destruct (C155_powerlaw 1 best_pow (int64 2) flat (fun _ => one64) (int64 3) [one64; int64 2; int64 3] t (int64 2) 0 (fun _ => 1) pars 6) as (v & P & A & _); try assumption; try reflexivity; try lra.
  - exact (correct_accurate _ best_pow_correct).
  - intros x Hx. destruct (G x Hx) as (R1 & R2 & R3). rewrite V2, Rpower_square by lra. split; [exact R1|]. split; [apply moderate_small; destruct R3 as [->|[->| ->]]; lra|]. split; [apply moderate_small; lra|]. split; [|split; [now apply flat_dvc|exact dvc_one]].
    replace ((1 + B2R x) * (1 + B2R x) / (1 + B2R x) * 1) with (1 + B2R x) by (field; lra). lra.
  - rewrite A2. cbn [depth t Nat.max]. simpl INR. lra.
  - assert (E : v = / 2).
    { unfold probability in P. rewrite NZ in P. cbn [bind] in P. unfold differential_spacetime_volume in P. change (dlookup "redshift" [("redshift"%string, [Fin (B2R (int64 2))])]) with (Ok [Fin (B2R (int64 2))] : result (list xf)) in P. cbn [bind mapM] in P. rewrite V2, PS, Rleb_true in P by lra. cbn [bind map] in P. rewrite fdiv_fin in P by lra. injection P as <-. field. }
    rewrite E in P, A. split; [exact P|]. rewrite A2 in A. cbn [depth t Nat.max] in A. replace (38 * u64) with (2 * 0 + (INR 1 + 2 * 2 + 2 * INR 1 + 12) * (2 * u64)) by (simpl; ring). exact A.
Qed.
Example C155_madau_met :
  let z := int64 2 in let two := int64 2 in let three := int64 3 in let psi64 := fun x => madau_psi64 best_pow x two two three in
  exists t v, leaves t = volume_terms64 psi64 (fun _ => one64) three [one64; two; three] /\
    probability flat_madau [("redshift"%string, [Fin (B2R z)])] [("gamma"%string, Fin (B2R two)); ("kappa"%string, Fin (B2R two)); ("z_peak"%string, Fin (B2R three))] = Ok [Fin v] /\
    v = 16 / 31 /\ approximates (94 * u64) (/ 2 ^ 380) v (probability64 psi64 (fun _ => one64) three t z).
Proof.
  cbv zeta. set (psi64 := fun x => madau_psi64 best_pow x (int64 2) (int64 2) (int64 3)). destruct flat_grid as (F2 & F3 & V1 & V2 & V3 & SW & LG & G). destruct u_small as (U0 & U1 & _).
  set (sp := volume64 psi64 (fun _ => one64) (int64 3)). set (te := fun a b : b64 => Bdiv mode_NE (Bmult mode_NE (Bminus mode_NE b a) (Bplus mode_NE (sp b) (sp a))) (int64 2)).
  set (t := Add (One (te one64 (int64 2))) (One (te (int64 2) (int64 3)))). exists t. set (pars := [("gamma"%string, Fin (B2R (int64 2))); ("kappa"%string, Fin (B2R (int64 2))); ("z_peak"%string, Fin (B2R (int64 3)))]).
  set (f := fun x => (1 + x) * (1 + x) / (1 + (1 + x) / 4 * ((1 + x) / 4)) * (17 / 16)).
  assert (PE : Rpower (1 + 3) (- (2)) = / 16) by (rewrite Rpower_Ropp, Rpower_square by lra; field).
  assert (EX : forall x, 0 <= x -> exact_madau 2 2 3 x = f x). { intros x X. unfold exact_madau, f. rewrite PE. replace ((1 + x) / (1 + 3)) with ((1 + x) / 4) by field. rewrite !Rpower_square by lra. replace (1 + / 16) with (17 / 16) by field. reflexivity. }
  assert (PS : forall x, 1 <= x <= 3 -> differential_spacetime_volume_at flat_madau true pars (Fin x) = Ok (Fin (f x / (1 + x)))).
  { intros x X. unfold differential_spacetime_volume_at. rewrite flat_dvc by reflexivity. cbn [flat_madau rs_rate ra_psi madau_rate]. unfold madau_psi. change (dlookup "gamma" pars) with (Ok (Fin (B2R (int64 2))) : result xf). change (dlookup "kappa" pars) with (Ok (Fin (B2R (int64 2))) : result xf). change (dlookup "z_peak" pars) with (Ok (Fin (B2R (int64 3))) : result xf). cbn [bind]. rewrite V2, V3.
    assert (Q : 0 < (1 + x) / (1 + 3)) by lra. assert (Q2 := Rmult_lt_0_compat _ _ Q Q). rewrite fopp_fin, !fadd_fin, !(fpow_fin (1 + x)), fpow_fin, PE by lra. rewrite (fdiv_fin (1 + x)) by lra. rewrite fpow_fin, !Rpower_square by lra. rewrite !fadd_fin, fdiv_fin by lra. rewrite !fmul_fin, fdiv_fin, fmul_fin, fle_fin by lra. cbn [flat_madau rs_zmax flat]. rewrite V3, Rleb_true by lra. cbn [of_bool]. rewrite fmul_fin. do 2 f_equal. unfold f. replace ((1 + x) / (1 + 3)) with ((1 + x) / 4) in * by field. field. lra. }
  assert (NZ : normalisation flat_madau pars = Ok (Fin (f 1 / 4 + f 2 / 3 + f 3 / 8))).
  { unfold normalisation, differential_spacetime_volume. change (dlookup "redshift" [("redshift"%string, rs_zs flat_madau)]) with (Ok (rs_zs flat) : result (list xf)). cbn [bind flat flat_madau rs_zs reals map mapM]. fold flat. fold flat_madau. rewrite V1, V2, V3, !PS by lra. cbn [bind].
    change [Fin (f 1 / (1 + 1)); Fin (f 2 / (1 + 2)); Fin (f 3 / (1 + 3))] with (map Fin [f 1 / (1 + 1); f 2 / (1 + 2); f 3 / (1 + 3)]). change [Fin 1; Fin 2; Fin 3] with (map Fin [1; 2; 3]). rewrite trapezoid_fin, !Rtrap_cons. do 2 f_equal. assert (Z0 : Rtrap [f 3 / (1 + 3)] [3] = 0) by reflexivity. rewrite Z0. field. }
  assert (f1 : f 1 = 17 / 5) by (unfold f; field). assert (f2 : f 2 = 153 / 25) by (unfold f; field). assert (f3 : f 3 = 17 / 2) by (unfold f; field).
  rewrite f1, f2, f3 in NZ.
  assert (P100 : 16 <= 2 ^ 100) by (apply Rle_trans with (2 ^ 4); [simpl; lra|apply Rle_pow; [lra|lia]]). assert (I100 : / 2 ^ 100 <= / 16) by (apply Rinv_le_contravar; lra).
  assert (A2 : Rabs (B2R (int64 2)) = 2) by (rewrite V2; apply Rabs_pos_eq; lra).
  destruct (C155_madau 1 best_pow (int64 2) (int64 2) (int64 3) flat_madau (fun _ => one64) (int64 3) [one64; int64 2; int64 3] t (int64 2) 0 (fun _ => 1) pars (17 / 5 / 4 + 153 / 25 / 3 + 17 / 2 / 8)) as (v & P & A & _); try assumption; try reflexivity; try lra.
  - exact (correct_accurate _ best_pow_correct).
  - apply G. right. right. right. now left.
  - rewrite V2, V3, PE. apply moderate_small. lra.
  - intros x Hx. destruct (G x Hx) as (R1 & R2 & R3). rewrite V2, V3, EX by lra. split; [exact R1|]. split; [rewrite Rpower_square by lra; apply moderate_small; destruct R3 as [->|[->| ->]]; lra|]. split; [rewrite Rpower_square by lra; apply moderate_small; destruct R3 as [->|[->| ->]]; lra|].
    split; [apply moderate_small; destruct R3 as [->|[->| ->]]; rewrite ?f1, ?f2, ?f3; lra|]. split; [apply moderate_small; lra|]. split; [destruct R3 as [->|[->| ->]]; rewrite ?f1, ?f2, ?f3; lra|]. split; [now apply flat_dvc|exact dvc_one].
  - rewrite A2. cbn [depth t Nat.max]. simpl INR. lra.
  - exists v. split; [reflexivity|]. split; [exact P|]. split.
    + unfold probability in P. rewrite NZ in P. cbn [bind] in P. unfold differential_spacetime_volume in P. change (dlookup "redshift" [("redshift"%string, [Fin (B2R (int64 2))])]) with (Ok [Fin (B2R (int64 2))] : result (list xf)) in P. cbn [bind mapM] in P. rewrite V2, PS in P by lra. cbn [bind map] in P. rewrite fdiv_fin in P by lra. injection P as <-. rewrite f2. field.
    + rewrite A2 in A. cbn [depth t Nat.max] in A. replace (94 * u64) with (2 * 0 + (INR 1 + 2 * 2 + 8 * 2 + 6 * INR 1 + 20) * (2 * u64)) by (simpl; ring). exact A.
Qed.

