(** Property theorems (roundrate). Proofs are in [roundrate_thms]; the vocabulary is in [Spec]. *)
From Coq Require Import Reals ZArith Lra Lia Psatz Bool String.
From Coquelicot Require Import Coquelicot.
From Flocq Require Import Core BinarySingleNaN Relative.
From Coq Require Import List.
From Verif Require Import Xf Py Xf_facts Double Double_facts Rounded_model SpecRound RoundedPl_model SpecRoundPl Redshift_model RoundedRate_model SpecRoundRate round_thms roundpl_thms roundwin_thms roundtn_thms.
Import ListNotations.
Local Open Scope R_scope.
From Verif Require Import roundrate_thms.

(** C152. The power-law rate evolution in double precision: with a power function that is off by at most n rounding errors, the logarithm of the computed rate evolution differs from that of (1 + z)^lamb - which
    the model on real numbers returns - by at most 2 u (|lamb| + n) (u = 2^-53). *)

Theorem C152_powerlaw :
  forall n pow z lamb, accurate n pow -> redshift_double z -> is_finite lamb = true ->
  let exact := Rpower (1 + B2R z) (B2R lamb) in
  let bound := 2 * u64 * (Rabs (B2R lamb) + INR n) in
  moderate_real exact -> bound <= / 2 ->
  powerlaw_psi (Fin (B2R z)) [("lamb"%string, Fin (B2R lamb))] = Ok (Fin exact) /\ log_close bound exact (powerlaw_psi64 pow z lamb).
Proof. exact C152_powerlaw_pf. Qed.
Print Assumptions C152_powerlaw.

(** C152. The Madau-Dickinson rate evolution: at most 2 u (|gamma| + 4 |kappa| + 3 n + 4). *)

Theorem C152_madau :
  forall n pow z gamma kappa z_peak, accurate n pow -> redshift_double z -> redshift_double z_peak -> is_finite gamma = true -> is_finite kappa = true ->
  let exact := exact_madau (B2R gamma) (B2R kappa) (B2R z_peak) (B2R z) in
  let bound := 2 * u64 * (Rabs (B2R gamma) + 4 * Rabs (B2R kappa) + 3 * INR n + 4) in
  moderate_real (Rpower (1 + B2R z) (B2R gamma)) -> moderate_real (Rpower ((1 + B2R z) / (1 + B2R z_peak)) (B2R kappa)) -> moderate_real (Rpower (1 + B2R z_peak) (- B2R kappa)) ->
  bound <= / 2 ->
  madau_psi (Fin (B2R z)) [("gamma"%string, Fin (B2R gamma)); ("kappa"%string, Fin (B2R kappa)); ("z_peak"%string, Fin (B2R z_peak))] = Ok (Fin exact) /\
  log_close bound exact (madau_psi64 pow z gamma kappa z_peak).
Proof. exact C152_madau_pf. Qed.
Print Assumptions C152_madau.

(** C152. The differential spacetime volume: if the rate evolution is computed with an error of at most d in the logarithm, and the comoving volume element with e, then the differential
    spacetime volume psi / (1 + z) dvc up to the maximum redshift is computed with an error of at most d + e + 6 u; beyond the maximum redshift it is 0. *)

Theorem C152_volume :
  forall d e psi dvc (psi64 dvc64 z z_max : b64), redshift_double z -> is_finite z_max = true -> log_close d psi psi64 -> log_close e dvc dvc64 -> moderate_real psi -> moderate_real dvc -> d + e + 6 * u64 <= / 2 ->
  let computed := differential64 psi64 dvc64 z z_max in
  (B2R z <= B2R z_max -> log_close (d + e + 6 * u64) (psi / (1 + B2R z) * dvc) computed) /\
  (B2R z_max < B2R z -> is_finite computed = true /\ B2R computed = 0).
Proof. exact C152_volume_pf. Qed.
Print Assumptions C152_volume.

(** With the power that returns the double nearest to the exact value (n = 1): z = 1, z_peak = 3, gamma = kappa = lamb = 2. *)
Example C152_met :
  let z := one64 in let two := int64 2 in let three := int64 3 in
  accurate 1 best_pow /\ redshift_double z /\ redshift_double three /\
  log_close (6 * u64) 4 (powerlaw_psi64 best_pow z two) /\
  log_close (34 * u64) (17 / 5) (madau_psi64 best_pow z two two three) /\
  log_close (40 * u64) (17 / 10) (differential64 (madau_psi64 best_pow z two two three) one64 z three) /\
  B2R (differential64 (madau_psi64 best_pow z two two three) one64 three z) = 0.
Proof.
  cbv zeta. destruct one_val as [F1 V1]. destruct (int64_val 2) as [F2 V2]; [lia|]. destruct (int64_val 3) as [F3 V3]; [lia|]. replace (INR 2) with 2 in V2 by (simpl; lra). replace (INR 3) with 3 in V3 by (simpl; lra). destruct u_small as (U0 & U1 & U2 & _).
  assert (HP : accurate 1 best_pow) by exact (correct_accurate _ best_pow_correct). assert (P2 : 4 <= 2 ^ 100) by (apply Rle_trans with (2 ^ 2); [simpl; lra|apply Rle_pow; [lra|lia]]).
  assert (Hz : redshift_double one64) by (split; [exact F1|rewrite V1; lra]). assert (H3 : redshift_double (int64 3)) by (split; [exact F3|rewrite V3; lra]).
  assert (MOD : forall x, / 16 <= x <= 16 -> moderate_real x).
  { intros x X. assert (Q : 16 <= 2 ^ 300) by (apply Rle_trans with (2 ^ 4); [simpl; lra|apply Rle_pow; [lra|lia]]). split; [|lra]. apply Rle_trans with (/ 16); [|lra]. apply Rinv_le_contravar; lra. }
  assert (R2 : Rpower (1 + 1) 2 = 4) by (replace 2 with (1 + 1) by ring; rewrite Rpower_plus, Rpower_1 by lra; lra).
  assert (R4 : Rpower ((1 + 1) / (1 + 3)) 2 = / 4) by (replace ((1 + 1) / (1 + 3)) with (/ 2) by field; replace 2 with (1 + 1) at 2 by ring; rewrite Rpower_plus, Rpower_1 by lra; field).
  assert (R5 : Rpower (1 + 3) (- (2)) = / 16) by (rewrite Rpower_Ropp; replace 2 with (1 + 1) by ring; rewrite Rpower_plus, Rpower_1 by lra; field).
  assert (A2 : Rabs 2 = 2) by (apply Rabs_pos_eq; lra).
  assert (L : log_close (6 * u64) 4 (powerlaw_psi64 best_pow one64 (int64 2))).
  { destruct (C152_powerlaw 1 best_pow one64 (int64 2) HP Hz F2) as [_ K]; rewrite ?V1, ?V2, ?R2, ?A2; [apply MOD; lra|simpl; lra|]. rewrite V1, V2, R2, A2 in K. replace (6 * u64) with (2 * u64 * (2 + INR 1)) by (simpl; ring). exact K. }
  assert (M : log_close (34 * u64) (17 / 5) (madau_psi64 best_pow one64 (int64 2) (int64 2) (int64 3))).
  { destruct (C152_madau 1 best_pow one64 (int64 2) (int64 2) (int64 3) HP Hz H3 F2 F2) as [_ K]; rewrite ?V1, ?V2, ?V3, ?R2, ?R4, ?R5, ?A2; [apply MOD; lra|apply MOD; lra|apply MOD; lra|simpl; lra|].
    rewrite V1, V2, V3, A2 in K. unfold exact_madau in K. rewrite R2, R4, R5 in K. replace (34 * u64) with (2 * u64 * (2 + 4 * 2 + 3 * INR 1 + 4)) by (simpl; ring). replace (17 / 5) with (4 / (1 + / 4) * (1 + / 16)) by field. exact K. }
  assert (O : log_close 0 1 one64) by (split; [exact F1|]; rewrite V1; split; [lra|]; rewrite Rminus_diag_eq, Rabs_R0 by reflexivity; lra).
  split; [exact HP|]. split; [exact Hz|]. split; [exact H3|]. split; [exact L|]. split; [exact M|]. split.
  - destruct (C152_volume _ _ _ _ _ _ one64 (int64 3) Hz F3 M O) as [K _]; [apply MOD; lra|apply MOD; lra|lra|]. rewrite V1, V3 in K. replace (40 * u64) with (34 * u64 + 0 + 6 * u64) by ring. replace (17 / 10) with (17 / 5 / (1 + 1) * 1) by field. apply K. lra.
  - destruct (C152_volume _ _ _ _ _ _ (int64 3) one64 H3 F1 M O) as [_ K]; [apply MOD; lra|apply MOD; lra|lra|]. rewrite V1, V3 in K. apply K. lra.
Qed.

