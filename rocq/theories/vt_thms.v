(** Proofs of the property theorems stated in [Props_vt]. *)
From Coq Require Import Reals Lra Lia Psatz String Bool Permutation.
From Coquelicot Require Import Coquelicot.
From Coq Require Import List.
From Verif Require Import Xf Py Xf_facts Py_facts Calc Spec Utils_model Trap_facts Np Np_facts Cosmo_model Redshift_model Cosmo_facts
  redshift_thms Vt_model.
Import ListNotations.
Local Open Scope R_scope.
Local Opaque linspace xlinspace.

Lemma vt_init dvc models data n mg en v : resampling_init dvc models data n mg en = Ok v ->
  rv_data v = inj_data data /\ rv_n_events v = n /\ rv_marginalize v = mg /\ rv_enforce v = en /\
  rv_time v = match inj_time data with Some t => t | None => Fin 1 end /\
  exists prior, dget "prior" (inj_data data) = Some prior /\
    rv_total v = match inj_total data with Some t => t | None => Fin (INR (List.length prior)) end.
Proof.
  unfold resampling_init, dlookup. destruct (dget "prior" (inj_data data)) as [pr|]; cbn [bind]; [|discriminate]. intros H. injection H as <-.
  cbn [rv_data rv_n_events rv_marginalize rv_enforce rv_time rv_total]. repeat split; auto. eauto.
Qed.
(** The weights p_i / q_i. *)
Definition Rquot (p q : list R) : list R := map (fun x => fst x / snd x) (combine p q).
Lemma zip_quot p q : Forall (fun x => x <> 0) q -> zipWith fdiv (map Fin p) (map Fin q) = map Fin (Rquot p q).
Proof.
  unfold zipWith, Rquot. revert q; induction p as [|p0 p IH]; intros [|q0 q] H; try reflexivity. inversion H; subst. cbn [map combine fst snd]. rewrite fdiv_fin by auto. f_equal. now apply IH.
Qed.
Lemma sq_map w : map fsq (map Fin w) = map Fin (map (fun x => x * x) w).
Proof. rewrite !map_map. reflexivity. Qed.
Lemma de_val bk prob v pr p q N : prob (rv_data v) pr = Ok (map Fin p) -> dget "prior" (rv_data v) = Some (map Fin q) -> List.length p = List.length q ->
  Forall (fun x => x <> 0) q -> rv_total v = Fin N -> N <> 0 -> let w := Rquot p q in let mu := Rsum w / N in
  detection_efficiency bk prob v pr = Ok (Fin mu, Fin (Rsum (map (fun x => x * x) w) / (N * N) - mu * mu / N)).
Proof.
  intros P Q L H T HN w mu. unfold detection_efficiency. rewrite P, (dlookup_ok _ _ _ Q). cbn [bind]. rewrite bcast_same by (rewrite !map_length; auto). cbn [bind]. cbv zeta.
  rewrite zip_quot by auto. fold w. rewrite T, sq_map, !fsum_map_fin, fsq_fin. unfold to_number. rewrite !fdiv_fin; auto.
  rewrite fsq_fin, fdiv_fin by auto. rewrite fsub_fin. reflexivity.
Qed.
Lemma cauchy (w : list R) : Rsum w * Rsum w <= INR (List.length w) * Rsum (map (fun x => x * x) w).
Proof.
  induction w as [|x w IH]; [simpl; lra|]. cbn [Rsum fold_right map List.length] in *. change (fold_right Rplus 0 w) with (Rsum w) in *.
  change (fold_right Rplus 0 (map (fun x => x * x) w)) with (Rsum (map (fun x => x * x) w)) in *. rewrite S_INR.
  set (n := INR (List.length w)) in *. set (s := Rsum w) in *. set (t := Rsum (map (fun x => x * x) w)) in *.
  assert (Hn : 0 <= n) by apply pos_INR.
  assert (Ht : 0 <= t) by (unfold t; apply Rsum_nonneg; apply Forall_map, Forall_forall; intros; nra).
  assert (K : 2 * x * s <= n * (x * x) + t); [|nra].
  destruct (Req_dec n 0) as [E|E].
  { assert (S2 : s * s <= 0) by (rewrite E, Rmult_0_l in IH; exact IH). assert (S0 : s = 0) by nra. rewrite S0, E. lra. }
  assert (0 < n) by lra. 
  pose proof (Rle_0_sqr (n * x - s)) as HQ. unfold Rsqr in HQ.
  apply Rmult_le_reg_l with n; auto. lra.
Qed.
Lemma de_var_nonneg (w : list R) N : 0 < N -> INR (List.length w) <= N -> let mu := Rsum w / N in
  0 <= Rsum (map (fun x => x * x) w) / (N * N) - mu * mu / N.
Proof.
  intros HN L mu. assert (C := cauchy w). assert (Ht : 0 <= Rsum (map (fun x => x * x) w)) by (apply Rsum_nonneg; apply Forall_map, Forall_forall; intros; nra).
  unfold mu. set (s := Rsum w) in *. set (t := Rsum (map (fun x => x * x) w)) in *. set (n := INR (List.length w)) in *.
  replace (t / (N * N) - s / N * (s / N) / N) with ((N * t - s * s) / (N * N * N)) by (field; lra).
  assert (D := Rmult_le_compat_r t n N Ht L). apply Rmult_le_pos; [lra|]. left. apply Rinv_0_lt_compat. repeat apply Rmult_lt_0_compat; auto.
Qed.

Lemma C51_detection_efficiency_pf :
  forall bk prob dvc models data n_events mg en v parameters (p q : list R) N,
  resampling_init dvc models data n_events mg en = Ok v ->
  dget "prior" (inj_data data) = Some (map Fin q) -> Forall (fun x => x <> 0) q ->
  prob (inj_data data) parameters = Ok (map Fin p) -> List.length p = List.length q ->
  (inj_total data = Some (Fin N) /\ N <> 0 \/ inj_total data = None /\ N = INR (List.length q) /\ q <> []) ->
  let w := map (fun x => fst x / snd x) (combine p q) in
  exists mu var, detection_efficiency bk prob v parameters = Ok (Fin mu, Fin var) /\
    mu = Rsum w / N /\ var = Rsum (map (fun x => x * x) w) / N ^ 2 - mu ^ 2 / N /\
    (0 < N -> INR (List.length w) <= N -> 0 <= var).
Proof.
  intros bk prob dvc models data n mg en v pr p q N Hi Q NZ P L T w. destruct (vt_init _ _ _ _ _ _ _ Hi) as (I1 & _ & _ & _ & _ & (prior & I6 & I7)).
  rewrite Q in I6. injection I6 as <-. rewrite map_length in I7.
  assert (HN : rv_total v = Fin N /\ N <> 0).
  { destruct T as [[E H]|[E [H0 H]]]; rewrite I7, E; split; auto; [now rewrite H0|]. rewrite H0. apply not_0_INR. destruct q; [congruence|simpl; lia]. }
  do 2 eexists. split; [eapply (de_val bk prob v pr p q N); rewrite ?I1; tauto|]. fold w. change (Rquot p q) with w. split; [reflexivity|]. split; [field; tauto|].
  intros. now apply de_var_nonneg.
Qed.

Lemma C51_permutation_pf :
  forall bk prob v v' parameters p q p' q', rv_total v = rv_total v' ->
  prob (rv_data v) parameters = Ok p -> dget "prior" (rv_data v) = Some q -> List.length p = List.length q ->
  prob (rv_data v') parameters = Ok p' -> dget "prior" (rv_data v') = Some q' -> List.length p' = List.length q' ->
  Permutation (combine p q) (combine p' q') ->
  detection_efficiency bk prob v parameters = detection_efficiency bk prob v' parameters.
Proof.
  intros bk prob v v' pr p q p' q' T P Q L P' Q' L' H. unfold detection_efficiency. rewrite P, P', (dlookup_ok _ _ _ Q), (dlookup_ok _ _ _ Q'). cbn [bind].
  rewrite !bcast_same by auto. cbn [bind]. rewrite <- T. unfold zipWith.
  rewrite (fsum_perm _ _ (Permutation_map (fun x => fdiv (fst x) (snd x)) H)).
  rewrite (fsum_perm _ _ (Permutation_map fsq (Permutation_map (fun x => fdiv (fst x) (snd x)) H))). reflexivity.
Qed.

Lemma quot_scale c p q : Rquot (map (Rmult c) p) q = map (Rmult c) (Rquot p q).
Proof. unfold Rquot. revert q; induction p as [|p0 p IH]; intros [|q0 q]; simpl; auto. f_equal; auto. unfold Rdiv; ring. Qed.
Lemma sq_scale c w : Rsum (map (fun x => x * x) (map (Rmult c) w)) = c * c * Rsum (map (fun x => x * x) w).
Proof. rewrite <- Rsum_scale. rewrite !map_map. f_equal. apply map_ext. intros; ring. Qed.
Lemma C51_homogeneous_pf :
  forall bk prob prob' v parameters (p q : list R) N c, rv_total v = Fin N -> N <> 0 ->
  dget "prior" (rv_data v) = Some (map Fin q) -> Forall (fun x => x <> 0) q -> List.length p = List.length q ->
  prob (rv_data v) parameters = Ok (map Fin p) -> prob' (rv_data v) parameters = Ok (map Fin (map (Rmult c) p)) ->
  exists mu var, detection_efficiency bk prob v parameters = Ok (Fin mu, Fin var) /\
                 detection_efficiency bk prob' v parameters = Ok (Fin (c * mu), Fin (c ^ 2 * var)).
Proof.
  intros bk prob prob' v pr p q N c T HN Q NZ L P P'. do 2 eexists. split; [apply (de_val bk prob v pr p q N); auto|].
  rewrite (de_val bk prob' v pr (map (Rmult c) p) q N); auto; [|now rewrite map_length]. rewrite quot_scale, sq_scale, Rsum_scale. do 3 f_equal; field; auto.
Qed.

Lemma C52_correction_pf :
  forall v mu var n, rv_n_events v = Fin n ->
  (forall m s, mu = Fin m -> var = Fin s -> m ^ 2 > 4 * n * s -> check_convergence v mu var = (true, Fin 0)) /\
  (forall m s, mu = Fin m -> var = Fin s -> m ^ 2 <= 4 * n * s -> check_convergence v mu var = (false, PInf)) /\
  (mu = NaN \/ var = NaN -> check_convergence v mu var = (false, PInf)).
Proof.
  intros v mu var n Hn. unfold check_convergence. rewrite Hn. split; [|split].
  - intros m s -> -> H. rewrite !fmul_fin, fsq_fin, fgt_fin, Rltb_true by lra. simpl of_bool. rewrite fsub_fin, Rminus_diag_eq by reflexivity.
    rewrite fmul_comm, fmul_0_PInf. reflexivity.
  - intros m s -> -> H. rewrite !fmul_fin, fsq_fin, fgt_fin, Rltb_false by lra. simpl of_bool. rewrite fsub_fin.
    rewrite fmul_comm, fmul_pos_PInf by lra. reflexivity.
  - assert (E : fmul PInf (fsub (Fin 1) (of_bool false)) = PInf) by (simpl of_bool; rewrite fsub_fin, fmul_comm, fmul_pos_PInf by lra; reflexivity).
    intros [->| ->].
    + replace (fgt (fsq NaN) (fmul (fmul (Fin 4) (Fin n)) var)) with false; [now rewrite E|]. unfold fsq. simpl. unfold fgt. destruct (fmul _ var); reflexivity.
    + rewrite fmul_NaN_r. replace (fgt (fsq mu) NaN) with false; [now rewrite E|]. unfold fgt. destruct (fsq mu); reflexivity.
Qed.

Lemma C52_default_never_converges_pf :
  forall v mu var, rv_n_events v = PInf -> (exists s, var = Fin s /\ 0 <= s) \/ var = PInf \/ var = NaN ->
  check_convergence v mu var = (false, PInf).
Proof.
  intros v mu var Hn H. unfold check_convergence. rewrite Hn.
  assert (F : fmul (fmul (Fin 4) PInf) var = PInf \/ fmul (fmul (Fin 4) PInf) var = NaN).
  { rewrite fmul_pos_PInf by lra. destruct H as [[s [-> [H| <-]]]|[->| ->]].
    - left. rewrite fmul_comm. now apply fmul_pos_PInf. 
    - right. rewrite fmul_comm. apply fmul_0_PInf.
    - left. reflexivity.
    - right. reflexivity. }
  assert (E : fgt (fsq mu) (fmul (fmul (Fin 4) PInf) var) = false) by (unfold fgt; destruct F as [-> | ->]; destruct (fsq mu); reflexivity).
  rewrite E. simpl of_bool. rewrite fsub_fin, fmul_comm, fmul_pos_PInf by lra. reflexivity.
Qed.

Lemma C52_call_pf :
  forall bk prob v parameters mu var n, detection_efficiency bk prob v parameters = Ok (Fin mu, Fin var) -> rv_n_events v = Fin n -> rv_marginalize v = false ->
  resampling_call bk prob v parameters =
    Ok (ValueAndVariance (if rv_enforce v then (if Rlt_dec (4 * n * var) (mu ^ 2) then Fin mu else PInf) else Fin mu) (Fin var)).
Proof.
  intros bk prob v pr mu var n D Hn Hm. unfold resampling_call. rewrite Hm, D. cbn [bind]. cbv zeta. destruct (rv_enforce v); [|reflexivity].
  destruct (C52_correction_pf v (Fin mu) (Fin var) n Hn) as (A & B & _). destruct (Rlt_dec (4 * n * var) (mu ^ 2)) as [H|H].
  - rewrite (A mu var) by (auto; lra). cbn [snd]. now rewrite fadd_0_r.
  - rewrite (B mu var) by (auto; lra). reflexivity.
Qed.

Lemma neff mu var : var <> 0 -> fdiv (fsq (Fin mu)) (Fin var) = Fin (mu * mu / var).
Proof. intros. rewrite fsq_fin. now apply fdiv_fin. Qed.
Lemma C53_vt_factor_pf :
  forall bk prob v parameters mu var n, detection_efficiency bk prob v parameters = Ok (Fin mu, Fin var) -> rv_n_events v = Fin n -> 0 <= n ->
  mu <> 0 -> var <> 0 ->
  (mu ^ 2 > 4 * n * var -> exists r, vt_factor bk prob v parameters = Ok (Fin r) /\ r = mu * exp (- ((3 + n) / (2 * (mu ^ 2 / var)))) /\
                           (0 < mu -> 0 < var -> 0 < r < mu)) /\
  (mu ^ 2 <= 4 * n * var -> vt_factor bk prob v parameters = Ok PInf).
Proof.
  intros bk prob v pr mu var n D Hn Hp M0 V0. unfold vt_factor. rewrite D. cbn [bind]. cbv zeta. rewrite Hn. unfold float_div.
  assert (F1 : feq (Fin var) (Fin 0) = false) by (rewrite feq_fin; now apply Reqb_false).
  rewrite F1, neff by auto.
  assert (N0 : mu * mu / var <> 0) by (apply Rmult_integral_contrapositive_currified; [apply Rmult_integral_contrapositive_currified; auto|now apply Rinv_neq_0_compat]).
  assert (F2 : feq (Fin (mu * mu / var)) (Fin 0) = false) by (rewrite feq_fin; now apply Reqb_false).
  assert (X : (if is_jax bk then Ok (Fin (mu * mu / var)) else Ok (Fin (mu * mu / var))) = Ok (Fin (mu * mu / var))) by (destruct (is_jax bk); reflexivity).
  rewrite X. cbn [bind]. rewrite F2, fadd_fin, !fdiv_fin by (auto; lra).
  assert (Y : (if is_jax bk then Ok (Fin ((3 + n) / 2 / (mu * mu / var))) else Ok (Fin ((3 + n) / 2 / (mu * mu / var)))) = Ok (Fin ((3 + n) / 2 / (mu * mu / var))))
    by (destruct (is_jax bk); reflexivity).
  rewrite Y. cbn [bind]. rewrite fexp_fin. assert (E := exp_pos ((3 + n) / 2 / (mu * mu / var))). rewrite fdiv_fin by lra.
  destruct (C52_correction_pf v (Fin mu) (Fin var) n Hn) as (A & B & _). split; intros H.
  - rewrite (A mu var) by (auto; lra). cbn [snd]. rewrite fadd_0_r. eexists; split; [reflexivity|].
    assert (Q : (3 + n) / 2 / (mu * mu / var) = (3 + n) / (2 * (mu ^ 2 / var))) by (field; auto). rewrite Q in *. rewrite exp_Ropp. split; [reflexivity|].
    intros MP VP. split; [apply Rdiv_lt_0_compat; lra|]. apply Rmult_lt_reg_r with (exp ((3 + n) / (2 * (mu ^ 2 / var)))); auto. unfold Rdiv at 1. rewrite Rmult_assoc, Rinv_l by lra.
    assert (E1 : 1 < exp ((3 + n) / (2 * (mu ^ 2 / var)))). { rewrite <- exp_0. apply exp_increasing. apply Rdiv_lt_0_compat; [lra|]. apply Rmult_lt_0_compat; [lra|]. apply Rdiv_lt_0_compat; [apply pow_lt|]; auto. }
    assert (D2 := Rmult_lt_compat_l mu _ _ MP E1). lra.
  - rewrite (B mu var) by (auto; lra). reflexivity.
Qed.

Lemma C53_degenerate_pf :
  forall bk prob v parameters mu var n, detection_efficiency bk prob v parameters = Ok (Fin mu, Fin var) -> rv_n_events v = Fin n -> 0 <= n ->
  (bk <> Jax -> mu = 0 \/ var = 0 -> vt_factor bk prob v parameters = Err ZeroDivisionError) /\
  (bk = Jax -> var = 0 -> mu <> 0 -> vt_factor bk prob v parameters = Ok (Fin mu)) /\
  (bk = Jax -> var = 0 -> mu = 0 -> vt_factor bk prob v parameters = Ok NaN).
Proof.
  intros bk prob v pr mu var n D Hn Hp. unfold vt_factor. rewrite D. cbn [bind]. cbv zeta. rewrite Hn. unfold float_div. split; [|split].
  - intros Hb H. replace (is_jax bk) with false by (destruct bk; [reflexivity|reflexivity|congruence]). rewrite feq_fin. destruct (Req_dec var 0) as [V|V].
    + rewrite Reqb_true by auto. reflexivity.
    + destruct H as [H|H]; [|congruence]. rewrite Reqb_false, neff by auto. cbn [bind]. subst mu. rewrite feq_fin, Reqb_true; [reflexivity|]. unfold Rdiv. ring.
  - intros -> -> M0. assert (MM : 0 < mu * mu) by (apply Rsqr_pos_lt; auto). cbn [is_jax bind]. rewrite fsq_fin. assert (E : fdiv (Fin (mu * mu)) (Fin 0) = PInf). { unfold fdiv. rewrite Reqb_refl. apply inf_of_sign_pos. auto. }
    rewrite E, fadd_fin, fdiv_fin by lra. unfold fdiv at 2. rewrite fexp_fin, exp_0, fdiv_fin by lra.
    destruct (C52_correction_pf v (Fin mu) (Fin 0) n Hn) as (A & _). rewrite (A mu 0) by (auto; lra). cbn [snd]. rewrite fadd_0_r. do 2 f_equal. field.
  - intros -> -> ->. cbn [is_jax bind]. rewrite fsq_fin. assert (E : fdiv (Fin (0 * 0)) (Fin 0) = NaN). { unfold fdiv. rewrite Reqb_refl. rewrite Rmult_0_l. apply inf_of_sign_0. }
    rewrite E, fadd_fin, fdiv_fin by lra. reflexivity.
Qed.

Lemma tfv_val (g : R -> R) dvc lamb T zm : 0 < zm -> (forall z, 0 <= z <= zm -> dvc (Fin z) = Fin (g z)) ->
  total_four_volume dvc (Fin lamb) (Fin T) zm =
    Fin (Rtrap (map (fun z => g z / (1 + z) * Rpower (1 + z) lamb) (linspace 0 zm 2500)) (linspace 0 zm 2500) * (4 * PI / 1000000000 * T)).
Proof.
  intros Hz H. unfold total_four_volume. cbv zeta. 
  assert (X : map (fun z => fmul (fdiv (dvc z) (fadd (Fin 1) z)) (fpow (fadd (Fin 1) z) (Fin lamb))) (xlinspace 0 zm 2500) =
              map Fin (map (fun z => g z / (1 + z) * Rpower (1 + z) lamb) (linspace 0 zm 2500))).
  { Local Transparent xlinspace. unfold xlinspace. Local Opaque xlinspace. rewrite !map_map. apply map_ext_in. intros z Hin. apply linspace_bounds in Hin; [|lra]. rewrite H by lra.
    rewrite fadd_fin, fdiv_fin, fpow_fin, fmul_fin by lra. reflexivity. }
  rewrite X. change (xlinspace 0 zm 2500) with (map Fin (linspace 0 zm 2500)). rewrite trapezoid_fin, !fmul_fin. reflexivity.
Qed.
Lemma C45_four_volume_pf :
  forall dvc (g : R -> R) lamb max_redshift, 0 < max_redshift -> (forall z, 0 <= z <= max_redshift -> dvc (Fin z) = Fin (g z) /\ 0 <= g z) ->
  exists V, 0 <= V /\ (forall T, total_four_volume dvc (Fin lamb) (Fin T) max_redshift = Fin (T * V)) /\
            ((forall z, 0 <= z <= max_redshift -> 0 < g z) -> 0 < V).
Proof.
  intros dvc g lamb zm Hz H.
  set (f := fun z => g z / (1 + z) * Rpower (1 + z) lamb).
  exists (Rtrap (map f (linspace 0 zm 2500)) (linspace 0 zm 2500) * (4 * PI / 1000000000)). assert (P := PI_RGT_0). split; [|split].
  - apply Rmult_le_pos; [|lra]. apply Rtrap_nonneg; [now rewrite map_length|apply si_increasing, linspace_incr; [lra|apply big]|].
    apply Forall_map, Forall_forall. intros z Hin. apply linspace_bounds in Hin; [|lra]. unfold f. destruct (H z) as [_ G]; [lra|].
    assert (R0 := rpower_pos (1 + z) lamb). apply Rmult_le_pos; [|lra]. apply Rmult_le_pos; auto. left; apply Rinv_0_lt_compat; lra.
  - intros T. rewrite (tfv_val g) by (auto; intros; now apply H). f_equal. fold f. ring.
  - intros G. apply Rmult_lt_0_compat; [|lra]. apply Rtrap_pos; [now rewrite map_length|rewrite linspace_length; apply big|apply linspace_incr; [lra|apply big]|].
    apply Forall_map, Forall_forall. intros z Hin. apply linspace_bounds in Hin; [|lra]. unfold f. assert (R0 := rpower_pos (1 + z) lamb).
    apply Rmult_lt_0_compat; auto. apply Rdiv_lt_0_compat; [auto|lra].
Qed.

Lemma C45_consistent_pf :
  forall available z_max cosmo_model r models data n_events mg en v dvc parameters c (g : R -> R) lamb T, 1/1000000 < z_max ->
  redshift_init available powerlaw_rate z_max cosmo_model = Ok r -> cosmology_of (rs_mixin r) parameters = Ok c ->
  resampling_init dvc (models ++ [Some r]) data n_events mg en = Ok v -> inj_time data = Some (Fin T) ->
  dget "lamb" parameters = Some (Fin lamb) ->
  (forall z, 0 <= z <= z_max -> co_dvc c (Fin z) = Fin (g z) /\ dvc (Fin z) = Fin (g z)) ->
  exists f : R -> R, (forall z, 0 <= z <= z_max -> f z = Rpower (1 + z) lamb / (1 + z) * (4 * PI * g z)) /\
    surveyed_hypervolume v parameters = Ok (Fin (T / 1000000000 * Rtrap (map f (linspace (1/1000000) z_max 2500)) (linspace (1/1000000) z_max 2500))) /\
    total_four_volume dvc (Fin lamb) (Fin T) z_max = Fin (T / 1000000000 * Rtrap (map f (linspace 0 z_max 2500)) (linspace 0 z_max 2500)).
Proof.
  intros av zm name r models data n mg en v dvc p c g lamb T Hz Hr Hc Hv Ht L H.
  exists (fun z => Rpower (1 + z) lamb / (1 + z) * (4 * PI * g z)). split; [reflexivity|]. split.
  - destruct (init_rs _ _ _ _ _ Hr) as (I1 & I2 & I3 & _).
    unfold resampling_init in Hv. destruct (dlookup "prior" (inj_data data)); cbn [bind] in Hv; [|discriminate]. injection Hv as <-.
    unfold surveyed_hypervolume. cbn [rv_redshift rv_time]. rewrite fold_left_app. cbn [fold_left]. rewrite Ht.
    unfold normalisation, differential_spacetime_volume. cbn [dlookup dget String.eqb Ascii.eqb Bool.eqb bind].
    rewrite I1, (dsv_grid r p c (fun z => Rpower (1 + z) lamb) g); auto.
    2:{ intros z Hin. apply linspace_bounds in Hin; [|lra]. rewrite I3. cbn [powerlaw_rate ra_psi]. rewrite (plaw_val lamb) by (auto; lra). repeat split; [apply H; lra|lra]. }
    cbn [bind]. rewrite trapezoid_fin, fdiv_fin by lra. rewrite fmul_fin. do 2 f_equal.
    rewrite (map_ext_in (fun z => if Rle_dec z (rs_zmax r) then _ else _) (fun z => Rpower (1 + z) lamb / (1 + z) * (4 * PI * g z))).
    + unfold Rdiv. ring.
    + intros z Hin. apply linspace_bounds in Hin; [|lra]. rewrite I2. destruct (Rle_dec z zm); [reflexivity|lra].
  - rewrite (tfv_val g) by (try lra; intros; now apply H). f_equal.
    rewrite (map_ext (fun z => Rpower (1 + z) lamb / (1 + z) * (4 * PI * g z)) (fun z => (4 * PI) * (g z / (1 + z) * Rpower (1 + z) lamb))) by (intros; unfold Rdiv; ring).
    rewrite <- (map_map (fun z => g z / (1 + z) * Rpower (1 + z) lamb) (Rmult (4 * PI))), Rtrap_scale. unfold Rdiv. ring.
Qed.

Lemma C45_no_redshift_model_pf :
  forall dvc models data n_events mg en v parameters, resampling_init dvc models data n_events mg en = Ok v ->
  Forall (fun m => m = None) models ->
  surveyed_hypervolume v parameters = Ok (total_four_volume dvc (Fin 0) (match inj_time data with Some t => t | None => Fin 1 end) (23/10)).
Proof.
  intros dvc models data n mg en v p Hv H. unfold resampling_init in Hv. destruct (dlookup "prior" (inj_data data)); cbn [bind] in Hv; [|discriminate]. injection Hv as <-.
  unfold surveyed_hypervolume. cbn [rv_redshift rv_volume].
  assert (E : fold_left (fun acc m => match m with Some r => Some r | None => acc end) models None = @None redshift).
  { induction H as [|m l -> H IH]; [reflexivity|exact IH]. }
  rewrite E. reflexivity.
Qed.

