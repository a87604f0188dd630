(** Proofs of the property theorems stated in [Props_redshift]. *)
From Coq Require Import Reals Lra Lia Psatz String Bool.
From Coquelicot Require Import Coquelicot.
From Coq Require Import List.
From Verif Require Import Xf Py Xf_facts Py_facts Calc Spec Utils_model Trap_facts Np Np_facts Cosmo_model Redshift_model SpecCosmo.
Import ListNotations.
Local Open Scope R_scope.
Local Opaque linspace xlinspace.

(** Real value of the Madau-Dickinson evolution. *)
Definition md g k zp z := Rpower (1 + z) g / (1 + Rpower ((1 + z) / (1 + zp)) k) * (1 + Rpower (1 + zp) (- k)).
Lemma rpower_pos a b : 0 < Rpower a b. Proof. apply exp_pos. Qed.
Lemma md_pos g k zp z : 0 < md g k zp z.
Proof.
  unfold md. assert (A := rpower_pos (1 + z) g). assert (B := rpower_pos ((1 + z) / (1 + zp)) k). assert (C := rpower_pos (1 + zp) (- k)).
  apply Rmult_lt_0_compat; [apply Rdiv_lt_0_compat|]; lra.
Qed.
Lemma madau_val g k zp z p : dget "gamma" p = Some (Fin g) -> dget "kappa" p = Some (Fin k) -> dget "z_peak" p = Some (Fin zp) ->
  -1 < z -> -1 < zp -> madau_psi (Fin z) p = Ok (Fin (md g k zp z)).
Proof.
  intros G K Z Hz Hp. unfold madau_psi. rewrite (dlookup_ok _ _ _ G), (dlookup_ok _ _ _ K), (dlookup_ok _ _ _ Z). cbn [bind]. cbv zeta.
  rewrite fopp_fin, !fadd_fin, fdiv_fin by lra.
  rewrite !fpow_fin; try lra. 2:{ apply Rdiv_lt_0_compat; lra. }
  assert (B := rpower_pos ((1 + z) / (1 + zp)) k).
  rewrite !fadd_fin, fdiv_fin by lra. rewrite fmul_fin. reflexivity.
Qed.
Lemma plaw_val l z p : dget "lamb" p = Some (Fin l) -> -1 < z -> powerlaw_psi (Fin z) p = Ok (Fin (Rpower (1 + z) l)).
Proof. intros L Hz. unfold powerlaw_psi. rewrite (dlookup_ok _ _ _ L). cbn [bind]. rewrite fadd_fin, fpow_fin by lra. reflexivity. Qed.
Lemma rpower_1_l y : Rpower 1 y = 1.
Proof. unfold Rpower. rewrite ln_1, Rmult_0_r. apply exp_0. Qed.

Lemma C43_powerlaw_today_pf :
  forall lamb parameters, dget "lamb" parameters = Some lamb -> powerlaw_psi (Fin 0) parameters = Ok (Fin 1).
Proof.
  intros l p L. unfold powerlaw_psi. rewrite (dlookup_ok _ _ _ L). cbn [bind]. rewrite fadd_fin, Rplus_0_r.
  f_equal. unfold fpow. rewrite feq_fin, Reqb_refl. destruct (feq l (Fin 0)); reflexivity.
Qed.

Lemma C43_madau_today_pf :
  forall gamma kappa z_peak parameters, dget "gamma" parameters = Some (Fin gamma) -> dget "kappa" parameters = Some (Fin kappa) ->
  dget "z_peak" parameters = Some (Fin z_peak) -> -1 < z_peak -> madau_psi (Fin 0) parameters = Ok (Fin 1).
Proof.
  intros g k zp p G K Z Hp. rewrite (madau_val g k zp 0) by (auto; lra). do 2 f_equal. unfold md.
  rewrite Rplus_0_r, rpower_1_l. unfold Rdiv at 2. rewrite Rmult_1_l.
  assert (E : Rpower (/ (1 + zp)) k = Rpower (1 + zp) (- k)).
  { unfold Rpower. f_equal. rewrite ln_Rinv by lra. ring. }
  rewrite E. assert (B := rpower_pos (1 + zp) (- k)). field. lra.
Qed.

Lemma C43_madau_kappa0_pf :
  forall gamma z_peak z parameters parameters', dget "gamma" parameters = Some (Fin gamma) -> dget "kappa" parameters = Some (Fin 0) ->
  dget "z_peak" parameters = Some (Fin z_peak) -> dget "lamb" parameters' = Some (Fin gamma) -> -1 < z_peak -> -1 < z ->
  madau_psi (Fin z) parameters = powerlaw_psi (Fin z) parameters'.
Proof.
  intros g zp z p p' G K Z L Hp Hz. rewrite (madau_val g 0 zp z), (plaw_val g z) by auto. do 2 f_equal. unfold md.
  rewrite Ropp_0, (Rpower_O (1 + zp)) by lra. rewrite Rpower_O by (apply Rdiv_lt_0_compat; lra). field.
Qed.

Lemma exp_gt_1p y : y <> 0 -> 1 + y < exp y.
Proof. exact (exp_ineq1 y). Qed.
Lemma convex_exp w s : 0 < w < 1 -> s <> 0 -> exp (w * s) < (1 - w) + w * exp s.
Proof.
  intros Hw Hs.
  assert (A : exp s = exp (w * s) * exp ((1 - w) * s)) by (rewrite <- exp_plus; f_equal; ring).
  assert (B : 1 = exp (w * s) * exp (- (w * s))) by (rewrite <- exp_plus, Rplus_opp_r, exp_0; reflexivity).
  assert (C : 1 + (1 - w) * s < exp ((1 - w) * s)) by (apply exp_gt_1p; nra).
  assert (D : 1 + - (w * s) < exp (- (w * s))) by (apply exp_gt_1p; nra).
  assert (E := exp_pos (w * s)). 
  rewrite A. rewrite B at 1. 
  set (X := exp (w * s)) in *. set (Y := exp ((1 - w) * s)) in *. set (Z := exp (- (w * s))) in *. clearbody X Y Z.
  replace (X * Z - w + w * (X * Y)) with (X * Z - w * (X * Z) + w * (X * Y)) by (rewrite <- B; ring).
  replace (X * Z - w * (X * Z) + w * (X * Y)) with (X * ((1 - w) * Z + w * Y)) by ring.
  assert (1 < (1 - w) * Z + w * Y) by nra. nra.
Qed.
Lemma md_max g k zp z : 0 < g < k -> -1 < zp -> -1 < z ->
  let zs := (1 + zp) * Rpower (g / (k - g)) (/ k) - 1 in -1 < zs /\ (z <> zs -> md g k zp z < md g k zp zs).
Proof.
  intros Hg Hp Hz zs. assert (Q := rpower_pos (g / (k - g)) (/ k)). assert (Hs : -1 < zs) by (unfold zs; nra). split; auto. intros Hne.
  unfold md. assert (C := rpower_pos (1 + zp) (- k)).
  apply Rmult_lt_compat_r; [lra|].
  set (t := ln (1 + z)). set (ts := ln (1 + zs)).
  assert (T : t <> ts). { unfold t, ts. intros E. apply ln_inv in E; lra. }
  assert (K : Rpower ((1 + zs) / (1 + zp)) k = g / (k - g)).
  { unfold zs. replace ((1 + ((1 + zp) * Rpower (g / (k - g)) (/ k) - 1)) / (1 + zp)) with (Rpower (g / (k - g)) (/ k)) by (field; lra).
    rewrite Rpower_mult, Rinv_l, Rpower_1 by (try lra; apply Rdiv_lt_0_compat; lra). reflexivity. }
  rewrite K.
  assert (K2 : Rpower ((1 + z) / (1 + zp)) k = g / (k - g) * exp (k * (t - ts))).
  { rewrite <- K. unfold Rpower. rewrite <- exp_plus. f_equal. unfold Rdiv. rewrite !ln_mult, !ln_Rinv by (try lra; apply Rinv_0_lt_compat; lra).
    fold t ts. ring. }
  rewrite K2. unfold Rpower at 1 2. fold t ts.
  assert (W := convex_exp (g / k) (k * (t - ts))).
  assert (0 < g / k < 1). { split; [apply Rdiv_lt_0_compat; lra|]. apply Rmult_lt_reg_r with k; [lra|]. unfold Rdiv. rewrite Rmult_assoc, Rinv_l by lra. lra. }
  specialize (W H). assert (N : k * (t - ts) <> 0) by (apply Rmult_integral_contrapositive_currified; lra). specialize (W N).
  replace (g / k * (k * (t - ts))) with (g * t - g * ts) in W by (field; lra).
  set (E := exp (k * (t - ts))) in *. assert (EP : 0 < E) by apply exp_pos.
  replace (g * t) with ((g * t - g * ts) + g * ts) at 1 by ring. rewrite exp_plus.
  assert (P := exp_pos (g * ts)). set (X := exp (g * ts)) in *. set (Y := exp (g * t - g * ts)) in *. clearbody E X Y.
  replace (1 + g / (k - g)) with (k / (k - g)) by (field; lra).
  replace (1 + g / (k - g) * E) with (k / (k - g) * (1 - g / k + g / k * E)) by (field; lra).
  assert (KK : 0 < k / (k - g)) by (apply Rdiv_lt_0_compat; lra).
  set (D := 1 - g / k + g / k * E) in *. assert (DP : 0 < D) by (unfold D; nra). clearbody D.
  apply Rmult_lt_reg_r with (k / (k - g) * D); [nra|].
  replace (Y * X / (k / (k - g) * D) * (k / (k - g) * D)) with (Y * X) by (field; repeat split; lra).
  replace (X / (k / (k - g)) * (k / (k - g) * D)) with (X * D) by (field; repeat split; lra).
  nra.
Qed.
Lemma C83_true_peak_pf :
  forall gamma kappa z_peak z parameters, dget "gamma" parameters = Some (Fin gamma) -> dget "kappa" parameters = Some (Fin kappa) ->
  dget "z_peak" parameters = Some (Fin z_peak) -> 0 < gamma < kappa -> -1 < z_peak -> -1 < z ->
  let z_top := (1 + z_peak) * Rpower (gamma / (kappa - gamma)) (/ kappa) - 1 in
  exists a b, madau_psi (Fin z) parameters = Ok (Fin a) /\ madau_psi (Fin z_top) parameters = Ok (Fin b) /\ 0 < a /\ a <= b /\
              (z <> z_top -> a < b).
Proof.
  intros g k zp z p G K Z Hg Hp Hz zt. destruct (md_max g k zp z Hg Hp Hz) as [M1 M2]. fold zt in M1, M2.
  exists (md g k zp z), (md g k zp zt). rewrite !(madau_val g k zp) by auto. split; [reflexivity|]. split; [reflexivity|]. split; [apply md_pos|]. split; auto.
  destruct (Req_dec z zt) as [->|N]; [lra|left; auto].
Qed.

Lemma C83_z_peak_refuted_pf :
  forall gamma kappa z_peak parameters, dget "gamma" parameters = Some (Fin gamma) -> dget "kappa" parameters = Some (Fin kappa) ->
  dget "z_peak" parameters = Some (Fin z_peak) -> 0 < gamma < kappa -> -1 < z_peak ->
  (kappa <> 2 * gamma ->
     exists z a b, -1 < z /\ madau_psi (Fin z_peak) parameters = Ok (Fin a) /\ madau_psi (Fin z) parameters = Ok (Fin b) /\ a < b) /\
  (kappa = 2 * gamma -> forall z, -1 < z -> z <> z_peak ->
     exists a b, madau_psi (Fin z) parameters = Ok (Fin a) /\ madau_psi (Fin z_peak) parameters = Ok (Fin b) /\ a < b).
Proof.
  intros g k zp p G K Z Hg Hp. split.
  - intros N. destruct (md_max g k zp zp Hg Hp Hp) as [M1 M2]. set (zt := (1 + zp) * Rpower (g / (k - g)) (/ k) - 1) in *.
    exists zt, (md g k zp zp), (md g k zp zt). rewrite !(madau_val g k zp) by auto. repeat (split; [auto|]). apply M2.
    unfold zt. intros E. assert (R1 : Rpower (g / (k - g)) (/ k) = 1) by nra.
    assert (R2 : Rpower (Rpower (g / (k - g)) (/ k)) k = 1) by (rewrite R1; apply rpower_1_l).
    assert (0 < g / (k - g)) by (apply Rdiv_lt_0_compat; lra).
    rewrite Rpower_mult, Rinv_l, Rpower_1 in R2 by lra. apply N.
    assert (g = k - g); [|lra]. apply Rmult_eq_reg_r with (/ (k - g)); [|apply Rinv_neq_0_compat; lra]. rewrite Rinv_r by lra. exact R2.
  - intros E z Hz N. destruct (md_max g k zp z Hg Hp Hz) as [M1 M2].
    replace (g / (k - g)) with 1 in * by (rewrite E; field; lra). rewrite rpower_1_l in *.
    replace ((1 + zp) * 1 - 1) with zp in * by ring.
    exists (md g k zp z), (md g k zp zp). rewrite !(madau_val g k zp) by auto. auto.
Qed.

Lemma init_rs av ra zm name r : redshift_init av ra zm name = Ok r ->
  rs_zs r = map Fin (linspace (1/1000000) zm 2500) /\ rs_zmax r = zm /\ rs_rate r = ra /\ mx_names (rs_mixin r) = names_of name /\
  dget name av = Some (mx_cosmo (rs_mixin r)).
Proof.
  unfold redshift_init, mixin_init, dlookup. destruct (dget name av) eqn:E; cbn [bind]; [|discriminate]. intros H. injection H as <-.
  cbn [rs_zs rs_zmax rs_rate rs_mixin mx_names mx_cosmo]. repeat split; auto.
Qed.
Lemma zs_len zm : List.length (linspace (1/1000000) zm 2500) = 2500%nat. Proof. apply linspace_length. Qed.
Lemma big : (2 <= 2500)%nat. Proof. apply Nat.leb_le. reflexivity. Qed.
Lemma norm_inv r p N : normalisation r p = Ok N ->
  exists d, mapM (differential_spacetime_volume_at r true p) (rs_zs r) = Ok d /\ N = trapezoid d (rs_zs r).
Proof.
  unfold normalisation, differential_spacetime_volume. cbn [dlookup dget String.eqb Ascii.eqb Bool.eqb bind].
  destruct (mapM _ (rs_zs r)) eqn:E; cbn [bind]; intros H; [|discriminate]. injection H as <-. eauto.
Qed.
Lemma prob_col r p N z : normalisation r p = Ok N ->
  probability r [("redshift"%string, z)] p = bind (mapM (differential_spacetime_volume_at r true p) z) (fun d => Ok (map (fun v => fdiv v N) d)).
Proof. intros H. unfold probability. rewrite H. reflexivity. Qed.
Lemma dsv_val r p c z a b : cosmology_of (rs_mixin r) p = Ok c -> ra_psi (rs_rate r) (Fin z) p = Ok (Fin a) -> co_dvc c (Fin z) = Fin b -> -1 < z ->
  differential_spacetime_volume_at r true p (Fin z) = Ok (Fin (if Rle_dec z (rs_zmax r) then a / (1 + z) * (4 * PI * b) else 0)).
Proof.
  intros C P D Hz. unfold differential_spacetime_volume_at, dvc_dz. rewrite P, C. cbn [bind]. cbv zeta. rewrite D, fadd_fin, fdiv_fin, !fmul_fin, fle_fin by lra.
  destruct (Rle_dec z (rs_zmax r)); [rewrite Rleb_true by auto|rewrite Rleb_false by lra]; cbn [of_bool]; rewrite fmul_fin; do 2 f_equal; ring.
Qed.

Lemma C44_normalised_pf :
  forall available ra z_max cosmo_model r parameters N, redshift_init available ra z_max cosmo_model = Ok r ->
  normalisation r parameters = Ok (Fin N) -> N <> 0 ->
  exists p, probability r [("redshift"%string, rs_zs r)] parameters = Ok p /\ trapezoid p (rs_zs r) = Fin 1.
Proof.
  intros av ra zm name r p N Hi HN NZ. destruct (init_rs _ _ _ _ _ Hi) as (I1 & _).
  rewrite (prob_col _ _ _ _ HN). apply norm_inv in HN. destruct HN as [d [E T]]. rewrite E. cbn [bind]. eexists; split; [reflexivity|].
  rewrite I1 in *. symmetry in T. apply trapezoid_normalise; auto; [|rewrite zs_len; apply big].
  apply mapM_length in E. now rewrite map_length in E.
Qed.

Lemma dsv_grid r p c (psi dvc : R -> R) zs : cosmology_of (rs_mixin r) p = Ok c ->
  (forall z, In z zs -> ra_psi (rs_rate r) (Fin z) p = Ok (Fin (psi z)) /\ co_dvc c (Fin z) = Fin (dvc z) /\ -1 < z) ->
  mapM (differential_spacetime_volume_at r true p) (map Fin zs) =
    Ok (map Fin (map (fun z => if Rle_dec z (rs_zmax r) then psi z / (1 + z) * (4 * PI * dvc z) else 0) zs)).
Proof.
  intros C H.
  rewrite (mapM_ok _ (fun x => Fin ((fun z => if Rle_dec z (rs_zmax r) then psi z / (1 + z) * (4 * PI * dvc z) else 0) (match x with Fin z => z | _ => 0 end)))).
  - now rewrite !map_map.
  - intros x Hx. apply in_map_iff in Hx. destruct Hx as [z [<- Hz]]. destruct (H z Hz) as [A [B D]]. now apply (dsv_val r p c).
Qed.
Lemma C44_norm_positive_pf :
  forall available ra z_max cosmo_model r parameters c (psi dvc : R -> R), 1/1000000 < z_max ->
  redshift_init available ra z_max cosmo_model = Ok r -> cosmology_of (rs_mixin r) parameters = Ok c ->
  (forall z, 0 < z <= z_max -> ra_psi ra (Fin z) parameters = Ok (Fin (psi z)) /\ co_dvc c (Fin z) = Fin (dvc z) /\ 0 < psi z /\ 0 < dvc z) ->
  exists N, normalisation r parameters = Ok (Fin N) /\ 0 < N /\
            Fin N = trapezoid (map (fun z => Fin (psi z / (1 + z) * (4 * PI * dvc z))) (linspace (1/1000000) z_max 2500)) (rs_zs r).
Proof.
  intros av ra zm name r p c psi dvc Hz Hi Hc H. destruct (init_rs _ _ _ _ _ Hi) as (I1 & I2 & I3 & _).
  assert (B : forall z, In z (linspace (1/1000000) zm 2500) -> 0 < z <= zm) by (intros z Hin; apply linspace_bounds in Hin; lra).
  set (f := fun z => psi z / (1 + z) * (4 * PI * dvc z)).
  assert (E : mapM (differential_spacetime_volume_at r true p) (rs_zs r) = Ok (map Fin (map f (linspace (1/1000000) zm 2500)))).
  { rewrite I1, (dsv_grid r p c psi dvc) by (auto; intros z Hin; destruct (B z Hin); rewrite I3; destruct (H z (B z Hin)) as (P1 & P2 & _); repeat split; auto; lra).
    do 2 f_equal. apply map_ext_in. intros z Hin. rewrite I2. destruct (Rle_dec z zm); [reflexivity|]. destruct (B z Hin). lra. }
  exists (Rtrap (map f (linspace (1/1000000) zm 2500)) (linspace (1/1000000) zm 2500)). split; [|split].
  - unfold normalisation, differential_spacetime_volume. cbn [dlookup dget String.eqb Ascii.eqb Bool.eqb bind]. rewrite E. cbn [bind].
    rewrite I1, trapezoid_fin. reflexivity.
  - apply Rtrap_pos; [now rewrite map_length|rewrite zs_len; apply big|apply linspace_incr; [lra|apply big]|].
    apply Forall_map, Forall_forall. intros z Hin. destruct (B z Hin). destruct (H z (B z Hin)) as (_ & _ & P1 & P2). unfold f.
    assert (Q := PI_RGT_0). apply Rmult_lt_0_compat; [apply Rdiv_lt_0_compat; lra|]. nra.
  - rewrite I1, <- trapezoid_fin, map_map. reflexivity.
Qed.

Lemma C44_value_pf :
  forall available ra z_max cosmo_model r parameters c N z psi dvc, redshift_init available ra z_max cosmo_model = Ok r ->
  cosmology_of (rs_mixin r) parameters = Ok c -> normalisation r parameters = Ok (Fin N) -> N <> 0 ->
  -1 < z -> ra_psi ra (Fin z) parameters = Ok (Fin psi) -> co_dvc c (Fin z) = Fin dvc ->
  (z <= z_max -> probability r [("redshift"%string, [Fin z])] parameters = Ok [Fin (psi / (1 + z) * (4 * PI * dvc) / N)] /\
                 (0 <= psi -> 0 <= dvc -> 0 < N -> 0 <= psi / (1 + z) * (4 * PI * dvc) / N)) /\
  (z_max < z -> probability r [("redshift"%string, [Fin z])] parameters = Ok [Fin 0]).
Proof.
  intros av ra zm name r p c N z psi dvc Hi Hc HN NZ Hz Hp Hd. destruct (init_rs _ _ _ _ _ Hi) as (I1 & I2 & I3 & _).
  rewrite (prob_col _ _ _ _ HN). cbn [mapM]. rewrite <- I3 in Hp. rewrite (dsv_val r p c z psi dvc) by auto. rewrite I2. cbn [bind map]. rewrite fdiv_fin by auto.
  split; intros H.
  - destruct (Rle_dec z zm); [|lra]. split; [reflexivity|]. intros P1 P2 P3. assert (Q := PI_RGT_0).
    apply Rmult_le_pos; [|left; now apply Rinv_0_lt_compat]. apply Rmult_le_pos; [|nra]. apply Rmult_le_pos; auto. left; apply Rinv_0_lt_compat; lra.
  - destruct (Rle_dec z zm); [lra|]. do 3 f_equal. field. auto.
Qed.

Lemma C44_differential_volume_pf :
  forall available ra z_max cosmo_model r parameters c z psi dvc, redshift_init available ra z_max cosmo_model = Ok r ->
  cosmology_of (rs_mixin r) parameters = Ok c -> -1 < z -> ra_psi ra (Fin z) parameters = Ok (Fin psi) -> co_dvc c (Fin z) = Fin dvc ->
  differential_spacetime_volume r [("redshift"%string, [Fin z])] false parameters = Ok [Fin (psi / (1 + z) * (4 * PI * dvc))] /\
  differential_spacetime_volume r [("redshift"%string, [Fin z])] true parameters =
    Ok [Fin (if Rle_dec z z_max then psi / (1 + z) * (4 * PI * dvc) else 0)].
Proof.
  intros av ra zm name r p c z psi dvc Hi Hc Hz Hp Hd. destruct (init_rs _ _ _ _ _ Hi) as (I1 & I2 & I3 & _). rewrite <- I3 in Hp.
  unfold differential_spacetime_volume. cbn [dlookup dget String.eqb Ascii.eqb Bool.eqb bind mapM]. split.
  - unfold differential_spacetime_volume_at, dvc_dz. rewrite Hp, Hc. cbn [bind]. rewrite Hd, fadd_fin, fdiv_fin, !fmul_fin by lra. reflexivity.
  - rewrite (dsv_val r p c z psi dvc) by auto. rewrite I2. reflexivity.
Qed.

Lemma C44_library_rates_pf :
  forall available ra z_max cosmo_model r parameters c (dvc : R -> R), 1/1000000 < z_max ->
  redshift_init available ra z_max cosmo_model = Ok r -> cosmology_of (rs_mixin r) parameters = Ok c ->
  (ra = powerlaw_rate /\ (exists lamb, dget "lamb" parameters = Some (Fin lamb)) \/
   ra = madau_rate /\ (exists gamma kappa z_peak, dget "gamma" parameters = Some (Fin gamma) /\ dget "kappa" parameters = Some (Fin kappa) /\
                        dget "z_peak" parameters = Some (Fin z_peak) /\ -1 < z_peak)) ->
  (forall z, 0 < z <= z_max -> co_dvc c (Fin z) = Fin (dvc z) /\ 0 < dvc z) ->
  exists p, probability r [("redshift"%string, rs_zs r)] parameters = Ok p /\ trapezoid p (rs_zs r) = Fin 1.
Proof.
  intros av ra zm name r p c dvc Hz Hi Hc Hr Hd.
  assert (X : exists psi, forall z, 0 < z <= zm -> ra_psi ra (Fin z) p = Ok (Fin (psi z)) /\ 0 < psi z).
  { destruct Hr as [[-> [l L]]|[-> (g & k & zp & G & K & Z & Hp)]].
    - exists (fun z => Rpower (1 + z) l). intros z H. cbn [powerlaw_rate ra_psi]. rewrite (plaw_val l) by (auto; lra). split; auto. apply rpower_pos.
    - exists (md g k zp). intros z H. cbn [madau_rate ra_psi]. rewrite (madau_val g k zp) by (auto; lra). split; auto. apply md_pos. }
  destruct X as [psi X].
  destruct (C44_norm_positive_pf av ra zm name r p c psi dvc Hz Hi Hc) as [N [HN [P _]]].
  { intros z H. destruct (X z H), (Hd z H). auto. }
  apply (C44_normalised_pf av ra zm name r p N); auto. lra.
Qed.

Lemma C84_no_lower_cut_refuted_pf :
  forall available ra z_max cosmo_model r parameters c N z psi dvc, redshift_init available ra z_max cosmo_model = Ok r ->
  cosmology_of (rs_mixin r) parameters = Ok c -> normalisation r parameters = Ok (Fin N) -> 0 < N -> 1/1000000 < z_max ->
  -1 < z < 1/1000000 -> ra_psi ra (Fin z) parameters = Ok (Fin psi) -> co_dvc c (Fin z) = Fin dvc -> 0 < psi -> 0 < dvc ->
  exists v, probability r [("redshift"%string, [Fin z])] parameters = Ok [Fin v] /\ 0 < v.
Proof.
  intros av ra zm name r p c N z psi dvc Hi Hc HN NP Hzm Hz Hp Hd P1 P2.
  destruct (C44_value_pf av ra zm name r p c N z psi dvc Hi Hc HN) as [A _]; auto; try lra. destruct A as [A _]; [lra|].
  eexists; split; [exact A|]. assert (Q := PI_RGT_0). apply Rdiv_lt_0_compat; auto. apply Rmult_lt_0_compat; [apply Rdiv_lt_0_compat; lra|nra].
Qed.

Lemma C46_names_pf :
  forall available ra z_max cosmo_model r n, redshift_init available ra z_max cosmo_model = Ok r ->
  let names := (match cosmo_model with "FlatwCDM"%string => ["H0"; "Om0"; "w0"]%string | "FlatLambdaCDM"%string => ["H0"; "Om0"]%string | _ => [] end ++
                match ra_names ra with Some b => b | None => [] end)%list in
  fst (variable_names r) = names /\ reads n r = repeat names n.
Proof.
  intros av ra zm name r n Hi names. destruct (init_rs _ _ _ _ _ Hi) as (_ & _ & I3 & I4 & _).
  assert (NM : names_of name = match name with "FlatwCDM"%string => ["H0"; "Om0"; "w0"]%string | "FlatLambdaCDM"%string => ["H0"; "Om0"]%string | _ => [] end).
  { unfold names_of. destruct (String.eqb_spec name "FlatwCDM") as [->|N1]; [reflexivity|].
    destruct (String.eqb_spec name "FlatLambdaCDM") as [->|N2]; [reflexivity|].
    repeat match goal with |- context [match ?s with _ => _ end] => is_var s; destruct s; try reflexivity; try congruence end. }
  assert (F : fst (variable_names r) = names).
  { unfold variable_names, names. cbn [fst]. rewrite I3, I4, NM. destruct (ra_names ra); [reflexivity|now rewrite app_nil_r]. }
  split; auto. induction n as [|n IH]; [reflexivity|]. cbn [reads repeat]. unfold variable_names in *. cbn [fst] in F. rewrite F. now f_equal.
Qed.

Lemma cosmo_ok r p : (forall k, In k (mx_names (rs_mixin r)) -> dmem k p = true) ->
  match mx_cosmo (rs_mixin r) with Instance _ => True | Class f => forall v, dkeys v = mx_names (rs_mixin r) -> exists c, f v = Ok c end ->
  exists c, cosmology_of (rs_mixin r) p = Ok c.
Proof.
  intros H Hc. unfold cosmology_of. destruct (mx_cosmo (rs_mixin r)) as [c|f]; [eauto|].
  unfold cosmology_variables.
  assert (X : forall l, (forall k, In k l -> dmem k p = true) -> exists v, mapM (fun k => bind (dlookup k p) (fun v => Ok (k, v))) l = Ok v /\ dkeys v = l).
  { induction l as [|k l IH]; intros Hl; [exists []; split; reflexivity|]. destruct IH as [v [E D]]; [intros; apply Hl; simpl; auto|].
    assert (M := Hl k (or_introl eq_refl)). unfold dmem in M. destruct (dget k p) as [x|] eqn:G; [|discriminate].
    exists ((k, x) :: v). split; [|simpl; now f_equal]. cbn [mapM]. rewrite (dlookup_ok _ _ _ G). cbn [bind]. rewrite E. reflexivity. }
  destruct (X _ H) as [v [E D]]. rewrite E. cbn [bind]. auto.
Qed.
Lemma mem_get {V} k (p : dict V) : dmem k p = true -> exists v, dget k p = Some v.
Proof. unfold dmem. destruct (dget k p); [eauto|discriminate]. Qed.
Lemma rate_ok ra p : (ra = powerlaw_rate \/ ra = madau_rate) -> (forall k b, ra_names ra = Some b -> In k b -> dmem k p = true) ->
  forall z, exists v, ra_psi ra z p = Ok v.
Proof.
  intros [->| ->] H z; cbn [powerlaw_rate madau_rate ra_names ra_psi] in *.
  - destruct (mem_get _ _ (H "lamb"%string _ eq_refl (or_introl eq_refl))) as [l L]. unfold powerlaw_psi. rewrite (dlookup_ok _ _ _ L). cbn [bind]. eauto.
  - destruct (mem_get _ _ (H "gamma"%string _ eq_refl (or_introl eq_refl))) as [g G].
    destruct (mem_get _ _ (H "kappa"%string _ eq_refl (or_intror (or_introl eq_refl)))) as [k K].
    destruct (mem_get _ _ (H "z_peak"%string _ eq_refl (or_intror (or_intror (or_introl eq_refl))))) as [q Q].
    unfold madau_psi. rewrite (dlookup_ok _ _ _ G), (dlookup_ok _ _ _ K), (dlookup_ok _ _ _ Q). cbn [bind]. eauto.
Qed.
Lemma mapM_total {A B} (f : A -> result B) l : (forall a, exists b, f a = Ok b) -> exists bs, mapM f l = Ok bs.
Proof.
  intros H. induction l as [|a l [bs IH]]; [exists []; reflexivity|]. destruct (H a) as [b E]. exists (b :: bs). simpl. now rewrite E, IH.
Qed.
Lemma linspace_cons a b n : exists t, linspace a b (S n) = a + INR 0 * ((b - a) / INR (S n - 1)) :: t.
Proof. Local Transparent linspace. unfold linspace. cbn [seq map]. eauto. Local Opaque linspace. Qed.
Lemma C46_names_suffice_pf :
  forall available ra z_max cosmo_model r parameters, redshift_init available ra z_max cosmo_model = Ok r ->
  ra = powerlaw_rate \/ ra = madau_rate ->
  match mx_cosmo (rs_mixin r) with Instance _ => True | Class f => forall v, dkeys v = mx_names (rs_mixin r) -> exists c, f v = Ok c end ->
  ((forall k, In k (fst (variable_names r)) -> dmem k parameters = true) ->
     forall z, exists p, probability r [("redshift"%string, z)] parameters = Ok p) /\
  (forall b k, ra_names ra = Some b -> In k b -> dget k parameters = None ->
     forall dataset, exists k', probability r dataset parameters = Err (KeyError k') /\ In k' b /\ dget k' parameters = None).
Proof.
  intros av ra zm name r p Hi Hr Hc. destruct (init_rs _ _ _ _ _ Hi) as (I1 & I2 & I3 & I4 & _). split.
  - intros H z. unfold variable_names in H. cbn [fst] in H. rewrite I3 in H.
    destruct (cosmo_ok r p) as [c C]; auto.
    { intros k Hk. apply H. destruct (ra_names ra); auto. apply in_or_app; auto. }
    assert (D : forall z, exists v, differential_spacetime_volume_at r true p z = Ok v).
    { intros z0. destruct (rate_ok ra p Hr) with (z := z0) as [v V].
      { intros k b E Hk. apply H. rewrite E. apply in_or_app; auto. }
      unfold differential_spacetime_volume_at, dvc_dz. rewrite I3, V, C. cbn [bind]. eauto. }
    destruct (mapM_total _ (rs_zs r) D) as [d1 E1]. destruct (mapM_total _ z D) as [d2 E2].
    eexists. unfold probability, normalisation, differential_spacetime_volume. cbn [dlookup dget String.eqb Ascii.eqb Bool.eqb bind]. rewrite E1. cbn [bind]. rewrite E2. reflexivity.
  - intros b k Eb Hk Hn ds.
    assert (PSI : exists k', (forall z, ra_psi ra z p = Err (KeyError k')) /\ In k' b /\ dget k' p = None).
    { destruct Hr as [->| ->]; cbn [powerlaw_rate madau_rate ra_names ra_psi] in *; injection Eb as <-.
      - destruct Hk as [<-|[]]. exists "lamb"%string. split; [|split; [simpl; auto|auto]]. intros z. unfold powerlaw_psi. rewrite (dlookup_err _ _ Hn). reflexivity.
      - unfold madau_psi. destruct (dget "gamma" p) eqn:G.
        2:{ exists "gamma"%string. split; [|split; [simpl; auto|auto]]. intros z. rewrite (dlookup_err _ _ G). reflexivity. }
        destruct (dget "kappa" p) eqn:K.
        2:{ exists "kappa"%string. split; [|split; [simpl; auto|auto]]. intros z. rewrite (dlookup_ok _ _ _ G). cbn [bind]. rewrite (dlookup_err _ _ K). reflexivity. }
        destruct (dget "z_peak" p) eqn:Z.
        2:{ exists "z_peak"%string. split; [|split; [simpl; auto|auto]]. intros z. rewrite (dlookup_ok _ _ _ G), (dlookup_ok _ _ _ K). cbn [bind]. rewrite (dlookup_err _ _ Z). reflexivity. }
        exfalso. destruct Hk as [<-|[<-|[<-|[]]]]; congruence. }
    destruct PSI as [k' [P1 [P2 P3]]]. exists k'. split; auto.
    unfold probability, normalisation, differential_spacetime_volume. cbn [dlookup dget String.eqb Ascii.eqb Bool.eqb bind].
    rewrite I1. destruct (linspace_cons (1/1000000) zm 2499) as [t ->]. cbn [map mapM].
    unfold differential_spacetime_volume_at at 1. rewrite I3, P1. reflexivity.
Qed.

