(** Proofs of the property theorems stated in [Props_notebook]. *)
From Coq Require Import Reals Lra Lia Psatz String Bool.
From Coquelicot Require Import Coquelicot.
From Coq Require Import List.
From Verif Require Import Xf Py St Xf_facts Py_facts Calc Spec Special Utils_model Powerlaw_facts Truncnorm_facts Trap_facts Np Np_facts
  Mass_model Mass_facts mass_thms Spin_model spin_thms Smoothed_model Smoothed_facts smoothed_thms Cosmo_model Redshift_model redshift_thms Vt_model vt_thms Hyperpe_model SpecHyper Double Double_facts hypera_thms hyperb_thms hyperd_thms
  Priors_model SpecPrior priors_thms Example_model SpecExample.
Import ListNotations.
Local Open Scope R_scope.
Local Opaque linspace xlinspace.
Definition val (c : result xf) : R := match c with Ok (Fin r) => r | _ => 0 end.
Lemma val_returns c r : returns c r -> val c = r.
Proof. now intros ->. Qed.
Lemma integrates2_val f a b lo hi v : integrates2_to f a b lo hi v -> integrates2_to (fun x y => Ok (Fin (val (f x y)))) a b lo hi v.
Proof. intros (g & G & H1 & H2 & H3). exists g, G. split; [|now split]. intros x y Hx Hy. rewrite (val_returns _ _ (H1 x y Hx Hy)). reflexivity. Qed.
Lemma nb_redshift av zm cm r d c dvc lamb : dget "lamb" (given (fst (Redshift_model.variable_names r)) d) = Some (Fin lamb) -> 1/1000000 < zm ->
  redshift_init av powerlaw_rate zm cm = Ok r -> cosmology_of (rs_mixin r) (given (fst (Redshift_model.variable_names r)) d) = Ok c ->
  (forall z, 0 < z -> co_dvc c (Fin z) = Fin (dvc z)) -> (forall z, 0 < z <= zm -> 0 < dvc z) ->
  exists fz : R -> R, (forall z, 0 < z -> probability r [("redshift"%string, [Fin z])] (given (fst (Redshift_model.variable_names r)) d) = Ok [Fin (fz z)]) /\
    (forall z, 0 < z <= zm -> 0 < fz z) /\ (forall z, zm < z -> fz z = 0) /\ (exists k, 0 < k /\ forall z, 0 < z <= zm -> fz z = k * (dvc z * Rpower (1 + z) (lamb - 1))) /\ Rtrap (map fz (linspace (1/1000000) zm 2500)) (linspace (1/1000000) zm 2500) = 1.
Proof.
  intros L Hz Hr Hc Hdv Hp. set (kw := given _ d) in *.
  assert (PS : forall z, 0 < z -> ra_psi powerlaw_rate (Fin z) kw = Ok (Fin (Rpower (1 + z) lamb))).
  { intros z Bz. cbn [ra_psi powerlaw_rate]. unfold powerlaw_psi. rewrite (dlookup_ok _ _ _ L). cbn [bind]. rewrite fadd_fin, fpow_fin by lra. reflexivity. }
  destruct (C44_norm_positive_pf av powerlaw_rate zm cm r kw c (fun z => Rpower (1 + z) lamb) dvc Hz Hr Hc) as (N & N1 & N2 & N3).
  { intros z Bz. repeat split; [apply PS; lra|apply Hdv; lra|apply exp_pos|now apply Hp]. }
  set (h := fun z => Rpower (1 + z) lamb / (1 + z) * (4 * PI * dvc z)) in *.
  exists (fun z => if Rle_dec z zm then h z / N else 0). repeat split.
  - intros z Bz. destruct (C44_value_pf av powerlaw_rate zm cm r kw c N z (Rpower (1 + z) lamb) (dvc z) Hr Hc N1) as (V1 & V2); try lra; [now apply PS|now apply Hdv|].
    destruct (Rle_dec z zm); [now apply V1|apply V2; lra].
  - intros z Bz. destruct (Rle_dec z zm); [|lra]. assert (0 < dvc z) by (apply Hp; lra). assert (0 < Rpower (1 + z) lamb) by apply exp_pos. assert (A := PI_RGT_0).
    unfold h. apply Rdiv_lt_0_compat; [|lra]. apply Rmult_lt_0_compat; [apply Rdiv_lt_0_compat; lra|apply Rmult_lt_0_compat; lra].
  - intros z Bz. destruct (Rle_dec z zm); lra.
  - exists (4 * PI / N). assert (A := PI_RGT_0). split; [apply Rdiv_lt_0_compat; lra|]. intros z Bz. destruct (Rle_dec z zm); [|lra]. unfold h.
    replace (lamb - 1) with (lamb + - (1)) by ring. rewrite Rpower_plus, Rpower_Ropp, (Rpower_1 (1 + z)) by lra. field. lra.
  - unfold redshift_init in Hr. destruct (mixin_init av cm); [|discriminate]. injection Hr as E. rewrite <- E in N3. cbn [rs_zs] in N3. change (xlinspace (1/1000000) zm 2500) with (map Fin (linspace (1/1000000) zm 2500)) in N3.
    rewrite <- (map_map h Fin), trapezoid_fin in N3. injection N3 as N3.
    rewrite (map_ext_in _ (fun z => / N * h z)). { rewrite <- (map_map h (Rmult (/ N))), Rtrap_scale, <- N3. field. lra. }
    intros z I. apply linspace_bounds in I; [|lra]. destruct (Rle_dec z zm); [|lra]. unfold Rdiv. ring.
Qed.
Definition nb (alpha beta mmin mmax lam mpp sigpp ac bc xi sg lamb : R) : dict xf :=
  [("alpha", Fin alpha); ("beta", Fin beta); ("mmin", Fin mmin); ("mmax", Fin mmax); ("lam", Fin lam); ("mpp", Fin mpp); ("sigpp", Fin sigpp); ("gaussian_mass_maximum", Fin 100);
   ("amax", Fin 1); ("alpha_chi", Fin ac); ("beta_chi", Fin bc); ("xi_spin", Fin xi); ("sigma_spin", Fin sg); ("lamb", Fin lamb)]%string.
Lemma nb_inv d : draw_of notebook_prior d -> exists alpha beta mmin mmax lam mpp sigpp ac bc xi sg lamb, d = nb alpha beta mmin mmax lam mpp sigpp ac bc xi sg lamb /\
  2 <= mmin <= 25/10 /\ 80 <= mmax <= 100 /\ 0 <= lam <= 1 /\ 1 <= sigpp /\ 1 <= ac /\ 1 <= bc /\ 0 <= xi <= 1 /\ 3/10 <= sg.
Proof. intros Hd. unfold notebook_prior in Hd. split_draw Hd. unfold nb. do 12 eexists. split; [reflexivity|]. lra. Qed.
Lemma nb_mass bk alpha beta mmin mmax lam mpp sigpp : 2 <= mmin <= 25/10 -> 80 <= mmax <= 100 -> 0 <= lam <= 1 -> 1 <= sigpp -> bk = Jax \/ alpha <> -1 ->
  let f := fun x y => two_component_primary_mass_ratio bk (Fin x) (Fin y) (Fin alpha) (Fin beta) (Fin mmin) (Fin mmax) (Fin lam) (Fin mpp) (Fin sigpp) (Fin 100) in
  exists fm : R -> R -> R, integrates2_to (fun x y => Ok (Fin (fm x y))) mmin 100 (fun m => mmin / m) (fun _ => 1) 1 /\
    (forall m q, 0 < m -> 0 < q -> m <> mmin -> f m q = Ok (Fin (fm m q)) /\ 0 <= fm m q /\ (q * m < mmin \/ 1 < q -> fm m q = 0) /\ (mmin < m <= mmax -> mmin / m <= q <= 1 -> 0 < fm m q)).
Proof.
  intros B1 B2 B3 B4 HA f. destruct (C23_two_component_primary_mass_ratio_pf bk alpha beta mmin mmax lam mpp sigpp 100 100) as (I & Z & P); try lra; auto.
  exists (fun x y => val (f x y)). split; [now apply integrates2_val|]. intros m q Hm Hq Hn. destruct (P B3 m q Hm Hq Hn) as (r & Rr & Pr). fold (f m q) in Rr. rewrite (val_returns _ _ Rr).
  split; [exact Rr|]. split; [exact Pr|]. split.
  - intros O. assert (E := Z m q Hm Hq Hn O). fold (f m q) in E. rewrite Rr in E. now injection E.
  - intros M Q. unfold f in Rr. red in Rr. rewrite tcpr_joint in Rr by (auto; lra). destruct (ratio_fin bk m q beta mmin) as (v & E & _ & V & _); try lra; auto. rewrite E in Rr. cbn in Rr. injection Rr as <-.
    rewrite V by lra. assert (mmin / m < 1) by (apply Rlt_div_l; lra). assert (0 < mmin / m) by (apply Rdiv_lt_0_compat; lra).
    apply Rmult_lt_0_compat; [apply twoval_pos; lra|]. rewrite plval_in by lra. apply plpdf_pos; lra.
Qed.
Lemma nb_orient bk xi sg : 0 <= xi <= 1 -> 0 < sg ->
  exists fo : R -> R -> R, integrates2_to (fun x y => Ok (Fin (fo x y))) (-1) 1 (fun _ => -1) (fun _ => 1) 1 /\
    (forall c1 c2, iid_spin_orientation_gaussian_isotropic bk (Fin c1) (Fin c2) (Fin xi) (Fin sg) (Fin 1) = Ok (Fin (fo c1 c2)) /\ 0 <= fo c1 c2 /\ (-1 <= c1 <= 1 -> -1 <= c2 <= 1 -> 0 < fo c1 c2)).
Proof.
  intros Hx Hs. destruct (C39_orientation_density_pf bk xi sg sg 1 1 Hs Hs) as (I & P & F).
  set (f := fun x y => independent_spin_orientation_gaussian_isotropic bk (Fin x) (Fin y) (Fin xi) (Fin sg) (Fin sg) (Fin 1) (Fin 1)).
  exists (fun x y => val (f x y)). split; [now apply (integrates2_val f)|]. intros c1 c2. unfold iid_spin_orientation_gaussian_isotropic. destruct (P Hx c1 c2) as (r & Rr & Pr). fold (f c1 c2). fold (f c1 c2) in Rr. rewrite (val_returns _ _ Rr).
  split; [exact Rr|]. split; [exact Pr|]. intros I1 I2. destruct (F c1 c2) as (n1 & n2 & N1 & N2 & E). fold (f c1 c2) in E. rewrite Rr in E. injection E as ->.
  destruct (truncnorm_density bk [] 1 sg 1 (-1)) as (T & _); try lra. destruct (T c1 I1) as (t1 & T1 & P1). destruct (T c2 I2) as (t2 & T2 & P2). red in N1, N2, T1, T2. rewrite T1 in N1. rewrite T2 in N2. injection N1 as <-. injection N2 as <-.
  destruct (Req_dec xi 0) as [->|]; [lra|]. assert (0 < xi * (t1 * t2)) by (repeat apply Rmult_lt_0_compat; lra). assert (0 <= (1 - xi) * (1/4)) by lra. lra.
Qed.
Lemma C134_density_pf :
  forall bk available z_max cosmo_model r d c (dvc : R -> R), draw_of notebook_prior d -> bk = Jax \/ dget "alpha" d <> Some (Fin (-1)) ->
  1/1000000 < z_max -> redshift_init available powerlaw_rate z_max cosmo_model = Ok r -> mx_names (rs_mixin r) = [] ->
  cosmology_of (rs_mixin r) (given (fst (Redshift_model.variable_names r)) d) = Ok c -> (forall z, 0 < z -> co_dvc c (Fin z) = Fin (dvc z)) -> (forall z, 0 < z <= z_max -> 0 < dvc z) ->
  exists (masses tilts : R -> R -> R) (magnitude_1 magnitude_2 redshifts : R -> R) mmin mmax,
    dget "mmin" d = Some (Fin mmin) /\ dget "mmax" d = Some (Fin mmax) /\
    integrates2_to (fun x y => Ok (Fin (masses x y))) mmin 100 (fun m => mmin / m) (fun _ => 1) 1 /\
    integrates2_to (fun x y => Ok (Fin (tilts x y))) (-1) 1 (fun _ => -1) (fun _ => 1) 1 /\
    is_RInt_gen magnitude_1 (at_right 0) (at_left 1) 1 /\ is_RInt_gen magnitude_2 (at_right 0) (at_left 1) 1 /\
    Rtrap (map redshifts (linspace (1/1000000) z_max 2500)) (linspace (1/1000000) z_max 2500) = 1 /\
    let f := fun s => masses (m1 s) (ratio s) * (tilts (tilt1 s) (tilt2 s) * (magnitude_1 (spin1 s) * magnitude_2 (spin2 s))) * redshifts (z s) in
    population bk r d f /\
    (forall s, physical d s -> ratio s * m1 s < mmin \/ 1 < ratio s \/ z_max < z s \/ spin1 s < 0 \/ 1 < spin1 s \/ spin2 s < 0 \/ 1 < spin2 s -> f s = 0) /\
    (forall s, mmin < m1 s <= mmax -> mmin / m1 s <= ratio s <= 1 -> 0 < spin1 s < 1 -> 0 < spin2 s < 1 -> -1 <= tilt1 s <= 1 -> -1 <= tilt2 s <= 1 -> 0 < z s <= z_max -> 0 < f s).
Proof.
  intros bk av zm cm r d c dvc Hd Ha Hz Hr Hn Hc Hdv Hp.
  assert (RR : rs_rate r = powerlaw_rate). { unfold redshift_init in Hr. destruct (mixin_init av cm); [|discriminate]. injection Hr as <-. reflexivity. }
  destruct (nb_inv d Hd) as (alpha & beta & mmin & mmax & lam & mpp & sigpp & ac & bc & xi & sg & lamb & -> & B1 & B2 & B3 & B4 & B5 & B6 & B7 & B8).
  assert (HA : bk = Jax \/ alpha <> -1). { destruct Ha as [Ha|Ha]; [now left|right]. intros ->. now apply Ha. }
  destruct (nb_mass bk alpha beta mmin mmax lam mpp sigpp B1 B2 B3 B4 HA) as (fm & M1 & M2). destruct (nb_orient bk xi sg B7) as (fo & O1 & O2); [lra|].
  destruct (C38_independent_spin_magnitude_pf bk ac ac bc bc 1 1) as (g1 & g2 & G & P & I1 & I2 & Z1 & Z2 & (k1 & K1 & F1) & (k2 & K2 & F2)); try lra.
  destruct (nb_redshift av zm cm r (nb alpha beta mmin mmax lam mpp sigpp ac bc xi sg lamb) c dvc lamb) as (fz & R1 & R2 & R3 & _ & R4); auto.
  { rewrite lamb_given by (rewrite ?RR; auto). reflexivity. }
  exists fm, fo, g1, g2, fz, mmin, mmax. split; [reflexivity|]. split; [reflexivity|]. do 5 (split; [assumption|]). cbv zeta.
  assert (ZP : forall x, 0 < x -> 0 <= fz x). { intros x Hx. destruct (Rle_dec x zm); [left; apply R2; lra|rewrite R3; lra]. }
  assert (PH : forall s, physical (nb alpha beta mmin mmax lam mpp sigpp ac bc xi sg lamb) s -> 0 < m1 s /\ 0 < ratio s /\ 0 < z s /\ m1 s <> mmin).
  { intros s (A1 & A2 & A3 & _ & A5). repeat split; auto. intros E. apply A5. cbn. now rewrite E. }
  split; [|split].
  - intros s Hs. destruct (PH s Hs) as (A1 & A2 & A3 & A4). destruct (M2 _ _ A1 A2 A4) as (E1 & E2 & _). destruct (O2 (tilt1 s) (tilt2 s)) as (E3 & E4 & _). split.
    + unfold notebook_point.
      change (mass_ratio_kw bk (entry s "mass_1") (entry s "mass_ratio") (given (mass_ratio_args ++ ["gaussian_mass_maximum"%string]) (nb alpha beta mmin mmax lam mpp sigpp ac bc xi sg lamb)))
        with (two_component_primary_mass_ratio bk (Fin (m1 s)) (Fin (ratio s)) (Fin alpha) (Fin beta) (Fin mmin) (Fin mmax) (Fin lam) (Fin mpp) (Fin sigpp) (Fin 100)).
      rewrite E1. cbn [bind].
      change (iid_spin_kw bk (entry s "a_1") (entry s "a_2") (entry s "cos_tilt_1") (entry s "cos_tilt_2") (given iid_spin_args (nb alpha beta mmin mmax lam mpp sigpp ac bc xi sg lamb)))
        with (iid_spin bk (Fin (spin1 s)) (Fin (spin2 s)) (Fin (tilt1 s)) (Fin (tilt2 s)) (Fin xi) (Fin sg) (Fin 1) (Fin ac) (Fin bc)).
      unfold iid_spin. rewrite E3. cbn [bind]. unfold iid_spin_magnitude_beta. rewrite (G (spin1 s) (spin2 s)). cbn [bind].
      change (entry s "redshift") with (Fin (z s)). rewrite R1 by exact A3. cbn [bind nth]. autorewrite with xf. do 2 f_equal. ring.
    + apply Rmult_le_pos; [apply Rmult_le_pos; [exact E2|apply Rmult_le_pos; [exact E4|apply Rmult_le_pos; apply P]]|now apply ZP].
  - intros s Hs O. destruct (PH s Hs) as (A1 & A2 & A3 & A4). destruct (M2 _ _ A1 A2 A4) as (_ & _ & E & _).
    destruct O as [O|[O|[O|[O|[O|[O|O]]]]]]; [rewrite E by auto|rewrite E by auto|rewrite R3 by auto|rewrite (Z1 (spin1 s)) by auto|rewrite (Z1 (spin1 s)) by auto|rewrite (Z2 (spin2 s)) by auto|rewrite (Z2 (spin2 s)) by auto]; ring.
  - intros s S1 S2 S3 S4 S5 S6 S7. assert (0 < ratio s). { apply Rlt_le_trans with (mmin / m1 s); [apply Rdiv_lt_0_compat; lra|lra]. }
    destruct (M2 (m1 s) (ratio s)) as (_ & _ & _ & E); try lra. destruct (O2 (tilt1 s) (tilt2 s)) as (_ & _ & E4).
    repeat apply Rmult_lt_0_compat; auto; [rewrite F1 by auto|rewrite F2 by auto]; repeat apply Rmult_lt_0_compat; auto; apply exp_pos.
Qed.

Lemma bell_tn mu s hi lo x : 0 < s -> lo < hi -> tnpdf mu s hi lo x = / (sqrt (2 * PI) * s * Zab ((lo - mu) / s) ((hi - mu) / s)) * bell mu s x.
Proof.
  intros Hs H. unfold tnpdf, gauss, bell. assert (Z := Zab_pos _ _ (div_lt _ _ s Hs (Rplus_lt_compat_r (- mu) _ _ H))). fold (lo - mu) in Z. fold (hi - mu) in Z.
  assert (Q : 0 < sqrt (2 * PI)) by (apply sqrt_lt_R0; assert (A := PI_RGT_0); lra).
  replace (- (x - mu) ^ 2 / (2 * s ^ 2)) with (- ((x - mu) / s * ((x - mu) / s)) / 2) by (field; lra). field. repeat split; lra.
Qed.
Lemma bell_int mu s hi lo : 0 < s -> lo < hi -> is_RInt (fun x => / (sqrt (2 * PI) * s * Zab ((lo - mu) / s) ((hi - mu) / s)) * bell mu s x) lo hi 1.
Proof. intros Hs H. apply (is_RInt_ext (tnpdf mu s hi lo)); [|now apply tnpdf_int]. intros x _. now apply bell_tn. Qed.
Lemma pl_int a hi lo : 0 < lo < hi -> is_RInt (fun x => plnorm a hi lo * Rpower x a) lo hi 1.
Proof. intros H. apply (is_RInt_ext (plpdf a hi lo)); [|now apply plpdf_int]. intros x _. unfold plpdf. apply Rmult_comm. Qed.
Lemma beta_J g k A a b : 0 < A -> (forall x, 0 < x < A -> g x = k * (Rpower x (a - 1) * Rpower (A - x) (b - 1))) -> is_RInt_gen g (at_right 0) (at_left A) 1 ->
  is_RInt_gen (fun x => k * (Rpower x (a - 1) * Rpower (A - x) (b - 1))) (at_right 0) (at_left A) 1.
Proof.
  intros HA E I. apply (is_RInt_gen_ext g); [|exact I]. exists (fun x => 0 < x < A) (fun x => 0 < x < A).
  - exists (mkposreal A HA). intros y Hy Hl. unfold ball in Hy; simpl in Hy; unfold AbsRing_ball, abs, minus, plus, opp in Hy; simpl in Hy. unfold Rabs in Hy; destruct (Rcase_abs _); lra.
  - exists (mkposreal A HA). intros y Hy Hl. unfold ball in Hy; simpl in Hy; unfold AbsRing_ball, abs, minus, plus, opp in Hy; simpl in Hy. unfold Rabs in Hy; destruct (Rcase_abs _); lra.
  - intros x y Hx Hy t Ht. cbn [fst snd] in Ht. apply E. unfold Rmin, Rmax in Ht. destruct (Rle_dec x y); lra.
Qed.
Lemma tilt_val bk sg t n : 0 < sg -> -1 <= t <= 1 -> returns (truncnorm bk [] (Fin t) (Fin 1) (Fin sg) (Fin 1) (Fin (-1))) n -> n = / (sqrt (2 * PI) * sg * Zab ((-1 - 1) / sg) ((1 - 1) / sg)) * bell 1 sg t.
Proof. intros Hs Ht Hn'. rewrite <- bell_tn by lra. red in Hn'. rewrite truncnorm_ok in Hn' by (auto; lra). rewrite truncnorm_body_val, tnval_in in Hn' by lra. now injection Hn'. Qed.
Lemma C132_spin_formula_pf :
  forall bk d, draw_of bbh_population d -> let v := fun name => value name d in 0 < v "amax_1"%string -> 0 < v "amax_2"%string ->
  let beta_shape := fun alpha beta amax a => Rpower a (alpha - 1) * Rpower (amax - a) (beta - 1) in
  let b_1 := beta_shape (v "alpha_chi_1"%string) (v "beta_chi_1"%string) (v "amax_1"%string) in
  let b_2 := beta_shape (v "alpha_chi_2"%string) (v "beta_chi_2"%string) (v "amax_2"%string) in
  exists k_1 k_2 t_1 t_2,
    is_RInt_gen (fun a => k_1 * b_1 a) (at_right 0) (at_left (v "amax_1"%string)) 1 /\ is_RInt_gen (fun a => k_2 * b_2 a) (at_right 0) (at_left (v "amax_2"%string)) 1 /\
    is_RInt (fun t => t_1 * bell 1 (v "sigma_1"%string) t) (-1) 1 1 /\ is_RInt (fun t => t_2 * bell 1 (v "sigma_2"%string) t) (-1) 1 1 /\
    (forall a_1 a_2, 0 < a_1 < v "amax_1"%string -> 0 < a_2 < v "amax_2"%string -> magnitude_kw bk (Fin a_1) (Fin a_2) (given magnitude_args d) = Ok (Fin (k_1 * b_1 a_1 * (k_2 * b_2 a_2)))) /\
    (forall c_1 c_2, -1 <= c_1 <= 1 -> -1 <= c_2 <= 1 -> orientation_kw bk (Fin c_1) (Fin c_2) (given (orientation_args ++ orientation_defaults) d) =
       Ok (Fin ((1 - v "xi_spin"%string) / 4 + v "xi_spin"%string * (t_1 * bell 1 (v "sigma_1"%string) c_1 * (t_2 * bell 1 (v "sigma_2"%string) c_2))))).
Proof.
  intros bk d Hd v. unfold bbh_population in Hd. split_draw Hd.
  cbv beta iota zeta delta [v value dget String.eqb Ascii.eqb Bool.eqb]. clear v. intros A1 A2.
  match goal with |- context [Rpower _ (?a1 - 1)] => idtac end.
  match goal with |- exists k_1 k_2 t_1 t_2, is_RInt_gen (fun a => k_1 * (Rpower a (?a1 - 1) * Rpower (?m1 - a) (?b1 - 1))) _ _ _ /\ is_RInt_gen (fun a => k_2 * (Rpower a (?a2 - 1) * Rpower (?m2 - a) (?b2 - 1))) _ _ _ /\
      is_RInt (fun t => t_1 * bell 1 ?s1 t) _ _ _ /\ is_RInt (fun t => t_2 * bell 1 ?s2 t) _ _ _ /\ _ =>
    destruct (C38_independent_spin_magnitude_pf bk a1 a2 b1 b2 m1 m2) as (g1 & g2 & G & P & I1 & I2 & Z1 & Z2 & (k1 & K1 & F1) & (k2 & K2 & F2)); try lra;
    exists k1, k2, (/ (sqrt (2 * PI) * s1 * Zab ((-1 - 1) / s1) ((1 - 1) / s1))), (/ (sqrt (2 * PI) * s2 * Zab ((-1 - 1) / s2) ((1 - 1) / s2))) end.
  split; [eapply beta_J; eauto|]. split; [eapply beta_J; eauto|]. split; [apply bell_int; lra|]. split; [apply bell_int; lra|]. split.
  - intros a_1 a_2 H1 H2. kwred. rewrite (G a_1 a_2), F1, F2 by assumption. reflexivity.
  - intros c_1 c_2 H1 H2. kwred.
    match goal with |- independent_spin_orientation_gaussian_isotropic bk _ _ (Fin ?xi) (Fin ?s1) (Fin ?s2) (Fin ?m1) (Fin ?m2) = _ =>
      destruct (C39_orientation_density_pf bk xi s1 s2 m1 m2) as (_ & _ & W); [lra|lra|] end.
    destruct (W c_1 c_2) as (n1 & n2 & N1 & N2 & NE). red in NE. rewrite NE. apply tilt_val in N1; [|lra|exact H1]. apply tilt_val in N2; [|lra|exact H2]. rewrite N1, N2. do 2 f_equal. unfold Rdiv. ring.
Qed.

Lemma C134_formula_pf :
  forall bk available z_max cosmo_model r d c (dvc : R -> R), draw_of notebook_prior d -> bk = Jax \/ dget "alpha" d <> Some (Fin (-1)) ->
  1/1000000 < z_max -> redshift_init available powerlaw_rate z_max cosmo_model = Ok r -> mx_names (rs_mixin r) = [] ->
  cosmology_of (rs_mixin r) (given (fst (Redshift_model.variable_names r)) d) = Ok c -> (forall z, 0 < z -> co_dvc c (Fin z) = Fin (dvc z)) -> (forall z, 0 < z <= z_max -> 0 < dvc z) ->
  let v := fun name => value name d in
  exists c_law c_peak c_spin c_tilt c_z (c_ratio : R -> R),
    is_RInt (fun m => c_law * Rpower m (- v "alpha"%string)) (v "mmin"%string) (v "mmax"%string) 1 /\
    is_RInt (fun m => c_peak * bell (v "mpp"%string) (v "sigpp"%string) m) (v "mmin"%string) 100 1 /\
    (forall m, v "mmin"%string < m -> is_RInt (fun q => c_ratio m * Rpower q (v "beta"%string)) (v "mmin"%string / m) 1 1) /\
    is_RInt_gen (fun a => c_spin * (Rpower a (v "alpha_chi"%string - 1) * Rpower (1 - a) (v "beta_chi"%string - 1))) (at_right 0) (at_left 1) 1 /\
    is_RInt (fun t => c_tilt * bell 1 (v "sigma_spin"%string) t) (-1) 1 1 /\
    Rtrap (map (fun z => c_z * (dvc z * Rpower (1 + z) (v "lamb"%string - 1))) (linspace (1/1000000) z_max 2500)) (linspace (1/1000000) z_max 2500) = 1 /\
    forall s, v "mmin"%string < m1 s <= 100 -> v "mmin"%string / m1 s <= ratio s <= 1 -> 0 < spin1 s < 1 -> 0 < spin2 s < 1 -> -1 <= tilt1 s <= 1 -> -1 <= tilt2 s <= 1 -> 0 < z s <= z_max ->
      let law := if Rle_dec (m1 s) (v "mmax"%string) then c_law * Rpower (m1 s) (- v "alpha"%string) else 0 in
      let peak := c_peak * bell (v "mpp"%string) (v "sigpp"%string) (m1 s) in
      let tilt := fun t => c_tilt * bell 1 (v "sigma_spin"%string) t in
      let spin := fun a => c_spin * (Rpower a (v "alpha_chi"%string - 1) * Rpower (1 - a) (v "beta_chi"%string - 1)) in
      notebook_point bk r (entry s) d = Ok (Fin (
        ((1 - v "lam"%string) * law + v "lam"%string * peak) * (c_ratio (m1 s) * Rpower (ratio s) (v "beta"%string)) *
        (((1 - v "xi_spin"%string) / 4 + v "xi_spin"%string * (tilt (tilt1 s) * tilt (tilt2 s))) * (spin (spin1 s) * spin (spin2 s))) *
        (c_z * (dvc (z s) * Rpower (1 + z s) (v "lamb"%string - 1))))).
Proof.
  intros bk av zm cm r d c dvc Hd Ha Hz Hr Hn Hc Hdv Hp v.
  assert (RR : rs_rate r = powerlaw_rate). { unfold redshift_init in Hr. destruct (mixin_init av cm); [|discriminate]. injection Hr as <-. reflexivity. }
  destruct (nb_inv d Hd) as (alpha & beta & mmin & mmax & lam & mpp & sigpp & ac & bc & xi & sg & lamb & -> & B1 & B2 & B3 & B4 & B5 & B6 & B7 & B8).
  assert (HA : bk = Jax \/ alpha <> -1). { destruct Ha as [Ha|Ha]; [now left|right]. intros ->. now apply Ha. }
  change (v "alpha"%string) with alpha. change (v "beta"%string) with beta. change (v "mmin"%string) with mmin. change (v "mmax"%string) with mmax. change (v "lam"%string) with lam. change (v "mpp"%string) with mpp.
  change (v "sigpp"%string) with sigpp. change (v "alpha_chi"%string) with ac. change (v "beta_chi"%string) with bc. change (v "xi_spin"%string) with xi. change (v "sigma_spin"%string) with sg. change (v "lamb"%string) with lamb. clear v.
  destruct (C38_independent_spin_magnitude_pf bk ac ac bc bc 1 1) as (g1 & g2 & G & P & I1 & I2 & Z1 & Z2 & (k1 & K1 & F1) & (k2 & K2 & F2)); try lra.
  destruct (nb_redshift av zm cm r (nb alpha beta mmin mmax lam mpp sigpp ac bc xi sg lamb) c dvc lamb) as (fz & R1 & R2 & R3 & (kz & KZ & FZ) & R4); auto.
  { rewrite lamb_given by (rewrite ?RR; auto). reflexivity. }
  set (h := fun a : R => Rpower a (ac - 1) * Rpower (1 - a) (bc - 1)).
  assert (J : forall g k, (forall x, 0 < x < 1 -> g x = k * h x) -> is_RInt_gen g (at_right 0) (at_left 1) 1 -> is_RInt_gen (fun a => k * h a) (at_right 0) (at_left 1) 1).
  { intros g k E I. apply (is_RInt_gen_ext g); [|exact I]. exists (fun x => 0 < x < 1) (fun x => 0 < x < 1).
    - exists (mkposreal 1 Rlt_0_1). intros y Hy Hl. unfold ball in Hy; simpl in Hy; unfold AbsRing_ball, abs, minus, plus, opp in Hy; simpl in Hy. unfold Rabs in Hy; destruct (Rcase_abs _); lra.
    - exists (mkposreal 1 Rlt_0_1). intros y Hy Hl. unfold ball in Hy; simpl in Hy; unfold AbsRing_ball, abs, minus, plus, opp in Hy; simpl in Hy. unfold Rabs in Hy; destruct (Rcase_abs _); lra.
    - intros x y Hx Hy t Ht. cbn [fst snd] in Ht. apply E. unfold Rmin, Rmax in Ht. destruct (Rle_dec x y); lra. }
  assert (J1 := J g1 k1 F1 I1). assert (J2 := J g2 k2 F2 I2).
  assert (K12 : k1 = k2).
  { assert (X : h (1/2) <> 0). { unfold h. assert (0 < Rpower (1/2) (ac - 1) * Rpower (1 - 1/2) (bc - 1)) by (apply Rmult_lt_0_compat; apply exp_pos). lra. }
    assert (S := is_RInt_gen_scal _ (k2 / k1) _ J1). cbn in S.
    assert (S' : is_RInt_gen (fun a => k2 * h a) (at_right 0) (at_left 1) (k2 / k1 * 1)).
    { apply (is_RInt_gen_ext (fun y => scal (k2 / k1) (k1 * h y))); [|exact S]. apply filter_forall. intros [x y] t _. change (k2 / k1 * (k1 * h t) = k2 * h t). field. lra. }
    assert (U := is_RInt_gen_unique _ _ S'). assert (U2 := is_RInt_gen_unique _ _ J2). rewrite U2 in U. apply (Rmult_eq_reg_r (/ k1)); [|apply Rinv_neq_0_compat; lra]. rewrite Rinv_r by lra. unfold Rdiv in U. lra. }
  subst k2.
  exists (plnorm (- alpha) mmax mmin), (/ (sqrt (2 * PI) * sigpp * Zab ((mmin - mpp) / sigpp) ((100 - mpp) / sigpp))), k1, (/ (sqrt (2 * PI) * sg * Zab ((-1 - 1) / sg) ((1 - 1) / sg))), kz, (fun m => plnorm beta 1 (mmin / m)).
  split; [apply pl_int; lra|]. split; [apply bell_int; lra|].
  assert (QQ : forall m, mmin < m -> 0 < mmin / m < 1). { intros m Hm. split; [apply Rdiv_lt_0_compat; lra|apply Rlt_div_l; lra]. }
  split; [intros m Hm; apply pl_int; now apply QQ|]. split; [exact J1|]. split; [apply bell_int; lra|].
  split. { rewrite (map_ext_in _ fz); [exact R4|]. intros x I. apply linspace_bounds in I; [|lra]. rewrite FZ by lra. reflexivity. }
  intros s S1 S2 S3 S4 S5 S6 S7. cbv zeta. assert (Q := QQ (m1 s) (proj1 S1)).
  unfold notebook_point.
  change (mass_ratio_kw bk (entry s "mass_1") (entry s "mass_ratio") (given (mass_ratio_args ++ ["gaussian_mass_maximum"%string]) (nb alpha beta mmin mmax lam mpp sigpp ac bc xi sg lamb)))
    with (two_component_primary_mass_ratio bk (Fin (m1 s)) (Fin (ratio s)) (Fin alpha) (Fin beta) (Fin mmin) (Fin mmax) (Fin lam) (Fin mpp) (Fin sigpp) (Fin 100)).
  rewrite tcpr_joint by (auto; lra). destruct (ratio_fin bk (m1 s) (ratio s) beta mmin) as (w & E & _ & W & _); try lra. rewrite E, W by lra. cbn [joint bind].
  change (iid_spin_kw bk (entry s "a_1") (entry s "a_2") (entry s "cos_tilt_1") (entry s "cos_tilt_2") (given iid_spin_args (nb alpha beta mmin mmax lam mpp sigpp ac bc xi sg lamb)))
    with (iid_spin bk (Fin (spin1 s)) (Fin (spin2 s)) (Fin (tilt1 s)) (Fin (tilt2 s)) (Fin xi) (Fin sg) (Fin 1) (Fin ac) (Fin bc)).
  unfold iid_spin, iid_spin_orientation_gaussian_isotropic. destruct (C39_orientation_density_pf bk xi sg sg 1 1) as (_ & _ & O); try lra. destruct (O (tilt1 s) (tilt2 s)) as (n1 & n2 & N1 & N2 & NE).
  red in NE. rewrite NE. cbn [bind]. unfold iid_spin_magnitude_beta. rewrite (G (spin1 s) (spin2 s)). cbn [bind].
  change (entry s "redshift") with (Fin (z s)). rewrite R1 by lra. cbn [bind nth]. rewrite FZ, F1, F2 by lra.
  assert (TN : forall t n, -1 <= t <= 1 -> returns (truncnorm bk [] (Fin t) (Fin 1) (Fin sg) (Fin 1) (Fin (-1))) n -> n = / (sqrt (2 * PI) * sg * Zab ((-1 - 1) / sg) ((1 - 1) / sg)) * bell 1 sg t).
  { intros t n Ht Hn'. rewrite <- bell_tn by lra. red in Hn'. rewrite truncnorm_ok in Hn' by (auto; lra). rewrite truncnorm_body_val, tnval_in in Hn' by lra. now injection Hn'. }
  rewrite (TN _ _ S5 N1), (TN _ _ S6 N2). rewrite plval_in by lra. unfold plpdf at 1. unfold twoval. rewrite tnval_in, bell_tn by lra.
  assert (LAW : plval (- alpha) mmax mmin (m1 s) = if Rle_dec (m1 s) mmax then plnorm (- alpha) mmax mmin * Rpower (m1 s) (- alpha) else 0).
  { destruct (Rle_dec (m1 s) mmax); [rewrite plval_in by lra; unfold plpdf; ring|apply plval_out; lra]. }
  rewrite LAW. autorewrite with xf. do 2 f_equal. unfold h, Rdiv. ring.
Qed.

Lemma point_ext bk r d a a' : (forall k, In k sample_keys -> a k = a' k) -> notebook_point bk r a d = notebook_point bk r a' d.
Proof. intros H. unfold notebook_point. rewrite (H "mass_1"%string), (H "mass_ratio"%string), (H "a_1"%string), (H "a_2"%string), (H "cos_tilt_1"%string), (H "cos_tilt_2"%string), (H "redshift"%string) by (cbn; tauto). reflexivity. Qed.
Lemma mapM_seq {A B} (g : nat -> result B) (h : A -> B) (l : list A) : (forall i a, nth_error l i = Some a -> g i = Ok (h a)) -> mapM g (seq 0 (List.length l)) = Ok (map h l).
Proof.
  intros H. assert (G : forall o, (forall i a, nth_error l i = Some a -> g (o + i)%nat = Ok (h a)) -> mapM g (seq o (List.length l)) = Ok (map h l)); [|now apply (G 0%nat)].
  clear H. induction l as [|a l IH]; intros o H; [reflexivity|]. cbn [List.length seq mapM map]. rewrite <- (Nat.add_0_r o) at 1. rewrite (H 0%nat a eq_refl). cbn [bind]. rewrite (IH (S o)); [reflexivity|].
  intros i b Hi. rewrite Nat.add_succ_l, <- Nat.add_succ_r. now apply H.
Qed.
Lemma vec_prob bk r d f data l : population bk r d f -> Forall (physical d) l -> (forall k, In k sample_keys -> dget k data = dget k (columns l)) ->
  notebook_prob bk r data d = Ok (map Fin (map f l)).
Proof.
  intros Hf Hl Hk. unfold notebook_prob.
  assert (E : mapM (fun k => c <- dlookup k data ;; Ok (k, c)) sample_keys = Ok (map (fun k => (k, match dget k (columns l) with Some c => c | None => [] end)) sample_keys)).
  { apply mapM_ok_in. intros k I. assert (X : dget k data = Some (match dget k (columns l) with Some c => c | None => [] end)).
    { rewrite Hk by exact I. cbn [In sample_keys] in I. repeat (destruct I as [<-|I]; [reflexivity|]). destruct I. }
    rewrite (dlookup_ok _ _ _ X). reflexivity. }
  rewrite E. cbn [bind]. cbn [sample_keys map]. match goal with |- context [List.length ?c] => change (List.length c) with (List.length (map (fun s => Fin (m1 s)) l)) end. rewrite map_length, map_map.
  apply mapM_seq. intros i s Hs. assert (Ps : physical d s). { rewrite Forall_forall in Hl. apply Hl. eapply nth_error_In; eauto. }
  rewrite <- (proj1 (Hf s Ps)). apply point_ext. intros k I.
  assert (N : forall p : binary -> R, nth i (map (fun s => Fin (p s)) l) NaN = Fin (p s)). { intros p. apply nth_error_nth. rewrite nth_error_map, Hs. reflexivity. }
  cbn [In sample_keys] in I. repeat (destruct I as [<-|I]; [cbn -[nth]; apply N|]). destruct I.
Qed.
Lemma list_at {A} (a b : list A) : List.length a = List.length b -> (forall i, (i < List.length a)%nat -> nth_error a i = nth_error b i) -> a = b.
Proof.
  revert b. induction a as [|x a IH]; intros [|y b] L H; try discriminate; [reflexivity|]. assert (E := H 0%nat ltac:(simpl; lia)). injection E as <-. f_equal. apply IH; [now injection L|]. intros i Hi. apply (H (S i)). simpl. lia.
Qed.
Lemma nth_error_seq n : forall o i, (i < n)%nat -> nth_error (seq o n) i = Some (o + i)%nat.
Proof. induction n as [|n IH]; intros o i H; [lia|]. destruct i as [|i]; cbn; [f_equal; lia|]. rewrite IH by lia. f_equal. lia. Qed.
Lemma Forall2_seq {A B} (P : A -> B -> Prop) (g : nat -> B) l : (forall i a, nth_error l i = Some a -> P a (g i)) -> Forall2 P l (map g (seq 0 (List.length l))).
Proof.
  intros H. assert (G : forall o, (forall i a, nth_error l i = Some a -> P a (g (o + i)%nat)) -> Forall2 P l (map g (seq o (List.length l)))); [|now apply (G 0%nat)].
  clear H. induction l as [|a l IH]; intros o H; [constructor|]. cbn [List.length seq map]. constructor; [rewrite <- (Nat.add_0_r o); now apply H|]. apply IH. intros i b Hi. rewrite Nat.add_succ_l, <- Nat.add_succ_r. now apply H.
Qed.
Lemma f2_len {A B} {P : A -> B -> Prop} {a b} : Forall2 P a b -> List.length a = List.length b.
Proof. induction 1; simpl; congruence. Qed.
Lemma sum_zero_or_pos w : Forall (fun x => 0 <= x) w -> 0 < Rsum w \/ Rsum w = 0.
Proof. intros H. assert (A := Rsum_nonneg w H). lra. Qed.
Lemma fsum_ninf l : Forall (fun x => x = NInf \/ exists r, x = Fin r) l -> In NInf l -> fsum l = NInf.
Proof.
  assert (A : forall l, Forall (fun x => x = NInf \/ exists r, x = Fin r) l -> fsum l = NInf \/ exists r, fsum l = Fin r).
  { induction 1 as [|x l0 Hx H IH]; [right; exists 0; reflexivity|]. change (fsum (x :: l0)) with (fadd x (fsum l0)). destruct Hx as [->|[a ->]], IH as [->|[b ->]]; cbn; eauto. }
  intros H I. induction H as [|x l0 Hx H IH]; [destruct I|]. change (fsum (x :: l0)) with (fadd x (fsum l0)). destruct I as [->|I].
  - destruct (A _ H) as [->|[r ->]]; reflexivity.
  - rewrite (IH I). destruct Hx as [->|[r ->]]; reflexivity.
Qed.
Lemma C134_likelihood_pf :
  forall bk r d f events inj total time rows dvc, population bk r d f ->
  events <> [] -> Forall (fun e => e <> [] /\ Forall (physical d) e) events -> Forall (physical d) inj -> 0 < total -> INR (List.length inj) <= total ->
  (forall i n k, (k <= n)%nat -> List.length (rows i n k) = k /\ NoDup (rows i n k) /\ Forall (fun j => j < n)%nat (rows i n k)) ->
  let N := INR (List.length events) in
  let mu := Rsum (weights f inj) / total in
  let var := Rsum (squares (weights f inj)) / total ^ 2 - mu ^ 2 / total in
  exists L V K drawn,
    likelihood_init Hyper rows (map posterior events) ModelLike None None PInf = Ok L /\
    resampling_init dvc [None; None; Some r] {| inj_data := columns inj; inj_total := Some (Fin total); inj_time := time |} (Fin N) false true = Ok V /\
    Forall (fun e => K <= List.length e)%nat events /\ Exists (fun e => List.length e = K) events /\ Forall2 (some_of K) events drawn /\
    let W := map (weights f) drawn in
    let usable := Forall (fun w => 0 < Rsum w) W /\ 4 * N * var < mu ^ 2 in
    (usable -> ln_likelihood_and_variance bk (notebook_prob_events bk r) (resampling_call bk (notebook_prob bk r) V) Ok L d =
       Ok (Fin (Rsum (map (fun w => ln (mean w)) W) - N * ln mu), Fin (Rsum (map (mc_variance K) W) + N ^ 2 * (var / mu ^ 2)))) /\
    (~ usable -> log_likelihood_ratio bk (notebook_prob_events bk r) (resampling_call bk (notebook_prob bk r) V) Ok L d = Ok (Fin (- MAXF))).
Proof.
  intros bk r d f events inj total time rows dvc Hf Hne Hev Hinj Ht Hl Hrows N mu var.
  destruct events as [|e0 events]; [congruence|]. clear Hne. set (evs := e0 :: events) in *.
  destruct (C67_resample_pf rows (posterior e0) (map posterior events) None Hrows) as (K & data & idx & RS & KL & _ & KE & KD & ID).
  { intros fr key I J. change (posterior e0 :: map posterior events) with (map posterior evs) in I. apply in_map_iff in I. destruct I as (e & <- & _).
    cbn in J. repeat (destruct J as [<-|J]; [discriminate|]). destruct J. }
  change (posterior e0 :: map posterior events) with (map posterior evs) in *.
  assert (KE' : Exists (fun e => List.length e = K) evs).
  { destruct KE as [KE|(fr & I & E)]; [discriminate|]. apply in_map_iff in I. destruct I as (e & <- & I). apply Exists_exists. exists e. now split. }
  assert (KL' : Forall (fun e => K <= List.length e)%nat evs). { rewrite Forall_map in KL. exact KL. }
  assert (K0 : (0 < K)%nat). { apply Exists_exists in KE'. destruct KE' as (e & I & <-). rewrite Forall_forall in Hev. destruct (Hev e I) as [Ne _]. destruct e; [congruence|simpl; lia]. }
  set (s0 := {| m1 := 0; ratio := 0; spin1 := 0; spin2 := 0; tilt1 := 0; tilt2 := 0; z := 0; sampling := 0 |}).
  set (draw := fun i => map (fun j => nth j (nth i evs []) s0) (idx i)). set (drawn := map draw (seq 0 (List.length evs))).
  assert (AT : forall i e, nth_error evs i = Some e -> nth i evs [] = e) by (intros i e E; now apply nth_error_nth).
  assert (IDX : forall i e, nth_error evs i = Some e -> List.length (idx i) = K /\ NoDup (idx i) /\ Forall (fun j => j < List.length e)%nat (idx i)).
  { intros i e E. destruct (ID i (posterior e)) as (A & B & C & _); [rewrite nth_error_map, E; reflexivity|]. now repeat split. }
  assert (COL : forall key p, In key (dkeys data) -> (forall l, dget key (columns l) = Some (map (fun s => Fin (p s)) l)) -> dget key data = Some (map (map (fun s => Fin (p s))) drawn)).
  { intros key p I C.
    assert (A : forall i e, nth_error evs i = Some e -> exists array, dget key data = Some array /\ List.length array = List.length evs /\ nth_error array i = Some (map (fun s => Fin (p s)) (draw i))).
    { intros i e E. destruct (ID i (posterior e)) as (_ & _ & D & X); [rewrite nth_error_map, E; reflexivity|]. destruct (X key _ I (C e)) as (a & A1 & A2 & A3). exists a. rewrite map_length in A2. split; [exact A1|]. split; [exact A2|].
      rewrite A3. f_equal. unfold draw. rewrite map_map, (AT _ _ E). apply map_ext_in. intros j J. rewrite Forall_forall in D. specialize (D j J). cbn [posterior fr_len] in D.
      rewrite (nth_indep _ NaN (Fin (p s0))) by now rewrite map_length. apply (map_nth (fun s => Fin (p s))). }
    destruct (A 0%nat e0 eq_refl) as (a & A1 & A2 & _). rewrite A1. f_equal. unfold drawn. rewrite map_map. apply list_at; [rewrite map_length, seq_length; exact A2|].
    intros i Hi. rewrite A2 in Hi. destruct (nth_error evs i) as [e|] eqn:E; [|apply nth_error_None in E; lia]. destruct (A i e E) as (a' & B1 & _ & B3). rewrite A1 in B1. injection B1 as <-. rewrite B3.
    rewrite nth_error_map, nth_error_seq by exact Hi. reflexivity. }
  assert (DR : Forall2 (some_of K) evs drawn).
  { apply Forall2_seq. intros i e E. destruct (IDX i e E) as (A & B & C). exists (idx i). split; [exact A|]. split; [exact B|]. split; [exact C|]. unfold draw. rewrite (AT _ _ E). clear -C.
    induction C as [|j l Hj C IH]; constructor; [now apply nth_error_nth'|exact IH]. }
  assert (PH : Forall (fun l => List.length l = K /\ Forall (physical d) l) drawn).
  { clear -DR Hev. clearbody drawn. clearbody evs. induction DR as [|e l evs drawn H DR IH]; [constructor|]. inversion Hev as [|? ? [_ P] Q]; subst. constructor; [|now apply IH].
    destruct H as (ps & A & _ & _ & B). split; [rewrite <- (f2_len B); exact A|]. rewrite Forall_forall in P. apply Forall_forall. intros s I. apply P. clear -B I.
    induction B as [|j x ps l Hj B IH]; [destruct I|]. destruct I as [->|I]; [eapply nth_error_In; eauto|now apply IH]. }
  assert (KD' : dkeys data = ["mass_1"; "mass_ratio"; "a_1"; "a_2"; "cos_tilt_1"; "cos_tilt_2"; "redshift"; "prior"]%string) by exact KD.
  set (L := {| li_kind := Hyper; li_data := ddel "prior" data; li_prior := dget "prior" data; li_noise := NaN; li_n := List.length evs; li_samples := K; li_maxu := PInf; li_max_variance := PInf |}).
  set (V := {| rv_data := columns inj; rv_n_events := Fin N; rv_total := Fin total; rv_time := match time with Some t => t | None => Fin 1 end; rv_redshift := Some r; rv_marginalize := false; rv_enforce := true; rv_volume := None |}).
  assert (IV : resampling_init dvc [None; None; Some r] {| inj_data := columns inj; inj_total := Some (Fin total); inj_time := time |} (Fin N) false true = Ok V) by reflexivity.
  exists L, V, K, drawn. split; [unfold likelihood_init; rewrite RS; cbn [bind]; unfold L; rewrite map_length; reflexivity|]. split; [exact IV|]. split; [exact KL'|]. split; [exact KE'|]. split; [exact DR|]. cbv zeta.
  set (W := map (weights f) drawn).
  assert (NN : forall s, physical d s -> 0 <= f s) by (intros s P; now apply Hf).
  assert (WW : weights_are (notebook_prob_events bk r) L d W).
  { exists (map (map f) drawn). split.
    - unfold notebook_prob_events, L. cbn [li_data]. assert (M : dget "mass_1" (ddel "prior" data) = Some (map (map (fun s => Fin (m1 s))) drawn)).
      { rewrite dget_ddel_other by discriminate. apply COL; [rewrite KD'; cbn; tauto|reflexivity]. }
      rewrite (dlookup_ok _ _ _ M). cbn [bind]. rewrite map_length, map_map. apply mapM_seq. intros i l E. assert (Pl : Forall (physical d) l). { rewrite Forall_forall in PH. apply PH. eapply nth_error_In; eauto. }
      apply vec_prob; auto. intros k I. rewrite (dget_map_kv (fun _ m => nth i m [])).
      assert (T : forall p, nth i (map (map (fun s : binary => Fin (p s))) drawn) [] = map (fun s => Fin (p s)) l). { intros p. apply nth_error_nth. rewrite nth_error_map, E. reflexivity. }
      cbn [In sample_keys] in I.
      repeat (destruct I as [<-|I]; [rewrite dget_ddel_other by discriminate; erewrite COL; [|rewrite KD'; cbn; tauto|reflexivity]; rewrite T; reflexivity|]). destruct I.
    - unfold L. cbn [li_prior]. rewrite (COL "prior"%string sampling) by first [reflexivity|rewrite KD'; cbn; tauto].
      exists (map (map sampling) drawn). split; [rewrite map_map; apply map_ext; intros; now rewrite map_map|]. split.
      + apply Forall_map. eapply Forall_impl; [|exact PH]. intros l [_ P]. apply Forall_map. eapply Forall_impl; [|exact P]. intros s (_ & _ & _ & Q & _). lra.
      + split; [rewrite !map_map; apply map_ext; intros; now rewrite !map_length|]. unfold W. clear. induction drawn as [|l drawn IH]; [reflexivity|]. cbn [map combine fst snd]. f_equal; [|exact IH].
        unfold quotients, weights. clear. induction l as [|s l IH]; [reflexivity|]. cbn [map combine fst snd]. f_equal. exact IH. }
  assert (FW : Forall (fun w => List.length w = K /\ Forall (fun x => 0 <= x) w) W).
  { unfold W. apply Forall_map. eapply Forall_impl; [|exact PH]. intros l [A P]. unfold weights. split; [rewrite map_length; exact A|]. apply Forall_map. eapply Forall_impl; [|exact P]. intros s Ps. assert (Q := NN s Ps). destruct Ps as (_ & _ & _ & S & _).
    apply Rmult_le_pos; [exact Q|]. left. now apply Rinv_0_lt_compat. }
  assert (PE : per_event bk (notebook_prob_events bk r) L d = Ok (map (fun e => flog (fmean e)) (map (map Fin) W), map (event_variance L) (map (map Fin) W))).
  { unfold per_event. rewrite (ewt bk _ L d W WW). reflexivity. }
  assert (DE : detection_efficiency bk (notebook_prob bk r) V d = Ok (Fin mu, Fin var) /\ 0 <= var).
  { destruct (C51_detection_efficiency_pf bk (notebook_prob bk r) dvc _ _ (Fin N) false true V d (map f inj) (map sampling inj) total IV) as (mu' & var' & E & -> & -> & Z).
    - cbn [inj_data]. rewrite map_map. reflexivity.
    - apply Forall_map. eapply Forall_impl; [|exact Hinj]. intros s (_ & _ & _ & Q & _). lra.
    - cbn [inj_data]. apply vec_prob; auto.
    - now rewrite !map_length.
    - left. split; [reflexivity|lra].
    - assert (EW : map (fun x => fst x / snd x) (combine (map f inj) (map sampling inj)) = weights f inj). { unfold weights. clear. induction inj as [|s l IH]; [reflexivity|]. cbn [map combine fst snd]. f_equal. exact IH. }
      rewrite EW in *. split; [exact E|]. apply Z; [exact Ht|]. unfold weights. rewrite map_length. exact Hl. }
  destruct DE as [DE VP].
  assert (MU : 0 <= mu).
  { unfold mu. apply Rmult_le_pos; [|left; now apply Rinv_0_lt_compat]. apply Rsum_nonneg. unfold weights. apply Forall_map. eapply Forall_impl; [|exact Hinj]. intros s Ps. assert (Q := NN s Ps). destruct Ps as (_ & _ & _ & S & _).
    apply Rmult_le_pos; [exact Q|]. left. now apply Rinv_0_lt_compat. }
  assert (N1 : (0 < List.length evs)%nat) by (unfold evs; simpl; lia). assert (NP : 0 < N) by now apply lt_0_INR.
  destruct (C52_correction_pf V (Fin mu) (Fin var) N eq_refl) as (C1 & C2 & _).
  assert (FIN : 4 * N * var < mu ^ 2 -> ln_likelihood_and_variance bk (notebook_prob_events bk r) (resampling_call bk (notebook_prob bk r) V) Ok L d =
    Ok (fadd (fsum (map (fun e => flog (fmean e)) (map (map Fin) W))) (Fin (- N * ln mu)), fadd (fsum (map (event_variance L) (map (map Fin) W))) (Fin (N ^ 2 * (var / mu ^ 2)))) /\ 0 < mu).
  { intros C. assert (mu <> 0). { intros E. rewrite E in C. assert (0 <= 4 * N * var) by (apply Rmult_le_pos; lra). lra. } assert (0 < mu) by lra. split; [|assumption].
    unfold ln_likelihood_and_variance. cbn [bind]. rewrite PE. cbn [bind]. unfold selection_factor, selection_with_uncertainty, resampling_call. rewrite DE. cbn [bind]. rewrite (C1 mu var eq_refl eq_refl C).
    change (rv_marginalize V) with false. change (rv_enforce V) with true. change (li_kind L) with Hyper. cbv beta iota. cbn [bind snd]. rewrite fadd_fin, Rplus_0_r. cbv beta iota. rewrite flog_fin by assumption. unfold of_nat. change (li_n L) with (List.length evs). fold N.
    change (fopp (Fin N)) with (Fin (- N)). rewrite !fsq_fin, fmul_fin, fdiv_fin by nra. rewrite fmul_fin. repeat f_equal; ring. }
  split.
  - intros [PW C]. destruct (FIN C) as [-> _].
    assert (PF : Forall (fun w => List.length w = K /\ 0 < mean w) W).
    { apply Forall_forall. intros w I. rewrite Forall_forall in PW, FW. destruct (FW w I) as [A _]. split; [exact A|]. unfold mean. rewrite A. apply Rdiv_lt_0_compat; [now apply PW|now apply lt_0_INR]. }
    rewrite Forall_forall in PF.
    rewrite (map_map (map Fin) (fun e => flog (fmean e))), (map_map (map Fin) (event_variance L)).
    rewrite (map_ext_in _ (fun w => Fin (ln (mean w)))), (map_ext_in (fun x => event_variance L (map Fin x)) (fun w => Fin (mc_variance K w))), !fsum_fins, !fadd_fin; [do 3 f_equal; ring| |].
    + intros w I. destruct (PF w I) as [A B]. apply (evar L w); [exact K0|exact A|lra].
    + intros w I. destruct (PF w I) as [A B]. rewrite fmean_fin by (apply (row_ne K); assumption). now apply flog_fin.
  - intros NU. destruct (Rlt_dec (4 * N * var) (mu ^ 2)) as [C|C].
    + destruct (FIN C) as [E _]. destruct (C59_finite_double_pf _ _ _ _ _ _ _ _ E) as (x & X & _ & _ & _ & Y). rewrite X, Y; [reflexivity|]. right.
      assert (Z : exists w, In w W /\ Rsum w = 0).
      { destruct (Forall_Exists_dec (fun w => 0 < Rsum w) (fun w => Rlt_dec 0 (Rsum w)) W) as [P|P]; [destruct NU; now split|]. apply Exists_exists in P. destruct P as (w & I & P). exists w. split; [exact I|].
        rewrite Forall_forall in FW. destruct (sum_zero_or_pos w (proj2 (FW w I))) as [Q|Q]; [contradiction|exact Q]. }
      destruct Z as (w0 & I0 & Z0). rewrite fsum_ninf; [reflexivity| |].
      * apply Forall_map, Forall_map, Forall_forall. intros w I. rewrite Forall_forall in FW. destruct (FW w I) as [A B]. rewrite fmean_fin by (apply (row_ne K); assumption). unfold mean. destruct (sum_zero_or_pos w B) as [P|P].
        -- right. eexists. apply flog_fin. rewrite A. apply Rdiv_lt_0_compat; [exact P|now apply lt_0_INR].
        -- left. rewrite P. unfold Rdiv. rewrite Rmult_0_l. apply Xf_facts.flog_zero.
      * rewrite map_map. apply in_map_iff. exists w0. split; [|exact I0]. rewrite Forall_forall in FW. destruct (FW w0 I0) as [A B]. rewrite fmean_fin by (apply (row_ne K); assumption). unfold mean. rewrite Z0. unfold Rdiv. rewrite Rmult_0_l. apply Xf_facts.flog_zero.
    + assert (CC : check_convergence V (Fin mu) (Fin var) = (false, PInf)) by (apply (C2 mu var eq_refl eq_refl); lra).
      eapply (C54_unconverged_rejected_pf bk _ _ V Ok L d d _ _ (Fin mu) (Fin var)); [discriminate|exact N1|reflexivity|exact PE|discriminate|exact DE|rewrite CC; reflexivity|left; reflexivity|].
      unfold resampling_call. change (rv_marginalize V) with false. change (rv_enforce V) with true. cbv beta iota. rewrite DE. cbn [bind]. rewrite CC. reflexivity.
Qed.

