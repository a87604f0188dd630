(** Proofs of the property theorems stated in [Props_nest]. *)
From Coq Require Import Reals Lra Lia Psatz String Bool.
From Coquelicot Require Import Coquelicot.
From Coq Require Import List.
From Verif Require Import Xf Py Xf_facts Py_facts Calc Spec Special Gauss_facts Utils_model Powerlaw_facts Truncnorm_facts Beta_facts Trap_facts Np Np_facts Utils_facts utils_thms Spin_model spin_thms Cosmo_model Redshift_model redshift_thms reduce_thms.
Import ListNotations.
Local Open Scope R_scope.

Lemma fpow_zero x : fpow x (Fin 0) = Fin 1.
Proof. unfold fpow. now rewrite feq_fin, Reqb_refl. Qed.
Lemma half_twice a : fmul (fdiv a (Fin 2)) (Fin 2) = a.
Proof.
  destruct a as [a| | |].
  - rewrite fdiv_fin, fmul_fin by lra. f_equal. field.
  - cbn [fdiv]. rewrite Rltb_false by lra. cbn [fmul]. unfold inf_of_sign. now rewrite Rltb_true by lra.
  - cbn [fdiv]. rewrite Rltb_false by lra. cbn [fmul]. unfold inf_of_sign. now rewrite Rltb_true by lra.
  - reflexivity.
Qed.
Lemma mapM_ext_in {A B} (f g : A -> result B) l : (forall a, In a l -> f a = g a) -> mapM f l = mapM g l.
Proof. induction l as [|a l IH]; intros H; simpl; [reflexivity|]. rewrite (H a (or_introl eq_refl)), IH; [reflexivity|]. intros; apply H; now right. Qed.

Lemma C127_madau_without_peak_pf :
  forall r r' ds bounds parameters g zp,
  rs_rate r = powerlaw_rate -> rs_rate r' = madau_rate -> rs_mixin r' = rs_mixin r -> rs_zmax r' = rs_zmax r -> rs_zs r' = rs_zs r ->
  (dget "lamb" parameters = Some g /\ dget "gamma" parameters = Some g /\ dget "kappa" parameters = Some (Fin 0) /\ dget "z_peak" parameters = Some zp)%string ->
  differential_spacetime_volume r' ds bounds parameters = differential_spacetime_volume r ds bounds parameters /\
  normalisation r' parameters = normalisation r parameters /\ probability r' ds parameters = probability r ds parameters.
Proof.
  intros r r' ds bounds p g zp R1 R2 M Z S (L & G & K & P).
  assert (Q : forall z, madau_psi z p = powerlaw_psi z p).
  { intros z. unfold madau_psi, powerlaw_psi. rewrite (dlookup_ok _ _ _ L), (dlookup_ok _ _ _ G), (dlookup_ok _ _ _ K), (dlookup_ok _ _ _ P). cbn [bind].
    rewrite fopp_fin, Ropp_0, !fpow_zero, fadd_fin. replace (1 + 1) with 2 by ring. now rewrite half_twice. }
  assert (D : forall ds b, differential_spacetime_volume r' ds b p = differential_spacetime_volume r ds b p).
  { intros ds' b. unfold differential_spacetime_volume. destruct (dlookup "redshift" ds') as [zs|]; cbn [bind]; [|reflexivity]. apply mapM_ext_in. intros z _.
    unfold differential_spacetime_volume_at, dvc_dz. rewrite R1, R2, M, Z. cbn [ra_psi powerlaw_rate madau_rate]. now rewrite Q. }
  assert (N : normalisation r' p = normalisation r p) by (unfold normalisation; now rewrite D, S).
  split; [apply D|]. split; [exact N|]. unfold probability. now rewrite N, D.
Qed.

Lemma Rpower_ratio a b k : 0 < a -> 0 < b -> Rpower (a / b) k = Rpower a k / Rpower b k.
Proof. intros Ha Hb. unfold Rdiv. rewrite <- Rpower_mult_distr by (try assumption; now apply Rinv_0_lt_compat). f_equal. unfold Rpower. rewrite ln_Rinv by assumption. rewrite <- exp_Ropp. f_equal. ring. Qed.

Lemma C127_madau_asymptotes_pf :
  forall parameters gamma kappa z_peak z,
  (dget "gamma" parameters = Some (Fin gamma) /\ dget "kappa" parameters = Some (Fin kappa) /\ dget "z_peak" parameters = Some (Fin z_peak))%string ->
  0 <= kappa -> -1 < z_peak -> 0 <= z ->
  exists psi, returns (madau_psi (Fin z) parameters) psi /\
  Rpower (1 + z) gamma / (1 + Rpower ((1 + z) / (1 + z_peak)) kappa) <= psi <= Rpower (1 + z) gamma /\
  let c := 1 + Rpower (1 + z_peak) kappa in
  c * Rpower (1 + z) (gamma - kappa) / (1 + Rpower ((1 + z_peak) / (1 + z)) kappa) = psi /\ psi <= c * Rpower (1 + z) (gamma - kappa) /\
  (z <= z_peak -> Rpower (1 + z) gamma / 2 <= psi) /\ (z_peak <= z -> c * Rpower (1 + z) (gamma - kappa) / 2 <= psi).
Proof.
  intros p g k zp z (G & K & P) Hk Hp Hz. exists (md g k zp z). split; [red; apply madau_val; auto; lra|].
  assert (Z : 0 < 1 + z) by lra. assert (Y : 0 < 1 + zp) by lra. pose proof (Rpower_pos (1 + z) g) as A. pose proof (Rpower_pos (1 + z) k) as B. pose proof (Rpower_pos (1 + zp) k) as C.
  assert (B1 : 1 <= Rpower (1 + z) k). { destruct (Req_dec z 0) as [->|]; [rewrite Rplus_0_r, rpower_1_l; lra|]. apply Rle_trans with (Rpower (1 + z) 0); [rewrite Rpower_O by lra; lra|apply Rle_Rpower; lra]. }
  unfold md. rewrite !(Rpower_ratio (1 + z)), !(Rpower_ratio (1 + zp)), Rpower_Ropp by assumption. cbv zeta.
  replace (Rpower (1 + z) (g - k)) with (Rpower (1 + z) g / Rpower (1 + z) k) by (unfold Rminus; rewrite Rpower_plus, Rpower_Ropp; reflexivity).
  set (a := Rpower (1 + z) g) in *. set (b := Rpower (1 + z) k) in *. set (c := Rpower (1 + zp) k) in *.
  assert (I : 0 < / c) by (now apply Rinv_0_lt_compat). assert (Q : 0 < b / c) by (now apply Rdiv_lt_0_compat). assert (Q' : 0 < c / b) by (now apply Rdiv_lt_0_compat).
  assert (E : (1 + c) * (a / b) / (1 + c / b) = a / (1 + b / c) * (1 + / c)) by (field; repeat split; lra).
  assert (X : 0 < a / (1 + b / c)) by (apply Rdiv_lt_0_compat; lra). assert (X' : 0 < (1 + c) * (a / b)) by (apply Rmult_lt_0_compat; [lra|now apply Rdiv_lt_0_compat]).
  split; [split|].
  - rewrite <- (Rmult_1_r (a / (1 + b / c))) at 1. apply Rmult_le_compat_l; lra.
  - replace a with (a / (1 + b / c) * (1 + b / c)) at 2 by (field; split; lra). apply Rmult_le_compat_l; [lra|]. unfold Rdiv. rewrite <- (Rmult_1_l (/ c)) at 1. apply Rplus_le_compat_l, Rmult_le_compat_r; lra.
  - split; [exact E|]. rewrite <- E. split; [|split].
    + apply Rle_div_l; [lra|]. nra.
    + intros Hzp. assert (b <= c) by (unfold b, c; apply Rle_Rpower_l; lra). rewrite E. apply Rle_trans with (a / (1 + b / c) * 1); [|apply Rmult_le_compat_l; lra]. rewrite Rmult_1_r. unfold Rdiv at 1 2. apply Rmult_le_compat_l; [lra|]. apply Rinv_le_contravar; [lra|].
      assert (b / c <= 1); [|lra]. apply Rle_div_l; lra.
    + intros Hzp. assert (c <= b) by (unfold b, c; apply Rle_Rpower_l; lra). unfold Rdiv at 1 3. apply Rmult_le_compat_l; [lra|]. apply Rinv_le_contravar; [lra|]. assert (c / b <= 1); [|lra]. apply Rle_div_l; lra.
Qed.

Lemma gauss_ratio a b t u : (forall v, a <= v <= b -> v * v <= t) -> a <= u <= b -> gauss 0 * exp (- t / 2) <= gauss u <= gauss 0.
Proof.
  intros H Hu. specialize (H u Hu). pose proof (gauss_pos 0).
  assert (E : gauss u = gauss 0 * exp (- (u * u) / 2)). { unfold gauss. pose proof s2pi_pos. replace (- (0 * 0) / 2) with 0 by field. replace (- 0 ^ 2 / 2) with 0 by field. replace (- u ^ 2 / 2) with (- (u * u) / 2) by field. rewrite exp_0. field. lra. }
  rewrite E. split; [apply Rmult_le_compat_l; [lra|apply exp_le_; nra]|]. rewrite <- (Rmult_1_r (gauss 0)) at 2. apply Rmult_le_compat_l; [lra|]. rewrite <- exp_0. apply exp_le_. nra.
Qed.
Lemma Zab_bounds a b t : a < b -> (forall v, a <= v <= b -> v * v <= t) -> (b - a) * (gauss 0 * exp (- t / 2)) <= Zab a b <= (b - a) * gauss 0.
Proof.
  intros Hab H. pose proof (Phi_int a b) as I. unfold Zab. split.
  - apply (is_RInt_le (fun _ => gauss 0 * exp (- t / 2)) gauss a b); [lra|apply @is_RInt_const|exact I|]. intros x Hx. apply (gauss_ratio a b t); [exact H|lra].
  - apply (is_RInt_le gauss (fun _ => gauss 0) a b); [lra|exact I|apply @is_RInt_const|]. intros x Hx. apply (gauss_ratio a b t); [exact H|lra].
Qed.
Lemma tnpdf_wide mu sigma high low d x : 0 < sigma -> low < high -> mu - d <= low -> high <= mu + d -> low <= x <= high ->
  exp (- (d / sigma) ^ 2 / 2) / (high - low) <= tnpdf mu sigma high low x <= exp ((d / sigma) ^ 2 / 2) / (high - low).
Proof.
  intros Hs Hl H1 H2 Hx. set (a := (low - mu) / sigma). set (b := (high - mu) / sigma). assert (Hab : a < b) by (apply div_lt; lra). assert (Hi : 0 < / sigma) by (now apply Rinv_0_lt_compat).
  assert (H : forall v, a <= v <= b -> v * v <= (d / sigma) ^ 2).
  { intros v Hv. assert (- (d / sigma) <= a) by (unfold a, Rdiv; rewrite <- Ropp_mult_distr_l_reverse; apply Rmult_le_compat_r; lra). assert (b <= d / sigma) by (unfold b, Rdiv; apply Rmult_le_compat_r; lra). nra. }
  set (t := (d / sigma) ^ 2) in *. set (u := (x - mu) / sigma). assert (Hu : a <= u <= b) by (unfold a, b, u, Rdiv; split; apply Rmult_le_compat_r; lra).
  pose proof (Zab_bounds a b t Hab H) as [Z1 Z2]. pose proof (gauss_ratio a b t u H Hu) as [G1 G2]. pose proof (Zab_pos a b Hab) as Zp. unfold tnpdf. fold a b u. pose proof (gauss_pos 0) as G0.
  assert (W : high - low = sigma * (b - a)) by (unfold a, b; field; lra). rewrite W. assert (Hd : 0 < b - a) by lra. pose proof (exp_pos (- t / 2)) as E1. pose proof (exp_pos (t / 2)) as E2.
  assert (E : exp (- t / 2) * exp (t / 2) = 1). { rewrite <- exp_plus. replace (- t / 2 + t / 2) with 0 by field. apply exp_0. }
  split.
  - apply (proj1 (Rle_div_r (exp (- t / 2) / (sigma * (b - a))) (gauss u / sigma) (Zab a b) Zp)). apply Rle_trans with (exp (- t / 2) / (sigma * (b - a)) * ((b - a) * gauss 0)).
    + apply Rmult_le_compat_l; [|exact Z2]. apply Rlt_le, Rdiv_lt_0_compat; [exact E1|]. now apply Rmult_lt_0_compat.
    + replace (exp (- t / 2) / (sigma * (b - a)) * ((b - a) * gauss 0)) with (gauss 0 * exp (- t / 2) / sigma) by (field; lra). unfold Rdiv at 1 3. apply Rmult_le_compat_r; lra.
  - apply (proj2 (Rle_div_l (gauss u / sigma) (exp (t / 2) / (sigma * (b - a))) (Zab a b) Zp)). apply Rle_trans with (exp (t / 2) / (sigma * (b - a)) * ((b - a) * (gauss 0 * exp (- t / 2)))).
    + replace (exp (t / 2) / (sigma * (b - a)) * ((b - a) * (gauss 0 * exp (- t / 2)))) with ((exp (- t / 2) * exp (t / 2)) * gauss 0 / sigma) by (field; lra). rewrite E, Rmult_1_l. unfold Rdiv. apply Rmult_le_compat_r; lra.
    + apply Rmult_le_compat_l; [|exact Z1]. apply Rlt_le, Rdiv_lt_0_compat; [exact E2|]. now apply Rmult_lt_0_compat.
Qed.

Lemma C127_wide_truncnorm_pf :
  forall bk kw mu sigma high low d x, 0 < sigma -> low < high -> mu - d <= low -> high <= mu + d -> low <= x <= high ->
  exists r, returns (truncnorm bk kw (Fin x) (Fin mu) (Fin sigma) (Fin high) (Fin low)) r /\
  exp (- (d / sigma) ^ 2 / 2) / (high - low) <= r <= exp ((d / sigma) ^ 2 / 2) / (high - low).
Proof.
  intros bk kw mu sigma high low d x Hs Hl H1 H2 Hx. exists (tnpdf mu sigma high low x). split; [|now apply tnpdf_wide]. red. rewrite truncnorm_ok by auto. now rewrite truncnorm_body_in.
Qed.

Lemma C127_narrow_truncnorm_pf :
  forall bk kw mu sigma high low e, 0 < sigma -> 0 < e -> low <= mu - e -> mu + e <= high ->
  exists P, integrates_to (fun x => truncnorm bk kw (Fin x) (Fin mu) (Fin sigma) (Fin high) (Fin low)) (mu - e) (mu + e) P /\
  1 - 2 * exp (- (e / sigma) ^ 2 / 2) <= P <= 1.
Proof.
  intros bk kw mu sigma high low e Hs He H1 H2. assert (Hl : low < high) by lra. pose proof (tnpdf_int_gen mu sigma high low (mu - e) (mu + e) Hs Hl) as I. eexists. split.
  - exists (tnpdf mu sigma high low). split; [|exact I]. intros x Hx. red. rewrite truncnorm_ok by auto. rewrite truncnorm_body_in; [reflexivity|lra|lra|lra].
  - replace ((mu + e - mu) / sigma) with (e / sigma) by (field; lra). replace ((mu - e - mu) / sigma) with (- (e / sigma)) by (field; lra). set (k := e / sigma) in *.
    assert (Hk : 0 < k) by (apply Rdiv_lt_0_compat; lra). assert (Hi : 0 < / sigma) by (now apply Rinv_0_lt_compat).
    assert (A : (low - mu) / sigma <= - k) by (unfold k, Rdiv; rewrite <- Ropp_mult_distr_l_reverse; apply Rmult_le_compat_r; lra). assert (B : k <= (high - mu) / sigma) by (unfold k, Rdiv; apply Rmult_le_compat_r; lra).
    set (a := (low - mu) / sigma) in *. set (b := (high - mu) / sigma) in *.
    assert (PA : Phi a <= Phi (- k)). { destruct A as [A|A]; [apply Rlt_le; now apply Phi_incr|rewrite A; lra]. } assert (PB : Phi k <= Phi b). { destruct B as [B|B]; [apply Rlt_le; now apply Phi_incr|rewrite <- B; lra]. }
    pose proof (Phi_incr (- k) k ltac:(lra)) as Q. pose proof (Phi_lt_1 b) as P1. pose proof (Phi_gt_0 a) as P0. pose proof (Phi_tail k (Rlt_le _ _ Hk)) as T. pose proof (Phi_sym k) as S. replace (k ^ 2) with (k * k) by ring.
    assert (Zp : 0 < Zab a b) by (unfold Zab; lra). split.
    + apply Rle_trans with (Phi k - Phi (- k)); [lra|]. apply Rle_div_r; [exact Zp|]. unfold Zab in *. nra.
    + apply Rle_div_l; [exact Zp|]. unfold Zab. lra.
Qed.

Lemma tilt_val mu sigma x : 0 < sigma -> -1 <= x <= 1 -> truncnorm_body (Fin x) (Fin mu) (Fin sigma) (Fin 1) (Fin (-1)) = Fin (tnpdf mu sigma 1 (-1) x).
Proof. intros. apply truncnorm_body_in; lra. Qed.

Lemma C127_isotropic_limit_pf :
  forall bk xi sigma_1 sigma_2 mu_1 mu_2 t1 t2, 0 < sigma_1 -> 0 < sigma_2 -> 0 <= xi <= 1 -> -1 <= t1 <= 1 -> -1 <= t2 <= 1 ->
  let E := ((1 + Rabs mu_1) / sigma_1) ^ 2 / 2 + ((1 + Rabs mu_2) / sigma_2) ^ 2 / 2 in
  exists p, returns (independent_spin_orientation_gaussian_isotropic bk (Fin t1) (Fin t2) (Fin xi) (Fin sigma_1) (Fin sigma_2) (Fin mu_1) (Fin mu_2)) p /\
  1 / 4 - xi / 4 * (1 - exp (- E)) <= p <= 1 / 4 + xi / 4 * (exp E - 1).
Proof.
  intros bk xi s1 s2 m1 m2 t1 t2 H1 H2 Hx Ht1 Ht2 E.
  assert (B : forall m s t, 0 < s -> -1 <= t <= 1 -> exp (- ((1 + Rabs m) / s) ^ 2 / 2) / 2 <= tnpdf m s 1 (-1) t <= exp (((1 + Rabs m) / s) ^ 2 / 2) / 2).
  { intros m s t Hs Ht. replace 2 with (1 - -1) at 2 4 by ring. pose proof (Rle_abs m). pose proof (Rle_abs (- m)) as R. rewrite Rabs_Ropp in R. apply tnpdf_wide; lra. }
  destruct (B m1 s1 t1 H1 Ht1) as [A1 A2]. destruct (B m2 s2 t2 H2 Ht2) as [B1 B2]. pose proof (tnpdf_pos m1 s1 1 (-1) t1 H1 ltac:(lra)) as P1. pose proof (tnpdf_pos m2 s2 1 (-1) t2 H2 ltac:(lra)) as P2.
  exists ((1 - xi) / 4 + xi * tnpdf m1 s1 1 (-1) t1 * tnpdf m2 s2 1 (-1) t2). split.
  - red. unfold independent_spin_orientation_gaussian_isotropic. rewrite !truncnorm_ok by auto. cbn [bind]. rewrite !tilt_val by auto. rewrite fsub_fin, fdiv_fin by lra. now rewrite !fmul_fin, fadd_fin.
  - set (u := ((1 + Rabs m1) / s1) ^ 2) in *. set (v := ((1 + Rabs m2) / s2) ^ 2) in *. assert (EE : exp E = exp (u / 2) * exp (v / 2)) by (rewrite <- exp_plus; reflexivity).
    assert (EN : exp (- E) = exp (- u / 2) * exp (- v / 2)) by (rewrite <- exp_plus; f_equal; unfold E; field). rewrite EE, EN.
    pose proof (exp_pos (u / 2)). pose proof (exp_pos (v / 2)). pose proof (exp_pos (- u / 2)). pose proof (exp_pos (- v / 2)). set (p := tnpdf m1 s1 1 (-1) t1) in *. set (q := tnpdf m2 s2 1 (-1) t2) in *.
    assert (L : exp (- u / 2) / 2 * (exp (- v / 2) / 2) <= p * q) by (apply Rmult_le_compat; lra). assert (U : p * q <= exp (u / 2) / 2 * (exp (v / 2) / 2)) by (apply Rmult_le_compat; lra).
    split; nra.
Qed.

Lemma gexp_pos m s x : 0 < exp (- ((x - m) / s) ^ 2 / 2). Proof. apply exp_pos. Qed.
Lemma chi0_val me se mp sp x y : 0 < se -> 0 < sp -> chival me se mp sp 0 x y = exp (- ((x - me) / se) ^ 2 / 2) * exp (- ((y - mp) / sp) ^ 2 / 2).
Proof. intros H1 H2. pose proof (C10_2d_gaussian_rho0_partial_pf x y me mp se sp H1 H2) as E. rewrite g2_val in E by lra. injection E as E. exact E. Qed.
Lemma tnpdf_gexp m s high low x : 0 < s -> low < high -> tnpdf m s high low x = / (sqrt (2 * PI) * s * Zab ((low - m) / s) ((high - m) / s)) * exp (- ((x - m) / s) ^ 2 / 2).
Proof.
  intros Hs Hl. unfold tnpdf, gauss. pose proof s2pi_pos. pose proof (Zab_pos ((low - m) / s) ((high - m) / s) ltac:(apply div_lt; lra)).
  set (w := (x - m) / s). replace (- (w * w) / 2) with (- w ^ 2 / 2) by field. set (z := Zab _ _) in *. field. repeat split; lra.
Qed.

Lemma C127_chi_independent_pf :
  forall bk mu_eff sigma_eff mu_p sigma_p, 0 < sigma_eff -> 0 < sigma_p ->
  exists k, 0 < k /\ forall e p, -1 <= e <= 1 -> 0 <= p <= 1 -> exists a b,
  returns (gaussian_chi_eff bk (Fin e) (Fin mu_eff) (Fin sigma_eff)) a /\ returns (gaussian_chi_p bk (Fin p) (Fin mu_p) (Fin sigma_p)) b /\
  chi_call chi_init (Fin e) (Fin p) (Fin mu_eff) (Fin sigma_eff) (Fin mu_p) (Fin sigma_p) (Fin 0) = Fin (k * a * b).
Proof.
  intros bk me se mp sp H1 H2. unfold chi_init, xlinspace. set (ge := linspace (-1) 1 500). set (gp := linspace 0 1 250).
  assert (Le : (2 <= List.length ge)%nat) by (unfold ge; rewrite linspace_length; apply Nat.leb_le; reflexivity). assert (Lp : (2 <= List.length gp)%nat) by (unfold gp; rewrite linspace_length; apply Nat.leb_le; reflexivity).
  assert (Ie : strictly_increasing ge) by (apply linspace_incr; [lra|apply Nat.leb_le; reflexivity]). assert (Ip : strictly_increasing gp) by (apply linspace_incr; [lra|apply Nat.leb_le; reflexivity]).
  pose proof (chinorm_pos ge gp me se mp sp 0 Le Lp Ie Ip) as N. set (n := chinorm ge gp me se mp sp 0) in *.
  set (A := sqrt (2 * PI) * se * Zab ((-1 - me) / se) ((1 - me) / se)). set (B := sqrt (2 * PI) * sp * Zab ((0 - mp) / sp) ((1 - mp) / sp)). pose proof s2pi_pos as S.
  assert (PA : 0 < A) by (apply Rmult_lt_0_compat; [now apply Rmult_lt_0_compat|apply Zab_pos, div_lt; lra]). assert (PB : 0 < B) by (apply Rmult_lt_0_compat; [now apply Rmult_lt_0_compat|apply Zab_pos, div_lt; lra]).
  exists (A * B / n). split; [apply Rdiv_lt_0_compat; [now apply Rmult_lt_0_compat|exact N]|]. intros e p He Hp.
  exists (tnpdf me se 1 (-1) e), (tnpdf mp sp 1 0 p). split; [|split].
  - red. unfold gaussian_chi_eff. rewrite truncnorm_ok by auto. now rewrite truncnorm_body_in by lra.
  - red. unfold gaussian_chi_p. rewrite truncnorm_ok by auto. now rewrite truncnorm_body_in by lra.
  - rewrite chi_call_val by (auto; lra). fold n. rewrite (Rleb_true (Rabs e) 1) by (apply Rabs_le; lra). rewrite !Rleb_true by lra. cbn [andb]. rewrite chi0_val, !tnpdf_gexp by lra. fold A B. f_equal. field. repeat split; lra.
Qed.

