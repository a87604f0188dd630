(** Proofs of the property theorems stated in [Props_ident]. *)
From Coq Require Import Reals Lra Lia Psatz String Bool.
From Coquelicot Require Import Coquelicot.
From Coq Require Import List.
From Verif Require Import Xf Py St Xf_facts Py_facts Calc Spec Special Gauss_facts Utils_model Powerlaw_facts Truncnorm_facts Beta_facts
  Trap_facts Np Np_facts Utils_facts utils_thms Mass_model Mass_facts Smoothed_model Smoothed_facts Cosmo_model Redshift_model redshift_thms.
Import ListNotations.
Local Open Scope R_scope.

Lemma powerlaw_value bk kw x alpha high low v : powerlaw bk kw (Fin x) (Fin alpha) (Fin high) (Fin low) = Ok (Fin v) ->
  0 < low < high -> low <= x <= high -> v = plpdf alpha high low x.
Proof.
  intros E Hl Hx. rewrite powerlaw_cases in E.
  assert (P := powerlaw_body_in alpha high low x Hl Hx).
  destruct (is_jax bk); [congruence|]. destruct (_ && _) in E; [discriminate|]. destruct (_ && _) in E; congruence.
Qed.
Lemma two_points a a' x y c c' : 0 < x -> 0 < y -> x <> y -> 0 < c -> 0 < c' ->
  Rpower x a * c = Rpower x a' * c' -> Rpower y a * c = Rpower y a' * c' -> a = a'.
Proof.
  intros Hx Hy N C C' E F.
  assert (E' : a * ln x + ln c = a' * ln x + ln c').
  { apply (f_equal ln) in E. rewrite !ln_mult in E by (auto; apply rpower_pos). unfold Rpower in E. now rewrite !ln_exp in E. }
  assert (F' : a * ln y + ln c = a' * ln y + ln c').
  { apply (f_equal ln) in F. rewrite !ln_mult in F by (auto; apply rpower_pos). unfold Rpower in F. now rewrite !ln_exp in F. }
  assert (L : ln x <> ln y) by (intros L; apply N; now apply ln_inv).
  assert (Z : (a - a') * (ln x - ln y) = 0) by lra.
  apply Rmult_integral in Z. destruct Z; lra.
Qed.

Lemma C141_powerlaw_pf :
  forall bk kw kw' alpha alpha' high low x y vx vy, 0 < low < high -> low <= x <= high -> low <= y <= high -> x <> y ->
  powerlaw bk kw (Fin x) (Fin alpha) (Fin high) (Fin low) = Ok (Fin vx) -> powerlaw bk kw' (Fin x) (Fin alpha') (Fin high) (Fin low) = Ok (Fin vx) ->
  powerlaw bk kw (Fin y) (Fin alpha) (Fin high) (Fin low) = Ok (Fin vy) -> powerlaw bk kw' (Fin y) (Fin alpha') (Fin high) (Fin low) = Ok (Fin vy) ->
  alpha = alpha'.
Proof.
  intros bk kw kw' a a' h l x y vx vy Hl Hx Hy N A A' B B'.
  apply powerlaw_value in A, A', B, B'; auto.
  apply (two_points a a' x y (plnorm a h l) (plnorm a' h l)); try lra; try (apply plnorm_pos; auto).
  - fold (plpdf a h l x). fold (plpdf a' h l x). congruence.
  - fold (plpdf a h l y). fold (plpdf a' h l y). congruence.
Qed.

Lemma truncnorm_value bk kw x mu sigma high low v : truncnorm bk kw (Fin x) (Fin mu) (Fin sigma) (Fin high) (Fin low) = Ok (Fin v) ->
  0 < sigma -> low < high -> low <= x <= high -> v = tnpdf mu sigma high low x.
Proof.
  intros E Hs Hl Hx. rewrite truncnorm_ok in E by auto. rewrite truncnorm_body_in in E by auto. congruence.
Qed.
Lemma tn_log mu sigma high low x : 0 < sigma -> low < high ->
  ln (tnpdf mu sigma high low x) = - / (2 * (sigma * sigma)) * ((x - mu) * (x - mu)) + ln (tnpdf mu sigma high low mu).
Proof.
  intros Hs Hl. unfold tnpdf.
  assert (Z : 0 < Zab ((low - mu) / sigma) ((high - mu) / sigma)) by (apply Zab_pos, div_lt; lra).
  assert (G : forall t, gauss t / sigma / Zab ((low - mu) / sigma) ((high - mu) / sigma) = exp (- t ^ 2 / 2) * (/ sqrt (2 * PI) / sigma / Zab ((low - mu) / sigma) ((high - mu) / sigma))).
  { intros t. unfold gauss. unfold Rdiv. replace (- (t * t) * / 2) with (- t ^ 2 * / 2) by ring. ring. }
  rewrite !G.
  assert (K : 0 < / sqrt (2 * PI) / sigma / Zab ((low - mu) / sigma) ((high - mu) / sigma)).
  { assert (0 < sqrt (2 * PI)) by (apply sqrt_lt_R0; assert (Q := PI_RGT_0); lra).
    repeat apply Rdiv_lt_0_compat; auto. apply Rinv_0_lt_compat; auto. }
  rewrite !ln_mult by (auto; apply exp_pos). rewrite !ln_exp. field. lra.
Qed.
Lemma three_quad A B C x y z : x <> y -> y <> z -> x <> z ->
  A * (x * x) + B * x + C = 0 -> A * (y * y) + B * y + C = 0 -> A * (z * z) + B * z + C = 0 -> A = 0 /\ B = 0.
Proof.
  intros N1 N2 N3 E F G.
  assert (P : (x - y) * (A * (x + y) + B) = 0) by (ring_simplify; lra).
  assert (Q : (x - z) * (A * (x + z) + B) = 0) by (ring_simplify; lra).
  apply Rmult_integral in P, Q. destruct P as [P|P]; [exfalso; apply N1; lra|]. destruct Q as [Q|Q]; [exfalso; apply N3; lra|].
  assert (W : A * (y - z) = 0) by lra. apply Rmult_integral in W. destruct W as [W|W]; [|exfalso; apply N2; lra].
  subst A. split; lra.
Qed.

Lemma C141_truncnorm_pf :
  forall bk kw kw' mu sigma mu' sigma' high low x y z vx vy vz, 0 < sigma -> 0 < sigma' -> low < high ->
  low <= x <= high -> low <= y <= high -> low <= z <= high -> x <> y -> y <> z -> x <> z ->
  let p := fun t => truncnorm bk kw (Fin t) (Fin mu) (Fin sigma) (Fin high) (Fin low) in
  let p' := fun t => truncnorm bk kw' (Fin t) (Fin mu') (Fin sigma') (Fin high) (Fin low) in
  p x = Ok (Fin vx) /\ p' x = Ok (Fin vx) -> p y = Ok (Fin vy) /\ p' y = Ok (Fin vy) -> p z = Ok (Fin vz) /\ p' z = Ok (Fin vz) ->
  mu = mu' /\ sigma = sigma'.
Proof.
  intros bk kw kw' m s m' s' h l x y z vx vy vz Hs Hs' Hl Hx Hy Hz N1 N2 N3 p p' [X X'] [Y Y'] [Z Z'].
  unfold p, p' in *. apply truncnorm_value in X, X', Y, Y', Z, Z'; auto.
  assert (E : forall t, tnpdf m s h l t = tnpdf m' s' h l t ->
     (/ (2 * (s' * s')) - / (2 * (s * s))) * (t * t) + (2 * m * / (2 * (s * s)) - 2 * m' * / (2 * (s' * s'))) * t
     + (- / (2 * (s * s)) * (m * m) + / (2 * (s' * s')) * (m' * m') + ln (tnpdf m s h l m) - ln (tnpdf m' s' h l m')) = 0).
  { intros t H. apply (f_equal ln) in H. rewrite (tn_log m s), (tn_log m' s') in H by auto. lra. }
  destruct (three_quad _ _ _ x y z N1 N2 N3 (E x ltac:(congruence)) (E y ltac:(congruence)) (E z ltac:(congruence))) as [A B].
  assert (S : s * s = s' * s').
  { assert (0 < s * s) by nra. assert (0 < s' * s') by nra.
    assert (I : / (2 * (s' * s')) = / (2 * (s * s))) by lra. apply (f_equal Rinv) in I. rewrite !Rinv_inv in I. lra. }
  assert (S' : s = s') by nra. subst s'.
  split; auto. assert (I : 0 < / (2 * (s * s))) by (apply Rinv_0_lt_compat; nra). nra.
Qed.

Lemma beta_value bk kw x a b s v : beta_dist bk kw (Fin x) (Fin a) (Fin b) (Fin s) = Ok (Fin v) ->
  0 < a -> 0 < b -> 0 < s -> 0 < x < s -> v = bpdf a b s x.
Proof.
  intros E Ha Hb Hs Hx. rewrite beta_dist_ok in E by auto. rewrite beta_dist_body_in in E by auto. congruence.
Qed.
Lemma beta_log a b s x : 0 < a -> 0 < b -> 0 < s -> 0 < x < s ->
  ln (bpdf a b s x) = (a - 1) * ln x + (b - 1) * ln (s - x) - ln (Beta_fun a b * Rpower s (a + b - 1)).
Proof.
  intros Ha Hb Hs Hx. unfold bpdf. destruct (Beta_exists a b Ha Hb) as [HB _].
  assert (P : 0 < Beta_fun a b * Rpower s (a + b - 1)) by (apply Rmult_lt_0_compat; auto; apply rpower_pos).
  unfold Rdiv. rewrite ln_mult by (try (apply Rinv_0_lt_compat; auto); apply Rmult_lt_0_compat; apply rpower_pos).
  rewrite ln_mult by apply rpower_pos. rewrite ln_Rinv by auto. unfold Rpower at 1 2. rewrite !ln_exp. ring.
Qed.
Lemma rolle_log A B C s u v : 0 < u -> u < v -> v < s ->
  A * ln u + B * ln (s - u) + C = 0 -> A * ln v + B * ln (s - v) + C = 0 -> exists t, u < t < v /\ A * (s - t) = B * t.
Proof.
  intros Hu Huv Hv E F.
  destruct (MVT_cor2 (fun t => A * ln t + B * ln (s - t) + C) (fun t => A * / t + B * (- / (s - t))) u v Huv) as [t [T I]].
  { intros c Hc. apply is_derive_Reals. auto_derive; [repeat split; lra|]. field. lra. }
  exists t. split; [lra|]. rewrite E, F in T.
  assert (Z : (A * / t + B * - / (s - t)) * (v - u) = 0) by lra.
  apply Rmult_integral in Z. destruct Z as [Z|Z]; [|lra].
  assert (W : (A * / t + B * - / (s - t)) * (t * (s - t)) = A * (s - t) - B * t) by (field; lra).
  rewrite Z in W. lra.
Qed.
Lemma three_log_sorted A B C s x y z : 0 < x -> x < y -> y < z -> z < s ->
  A * ln x + B * ln (s - x) + C = 0 -> A * ln y + B * ln (s - y) + C = 0 -> A * ln z + B * ln (s - z) + C = 0 -> A = 0 /\ B = 0.
Proof.
  intros Hx Hxy Hyz Hz E F G.
  destruct (rolle_log A B C s x y) as [t [T P]]; auto; [lra|].
  destruct (rolle_log A B C s y z) as [t' [T' P']]; auto; [lra|].
  assert (Z : (A + B) * (t' - t) = 0) by lra. apply Rmult_integral in Z. destruct Z as [Z|Z]; [|lra].
  assert (Y : A * s = 0) by nra. apply Rmult_integral in Y. destruct Y; split; lra.
Qed.
Lemma three_log A B C s x y z : 0 < x < s -> 0 < y < s -> 0 < z < s -> x <> y -> y <> z -> x <> z ->
  A * ln x + B * ln (s - x) + C = 0 -> A * ln y + B * ln (s - y) + C = 0 -> A * ln z + B * ln (s - z) + C = 0 -> A = 0 /\ B = 0.
Proof.
  intros Hx Hy Hz N1 N2 N3 E F G.
  destruct (Rdichotomy _ _ N1) as [D1|D1], (Rdichotomy _ _ N2) as [D2|D2], (Rdichotomy _ _ N3) as [D3|D3]; try lra.
  - apply (three_log_sorted A B C s x y z); auto; lra.
  - apply (three_log_sorted A B C s x z y); auto; lra.
  - apply (three_log_sorted A B C s z x y); auto; lra.
  - apply (three_log_sorted A B C s y x z); auto; lra.
  - apply (three_log_sorted A B C s y z x); auto; lra.
  - apply (three_log_sorted A B C s z y x); auto; lra.
Qed.

Lemma C141_beta_pf :
  forall bk kw kw' alpha beta alpha' beta' scale x y z vx vy vz, 0 < alpha -> 0 < beta -> 0 < alpha' -> 0 < beta' ->
  0 < x < scale -> 0 < y < scale -> 0 < z < scale -> x <> y -> y <> z -> x <> z ->
  let p := fun t => beta_dist bk kw (Fin t) (Fin alpha) (Fin beta) (Fin scale) in
  let p' := fun t => beta_dist bk kw' (Fin t) (Fin alpha') (Fin beta') (Fin scale) in
  p x = Ok (Fin vx) /\ p' x = Ok (Fin vx) -> p y = Ok (Fin vy) /\ p' y = Ok (Fin vy) -> p z = Ok (Fin vz) /\ p' z = Ok (Fin vz) ->
  alpha = alpha' /\ beta = beta'.
Proof.
  intros bk kw kw' a b a' b' s x y z vx vy vz Ha Hb Ha' Hb' Hx Hy Hz N1 N2 N3 p p' [X X'] [Y Y'] [Z Z'].
  assert (Hs : 0 < s) by lra.
  unfold p, p' in *. apply beta_value in X, X', Y, Y', Z, Z'; auto.
  assert (E : forall t, 0 < t < s -> bpdf a b s t = bpdf a' b' s t ->
     (a - a') * ln t + (b - b') * ln (s - t) + (ln (Beta_fun a' b' * Rpower s (a' + b' - 1)) - ln (Beta_fun a b * Rpower s (a + b - 1))) = 0).
  { intros t Ht H. apply (f_equal ln) in H. rewrite !beta_log in H by auto. lra. }
  destruct (three_log _ _ _ s x y z Hx Hy Hz N1 N2 N3 (E x Hx ltac:(congruence)) (E y Hy ltac:(congruence)) (E z Hz ltac:(congruence))) as [A B].
  split; lra.
Qed.

Lemma C141_redshift_pf :
  forall available z_max cosmo_model r parameters parameters' c lamb lamb' N N' x y dx dy vx vy,
  redshift_init available powerlaw_rate z_max cosmo_model = Ok r ->
  cosmology_of (rs_mixin r) parameters = Ok c -> cosmology_of (rs_mixin r) parameters' = Ok c ->
  dget "lamb" parameters = Some (Fin lamb) -> dget "lamb" parameters' = Some (Fin lamb') ->
  normalisation r parameters = Ok (Fin N) -> normalisation r parameters' = Ok (Fin N') -> 0 < N -> 0 < N' ->
  -1 < x <= z_max -> -1 < y <= z_max -> x <> y -> co_dvc c (Fin x) = Fin dx -> co_dvc c (Fin y) = Fin dy -> 0 < dx -> 0 < dy ->
  probability r [("redshift"%string, [Fin x; Fin y])] parameters = Ok [Fin vx; Fin vy] ->
  probability r [("redshift"%string, [Fin x; Fin y])] parameters' = Ok [Fin vx; Fin vy] -> lamb = lamb'.
Proof.
  intros av zm name r p p' c l l' N N' x y dx dy vx vy Hi Hc Hc' L L' HN HN' NP NP' Hx Hy D Dx Dy Px Py E E'.
  destruct (init_rs _ _ _ _ _ Hi) as (I1 & I2 & I3 & _).
  assert (V : forall q m M z dz, cosmology_of (rs_mixin r) q = Ok c -> dget "lamb"%string q = Some (Fin m) -> 0 < M -> -1 < z <= zm -> co_dvc c (Fin z) = Fin dz ->
     differential_spacetime_volume_at r true q (Fin z) = Ok (Fin (Rpower (1 + z) m / (1 + z) * (4 * PI * dz)))).
  { intros q m M z dz Cq Lq MP Hz Dz. rewrite (dsv_val r q c z (Rpower (1 + z) m) dz); auto; try lra.
    - rewrite I2. destruct (Rle_dec z zm); [reflexivity|lra].
    - rewrite I3. cbn [powerlaw_rate ra_psi]. apply plaw_val; auto; lra. }
  rewrite (prob_col _ _ _ _ HN) in E. rewrite (prob_col _ _ _ _ HN') in E'. cbn [mapM] in E, E'.
  rewrite (V p l N x dx), (V p l N y dy) in E by auto. rewrite (V p' l' N' x dx), (V p' l' N' y dy) in E' by auto. cbn [bind map] in E, E'.
  rewrite !fdiv_fin in E, E' by lra.
  injection E as <- <-. injection E' as E1 E2. assert (Q := PI_RGT_0).
  assert (R : forall z dz, -1 < z -> 0 < dz -> Rpower (1 + z) l' / (1 + z) * (4 * PI * dz) / N' = Rpower (1 + z) l / (1 + z) * (4 * PI * dz) / N ->
     Rpower (1 + z) l * / N = Rpower (1 + z) l' * / N').
  { intros z dz Hz Hd W. apply (Rmult_eq_reg_r (/ (1 + z) * (4 * PI * dz))).
    - unfold Rdiv in W. lra.
    - apply Rgt_not_eq, Rmult_lt_0_compat; [apply Rinv_0_lt_compat; lra|nra]. }
  apply (two_points l l' (1 + x) (1 + y) (/ N) (/ N')); try lra; try (apply Rinv_0_lt_compat; auto); [apply (R x dx)|apply (R y dy)]; auto; lra.
Qed.

Lemma tn_value_or bk kw m mu s h l : (exists v, truncnorm bk kw m mu s h l = Ok (Fin v)) \/ truncnorm bk kw m mu s h l = Err ValueError.
Proof.
  rewrite truncnorm_cases. assert (E : exists v, truncnorm_body m mu s h l = Fin v).
  { unfold truncnorm_body. cbv zeta. match goal with |- context [nan_to_num ?x] => destruct (nan_to_num_fin x) as [r ->] end.
    destruct (fge m l), (fle m h); cbn; eexists; reflexivity. }
  destruct E as [v ->].
  destruct (is_jax bk); [left; eauto|]. destruct (_ && _); [right; reflexivity|left; eauto].
Qed.
Lemma three_swap bk m alpha mmin mmax lam lam_1 mpp_1 sigpp_1 mpp_2 sigpp_2 g :
  three_component_single bk m alpha mmin mmax (Fin lam) (Fin lam_1) mpp_1 sigpp_1 mpp_2 sigpp_2 g =
  three_component_single bk m alpha mmin mmax (Fin lam) (Fin (1 - lam_1)) mpp_2 sigpp_2 mpp_1 sigpp_1 g.
Proof.
  unfold three_component_single. destruct (powerlaw _ _ _ _ _ _) as [p|]; [|reflexivity]. cbn [bind].
  destruct (tn_value_or bk tn_kw m mpp_1 sigpp_1 g mmin) as [[a ->]| ->]; destruct (tn_value_or bk tn_kw m mpp_2 sigpp_2 g mmin) as [[b ->]| ->];
    cbn [bind]; try reflexivity.
  f_equal. rewrite !fsub_fin, !fmul_fin. replace (1 - (1 - lam_1)) with lam_1 by ring.
  destruct (fmul (Fin (1 - lam)) p); cbn [fadd]; try reflexivity. f_equal. ring.
Qed.

Lemma C141_peak_labels_pf :
  forall bk mass alpha mmin mmax lam lam_1 mpp_1 sigpp_1 mpp_2 sigpp_2 gaussian_mass_maximum,
  three_component_single bk mass alpha mmin mmax (Fin lam) (Fin lam_1) mpp_1 sigpp_1 mpp_2 sigpp_2 gaussian_mass_maximum =
  three_component_single bk mass alpha mmin mmax (Fin lam) (Fin (1 - lam_1)) mpp_2 sigpp_2 mpp_1 sigpp_1 gaussian_mass_maximum.
Proof. exact three_swap. Qed.

Lemma mapM_ext {A B} (f g : A -> result B) l : (forall x, f x = g x) -> mapM f l = mapM g l.
Proof. intros H. induction l as [|x l IH]; [reflexivity|]. cbn [mapM]. now rewrite H, IH. Qed.
Lemma p_m1_ext bk f self ds kw kw' : dget_default "mmin" (sm_mmin self) kw = dget_default "mmin" (sm_mmin self) kw' ->
  dget_default "delta_m" (Fin 0) kw = dget_default "delta_m" (Fin 0) kw' ->
  dget_default "mmin" (sm_mmin self) (ddel "delta_m" kw) = dget_default "mmin" (sm_mmin self) (ddel "delta_m" kw') ->
  (forall m, f (ddel "delta_m" kw) m = f (ddel "delta_m" kw') m) -> p_m1 bk f self ds kw = p_m1 bk f self ds kw'.
Proof.
  intros A B C H. unfold p_m1, norm_p_m1, smoothed_primary. cbv zeta. rewrite A, B, C.
  assert (E : forall M d l, mapM (fun m => p <- f (ddel "delta_m" kw) m ;; Ok (fmul p (smoothing bk m M (sm_mmax self) d))) l =
     mapM (fun m => p <- f (ddel "delta_m" kw') m ;; Ok (fmul p (smoothing bk m M (sm_mmax self) d))) l).
  { intros M d l. apply mapM_ext. intros m. now rewrite H. }
  destruct (dlookup "mass_1" ds); cbn [bind]; [|reflexivity]. now rewrite !E.
Qed.
Lemma C141_multipeak_labels_pf :
  forall bk linterp dataset s alpha mmin mmax lam lam_1 mpp_1 sigpp_1 mpp_2 sigpp_2 beta delta_m,
  let kwargs := fun l m1 s1 m2 s2 => [("alpha", alpha); ("mmin", mmin); ("mmax", mmax); ("lam", Fin lam); ("lam_1", Fin l); ("mpp_1", m1);
     ("sigpp_1", s1); ("mpp_2", m2); ("sigpp_2", s2); ("beta", beta); ("delta_m", delta_m)]%string in
  class_call MultiPeak bk linterp dataset (kwargs lam_1 mpp_1 sigpp_1 mpp_2 sigpp_2) s =
  class_call MultiPeak bk linterp dataset (kwargs (1 - lam_1) mpp_2 sigpp_2 mpp_1 sigpp_1) s.
Proof.
  intros bk li ds s a mn mx lam l m1 s1 m2 s2 beta dm kwargs. unfold class_call, class_primary, smoothed_call, kwargs.
  unfold class_kwargs. cbn -[p_m1 p_q bcast negb is_jax flt fgt]. unfold sbind, slift, sget. cbn -[p_m1 p_q bcast negb is_jax flt fgt].
  destruct (negb (is_jax bk) && flt mn (sm_mmin s)); [reflexivity|]. destruct (negb (is_jax bk) && fgt mx (sm_mmax s)); [reflexivity|].
  match goal with |- context [p_m1 bk (three_component_kw bk) s ds ?k1] =>
    match goal with |- context [p_m1 bk (three_component_kw bk) s ds ?k2] => 
      lazymatch k1 with k2 => fail | _ => rewrite (p_m1_ext bk (three_component_kw bk) s ds k1 k2) end end end; try reflexivity.
  intros m. cbn [ddel filter fst String.eqb Ascii.eqb Bool.eqb negb]. unfold three_component_kw, kwbind. cbn -[three_component_single]. apply three_swap.
Qed.

