(** Proofs of the property theorems stated in [Props_spin]. *)
From Coq Require Import Reals Lra Lia Psatz String Bool.
From Coquelicot Require Import Coquelicot.
From Coq Require Import List.
From Verif Require Import Xf Py Xf_facts Py_facts Calc Special Gauss_facts Spec Utils_model Powerlaw_facts Truncnorm_facts Beta_facts Trap_facts
  Utils_facts Np Np_facts Mass_model Mass_facts Spin_model.
Import ListNotations.
Local Open Scope R_scope.

Definition bval (a b s x : R) : R := toR (beta_dist_body (Fin x) (Fin a) (Fin b) (Fin s)).
Lemma bval_eq a b s x : beta_dist_body (Fin x) (Fin a) (Fin b) (Fin s) = Fin (bval a b s x) /\ 0 <= bval a b s x.
Proof.
  unfold bval. destruct (beta_dist_body_nonneg (Fin a) (Fin b) (Fin s) x) as [r [E Hr]]. now rewrite E.
Qed.

Lemma C38_independent_spin_magnitude_pf :
  forall bk alpha_1 alpha_2 beta_1 beta_2 amax_1 amax_2,
  0 < alpha_1 -> 0 < alpha_2 -> 0 < beta_1 -> 0 < beta_2 -> 0 < amax_1 -> 0 < amax_2 ->
  let f := fun a_1 a_2 => independent_spin_magnitude_beta bk (Fin a_1) (Fin a_2)
             (Fin alpha_1) (Fin alpha_2) (Fin beta_1) (Fin beta_2) (Fin amax_1) (Fin amax_2) in
  exists g1 g2 : R -> R,
    (forall a_1 a_2, returns (f a_1 a_2) (g1 a_1 * g2 a_2)) /\
    (forall x, 0 <= g1 x /\ 0 <= g2 x) /\
    is_RInt_gen g1 (at_right 0) (at_left amax_1) 1 /\ is_RInt_gen g2 (at_right 0) (at_left amax_2) 1 /\
    (forall x, x < 0 \/ amax_1 < x -> g1 x = 0) /\ (forall x, x < 0 \/ amax_2 < x -> g2 x = 0) /\
    (exists k1, 0 < k1 /\ forall x, 0 < x < amax_1 -> g1 x = k1 * (Rpower x (alpha_1 - 1) * Rpower (amax_1 - x) (beta_1 - 1))) /\
    (exists k2, 0 < k2 /\ forall x, 0 < x < amax_2 -> g2 x = k2 * (Rpower x (alpha_2 - 1) * Rpower (amax_2 - x) (beta_2 - 1))).
Proof.
  intros bk a1 a2 b1 b2 s1 s2 Ha1 Ha2 Hb1 Hb2 Hs1 Hs2 f.
  assert (I : forall a b s, 0 < a -> 0 < b -> 0 < s -> is_RInt_gen (bval a b s) (at_right 0) (at_left s) 1).
  { intros a b s Ha Hb Hs. apply (is_RInt_gen_ext (bpdf a b s)).
    - exists (fun x => 0 < x < s) (fun x => 0 < x < s).
      + exists (mkposreal s Hs). intros y Hy Hp. unfold ball in Hy; simpl in Hy; unfold AbsRing_ball, abs, minus, plus, opp in Hy; simpl in Hy.
        unfold Rabs in Hy; destruct (Rcase_abs _); lra.
      + exists (mkposreal s Hs). intros y Hy Hp. unfold ball in Hy; simpl in Hy; unfold AbsRing_ball, abs, minus, plus, opp in Hy; simpl in Hy.
        unfold Rabs in Hy; destruct (Rcase_abs _); lra.
      + intros x y Hx Hy t Ht. simpl in Ht. unfold bval. rewrite beta_dist_body_in; auto.
        unfold Rmin, Rmax in Ht; destruct (Rle_dec x y); lra.
    - now apply bpdf_int. }
  assert (O : forall a b s x, x < 0 \/ s < x -> bval a b s x = 0).
  { intros a b s x Hx. unfold bval. now rewrite beta_dist_body_out. }
  assert (S : forall a b s, 0 < a -> 0 < b -> 0 < s ->
     exists k, 0 < k /\ forall x, 0 < x < s -> bval a b s x = k * (Rpower x (a - 1) * Rpower (s - x) (b - 1))).
  { intros a b s Ha Hb Hs. destruct (Beta_exists a b Ha Hb) as [HB _].
    assert (P := Rpower_pos s (a + b - 1)).
    exists (/ (Beta_fun a b * Rpower s (a + b - 1))). split.
    - apply Rinv_0_lt_compat, Rmult_lt_0_compat; auto.
    - intros x Hx. unfold bval. rewrite beta_dist_body_in by auto. simpl. unfold bpdf, Rdiv. ring. }
  exists (bval a1 b1 s1), (bval a2 b2 s2).
  split; [|split; [|split; [|split; [|split; [|split; [|split]]]]]]; auto.
  - intros x y. red. unfold f, independent_spin_magnitude_beta. rewrite !beta_dist_ok by auto. cbn [bind].
    rewrite (proj1 (bval_eq a1 b1 s1 x)), (proj1 (bval_eq a2 b2 s2 y)). reflexivity.
  - intros x. split; apply bval_eq.
Qed.

Lemma C38_iid_is_independent_pf :
  forall bk a_1 a_2 amax alpha beta,
  iid_spin_magnitude_beta bk a_1 a_2 amax alpha beta =
  independent_spin_magnitude_beta bk a_1 a_2 alpha alpha beta beta amax amax.
Proof. reflexivity. Qed.

Lemma C39_orientation_density_pf :
  forall bk xi sigma_1 sigma_2 mu_1 mu_2, 0 < sigma_1 -> 0 < sigma_2 ->
  let f := fun z_1 z_2 => independent_spin_orientation_gaussian_isotropic bk (Fin z_1) (Fin z_2)
             (Fin xi) (Fin sigma_1) (Fin sigma_2) (Fin mu_1) (Fin mu_2) in
  integrates2_to f (-1) 1 (fun _ => -1) (fun _ => 1) 1 /\
  (0 <= xi <= 1 -> forall z_1 z_2, exists r, returns (f z_1 z_2) r /\ 0 <= r) /\
  (forall z_1 z_2, exists n_1 n_2,
      returns (truncnorm bk [] (Fin z_1) (Fin mu_1) (Fin sigma_1) (Fin 1) (Fin (-1))) n_1 /\
      returns (truncnorm bk [] (Fin z_2) (Fin mu_2) (Fin sigma_2) (Fin 1) (Fin (-1))) n_2 /\
      returns (f z_1 z_2) ((1 - xi) * (1 / 4) + xi * (n_1 * n_2))).
Proof.
  intros bk xi s1 s2 m1 m2 H1 H2 f.
  set (n1 := tnval m1 s1 1 (-1)). set (n2 := tnval m2 s2 1 (-1)).
  assert (V : forall x y, f x y = Ok (Fin ((1 - xi) / 4 + xi * n1 x * n2 y))).
  { intros x y. unfold f, independent_spin_orientation_gaussian_isotropic.
    rewrite !truncnorm_val by lra. cbn [bind]. autorewrite with xf. rewrite fdiv_fin by lra. autorewrite with xf. reflexivity. }
  split; [|split].
  - exists (fun x y => (1 - xi) / 4 + xi * n1 x * n2 y), (fun x => (1 - xi) / 2 + xi * n1 x). split; [|split].
    + intros; apply V.
    + intros x Hx. evar_last. apply is_RInt_plusR.
      * apply (is_RInt_const (-1) 1 ((1 - xi) / 4)).
      * apply (is_RInt_ext (fun y => n2 y * (xi * n1 x))); [intros; eqR; ring|].
        apply is_RInt_scal_r. apply tnval_int; lra.
      * eqR. unfold scal; simpl; unfold mult; simpl. field.
    + evar_last. apply is_RInt_plusR.
      * apply (is_RInt_const (-1) 1 ((1 - xi) / 2)).
      * apply (is_RInt_ext (fun x => n1 x * xi)); [intros; eqR; ring|].
        apply is_RInt_scal_r. apply tnval_int; lra.
      * eqR. unfold scal; simpl; unfold mult; simpl. field.
  - intros Hx x y. eexists; split; [apply V|].
    assert (A : 0 <= n1 x) by (apply tnval_nonneg; lra). assert (B : 0 <= n2 y) by (apply tnval_nonneg; lra).
    apply Rplus_le_le_0_compat; [apply Rmult_le_pos; lra|]. repeat apply Rmult_le_pos; lra.
  - intros x y. exists (n1 x), (n2 y).
    split; [|split]; [red; now rewrite truncnorm_val by lra|red; now rewrite truncnorm_val by lra|].
    red. rewrite V. do 2 f_equal. field.
Qed.

Lemma C39_documented_weight_pf :
  forall xi sigma_1 sigma_2 mu_1 mu_2, 0 < sigma_1 -> 0 < sigma_2 ->
  exists n_1 n_2 : R -> R,
    (forall z, returns (truncnorm Numpy [] (Fin z) (Fin mu_1) (Fin sigma_1) (Fin 1) (Fin (-1))) (n_1 z)) /\
    (forall z, returns (truncnorm Numpy [] (Fin z) (Fin mu_2) (Fin sigma_2) (Fin 1) (Fin (-1))) (n_2 z)) /\
    integrates2_to (fun z_1 z_2 => Ok (Fin ((1 - xi) ^ 2 / 4 + xi * (n_1 z_1 * n_2 z_2)))) (-1) 1 (fun _ => -1) (fun _ => 1)
      (1 - xi + xi ^ 2).
Proof.
  intros xi s1 s2 m1 m2 H1 H2.
  set (n1 := tnval m1 s1 1 (-1)). set (n2 := tnval m2 s2 1 (-1)). exists n1, n2.
  split; [|split].
  - intros z; red; now rewrite truncnorm_val by lra.
  - intros z; red; now rewrite truncnorm_val by lra.
  - exists (fun x y => (1 - xi) ^ 2 / 4 + xi * (n1 x * n2 y)), (fun x => (1 - xi) ^ 2 / 2 + xi * n1 x). split; [|split].
    + intros; reflexivity.
    + intros x Hx. evar_last. apply is_RInt_plusR.
      * apply (is_RInt_const (-1) 1 ((1 - xi) ^ 2 / 4)).
      * apply (is_RInt_ext (fun y => n2 y * (xi * n1 x))); [intros; eqR; ring|].
        apply is_RInt_scal_r. apply tnval_int; lra.
      * eqR. unfold scal; simpl; unfold mult; simpl. field.
    + evar_last. apply is_RInt_plusR.
      * apply (is_RInt_const (-1) 1 ((1 - xi) ^ 2 / 2)).
      * apply (is_RInt_ext (fun x => n1 x * xi)); [intros; eqR; ring|].
        apply is_RInt_scal_r. apply tnval_int; lra.
      * eqR. unfold scal; simpl; unfold mult; simpl. field.
Qed.

Lemma C39_iid_is_independent_pf :
  forall bk z_1 z_2 xi sigma mu,
  iid_spin_orientation_gaussian_isotropic bk z_1 z_2 xi sigma mu =
  independent_spin_orientation_gaussian_isotropic bk z_1 z_2 xi sigma sigma mu mu.
Proof. reflexivity. Qed.

Lemma C40_chi_eff_density_pf :
  forall bk mu sigma, 0 < sigma ->
  let f := fun x => gaussian_chi_eff bk (Fin x) (Fin mu) (Fin sigma) in
  positive_on f (-1) 1 /\ integrates_to f (-1) 1 1 /\ zero_outside f (fun _ => True) (-1) 1 /\
  (forall x y, -1 <= x <= 1 -> -1 <= y <= 1 -> exists px py, returns (f x) px /\ returns (f y) py /\
      px * exp (- ((y - mu) / sigma) ^ 2 / 2) = py * exp (- ((x - mu) / sigma) ^ 2 / 2)).
Proof.
  intros bk mu s Hs f. destruct (truncnorm_density bk ["mu"; "sigma"; "low"; "high"]%string mu s 1 (-1)) as [A [B C]]; try lra.
  repeat split; auto. intros x y Hx Hy. exists (tnpdf mu s 1 (-1) x), (tnpdf mu s 1 (-1) y).
  split; [|split].
  - red. unfold f, gaussian_chi_eff. rewrite truncnorm_val, tnval_in by lra. reflexivity.
  - red. unfold f, gaussian_chi_eff. rewrite truncnorm_val, tnval_in by lra. reflexivity.
  - unfold tnpdf, gauss. unfold Rdiv. simpl pow. rewrite !Rmult_1_r. ring.
Qed.

Lemma C40_chi_p_density_pf :
  forall bk mu sigma, 0 < sigma ->
  let f := fun x => gaussian_chi_p bk (Fin x) (Fin mu) (Fin sigma) in
  positive_on f 0 1 /\ integrates_to f 0 1 1 /\ zero_outside f (fun _ => True) 0 1 /\
  (forall x y, 0 <= x <= 1 -> 0 <= y <= 1 -> exists px py, returns (f x) px /\ returns (f y) py /\
      px * exp (- ((y - mu) / sigma) ^ 2 / 2) = py * exp (- ((x - mu) / sigma) ^ 2 / 2)).
Proof.
  intros bk mu s Hs f. destruct (truncnorm_density bk ["mu"; "sigma"; "low"; "high"]%string mu s 1 0) as [A [B C]]; try lra.
  repeat split; auto. intros x y Hx Hy. exists (tnpdf mu s 1 0 x), (tnpdf mu s 1 0 y).
  split; [|split].
  - red. unfold f, gaussian_chi_p. rewrite truncnorm_val, tnval_in by lra. reflexivity.
  - red. unfold f, gaussian_chi_p. rewrite truncnorm_val, tnval_in by lra. reflexivity.
  - unfold tnpdf, gauss. unfold Rdiv. simpl pow. rewrite !Rmult_1_r. ring.
Qed.

Lemma C40_width_rejected_pf :
  forall bk x mu sigma, bk <> Jax -> fgt sigma (Fin 0) = false ->
  gaussian_chi_eff bk x mu sigma = Err ValueError /\ gaussian_chi_p bk x mu sigma = Err ValueError.
Proof.
  intros bk x mu s Hb Hs. unfold gaussian_chi_eff, gaussian_chi_p. rewrite !truncnorm_cases, Hs.
  destruct bk; auto; congruence.
Qed.

Definition chival (mx sx my sy rho x y : R) : R := exp (g2exponent x y mx my sx sy rho (1 - rho)).
Definition chinorm (ge gp : list R) mx sx my sy rho : R :=
  Rtrap (map (fun p => Rtrap (map (fun e => chival mx sx my sy rho e p) ge) ge) gp) gp.
Lemma chi_norm_val ge gp mx sx my sy rho : 0 < sx -> 0 < sy -> rho <> 1 ->
  chi_normalization {| cg_eff := map Fin ge; cg_p := map Fin gp |} (Fin mx) (Fin sx) (Fin my) (Fin sy) (Fin rho)
  = Fin (chinorm ge gp mx sx my sy rho).
Proof.
  intros H1 H2 H3. unfold chi_normalization, chinorm. cbn [cg_eff cg_p].
  rewrite map_map.
  rewrite (map_ext _ (fun p => Fin (Rtrap (map (fun e => chival mx sx my sy rho e p) ge) ge))).
  - rewrite <- (map_map (fun p => Rtrap (map (fun e => chival mx sx my sy rho e p) ge) ge) Fin). apply trapezoid_fin.
  - intros p. rewrite map_map.
    rewrite (map_ext _ (fun e => Fin (chival mx sx my sy rho e p))).
    + rewrite <- (map_map (fun e => chival mx sx my sy rho e p) Fin). apply trapezoid_fin.
    + intros e. now apply g2_val.
Qed.
Lemma chinorm_pos ge gp mx sx my sy rho : (2 <= length ge)%nat -> (2 <= length gp)%nat ->
  strictly_increasing ge -> strictly_increasing gp -> 0 < chinorm ge gp mx sx my sy rho.
Proof.
  intros Le Lp Ie Ip. apply Rtrap_pos; auto; [now rewrite map_length|].
  apply Forall_map, Forall_forall. intros p _.
  apply Rtrap_pos; auto; [now rewrite map_length|].
  apply Forall_map, Forall_forall. intros e _. apply exp_pos.
Qed.
Lemma chi_call_val ge gp mx sx my sy rho x y : 0 < sx -> 0 < sy -> rho <> 1 ->
  (2 <= length ge)%nat -> (2 <= length gp)%nat -> strictly_increasing ge -> strictly_increasing gp ->
  chi_call {| cg_eff := map Fin ge; cg_p := map Fin gp |} (Fin x) (Fin y) (Fin mx) (Fin sx) (Fin my) (Fin sy) (Fin rho)
  = Fin (if Rleb (Rabs x) 1 && (Rleb y 1 && Rleb 0 y) then chival mx sx my sy rho x y / chinorm ge gp mx sx my sy rho else 0).
Proof.
  intros H1 H2 H3 Le Lp Ie Ip. unfold chi_call. rewrite chi_norm_val by auto.
  rewrite g2_val by auto. fold (chival mx sx my sy rho x y).
  assert (P := chinorm_pos ge gp mx sx my sy rho Le Lp Ie Ip).
  rewrite fdiv_fin by lra. cbv zeta. rewrite fabs_fin, !fle_fin, fge_fin.
  destruct (Rleb (Rabs x) 1), (Rleb y 1), (Rleb 0 y); cbn [of_bool andb]; autorewrite with xf; f_equal; field; lra.
Qed.

Lemma C41_chi_grid_normalised_pf :
  forall ge gp mu_eff sigma_eff mu_p sigma_p rho, 0 < sigma_eff -> 0 < sigma_p -> rho <> 1 ->
  (2 <= length ge)%nat -> (2 <= length gp)%nat -> strictly_increasing ge -> strictly_increasing gp ->
  (forall e, In e ge -> -1 <= e <= 1) -> (forall p, In p gp -> 0 <= p <= 1) ->
  let model := chi_call {| cg_eff := map Fin ge; cg_p := map Fin gp |} in
  exists v : R -> R -> R,
    (forall e p, model (Fin e) (Fin p) (Fin mu_eff) (Fin sigma_eff) (Fin mu_p) (Fin sigma_p) (Fin rho) = Fin (v e p)) /\
    trapezoid (map (fun p => trapezoid (map (fun e => Fin (v e p)) ge) (map Fin ge)) gp) (map Fin gp) = Fin 1.
Proof.
  intros ge gp mx sx my sy rho H1 H2 H3 Le Lp Ie Ip Be Bp model.
  assert (P := chinorm_pos ge gp mx sx my sy rho Le Lp Ie Ip). set (N := chinorm ge gp mx sx my sy rho) in *.
  eexists; split; [intros; apply chi_call_val; auto|]. fold N.
  set (w := fun e p => if Rleb (Rabs e) 1 && (Rleb p 1 && Rleb 0 p) then chival mx sx my sy rho e p / N else 0).
  replace (map (fun p => trapezoid _ _) gp) with (map Fin (map (Rmult (/ N)) (map (fun p => Rtrap (map (fun e => chival mx sx my sy rho e p) ge) ge) gp))).
  - rewrite trapezoid_fin, Rtrap_scale. fold (chinorm ge gp mx sx my sy rho). fold N. f_equal. field; lra.
  - rewrite !map_map. apply map_ext_in. intros p Hp.
    rewrite <- (map_map (fun e => w e p) Fin), trapezoid_fin. f_equal.
    rewrite <- Rtrap_scale, map_map. f_equal. apply map_ext_in. intros e He. unfold w.
    specialize (Be e He). specialize (Bp p Hp).
    rewrite (Rleb_true (Rabs e) 1) by (apply Rabs_le; lra). rewrite !Rleb_true by lra. cbn [andb]. unfold Rdiv; ring.
Qed.

Lemma C41_own_grid_pf :
  forall mu_eff sigma_eff mu_p sigma_p rho, 0 < sigma_eff -> 0 < sigma_p -> rho <> 1 ->
  let model := fun e p => chi_call chi_init e p (Fin mu_eff) (Fin sigma_eff) (Fin mu_p) (Fin sigma_p) (Fin rho) in
  trapezoid (map (fun p => trapezoid (map (fun e => model e p) (cg_eff chi_init)) (cg_eff chi_init)) (cg_p chi_init))
    (cg_p chi_init) = Fin 1 /\
  (forall e p, exists r, model (Fin e) (Fin p) = Fin r /\ 0 <= r /\
     (Rabs e <= 1 -> 0 <= p <= 1 -> 0 < r) /\ (1 < Rabs e \/ p < 0 \/ 1 < p -> r = 0)).
Proof.
  intros mx sx my sy rho H1 H2 H3 model.
  assert (Le : (2 <= length (linspace (-1) 1 500))%nat) by (rewrite linspace_length; lia).
  assert (Lp : (2 <= length (linspace 0 1 250))%nat) by (rewrite linspace_length; lia).
  assert (Ie : strictly_increasing (linspace (-1) 1 500)) by (apply linspace_incr; [lra|lia]).
  assert (Ip : strictly_increasing (linspace 0 1 250)) by (apply linspace_incr; [lra|lia]).
  assert (P := chinorm_pos _ _ mx sx my sy rho Le Lp Ie Ip).
  unfold chi_init, xlinspace in *. cbn [cg_eff cg_p] in *.
  revert model P Le Lp Ie Ip.
  assert (Be : forall e, In e (linspace (-1) 1 500) -> -1 <= e <= 1) by (intros; eapply linspace_bounds; eauto; lra).
  assert (Bp : forall e, In e (linspace 0 1 250) -> 0 <= e <= 1) by (intros; eapply linspace_bounds; eauto; lra).
  revert Be Bp. generalize (linspace (-1) 1 500) as ge. generalize (linspace 0 1 250) as gp.
  intros gp ge Be Bp model P Le Lp Ie Ip. split.
  - destruct (C41_chi_grid_normalised_pf ge gp mx sx my sy rho H1 H2 H3 Le Lp Ie Ip Be Bp) as [v [Hv T]].
    rewrite <- T. rewrite map_map. f_equal. apply map_ext. intros p. rewrite map_map. f_equal. apply map_ext.
    intros e. apply Hv.
  - intros e p. unfold model. rewrite chi_call_val by auto. eexists; split; [reflexivity|].
    assert (Q : 0 < chival mx sx my sy rho e p / chinorm ge gp mx sx my sy rho) by (apply Rdiv_lt_0_compat; [apply exp_pos|auto]).
    destruct (Rleb_spec (Rabs e) 1), (Rleb_spec p 1), (Rleb_spec 0 p); cbn [andb]; split; try lra; split; intros; lra.
Qed.

Lemma C42_iid_spin_product_pf :
  forall bk a_1 a_2 z_1 z_2 xi sigma amax alpha beta,
  let orientation := iid_spin_orientation_gaussian_isotropic bk z_1 z_2 xi sigma (Fin 1) in
  let magnitude := iid_spin_magnitude_beta bk a_1 a_2 amax alpha beta in
  (forall o m, orientation = Ok o -> magnitude = Ok m ->
      iid_spin bk a_1 a_2 z_1 z_2 xi sigma amax alpha beta = Ok (fmul o m)) /\
  (forall e, magnitude = Err e -> iid_spin bk a_1 a_2 z_1 z_2 xi sigma amax alpha beta = Err e).
Proof.
  intros bk a1 a2 z1 z2 xi s am al be o m. unfold iid_spin. fold o m. split.
  - intros ? ? -> ->. reflexivity.
  - intros e E. rewrite E.
    assert (exists v, o = Ok v) as [v ->]; [|reflexivity].
    unfold o, iid_spin_orientation_gaussian_isotropic, independent_spin_orientation_gaussian_isotropic.
    rewrite !truncnorm_cases. change (kw_in "sigma" []) with false. cbn [andb].
    destruct (is_jax bk); eexists; reflexivity.
Qed.

Lemma fmul_comm a b : fmul a b = fmul b a.
Proof. destruct a, b; simpl; auto. f_equal; ring. Qed.

Lemma C42_iid_spin_exchange_pf :
  forall bk a_1 a_2 z_1 z_2 xi sigma amax alpha beta, 0 < sigma -> 0 < amax -> 0 < alpha -> 0 < beta ->
  iid_spin bk (Fin a_1) (Fin a_2) (Fin z_1) (Fin z_2) (Fin xi) (Fin sigma) (Fin amax) (Fin alpha) (Fin beta) =
  iid_spin bk (Fin a_2) (Fin a_1) (Fin z_2) (Fin z_1) (Fin xi) (Fin sigma) (Fin amax) (Fin alpha) (Fin beta).
Proof.
  intros bk a1 a2 z1 z2 xi s am al be Hs Ha Hal Hbe.
  unfold iid_spin, iid_spin_orientation_gaussian_isotropic, independent_spin_orientation_gaussian_isotropic,
    iid_spin_magnitude_beta, independent_spin_magnitude_beta.
  rewrite !truncnorm_val by lra. rewrite !beta_dist_ok by auto. cbn [bind].
  rewrite (fmul_comm (beta_dist_body (Fin a2) _ _ _)). do 2 f_equal. f_equal. simpl. f_equal. ring.
Qed.

Lemma C14_validated_partial_pf :
  forall bk w, bk <> Jax -> fgt w (Fin 0) = false ->
  (forall x mu, gaussian_chi_eff bk x mu w = Err ValueError) /\
  (forall x mu, gaussian_chi_p bk x mu w = Err ValueError) /\
  (forall m alpha mmin mmax lam mpp gmax, two_component_single bk m alpha mmin mmax lam mpp w gmax = Err ValueError) /\
  (forall m alpha mmin mmax lam lam_1 m1 s1 m2 s2 gmax, s1 = w \/ s2 = w ->
      three_component_single bk m alpha mmin mmax lam lam_1 m1 s1 m2 s2 gmax = Err ValueError) /\
  (forall m a1 a2 mmin mmax bf lam mpp gmax,
      double_power_law_peak_primary_mass bk m a1 a2 mmin mmax bf lam mpp w gmax = Err ValueError) /\
  (forall a_1 a_2 al1 al2 be1 be2 s1 s2, s1 = w \/ s2 = w ->
      independent_spin_magnitude_beta bk a_1 a_2 al1 al2 be1 be2 s1 s2 = Err ValueError).
Proof.
  intros bk w Hb Hw.
  assert (J : is_jax bk = false) by (destruct bk; auto; congruence).
  assert (T : forall x mu h l, truncnorm bk tn_kw x mu w h l = Err ValueError).
  { intros. rewrite truncnorm_cases, J. change (kw_in "sigma" tn_kw) with true. now rewrite Hw. }
  assert (PE : forall x a h l, (exists v, powerlaw bk pl_kw x a h l = Ok v) \/ powerlaw bk pl_kw x a h l = Err ValueError).
  { intros. rewrite powerlaw_cases, J. destruct (_ && _); auto. destruct (_ && _); eauto. }
  assert (TE : forall x mu s h l, (exists v, truncnorm bk tn_kw x mu s h l = Ok v) \/ truncnorm bk tn_kw x mu s h l = Err ValueError).
  { intros. rewrite truncnorm_cases, J. destruct (_ && _); eauto. }
  split; [|split; [|split; [|split; [|split]]]].
  - intros. now apply C40_width_rejected_pf.
  - intros. now apply C40_width_rejected_pf.
  - intros. unfold two_component_single. rewrite T.
    destruct (PE m (fopp alpha) mmax mmin) as [[v ->]|E]; [reflexivity|now rewrite E].
  - intros m alpha mmin mmax lam lam_1 m1 s1 m2 s2 gmax Hs. unfold three_component_single.
    destruct (PE m (fopp alpha) mmax mmin) as [[v ->]|E]; [|now rewrite E]. cbn [bind].
    destruct Hs as [->| ->]; rewrite T; auto.
    destruct (TE m m1 s1 gmax mmin) as [[v' ->]|E]; [reflexivity|now rewrite E].
  - intros. unfold double_power_law_peak_primary_mass, double_power_law_primary_mass. rewrite T.
    repeat match goal with |- context [powerlaw bk pl_kw ?a ?b ?c ?d] =>
      destruct (PE a b c d) as [[? ->]| ->]; cbn [bind]; [|reflexivity] end. reflexivity.
  - intros a_1 a_2 al1 al2 be1 be2 s1 s2 Hs. unfold independent_spin_magnitude_beta.
    rewrite !beta_dist_cases, J. change (kw_in "alpha" ["scale"%string]) with false. change (kw_in "beta" ["scale"%string]) with false.
    change (kw_in "scale" ["scale"%string]) with true. cbn [andb].
    destruct Hs as [->| ->]; rewrite Hw; cbn [negb]; [reflexivity|].
    destruct (negb (fgt s1 (Fin 0))); reflexivity.
Qed.

Lemma C14_spin_not_validated_refuted_pf :
  (forall bk z_1 z_2 xi s_1 s_2 m_1 m_2,
     exists v, independent_spin_orientation_gaussian_isotropic bk z_1 z_2 xi s_1 s_2 m_1 m_2 = Ok v) /\
  (forall bk a_1 a_2 al_1 al_2 be_1 be_2 amax_1 amax_2, 0 < amax_1 -> 0 < amax_2 ->
     exists v, independent_spin_magnitude_beta bk a_1 a_2 al_1 al_2 be_1 be_2 (Fin amax_1) (Fin amax_2) = Ok v).
Proof.
  split.
  - intros. unfold independent_spin_orientation_gaussian_isotropic. rewrite !truncnorm_cases.
    change (kw_in "sigma" []) with false. cbn [andb]. destruct (is_jax bk); eexists; reflexivity.
  - intros. unfold independent_spin_magnitude_beta. rewrite !beta_dist_cases.
    change (kw_in "alpha" ["scale"%string]) with false. change (kw_in "beta" ["scale"%string]) with false. cbn [andb].
    rewrite !fgt_fin, !Rltb_true by auto. rewrite andb_false_r. destruct (is_jax bk); eexists; reflexivity.
Qed.

