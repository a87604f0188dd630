(** Proofs of the property theorems stated in [Props_agree]. *)
From Coq Require Import Reals Lra Lia Psatz String Bool.
From Coquelicot Require Import Coquelicot.
From Coq Require Import List FunctionalExtensionality.
From Verif Require Import Xf Py Xf_facts Py_facts St Np Utils_model Mass_model Spin_model Smoothed_model Cosmo_model Vt_model Hyperpe_model SpecAgree Smoothed_facts smoothed_thms.
Import ListNotations.
Local Open Scope R_scope.

(** [le r r']: the value of [r], if any, is the value of [r']. *)
Definition le {A} (r r' : result A) : Prop := forall v, r = Ok v -> r' = Ok v.
Lemma le_refl {A} (r : result A) : le r r.
Proof. intros v E; exact E. Qed.
Lemma le_err {A} e (r : result A) : le (Err e) r.
Proof. intros v E; discriminate. Qed.
Lemma le_bind {A B} (m m' : result A) (f f' : A -> result B) : le m m' -> (forall a, le (f a) (f' a)) -> le (bind m f) (bind m' f').
Proof. intros H K v E. destruct m as [a|e]; [|discriminate]. rewrite (H a eq_refl). now apply K. Qed.
Lemma le_mapM {A B} (f f' : A -> result B) l : (forall a, le (f a) (f' a)) -> le (mapM f l) (mapM f' l).
Proof. intros H. induction l as [|a l IH]; [apply le_refl|]. cbn [mapM]. apply le_bind; [apply H|]. intros b. apply le_bind; [apply IH|]. intros; apply le_refl. Qed.
Lemma le_bcast {A B C} (f : A -> B -> C) a b : le (bcast Numpy f a b) (bcast Jax f a b).
Proof. unfold bcast. destruct (bcast2 f a b); [apply le_refl|apply le_err]. Qed.
Lemma le_bcast_into {A B} (f : A -> B -> A) a b : le (bcast_into Numpy f a b) (bcast_into Jax f a b).
Proof.
  unfold bcast_into, bcast, bcast2. cbn [is_jax]. destruct (Nat.eqb _ _); [apply le_refl|]. destruct b as [|y [|y' b]]; try apply le_err.
  destruct a as [|x [|x' a]]; try apply le_refl.
Qed.
Lemma le_apply {A} c k (f : result A) : le (apply_conditions Numpy c k f) (apply_conditions Jax c k f).
Proof. unfold apply_conditions. cbn [is_jax]. intros v E. destruct (check_conditions c k); [exact E|discriminate]. Qed.
Lemma le_float_div a b : le (float_div Numpy a b) (float_div Jax a b).
Proof. unfold float_div. cbn [is_jax]. destruct (feq b (Fin 0)); [apply le_err|apply le_refl]. Qed.
Ltac lt := repeat first [apply le_refl | apply le_apply | apply le_bcast | apply le_bcast_into | apply le_float_div | apply le_mapM; intros | apply le_bind; [|intros]].

Lemma C109_analytic_densities_pf :
  let ok {A} (f : backend -> result A) := backends_agree f /\ jax_returns f in
  (forall kw x a b c, ok (fun bk => beta_dist bk kw x a b c)) /\ (forall kw x a h l, ok (fun bk => powerlaw bk kw x a h l)) /\ (forall kw x m s h l, ok (fun bk => truncnorm bk kw x m s h l)) /\
  (forall m a1 a2 mn mx bf, ok (fun bk => double_power_law_primary_mass bk m a1 a2 mn mx bf)) /\
  (forall m a1 a2 mn mx bf l mp sp g, ok (fun bk => double_power_law_peak_primary_mass bk m a1 a2 mn mx bf l mp sp g)) /\
  (forall m q a1 a2 be mn mx bf, ok (fun bk => double_power_law_primary_power_law_mass_ratio bk m q a1 a2 be mn mx bf)) /\
  (forall m al mn mx, ok (fun bk => power_law_mass bk m al mn mx)) /\
  (forall m al mn mx l mp sp g, ok (fun bk => two_component_single bk m al mn mx l mp sp g)) /\
  (forall m al mn mx l l1 m1 s1 m2 s2 g, ok (fun bk => three_component_single bk m al mn mx l l1 m1 s1 m2 s2 g)) /\
  (forall m q al be mn mx l mp sp g, ok (fun bk => two_component_primary_mass_ratio bk m q al be mn mx l mp sp g)) /\
  (forall m q al be mn mx, ok (fun bk => power_law_primary_mass_ratio bk m q al be mn mx)) /\
  (forall m1 m2 al be mn mx, ok (fun bk => power_law_primary_secondary_independent bk m1 m2 al be mn mx)) /\
  (forall m1 m2 al mn mx, ok (fun bk => power_law_primary_secondary_identical bk m1 m2 al mn mx)) /\
  (forall m1 m2 al be mn mx l mp sp g, ok (fun bk => two_component_primary_secondary_independent bk m1 m2 al be mn mx l mp sp g)) /\
  (forall m1 m2 al mn mx l mp sp g, ok (fun bk => two_component_primary_secondary_identical bk m1 m2 al mn mx l mp sp g)) /\
  (forall a1 a2 al1 al2 be1 be2 s1 s2, ok (fun bk => independent_spin_magnitude_beta bk a1 a2 al1 al2 be1 be2 s1 s2)) /\
  (forall a1 a2 s al be, ok (fun bk => iid_spin_magnitude_beta bk a1 a2 s al be)) /\
  (forall c1 c2 xi s1 s2 m1 m2, ok (fun bk => independent_spin_orientation_gaussian_isotropic bk c1 c2 xi s1 s2 m1 m2)) /\
  (forall c1 c2 xi s m, ok (fun bk => iid_spin_orientation_gaussian_isotropic bk c1 c2 xi s m)) /\
  (forall a1 a2 c1 c2 xi s mx al be, ok (fun bk => iid_spin bk a1 a2 c1 c2 xi s mx al be)) /\
  (forall x m s, ok (fun bk => gaussian_chi_eff bk x m s)) /\ (forall x m s, ok (fun bk => gaussian_chi_p bk x m s)).
Proof.
  intros ok.
  repeat match goal with |- _ /\ _ => split end; intros;
    (split; [split; [reflexivity|]; match goal with |- forall v, ?r = Ok v -> ?r' = Ok v => change (le r r') end|eexists; reflexivity]).
  all: repeat match goal with |- le (?f Numpy) (?f Jax) => unfold f | |- le ?l ?r => let h := eval cbv beta in l in progress (let l' := h in change (le l' r)) end.
  all: unfold iid_spin, iid_spin_orientation_gaussian_isotropic, iid_spin_magnitude_beta, independent_spin_orientation_gaussian_isotropic, independent_spin_magnitude_beta,
    two_component_primary_secondary_identical, two_component_primary_secondary_independent, power_law_primary_secondary_identical, power_law_primary_secondary_independent,
    power_law_primary_mass_ratio, two_component_primary_mass_ratio, mass_ratio_factor, two_component_single, three_component_single, power_law_mass,
    double_power_law_primary_power_law_mass_ratio, double_power_law_peak_primary_mass, double_power_law_primary_mass, gaussian_chi_eff, gaussian_chi_p, beta_dist, powerlaw, truncnorm; lt.
Qed.

Lemma smoothing_agree d bk m mn mx : fgt d (Fin 0) = true -> smoothing bk m mn mx d = smoothing Jax m mn mx d.
Proof. intros H. unfold smoothing. now rewrite H, !orb_true_r. Qed.
Lemma qd_agree d bk b mn : fgt d (Fin 0) = true -> qd bk b mn d = qd Jax b mn d.
Proof. intros H. apply functional_extensionality; intros m. apply functional_extensionality; intros q. unfold qd. now rewrite (smoothing_agree d bk). Qed.
Lemma qnorm_agree d bk qs b mn m : fgt d (Fin 0) = true -> qnorm bk qs b mn d m = qnorm Jax qs b mn d m.
Proof. intros H. unfold qnorm. now rewrite (qd_agree d bk) by auto. Qed.
Lemma norms_at_agree d bk li s b mn ms : fgt d (Fin 0) = true -> norms_at bk li s b mn d ms = norms_at Jax li s b mn d ms.
Proof. intros H. unfold norms_at. do 2 f_equal. apply map_ext. intros; now apply qnorm_agree. Qed.
Lemma le_rmap {A B} (f : A -> B) r r' : le r r' -> le (rmap f r) (rmap f r').
Proof. intros H v E. destruct r as [a|]; [|discriminate]. rewrite (H a eq_refl). exact E. Qed.
Lemma p_q_agree d li ds b mn s : fgt d (Fin 0) = true -> sm_masses s = None -> le (snd (p_q Numpy li ds b mn d s)) (snd (p_q Jax li ds b mn d s)).
Proof.
  intros H Hs. destruct (dget "mass_1" ds) as [m1|] eqn:E1.
  2:{ destruct (p_q_err Numpy li ds b mn d s) as [e [-> _]]; auto. apply le_err. }
  destruct (dget "mass_ratio" ds) as [q|] eqn:E2.
  2:{ destruct (p_q_err Numpy li ds b mn d s) as [e [-> _]]; auto. apply le_err. }
  destruct (bcast2 (qd Numpy b mn d) m1 q) as [pq|] eqn:E3.
  2:{ destruct (p_q_err Numpy li ds b mn d s) as [e [-> _]]; eauto 8. apply le_err. }
  rewrite (p_q_cases _ _ _ _ _ _ _ _ _ _ E1 E2 E3). rewrite (qd_agree d Numpy) in E3 by auto. rewrite (p_q_cases _ _ _ _ _ _ _ _ _ _ E1 E2 E3). rewrite Hs.
  destruct (sm_cache s); cbn [snd]; unfold fresh_pq; rewrite (norms_at_agree d Numpy) by auto; apply le_rmap, le_bcast_into.
Qed.
Lemma le_kw {A} (r : result A) f f' : (forall a : A, le (f a) (f' a)) -> @le xf (bind r f) (bind r f').
Proof. intros H. apply le_bind; [apply le_refl|exact H]. Qed.
Lemma class_primary_agree c kw m : le (class_primary c Numpy kw m) (class_primary c Jax kw m).
Proof.
  destruct c; cbn [class_primary]; unfold two_component_kw, three_component_kw, double_power_law_kw, double_power_law_peak_kw; apply le_kw; intros _;
  unfold two_component_single, three_component_single, double_power_law_peak_primary_mass, double_power_law_primary_mass, powerlaw, truncnorm; lt.
Qed.
Lemma smoothed_primary_agree c d s kw mn ms : fgt d (Fin 0) = true ->
  le (smoothed_primary Numpy (class_primary c Numpy) s kw mn d ms) (smoothed_primary Jax (class_primary c Jax) s kw mn d ms).
Proof.
  intros H. unfold smoothed_primary. apply le_mapM. intros m. apply le_bind; [apply class_primary_agree|]. intros a. rewrite (smoothing_agree d Numpy) by auto. apply le_refl.
Qed.
Lemma fgt_ne d : fgt d (Fin 0) = true -> feq d (Fin 0) = false.
Proof. destruct d as [r| | |]; try (intros; reflexivity). rewrite fgt_fin. destruct (Rltb_spec 0 r) as [L|L]; [|discriminate]. intros _. cbn [feq]. apply Reqb_false. lra. Qed.
Lemma p_m1_agree c s ds kw d : dget "delta_m" kw = Some d -> fgt d (Fin 0) = true ->
  le (p_m1 Numpy (class_primary c Numpy) s ds kw) (p_m1 Jax (class_primary c Jax) s ds kw).
Proof.
  intros D H. unfold p_m1. replace (dget_default "delta_m" (Fin 0) kw) with d by (unfold dget_default; now rewrite D). apply le_bind; [apply le_refl|intros m1].
  apply le_bind; [now apply smoothed_primary_agree|intros pm]. apply le_bind; [|intros; apply le_refl]. unfold norm_p_m1. rewrite (fgt_ne d H). cbn [is_jax negb andb].
  apply le_bind; [now apply smoothed_primary_agree|]. intros; apply le_refl.
Qed.
Lemma dget_app k (d e : dict xf) v : dget k d = Some v -> dget k (d ++ e)%list = Some v.
Proof. induction d as [|[k' v'] d IH]; cbn; [discriminate|]. destruct (String.eqb k k'); auto. Qed.

Lemma C109_smoothed_models_pf :
  forall c interp s dataset kwargs d, sm_masses s = None -> dget "delta_m"%string kwargs = Some d -> fgt d (Fin 0) = true ->
  backends_agree (fun bk => snd (class_call c bk interp dataset kwargs s)).
Proof.
  intros c li s ds kw d Hs D H. split; [unfold class_call; replace (class_primary c Cupy) with (class_primary c Numpy) by (destruct c; reflexivity); reflexivity|]. match goal with |- forall v, ?r = Ok v -> ?r' = Ok v => change (le r r') end.
  unfold class_call. rewrite !call_eq. destruct (dlookup "beta" kw) as [b|e]; [|apply le_err]. cbv zeta. cbn [is_jax negb andb].
  assert (D' : dget "delta_m" (ddel "beta" kw) = Some d) by (rewrite dget_ddel_other by discriminate; exact D).
  destruct (flt _ _); [apply le_err|]. destruct (fgt _ (sm_mmax s)); [apply le_err|].
  destruct (kw_merge _ _) as [kw'|] eqn:M; [|apply le_err].
  assert (D2 : dget "delta_m" kw' = Some d).
  { unfold kw_merge in M. destruct (existsb _ _); [discriminate|]. injection M as <-. now apply dget_app. }
  assert (A := p_m1_agree c s ds kw' d D2 H). destruct (p_m1 Numpy (class_primary c Numpy) s ds kw') as [pm|]; [|apply le_err]. rewrite (A pm eq_refl). cbn [snd].
  replace (dget_default "delta_m" (Fin 0) (ddel "beta" kw)) with d by (unfold dget_default; now rewrite D').
  match goal with |- le (match snd (p_q Numpy li ds b ?mn d s) with _ => _ end) _ => assert (Q := p_q_agree d li ds b mn s H Hs) end.
  destruct (snd (p_q Numpy li ds b _ d s)) as [pq|]; [|apply le_err]. rewrite (Q pq eq_refl). apply le_bcast.
Qed.

Lemma expit_small e : 999998 < e -> exists r, fexpit (fopp (Fin e)) = Fin r /\ 0 < r < / 999998.
Proof.
  intros H. exists (/ (1 + exp (- - e))). split.
  { unfold fexpit. cbn [fopp]. reflexivity. }
  assert (P := exp_pos (- - e)). assert (Q := exp_ineq1_le (- - e)). split; [apply Rinv_0_lt_compat; lra|]. apply Rinv_lt_contravar; [|lra]. apply Rmult_lt_0_compat; lra.
Qed.

Lemma C109_no_smoothing_refuted_pf :
  forall mmin mmax, mmin <= mmax ->
  smoothing Numpy (Fin mmin) (Fin mmin) (Fin mmax) (Fin 0) = Fin 1 /\ smoothing Cupy (Fin mmin) (Fin mmin) (Fin mmax) (Fin 0) = Fin 1 /\
  exists r, smoothing Jax (Fin mmin) (Fin mmin) (Fin mmax) (Fin 0) = Fin r /\ 0 < r < 2 / 1000000.
Proof.
  intros mn mx H. assert (Z : fgt (Fin 0) (Fin 0) = false) by (rewrite fgt_fin; apply Rltb_false; lra).
  split; [unfold smoothing; now rewrite Z|]. split; [unfold smoothing; now rewrite Z|].
  unfold smoothing. cbn [is_jax orb]. cbv zeta. rewrite fsub_fin. replace (fdiv (Fin (mn - mn)) (Fin 0)) with NaN.
  2:{ cbn [fdiv]. rewrite Reqb_true by auto. unfold inf_of_sign. now rewrite !Rltb_false by lra. }
  change (nan_to_num NaN) with (Fin 0). cbn [fclip]. rewrite Rltb_true by lra. rewrite fsub_fin, !fdiv_fin, fsub_fin by lra.
  destruct (expit_small (1 / (1 / 1000000) - 1 / (1 - 1 / 1000000)) ltac:(lra)) as (r & E & R0). rewrite E.
  rewrite fge_fin, fle_fin, !Rleb_true by lra. cbn [of_bool]. rewrite !fmul_fin. exists (r * (1 * 1)). split; [reflexivity|]. lra.
Qed.

Lemma le_trap a x : le (trapezoid_last Numpy a x) (trapezoid_last Jax a x).
Proof. unfold trapezoid_last. destruct (rev (ar_shape a)) as [|n r]; [apply le_err|]. destruct (Nat.eqb _ _); [apply le_refl|apply le_err]. Qed.
Lemma le_axes g n a : le (integrate_axes Numpy g n a) (integrate_axes Jax g n a).
Proof.
  revert a. induction n as [|n IH]; intros a; [apply le_refl|]. cbn [integrate_axes]. destruct (iget n (gv_axes g)) as [k|]; [|apply le_err].
  apply le_bind; [apply le_refl|]. intros x. apply le_bind; [apply le_trap|]. intros b. apply IH.
Qed.
Lemma axes_cupy g n a : integrate_axes Cupy g n a = integrate_axes Numpy g n a.
Proof.
  revert a. induction n as [|n IH]; intros a; [reflexivity|]. cbn [integrate_axes]. destruct (iget n (gv_axes g)) as [k|]; [|reflexivity]. destruct (dlookup k (gv_values g)) as [x|]; [|reflexivity]. cbn [bind].
  change (trapezoid_last Cupy a x) with (trapezoid_last Numpy a x). destruct (trapezoid_last Numpy a x); [apply IH|reflexivity].
Qed.
Lemma ag2_cupy {A B C} (f : backend -> A -> B -> result C) : (forall a b, backends_agree (fun bk => f bk a b)) -> f Cupy = f Numpy.
Proof. intros H. apply functional_extensionality; intros a. apply functional_extensionality; intros b. apply H. Qed.
Lemma ag1_cupy {A C} (f : backend -> A -> result C) : (forall a, backends_agree (fun bk => f bk a)) -> f Cupy = f Numpy.
Proof. intros H. apply functional_extensionality; intros a. apply H. Qed.
Ltac tole := match goal with |- forall v, ?r = Ok v -> ?r' = Ok v => change (le r r') end.

Lemma C109_selection_functions_pf :
  forall (prob : backend -> dict (list xf) -> dict xf -> result (list xf)) (gprob : backend -> dict array -> dict xf -> result array),
  (forall d h, backends_agree (fun bk => prob bk d h)) -> (forall d h, backends_agree (fun bk => gprob bk d h)) ->
  (forall v h, backends_agree (fun bk => detection_efficiency bk (prob bk) v h)) /\
  (forall v h, backends_agree (fun bk => vt_factor bk (prob bk) v h)) /\
  (forall v h, backends_agree (fun bk => resampling_call bk (prob bk) v h)) /\
  (forall g h, backends_agree (fun bk => gridvt_call bk (gprob bk) g h)).
Proof.
  intros prob gprob P G.
  assert (DE : forall v h, le (detection_efficiency Numpy (prob Numpy) v h) (detection_efficiency Jax (prob Jax) v h)).
  { intros v h. unfold detection_efficiency. apply le_bind; [exact (proj2 (P _ _))|]. intros p. lt. }
  assert (VF : forall v h, le (vt_factor Numpy (prob Numpy) v h) (vt_factor Jax (prob Jax) v h)).
  { intros v h. unfold vt_factor. apply le_bind; [apply DE|]. intros [mu var]. lt. }
  split; [|split; [|split]]; intros; (split; [first [rewrite (ag2_cupy prob P)|rewrite (ag2_cupy gprob G)]; first [reflexivity|unfold gridvt_call; f_equal; apply functional_extensionality; intros; destruct (list_eq_dec _ _ _); [apply axes_cupy|reflexivity]]|]); tole; try solve [auto].
  - unfold resampling_call. destruct (rv_marginalize v); [apply le_rmap, VF|]. apply le_bind; [apply DE|]. intros [mu var]. apply le_refl.
  - unfold gridvt_call. apply le_bind; [exact (proj2 (G _ _))|]. intros p. destruct (list_eq_dec _ _ _); [apply le_axes|apply le_err].
Qed.

Lemma le_convert_keys data st : le (convert_keys Numpy data st) (convert_keys Jax data st).
Proof.
  revert st. induction data as [|[k col] data IH]; intros st; [apply le_refl|]. cbn [convert_keys]. apply le_bind; [|intros; apply IH].
  unfold convert_key. destruct st as [samples jac]. destruct (endswith _ _); [lt|]. destruct (negb _); apply le_refl.
Qed.

Lemma C109_cosmology_pf :
  forall z_at_value m (prob : backend -> dict (list xf) -> dict xf -> result (list xf)), (forall d h, backends_agree (fun bk => prob bk d h)) ->
  (forall data h, backends_agree (fun bk => detector_frame_to_source_frame bk z_at_value m data h)) /\
  (forall data h, backends_agree (fun bk => cosmo_prob bk z_at_value m (prob bk) data h)).
Proof.
  intros zf m prob P.
  assert (D : forall data h, le (detector_frame_to_source_frame Numpy zf m data h) (detector_frame_to_source_frame Jax zf m data h)).
  { intros data h. unfold detector_frame_to_source_frame. apply le_bind; [apply le_refl|]. intros st. apply le_convert_keys. }
  split; intros; (split; [try rewrite (ag2_cupy prob P); reflexivity|]); tole; auto.
  unfold cosmo_prob. apply le_bind; [apply D|]. intros [samples jac]. apply le_bind; [exact (proj2 (P _ _))|]. intros p. lt.
Qed.

Lemma le_mdiv a b : le (mdiv Numpy a b) (mdiv Jax a b).
Proof. unfold mdiv. destruct b as [q|]; [|apply le_refl]. destruct (same_shape a q); [apply le_refl|apply le_err]. Qed.
Lemma le_madd a b : le (madd Numpy a b) (madd Jax a b).
Proof. unfold madd. destruct (same_shape a b); [apply le_refl|apply le_err]. Qed.

Lemma C109_likelihoods_pf :
  forall (prob : backend -> dict matrix -> dict xf -> result matrix) (sel : backend -> dict xf -> result selection) (conv : backend -> dict xf -> result (dict xf)) L,
  (forall d h, backends_agree (fun bk => prob bk d h)) -> (forall h, backends_agree (fun bk => sel bk h)) -> (forall h, backends_agree (fun bk => conv bk h)) ->
  (forall h, backends_agree (fun bk => per_event bk (prob bk) L h)) /\
  (forall h, backends_agree (fun bk => ln_likelihood_and_variance bk (prob bk) (sel bk) (conv bk) L h)) /\
  (forall h, backends_agree (fun bk => log_likelihood_ratio bk (prob bk) (sel bk) (conv bk) L h)) /\
  (forall h, backends_agree (fun bk => log_likelihood bk (prob bk) (sel bk) (conv bk) L h)) /\
  (forall h, backends_agree (fun bk => generate_extra_statistics bk (prob bk) (sel bk) (conv bk) L h)) /\
  (forall vm draw h, backends_agree (fun bk => generate_rate_posterior_sample (sel bk) vm draw L h)) /\
  (forall choose samples, backends_agree (fun bk => posterior_predictive_resample bk (prob bk) (conv bk) choose L samples)).
Proof.
  intros prob sel conv L P S C.
  assert (EW : forall h, le (event_weights Numpy (prob Numpy) L h) (event_weights Jax (prob Jax) L h)).
  { intros h. unfold event_weights. apply le_bind; [exact (proj2 (P _ _))|]. intros a. apply le_mdiv. }
  assert (PE : forall h, le (per_event Numpy (prob Numpy) L h) (per_event Jax (prob Jax) L h)).
  { intros h. unfold per_event. apply le_bind; [apply EW|]. intros w. apply le_refl. }
  assert (SU : forall h, le (selection_with_uncertainty (sel Numpy) h) (selection_with_uncertainty (sel Jax) h)).
  { intros h. unfold selection_with_uncertainty. apply le_bind; [exact (proj2 (S _))|]. intros s. apply le_refl. }
  assert (SF : forall h, le (selection_factor Numpy (sel Numpy) L h) (selection_factor Jax (sel Jax) L h)).
  { intros h. unfold selection_factor. apply le_bind; [apply SU|]. intros [s v]. destruct (li_kind L); lt. }
  assert (LL : forall h, le (ln_likelihood_and_variance Numpy (prob Numpy) (sel Numpy) (conv Numpy) L h) (ln_likelihood_and_variance Jax (prob Jax) (sel Jax) (conv Jax) L h)).
  { intros h. unfold ln_likelihood_and_variance. apply le_bind; [exact (proj2 (C _))|]. intros p. apply le_bind; [apply PE|]. intros [a b]. apply le_bind; [apply SF|]. intros [s v]. destruct (li_kind L); lt. }
  assert (LR : forall h, le (log_likelihood_ratio Numpy (prob Numpy) (sel Numpy) (conv Numpy) L h) (log_likelihood_ratio Jax (prob Jax) (sel Jax) (conv Jax) L h)).
  { intros h. unfold log_likelihood_ratio. apply le_bind; [apply LL|]. intros [a b]. apply le_refl. }
  repeat match goal with |- _ /\ _ => split end; intros; (split; [rewrite ?(ag2_cupy prob P), ?(ag1_cupy sel S), ?(ag1_cupy conv C); reflexivity|]); tole; auto.
  - unfold log_likelihood. apply le_bind; [apply LR|]. intros l. apply le_refl.
  - unfold generate_extra_statistics. apply le_bind; [exact (proj2 (C _))|]. intros p. apply le_bind; [apply PE|]. intros [a b]. apply le_bind; [apply SU|]. intros [s v]. lt.
  - unfold generate_rate_posterior_sample. destruct (li_kind L); try apply le_refl; (apply le_bind; [|intros; apply le_refl]); destruct vm; lt; exact (proj2 (S _)).
  - assert (AC : forall w, le (accumulate Numpy (prob Numpy) (conv Numpy) L samples w) (accumulate Jax (prob Jax) (conv Jax) L samples w)).
    { induction samples as [|s samples IH]; intros w; [apply le_refl|]. cbn [accumulate]. apply le_bind; [exact (proj2 (C _))|]. intros p. apply le_bind; [apply EW|]. intros n.
      apply le_bind; [apply le_madd|]. intros w'. apply IH. }
    unfold posterior_predictive_resample. apply le_bind; [apply AC|]. intros w. cbv zeta. apply le_bind; [|intros; apply le_refl]. apply le_mapM. intros ii.
    unfold draw_rows. cbn [is_jax orb]. destruct (valid_p _); [apply le_refl|apply le_err].
Qed.

