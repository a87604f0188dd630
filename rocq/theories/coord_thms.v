(** Proofs of the property theorems stated in [Props_coord]. *)
From Coq Require Import Reals Lra Lia Psatz String Bool.
From Coquelicot Require Import Coquelicot.
From Coq Require Import List.
From Verif Require Import Xf Py Xf_facts Py_facts Calc Np Np_facts Cosmo_model Cosmo_facts Vt_model vt_thms Hyperpe_model SpecHyper hypera_thms SpecInvar invar_thms SpecCoord.
Import ListNotations.
Local Open Scope R_scope.

Lemma zip_cons {A B C} (f : A -> B -> C) a b l m : zipWith f (a :: l) (b :: m) = f a b :: zipWith f l m.
Proof. reflexivity. Qed.
Lemma times_cons x p y j : times (x :: p) (y :: j) = x * y :: times p j.
Proof. reflexivity. Qed.
Lemma times_rows_cons x p y j : times_rows (x :: p) (y :: j) = times x y :: times_rows p j.
Proof. reflexivity. Qed.
Lemma times_len p j : List.length p = List.length j -> List.length (times p j) = List.length j.
Proof. intros H. unfold times. rewrite map_length, combine_length, H. apply Nat.min_id. Qed.
Lemma times_ne q j : Forall (fun x => x <> 0) q -> Forall (fun x => x <> 0) j -> Forall (fun x => x <> 0) (times q j).
Proof.
  revert j. induction q as [|x q IH]; intros j H1 H2; [constructor|]. destruct j as [|y j]; [constructor|]. inversion H1; subst. inversion H2; subst. unfold times. simpl.
  constructor; [cbn; now apply Rmult_integral_contrapositive_currified|]. now apply IH.
Qed.
Lemma quot_times p q j : Forall (fun x => x <> 0) q -> Forall (fun x => x <> 0) j -> List.length p = List.length q -> List.length j = List.length q ->
  zipWith fdiv (map Fin (times p j)) (map Fin (times q j)) = zipWith fdiv (map Fin p) (map Fin q).
Proof.
  revert q j. induction p as [|x p IH]; intros [|y q] [|z j] H1 H2 L1 L2; try discriminate; [reflexivity|]. inversion H1; subst. inversion H2; subst. simpl in L1, L2.
  rewrite !times_cons. cbn [map]. rewrite !zip_cons, IH by (auto; lia). f_equal. rewrite !fdiv_fin by (auto; now apply Rmult_integral_contrapositive_currified). f_equal. field. split; assumption.
Qed.
Lemma Forall2_len (A B : list (list R)) : map (@List.length R) A = map (@List.length R) B -> Forall2 (fun a b => List.length a = List.length b) A B.
Proof. revert B. induction A as [|a A IH]; intros [|b B] E; try discriminate; constructor; simpl in E; injection E as E1 E2; auto. Qed.
Lemma rows_quot P Q J : Forall (Forall (fun x => x <> 0)) Q -> Forall (Forall (fun x => x <> 0)) J -> map (@List.length R) P = map (@List.length R) Q -> map (@List.length R) J = map (@List.length R) Q ->
  zipWith (zipWith fdiv) (map (map Fin) (times_rows P J)) (map (map Fin) (times_rows Q J)) = zipWith (zipWith fdiv) (map (map Fin) P) (map (map Fin) Q) /\
  map (@List.length R) (times_rows P J) = map (@List.length R) Q /\ map (@List.length R) (times_rows Q J) = map (@List.length R) Q.
Proof.
  revert Q J. induction P as [|p P IH]; intros [|q Q] [|j J] H1 H2 L1 L2; try discriminate; [split; [reflexivity|split; reflexivity]|]. inversion H1; subst. inversion H2; subst.
  simpl in L1, L2. injection L1 as L1a L1b. injection L2 as L2a L2b. destruct (IH Q J) as (I1 & I2 & I3); auto. rewrite !times_rows_cons. cbn [map]. rewrite ?zip_cons. split; [|split].
  - rewrite I1, quot_times by auto. reflexivity.
  - rewrite I2, times_len by congruence. f_equal. congruence.
  - rewrite I3, times_len by congruence. f_equal. congruence.
Qed.
Lemma same_shape_lengths A B : map (@List.length R) A = map (@List.length R) B -> same_shape (map (map Fin) A) (map (map Fin) B) = true.
Proof.
  intros E. unfold same_shape. destruct list_eq_dec as [_|N]; [reflexivity|]. exfalso. apply N. rewrite !map_map.
  rewrite (map_ext (fun x => List.length (map Fin x)) (@List.length R)) by (intros; apply map_length). rewrite E. symmetry. apply map_ext. intros; apply map_length.
Qed.
Lemma ew_coord bk prob prob' L L' h : events_in_other_coordinates prob prob' L L' h -> event_weights bk prob' L' h = event_weights bk prob L h.
Proof.
  intros (P & Q & J & E1 & E2 & E3 & E4 & H1 & H2 & L1 & L2). unfold event_weights. rewrite E1, E3. cbn [bind]. unfold mdiv. rewrite E2, E4.
  destruct (rows_quot P Q J H1 H2 L1 L2) as (I1 & I2 & I3). rewrite I1, !same_shape_lengths by congruence. reflexivity.
Qed.
Lemma de_coord bk prob prob' v v' h : same_survey v v' -> injections_in_other_coordinates prob prob' v v' h -> detection_efficiency bk prob' v' h = detection_efficiency bk prob v h.
Proof.
  intros (T & _) (p & q & j & E1 & E2 & E3 & E4 & H1 & H2 & L1 & L2). unfold detection_efficiency. rewrite E1, E3, (dlookup_ok _ _ _ E2), (dlookup_ok _ _ _ E4). cbn [bind].
  rewrite !bcast_same by (rewrite !map_length; try rewrite !times_len; congruence). rewrite quot_times by auto. cbn [bind]. now rewrite T.
Qed.
Lemma call_coord bk prob prob' v v' h : same_survey v v' -> detection_efficiency bk prob' v' h = detection_efficiency bk prob v h -> resampling_call bk prob' v' h = resampling_call bk prob v h.
Proof.
  intros (T & N & M & F) E. assert (C : forall mu var, check_convergence v' mu var = check_convergence v mu var) by (intros; unfold check_convergence; now rewrite N).
  unfold resampling_call, vt_factor. rewrite E, M, F, N. destruct (rv_marginalize v); destruct (detection_efficiency bk prob v h) as [[mu var]|]; cbn [bind rmap]; try reflexivity; now rewrite C.
Qed.

Lemma C124_coordinates_pf :
  forall bk prob prob' inj inj' conv L L' v v' parameters converted, conv parameters = Ok converted -> same_settings L L' -> same_survey v v' ->
  events_in_other_coordinates prob prob' L L' converted -> injections_in_other_coordinates inj inj' v v' converted ->
  ln_likelihood_and_variance bk prob' (resampling_call bk inj' v') conv L' parameters = ln_likelihood_and_variance bk prob (resampling_call bk inj v) conv L parameters /\
  log_likelihood_ratio bk prob' (resampling_call bk inj' v') conv L' parameters = log_likelihood_ratio bk prob (resampling_call bk inj v) conv L parameters.
Proof.
  intros bk prob prob' inj inj' conv L L' v v' par h C (K & N & S & U) SV HE HI.
  assert (E : ln_likelihood_and_variance bk prob' (resampling_call bk inj' v') conv L' par = ln_likelihood_and_variance bk prob (resampling_call bk inj v) conv L par).
  { unfold ln_likelihood_and_variance. rewrite C. cbn [bind]. unfold per_event. rewrite (ew_coord bk prob prob' L L' h HE).
    destruct (event_weights bk prob L h) as [w|]; cbn [bind]; [|reflexivity]. unfold selection_factor, selection_with_uncertainty. rewrite (call_coord bk inj inj' v v' h SV (de_coord bk inj inj' v v' h SV HI)), K, N.
    assert (V : map (event_variance L') w = map (event_variance L) w) by (apply map_ext; intros x; unfold event_variance; now rewrite S). now rewrite V. }
  split; [exact E|]. unfold log_likelihood_ratio. now rewrite E, U.
Qed.

Lemma C124_detector_frame_pf :
  forall bk z_at_value m prob v v' parameters samples J p q, same_survey v v' ->
  detector_frame_to_source_frame bk z_at_value m (rv_data v) parameters = Ok (samples, map Fin J) -> Forall (fun x => x <> 0) J ->
  dget "prior"%string (rv_data v) = Some (map Fin q) -> Forall (fun x => x <> 0) q -> List.length p = List.length q -> List.length J = List.length q ->
  prob samples parameters = Ok (map Fin p) -> prob (rv_data v') parameters = Ok (map Fin p) -> dget "prior"%string (rv_data v') = Some (map Fin (times q J)) ->
  resampling_call bk (cosmo_prob bk z_at_value m prob) v parameters = resampling_call bk prob v' parameters.
Proof.
  intros bk zav m prob v v' h samples J p q SV ED HJ Eq Hq L1 L2 Es Ev Eq'. apply call_coord.
  { destruct SV as (A & B & C & D). repeat split; congruence. }
  assert (Ec : cosmo_prob bk zav m prob (rv_data v) h = Ok (zipWith fdiv (map Fin p) (map Fin J))).
  { unfold cosmo_prob. rewrite ED. cbn [bind]. rewrite Es. cbn [bind]. now rewrite bcast_into_same by (rewrite !map_length; congruence). }
  unfold detection_efficiency. rewrite Ec, Ev, (dlookup_ok _ _ _ Eq), (dlookup_ok _ _ _ Eq'). cbn [bind].
  assert (Z : forall a b : list xf, List.length (zipWith fdiv a b) = Nat.min (List.length a) (List.length b)).
  { intros a b. unfold zipWith. now rewrite map_length, combine_length. }
  rewrite !bcast_same by (rewrite ?Z, ?map_length, ?times_len; try rewrite times_len; try lia; try congruence).
  assert (G : zipWith fdiv (zipWith fdiv (map Fin p) (map Fin J)) (map Fin q) = zipWith fdiv (map Fin p) (map Fin (times q J))).
  { clear - HJ Hq L1 L2. revert q J HJ Hq L1 L2. induction p as [|x p IH]; intros [|y q] [|z j] HJ Hq L1 L2; try discriminate; [reflexivity|]. inversion HJ; subst. inversion Hq; subst. simpl in L1, L2.
    rewrite times_cons. cbn [map]. rewrite !zip_cons, IH by (auto; lia). f_equal. rewrite (fdiv_fin x z), !fdiv_fin by (auto; now apply Rmult_integral_contrapositive_currified). f_equal. field. split; assumption. }
  rewrite G. cbn [bind]. destruct SV as (T & _). now rewrite T.
Qed.

Lemma close_sum k w w' : 0 < k -> close_weights k w w' -> Rsum w / k <= Rsum w' <= k * Rsum w.
Proof. intros Hk. induction 1 as [|x y w w' H1 H2 IH]; simpl; [lra|]. unfold Rdiv in *. rewrite Rmult_plus_distr_r. lra. Qed.
Lemma close_len k w w' : close_weights k w w' -> List.length w = List.length w'.
Proof. induction 1; simpl; congruence. Qed.
Lemma ln_close k x y : 1 <= k -> 0 < x -> 0 < y -> x / k <= y <= k * x -> Rabs (ln y - ln x) <= ln k.
Proof.
  intros Hk Hx Hy [H1 H2]. assert (ln y <= ln k + ln x) by (rewrite <- ln_mult by lra; apply ln_le; lra).
  assert (ln x <= ln k + ln y). { rewrite <- ln_mult by lra. apply ln_le; [lra|]. apply Rmult_le_compat_l with (r := k) in H1; [|lra]. replace (k * (x / k)) with x in H1 by (field; lra). lra. }
  apply Rabs_le. lra.
Qed.
Lemma close_mean k w w' : 1 <= k -> w <> [] -> close_weights k w w' -> mean w / k <= mean w' <= k * mean w.
Proof.
  intros Hk Hw H. pose proof (close_sum k w w' ltac:(lra) H) as [A B]. pose proof (close_len k w w' H) as E. unfold mean. rewrite <- E.
  assert (P : 0 < / INR (List.length w)). { apply Rinv_0_lt_compat, lt_0_INR. destruct w; [congruence|simpl; lia]. }
  unfold Rdiv in *. split.
  - replace (Rsum w * / INR (List.length w) * / k) with (Rsum w * / k * / INR (List.length w)) by ring. apply Rmult_le_compat_r; lra.
  - rewrite <- Rmult_assoc. apply Rmult_le_compat_r; lra.
Qed.
Lemma sum_abs_close k L (W W' : list (list R)) : 1 <= k -> positive_weights L W -> positive_weights L W' -> Forall2 (close_weights k) W W' ->
  Rabs (Rsum (map (fun w => ln (mean w)) W') - Rsum (map (fun w => ln (mean w)) W)) <= INR (List.length W) * ln k.
Proof.
  intros Hk [HK H1] [_ H2] H. induction H as [|w w' W W' H0 H IH]; [simpl; rewrite Rminus_0_r, Rabs_R0; lra|]. inversion H1 as [|? ? [A1 A2] A3]; subst. inversion H2 as [|? ? [B1 B2] B3]; subst.
  specialize (IH A3 B3). change (List.length (w :: W)) with (S (List.length W)). rewrite S_INR. cbn [map Rsum].
  assert (Hne : w <> []) by (intros ->; simpl in A1; lia). assert (Hne' : w' <> []) by (intros ->; simpl in B1; lia).
  assert (P : forall u, u <> [] -> Forall (fun x => 0 < x) u -> 0 < mean u). { intros u U1 U2. unfold mean. apply Rdiv_lt_0_compat; [now apply Rsum_pos|apply lt_0_INR; destruct u; [congruence|simpl; lia]]. }
  pose proof (ln_close k (mean w) (mean w') Hk (P w Hne A2) (P w' Hne' B2) (close_mean k w w' Hk Hne H0)) as Q. cbn [fold_right] in *.
  apply Rabs_le_between in Q. apply Rabs_le_between in IH. apply Rabs_le. simpl. lra.
Qed.

Lemma C125_stable_pf :
  forall bk prob prob' inj inj' conv L v parameters parameters' converted converted' W W' p p' q N k, 1 <= k -> li_kind L = Hyper ->
  conv parameters = Ok converted -> conv parameters' = Ok converted' -> weights_are prob L converted W -> weights_are prob' L converted' W' ->
  positive_weights L W -> positive_weights L W' -> List.length W = li_n L -> Forall2 (close_weights k) W W' ->
  injections_are inj v converted p q N -> injections_are inj' v converted' p' q N -> 0 < Rsum (quotients p q) -> close_weights k (quotients p q) (quotients p' q) ->
  rv_marginalize v = false -> rv_enforce v = false ->
  exists l l' var var', ln_likelihood_and_variance bk prob (resampling_call bk inj v) conv L parameters = Ok (Fin l, var) /\
    ln_likelihood_and_variance bk prob' (resampling_call bk inj' v) conv L parameters' = Ok (Fin l', var') /\ Rabs (l' - l) <= 2 * INR (li_n L) * ln k.
Proof.
  intros bk prob prob' inj inj' conv L v par par' h h' W W' p p' q N k Hk K C C' HW HW' HP HP' HL HC HI HI' Hs Hc M F.
  pose proof (de_are bk inj v h p q N HI) as D1. pose proof (de_are bk inj' v h' p' q N HI') as D2.
  assert (HN : 0 < N) by apply HI. pose proof (close_sum k _ _ ltac:(lra) Hc) as [S1 S2].
  assert (Hs' : 0 < Rsum (quotients p' q)). { eapply Rlt_le_trans; [|exact S1]. apply Rdiv_lt_0_compat; lra. }
  assert (Q1 : 0 < dmu (quotients p q) N) by (unfold dmu; now apply Rdiv_lt_0_compat). assert (Q2 : 0 < dmu (quotients p' q) N) by (unfold dmu; now apply Rdiv_lt_0_compat).
  assert (R1 : resampling_call bk inj v h = Ok (ValueAndVariance (Fin (dmu (quotients p q) N)) (Fin (dvar (quotients p q) N)))) by (unfold resampling_call; rewrite M, D1, F; reflexivity).
  assert (R2 : resampling_call bk inj' v h' = Ok (ValueAndVariance (Fin (dmu (quotients p' q) N)) (Fin (dvar (quotients p' q) N)))) by (unfold resampling_call; rewrite M, D2, F; reflexivity).
  rewrite (C58_formula_pf bk prob _ conv L par h W _ _ _ K C HW HP Q1 R1 (or_introl eq_refl)), (C58_formula_pf bk prob' _ conv L par' h' W' _ _ _ K C' HW' HP' Q2 R2 (or_introl eq_refl)).
  do 4 eexists. split; [reflexivity|]. split; [reflexivity|].
  pose proof (sum_abs_close k L W W' Hk HP HP' HC) as A. rewrite HL in A.
  assert (B : Rabs (ln (dmu (quotients p' q) N) - ln (dmu (quotients p q) N)) <= ln k).
  { apply ln_close; auto. unfold dmu, Rdiv in *. assert (0 < / N) by (apply Rinv_0_lt_compat; lra). split.
    - replace (Rsum (quotients p q) * / N * / k) with (Rsum (quotients p q) * / k * / N) by ring. apply Rmult_le_compat_r; lra.
    - rewrite <- Rmult_assoc. apply Rmult_le_compat_r; lra. }
  apply Rabs_le_between in A. apply Rabs_le_between in B. pose proof (pos_INR (li_n L)) as Pn.
  assert (B1 : INR (li_n L) * (ln (dmu (quotients p' q) N) - ln (dmu (quotients p q) N)) <= INR (li_n L) * ln k) by (apply Rmult_le_compat_l; lra).
  assert (B2 : INR (li_n L) * - ln k <= INR (li_n L) * (ln (dmu (quotients p' q) N) - ln (dmu (quotients p q) N))) by (apply Rmult_le_compat_l; lra).
  apply Rabs_le. lra.
Qed.

