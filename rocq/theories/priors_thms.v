(** Proofs of the property theorems stated in [Props_priors]. *)
From Coq Require Import Reals Lra Lia Psatz String Bool.
From Coquelicot Require Import Coquelicot.
From Coq Require Import List.
From Verif Require Import Xf Py St Xf_facts Py_facts Calc Spec Utils_model Powerlaw_facts Truncnorm_facts Trap_facts Np Np_facts
  Mass_model Mass_facts Spin_model spin_thms Smoothed_model Smoothed_facts smoothed_thms smooth2_thms SpecClass Cosmo_model Redshift_model redshift_thms Priors_model SpecPrior.
Import ListNotations.
Local Open Scope R_scope.
Local Opaque linspace xlinspace.
Ltac split_draw H :=
  unfold draw_of in H; repeat (let k := fresh "k" in let v := fresh "v" in let E := fresh "E" in let x := fresh "x" in let X := fresh "X" in let B := fresh "B" in let T := fresh "T" in
    inversion H as [|? [k v] ? ? (E & x & X & B) T]; subst; clear H; cbn [fst snd in_support] in *; rename T into H; subst);
  inversion H; subst; clear H.
Ltac kwred := cbv beta iota zeta delta [magnitude_kw orientation_kw iid_spin_kw given magnitude_args iid_spin_args orientation_args orientation_defaults kwbind kwv dget_default dget dmem dkeys filter existsb forallb map app fst snd String.eqb Ascii.eqb Bool.eqb orb andb bind].
Lemma node_between lo hi n a b : lo < hi -> (2 <= n)%nat -> lo <= a -> a + (hi - lo) / INR (n - 1) <= b -> b <= hi -> exists y, In y (linspace lo hi n) /\ a <= y <= b.
Proof.
  intros Hl Hn Ha Hab Hb. assert (P : 0 < INR (n - 1)) by (apply lt_0_INR; lia). set (st := (hi - lo) / INR (n - 1)) in *. assert (Ps : 0 < st) by (apply Rdiv_lt_0_compat; lra).
  destruct (archimed ((a - lo) / st)) as [A1 A2]. set (z := up ((a - lo) / st)) in *.
  assert (Q : 0 <= (a - lo) / st) by (apply Rmult_le_pos; [lra|left; now apply Rinv_0_lt_compat]).
  assert (Z0 : (0 < z)%Z) by (apply lt_IZR; lra). set (i := Z.to_nat z). assert (EI : INR i = IZR z) by (unfold i; rewrite INR_IZR_INZ, Z2Nat.id by lia; reflexivity).
  assert (M : (a - lo) / st * st = a - lo) by (field; lra).
  assert (Y1 : a <= lo + INR i * st). { rewrite EI. assert ((a - lo) / st * st <= IZR z * st) by (apply Rmult_le_compat_r; lra). lra. }
  assert (Y2 : lo + INR i * st <= b). { rewrite EI. assert (IZR z * st <= ((a - lo) / st + 1) * st) by (apply Rmult_le_compat_r; lra). lra. }
  exists (lo + INR i * st). split; [|lra]. Local Transparent linspace. unfold linspace. Local Opaque linspace. fold st. apply in_map_iff. exists i. split; [reflexivity|]. apply in_seq.
  assert (INR i <= INR (n - 1)). { apply Rmult_le_reg_r with st; [exact Ps|]. assert (INR (n - 1) * st = hi - lo) by (unfold st; field; lra). lra. }
  apply INR_le in H. lia.
Qed.
Lemma p_m1_finite bk lo hi n nq cache s alpha mmin mmax lam mpp sigpp d ms : smoothed_init lo hi (n, nq) cache = Ok s -> 0 < lo < hi -> lo <= mmin -> mmin + (hi - lo) / INR (n - 1) <= mmax -> mmin < mmax -> mmax <= hi ->
  0 <= lam <= 1 -> 0 < sigpp -> 0 <= d -> slope_ok bk alpha -> Forall (fun m => 0 < m) ms -> forall ds, dget "mass_1" ds = Some (map Fin ms) ->
  exists l, p_m1 bk (class_primary SinglePeak bk) s ds (single_peak_kw alpha mmin mmax lam mpp sigpp d ++ class_kwargs SinglePeak (sm_mmax s)) = Ok (map Fin l) /\ List.length l = List.length ms /\ Forall (fun v => 0 <= v) l.
Proof.
  intros Hs Hlo H1 H2 H2' H3 H4 H5 H6 HA Hms ds Hds.
  assert (Hs' := Hs). unfold smoothed_init in Hs'. simpl fst in Hs'. simpl snd in Hs'. destruct (Nat.ltb_spec n 2) as [|Hn]; [discriminate|]. destruct (Nat.ltb nq 2); [discriminate|]. injection Hs' as <-. cbn [sm_mmax sm_mmin sm_m1s].
  set (s := {| sm_mmin := Fin lo |}). rewrite Forall_forall in Hms.
  assert (PR : forall x, 0 < x -> class_primary SinglePeak bk (ddel "delta_m" (single_peak_kw alpha mmin mmax lam mpp sigpp d ++ class_kwargs SinglePeak (Fin hi))) (Fin x) = Ok (Fin (twoval alpha mmin mmax lam mpp sigpp hi x))).
  { intros x Hx. apply (sp_gmax bk s); auto; lra. }
  assert (NN : forall x, 0 <= twoval alpha mmin mmax lam mpp sigpp hi x) by (intros; apply twoval_nonneg; lra).
  destruct (Req_dec d 0) as [->|Nd].
  - unfold p_m1. rewrite (dlookup_ok _ _ _ Hds). cbn [bind]. cbv zeta.
    change (dget_default "delta_m" (Fin 0) (single_peak_kw alpha mmin mmax lam mpp sigpp 0 ++ class_kwargs SinglePeak (Fin hi))) with (Fin 0).
    assert (SP : forall mn l, (forall x, In x l -> 0 < x) -> exists g : R -> R, (forall x, 0 <= g x) /\ smoothed_primary bk (class_primary SinglePeak bk) s (ddel "delta_m" (single_peak_kw alpha mmin mmax lam mpp sigpp 0 ++ class_kwargs SinglePeak (Fin hi))) mn (Fin 0) (map Fin l) = Ok (map Fin (map g l))).
    { intros mn l Hl. exists (fun x => twoval alpha mmin mmax lam mpp sigpp hi x * toR (smoothing bk (Fin x) mn (Fin hi) (Fin 0))). split.
      - intros x. apply Rmult_le_pos; [apply NN|]. destruct (smoothing_range bk (Fin x) mn (Fin hi) (Fin 0)) as (r & E & B). rewrite E. simpl. lra.
      - unfold smoothed_primary. rewrite (mapM_ok_in _ (fun x => fmul (Fin (twoval alpha mmin mmax lam mpp sigpp hi (toR x))) (smoothing bk x mn (sm_mmax s) (Fin 0)))).
        + f_equal. rewrite !map_map. apply map_ext. intros x. destruct (smoothing_range bk (Fin x) mn (Fin hi) (Fin 0)) as (r & E & B). cbn [s sm_mmax toR]. rewrite E. now rewrite fmul_fin.
        + intros x I. apply in_map_iff in I. destruct I as (z & <- & I). rewrite PR by now apply Hl. reflexivity. }
    destruct (SP (dget_default "mmin" (sm_mmin s) (single_peak_kw alpha mmin mmax lam mpp sigpp 0 ++ class_kwargs SinglePeak (Fin hi))) ms Hms) as (g & G1 & G2). rewrite G2. cbn [bind].
    assert (NO : norm_p_m1 bk (class_primary SinglePeak bk) s (Fin 0) (ddel "delta_m" (single_peak_kw alpha mmin mmax lam mpp sigpp 0 ++ class_kwargs SinglePeak (Fin hi))) = Ok (Fin 1)).
    { unfold norm_p_m1. destruct (negb (is_jax bk) && feq (Fin 0) (Fin 0)); [reflexivity|]. cbn [s sm_m1s]. change (xlinspace lo hi n) with (map Fin (linspace lo hi n)).
      edestruct SP as (g' & _ & E); [|rewrite E]. { intros x I. apply linspace_bounds in I; lra. }
      cbn [bind]. rewrite trapezoid_fin. unfold norm_or_one, fne. rewrite feq_fin, Reqb_true by reflexivity. cbn [negb of_bool]. rewrite nan_to_num_Fin. autorewrite with xf. do 2 f_equal. ring. }
    rewrite NO. cbn [bind]. exists (map (fun x => g x / 1) ms). split; [|split].
    + f_equal. rewrite !map_map. apply map_ext. intros x. rewrite fdiv_fin by lra. reflexivity.
    + apply map_length.
    + apply Forall_map, Forall_forall. intros x _. specialize (G1 x). lra.
  - assert (Hd : 0 < d) by lra. destruct (node_between lo hi n mmin mmax) as (y & Iy & By); try lra; try lia.
    assert (P : 0 < m1norm (twoval alpha mmin mmax lam mpp sigpp hi) mmin hi d (linspace lo hi n)).
    { apply m1norm_pos; auto; [apply linspace_incr; auto; lra|now rewrite linspace_length|]. exists y. repeat split; auto; try lra. apply twoval_pos; lra. }
    rewrite (p_m1_fin bk _ s _ mmin hi d (twoval alpha mmin mmax lam mpp sigpp hi) (linspace lo hi n) ms) with (ds := ds); auto; try lra.
    + rewrite <- map_map with (g := Fin). eexists. split; [reflexivity|]. split; [apply map_length|]. apply Forall_map, Forall_forall. intros x _.
      apply Rmult_le_pos; [apply Rmult_le_pos; [apply NN|]|left; now apply Rinv_0_lt_compat]. unfold sval. destruct (_ && _); [|lra]. left; apply swin_range.
    + intros x [I|I]; apply PR; [|now apply Hms]. apply linspace_bounds in I; lra.
Qed.
Definition mass_parameters alpha mmin mmax lam mpp sigpp beta d : dict xf :=
  [("alpha", Fin alpha); ("mmin", Fin mmin); ("mmax", Fin mmax); ("lam", Fin lam); ("mpp", Fin mpp); ("sigpp", Fin sigpp); ("beta", Fin beta); ("delta_m", Fin d)]%string.
Lemma mass_call_finite bk li lo hi n nq cache s alpha mmin mmax lam mpp sigpp beta d ms qs : smoothed_init lo hi (n, nq) cache = Ok s -> 0 < lo < hi -> lo <= mmin -> mmin + (hi - lo) / INR (n - 1) <= mmax -> mmin < mmax -> mmax <= hi ->
  0 <= lam <= 1 -> 0 < sigpp -> 0 <= d -> slope_ok bk alpha -> Forall (fun m => 0 < m) ms -> List.length qs = List.length ms ->
  exists l, snd (class_call SinglePeak bk li [("mass_1"%string, map Fin ms); ("mass_ratio"%string, map Fin qs)] (mass_parameters alpha mmin mmax lam mpp sigpp beta d) s) = Ok (map Fin l) /\ List.length l = List.length ms.
Proof.
  intros Hs Hlo H1 H2 H2' H3 H4 H5 H6 HA Hms HL. set (ds := [("mass_1"%string, map Fin ms); ("mass_ratio"%string, map Fin qs)]).
  destruct (p_m1_finite bk lo hi n nq cache s alpha mmin mmax lam mpp sigpp d ms Hs Hlo H1 H2 H2' H3 H4 H5 H6 HA Hms ds eq_refl) as (l & L1 & L2 & _).
  assert (Hs' := Hs). unfold smoothed_init in Hs'. simpl fst in Hs'. simpl snd in Hs'. destruct (Nat.ltb_spec n 2) as [|Hn]; [discriminate|]. destruct (Nat.ltb nq 2); [discriminate|]. injection Hs' as E. subst s. cbn [sm_mmax] in L1. set (s := {| sm_mmin := Fin lo |}) in *.
  assert (Lq : List.length (map Fin qs) = List.length (map Fin ms)) by (rewrite !map_length; exact HL).
  destruct (p_q_fresh_ok bk li ds (Fin beta) (Fin mmin) (Fin d) s (map Fin ms) (map Fin qs) eq_refl eq_refl Lq eq_refl) as (s' & l2 & Q1 & Q2).
  assert (NN : Forall (fun v => exists r, v = Fin r) l2). { apply (C32_never_nan_pf bk li ds (Fin beta) (Fin mmin) (Fin d) s l2). now rewrite Q1. }
  assert (M2 : exists r2, l2 = map Fin r2). { clear - NN. induction NN as [|v l2 [r ->] _ [r2 ->]]; [exists []; reflexivity|exists (r :: r2); reflexivity]. }
  destruct M2 as (r2 & ->). rewrite !map_length in Q2. unfold class_call. rewrite call_eq.
  change (dlookup "beta" (mass_parameters alpha mmin mmax lam mpp sigpp beta d)) with (@Ok xf (Fin beta)). cbv zeta. change (sm_mmin s) with (Fin lo). change (sm_mmax s) with (Fin hi).
  change (ddel "beta" (mass_parameters alpha mmin mmax lam mpp sigpp beta d)) with (single_peak_kw alpha mmin mmax lam mpp sigpp d).
  change (dget_default "mmin" (Fin lo) (single_peak_kw alpha mmin mmax lam mpp sigpp d)) with (Fin mmin). change (dget_default "mmax" (Fin hi) (single_peak_kw alpha mmin mmax lam mpp sigpp d)) with (Fin mmax).
  change (dget_default "delta_m" (Fin 0) (single_peak_kw alpha mmin mmax lam mpp sigpp d)) with (Fin d).
  rewrite flt_fin, Rltb_false, andb_false_r by lra. replace (fgt (Fin mmax) (Fin hi)) with false by (symmetry; unfold fgt; rewrite flt_fin; apply Rltb_false; lra). rewrite andb_false_r.
  change (kw_merge (single_peak_kw alpha mmin mmax lam mpp sigpp d) (class_kwargs SinglePeak (Fin hi))) with (Ok (single_peak_kw alpha mmin mmax lam mpp sigpp d ++ class_kwargs SinglePeak (Fin hi))%list).
  cbv beta iota. rewrite L1, Q1. cbn [fst snd]. unfold bcast, bcast2. rewrite !map_length, L2, Q2, Nat.eqb_refl. exists (zipWith Rmult l r2). split.
  - f_equal. unfold zipWith. rewrite map_map. clear. revert r2. induction l as [|a l IH]; intros [|b r2]; cbn [map combine]; auto. f_equal. apply IH.
  - unfold zipWith. rewrite map_length, combine_length, L2, Q2. apply Nat.min_id.
Qed.
Lemma step_small n : (11 <= n)%nat -> (100 - 2) / INR (n - 1) <= 10.
Proof. intros H. assert (10 <= INR (n - 1)) by (replace 10 with (INR 10) by (simpl; lra); apply le_INR; lia). apply Rle_div_l; lra. Qed.
Lemma C132_masses_pf :
  forall file bk li n nq cache s d names ms qs, file = bbh_population \/ file = mass_rates -> draw_of file d ->
  smoothed_init 2 100 (n, nq) cache = Ok s -> (11 <= n)%nat ->
  snd (Smoothed_model.variable_names (dkeys (class_kwargs SinglePeak (sm_mmax s))) (class_object SinglePeak)) = Ok names ->
  bk = Jax \/ dget "alpha" d <> Some (Fin (-1)) -> Forall (fun m => 0 < m) ms -> List.length qs = List.length ms ->
  exists l, snd (class_call SinglePeak bk li [("mass_1"%string, map Fin ms); ("mass_ratio"%string, map Fin qs)] (given names d) s) = Ok (map Fin l) /\ List.length l = List.length ms.
Proof.
  intros file bk li n nq ca s d names ms qs Hf Hd Hs Hn HN Ha Hms HL. assert (ST := step_small n Hn).
  assert (NM : names = ["alpha"; "mmin"; "mmax"; "lam"; "mpp"; "sigpp"; "beta"; "delta_m"]%string) by (injection HN as <-; reflexivity). subst names.
  assert (G : exists alpha mmin mmax lam mpp sigpp beta dm, given ["alpha"; "mmin"; "mmax"; "lam"; "mpp"; "sigpp"; "beta"; "delta_m"]%string d = mass_parameters alpha mmin mmax lam mpp sigpp beta dm /\ dget "alpha" d = Some (Fin alpha) /\
    2 <= mmin <= 10 /\ 20 <= mmax <= 65 /\ 0 <= lam <= 1 /\ 1/2 <= sigpp /\ 0 <= dm).
  { destruct Hf as [->| ->]; unfold bbh_population, mass_rates in Hd; split_draw Hd; do 8 eexists; (split; [reflexivity|]); (split; [reflexivity|]); lra. }
  destruct G as (alpha & mmin & mmax & lam & mpp & sigpp & beta & dm & -> & EA & B1 & B2 & B3 & B4 & B5).
  apply (mass_call_finite bk li 2 100 n nq ca s); auto; try lra. destruct Ha as [Ha|Ha]; [now left|right]. intros ->. now apply Ha.
Qed.

Lemma low_ok file : In file [bbh_population; mass_rates; spin_file; spin_talbot_thrane] -> draw_of file (low_draw file).
Proof.
  cbn [In]. intros I. repeat (destruct I as [<-|I]; [unfold draw_of, low_draw, bbh_population, mass_rates, spin_file, spin_talbot_thrane; cbn [map fst snd low];
    repeat (apply Forall2_cons; [cbn [fst snd in_support]; split; [reflexivity|eexists; split; [reflexivity|lra]]|]); apply Forall2_nil|]). destruct I.
Qed.
Lemma prior_mag bk a_1 a_2 a1 a2 b1 b2 m1 m2 : 1 <= a1 -> 1 <= a2 -> 1 <= b1 -> 1 <= b2 -> 0 < m1 -> 0 < m2 ->
  exists r, returns (independent_spin_magnitude_beta bk (Fin a_1) (Fin a_2) (Fin a1) (Fin a2) (Fin b1) (Fin b2) (Fin m1) (Fin m2)) r /\ 0 <= r /\ (0 < a_1 < m1 -> 0 < a_2 < m2 -> 0 < r) /\ (a_1 < 0 \/ m1 < a_1 \/ a_2 < 0 \/ m2 < a_2 -> r = 0).
Proof.
  intros. destruct (C38_independent_spin_magnitude_pf bk a1 a2 b1 b2 m1 m2) as (g1 & g2 & G & P & _ & _ & O1 & O2 & (k1 & K1 & F1) & (k2 & K2 & F2)); try lra.
  exists (g1 a_1 * g2 a_2). split; [apply G|]. split; [apply Rmult_le_pos; [apply (P a_1)|apply (P a_2)]|]. split.
  - intros I1 I2. rewrite F1, F2 by assumption. repeat apply Rmult_lt_0_compat; auto; apply exp_pos.
  - intros [O|[O|[O|O]]]; [rewrite (O1 a_1) by lra|rewrite (O1 a_1) by lra|rewrite (O2 a_2) by lra|rewrite (O2 a_2) by lra]; ring.
Qed.
Lemma C132_spins_pf :
  forall bk d, draw_of bbh_population d -> dget "amax_1" d <> Some (Fin 0) -> dget "amax_2" d <> Some (Fin 0) ->
  (forall a_1 a_2, exists v, magnitude_kw bk (Fin a_1) (Fin a_2) (given magnitude_args d) = Ok (Fin v) /\ 0 <= v /\ (a_1 < 0 \/ 1 < a_1 \/ a_2 < 0 \/ 1 < a_2 -> v = 0)) /\
  (forall c_1 c_2, exists v, orientation_kw bk (Fin c_1) (Fin c_2) (given (orientation_args ++ orientation_defaults) d) = Ok (Fin v) /\ 0 <= v).
Proof.
  intros bk d Hd N1 N2. unfold bbh_population in Hd. split_draw Hd. cbn in N1, N2. split; intros p q.
  - kwred.
    match goal with |- exists v, independent_spin_magnitude_beta bk _ _ (Fin ?a1) (Fin ?a2) (Fin ?b1) (Fin ?b2) (Fin ?m1) (Fin ?m2) = _ /\ _ =>
      destruct (prior_mag bk p q a1 a2 b1 b2 m1 m2) as (r & R1 & R2 & _ & R3); try lra end.
    + match goal with |- 0 < ?m => destruct (Req_dec m 0) as [Q|Q]; [exfalso; apply N1; now rewrite Q|lra] end.
    + match goal with |- 0 < ?m => destruct (Req_dec m 0) as [Q|Q]; [exfalso; apply N2; now rewrite Q|lra] end.
    + exists r. split; [assumption|]. split; [assumption|]. intros O. apply R3. lra.
  - kwred.
    match goal with |- exists v, independent_spin_orientation_gaussian_isotropic bk _ _ (Fin ?xi) (Fin ?s1) (Fin ?s2) (Fin ?m1) (Fin ?m2) = _ /\ _ =>
      destruct (C39_orientation_density_pf bk xi s1 s2 m1 m2) as (_ & W & _); try lra end.
    destruct (W ltac:(lra) p q) as (r & R1 & R2). exists r. split; assumption.
Qed.

Lemma C132_orientations_pf :
  forall file bk d c_1 c_2, file = spin_talbot_thrane \/ file = spin_file -> draw_of file d ->
  exists v, orientation_kw bk (Fin c_1) (Fin c_2) (given (orientation_args ++ orientation_defaults) d) = Ok (Fin v) /\ 0 <= v.
Proof.
  intros file bk d p q [->| ->] Hd; unfold spin_talbot_thrane, spin_file in Hd; split_draw Hd;
  (kwred;
    match goal with |- exists v, independent_spin_orientation_gaussian_isotropic bk _ _ (Fin ?xi) (Fin ?s1) (Fin ?s2) (Fin ?m1) (Fin ?m2) = _ /\ _ =>
      destruct (C39_orientation_density_pf bk xi s1 s2 m1 m2) as (_ & W & _); [lra|lra|] end;
    destruct (W ltac:(lra) p q) as (r & R1 & R2); exists r; split; assumption).
Qed.

Lemma lamb_given r d : ra_names (rs_rate r) = Some ["lamb"%string] -> mx_names (rs_mixin r) = [] -> given (fst (Redshift_model.variable_names r)) d = given ["lamb"%string] d.
Proof. intros E1 E2. unfold Redshift_model.variable_names. now rewrite E1, E2. Qed.
Lemma C132_redshifts_pf :
  forall available z_max cosmo_model r d c (dvc : R -> R), draw_of bbh_population d -> 1/1000000 < z_max ->
  redshift_init available powerlaw_rate z_max cosmo_model = Ok r -> mx_names (rs_mixin r) = [] -> cosmology_of (rs_mixin r) (given (fst (Redshift_model.variable_names r)) d) = Ok c ->
  (forall z, 0 < z -> co_dvc c (Fin z) = Fin (dvc z)) -> (forall z, 0 < z <= z_max -> 0 < dvc z) ->
  (forall z, 0 < z -> exists v, probability r [("redshift"%string, [Fin z])] (given (fst (Redshift_model.variable_names r)) d) = Ok [Fin v] /\ (z <= z_max -> 0 < v) /\ (z_max < z -> v = 0)) /\
  exists p, probability r [("redshift"%string, rs_zs r)] (given (fst (Redshift_model.variable_names r)) d) = Ok p /\ trapezoid p (rs_zs r) = Fin 1.
Proof.
  intros av zm cm r d c dvc Hd Hz Hr Hn Hc Hdv Hp.
  assert (RR : rs_rate r = powerlaw_rate). { unfold redshift_init in Hr. destruct (mixin_init av cm); [|discriminate]. injection Hr as <-. reflexivity. }
  assert (L : exists lamb, dget "lamb" (given (fst (Redshift_model.variable_names r)) d) = Some (Fin lamb)).
  { rewrite lamb_given by (rewrite ?RR; auto). unfold bbh_population in Hd. split_draw Hd. eexists. reflexivity. }
  split; [|eapply C44_library_rates_pf; eauto; intros z Bz; split; [apply Hdv; lra|now apply Hp]].
  destruct L as (lamb & L). set (kw := given _ d) in *.
  assert (PS : forall z, 0 < z -> ra_psi powerlaw_rate (Fin z) kw = Ok (Fin (Rpower (1 + z) lamb))).
  { intros z Bz. cbn [ra_psi powerlaw_rate]. unfold powerlaw_psi. rewrite (dlookup_ok _ _ _ L). cbn [bind]. rewrite fadd_fin, fpow_fin by lra. reflexivity. }
  destruct (C44_norm_positive_pf av powerlaw_rate zm cm r kw c (fun z => Rpower (1 + z) lamb) dvc Hz Hr Hc) as (N & N1 & N2 & _).
  { intros z Bz. repeat split; [apply PS; lra|apply Hdv; lra|apply exp_pos|now apply Hp]. }
  intros z Bz. destruct (C44_value_pf av powerlaw_rate zm cm r kw c N z (Rpower (1 + z) lamb) (dvc z) Hr Hc N1) as (V1 & V2); try lra; [now apply PS|now apply Hdv|].
  destruct (Rle_dec z zm) as [Q|Q].
  - eexists. split; [apply V1; exact Q|]. split; [|lra]. intros _. assert (0 < dvc z) by (apply Hp; lra). assert (0 < Rpower (1 + z) lamb) by apply exp_pos. assert (A := PI_RGT_0).
    apply Rdiv_lt_0_compat; [|lra]. apply Rmult_lt_0_compat; [apply Rdiv_lt_0_compat; lra|apply Rmult_lt_0_compat; lra].
  - exists 0. split; [apply V2; lra|]. split; [lra|auto].
Qed.

Lemma beta_zero bk x a b : is_jax bk = false -> beta_dist bk ["scale"%string] x a b (Fin 0) = Err ValueError.
Proof. intros J. unfold beta_dist, apply_conditions. rewrite J. cbv beta iota zeta delta [kwargs_of filter existsb fst snd map String.eqb Ascii.eqb Bool.eqb orb check_conditions beta_dist_conds dget check_one forallb bind]. rewrite fgt_fin, Rltb_false by lra. reflexivity. Qed.
Lemma powerlaw_one bk kw x h l : is_jax bk = false -> In "alpha"%string kw -> powerlaw bk kw x (fopp (Fin (-1))) h l = Err ValueError.
Proof.
  intros J I. assert (Ex : existsb (String.eqb "alpha") kw = true) by (apply existsb_exists; exists "alpha"%string; split; [exact I|reflexivity]). unfold powerlaw, apply_conditions. rewrite J.
  assert (F : fne (fopp (Fin (-1))) (Fin 1) = false) by (rewrite fopp_fin; unfold fne; rewrite feq_fin, Reqb_true by lra; reflexivity).
  unfold kwargs_of. cbn [filter fst]. rewrite Ex. destruct (existsb (String.eqb "xx") kw), (existsb (String.eqb "high") kw), (existsb (String.eqb "low") kw); cbn [map fst snd check_conditions powerlaw_conds dget String.eqb Ascii.eqb Bool.eqb check_one forallb]; rewrite F; try destruct (fge l (Fin 0)); reflexivity.
Qed.
Lemma C132_edges_refuted_pf :
  exists d, draw_of bbh_population d /\
  forall bk, bk <> Jax ->
  (forall a_1 a_2, magnitude_kw bk (Fin a_1) (Fin a_2) (given magnitude_args d) = Err ValueError) /\
  (forall li n nq cache s names m q, smoothed_init 2 100 (n, nq) cache = Ok s ->
    snd (Smoothed_model.variable_names (dkeys (class_kwargs SinglePeak (sm_mmax s))) (class_object SinglePeak)) = Ok names ->
    snd (class_call SinglePeak bk li [("mass_1"%string, [Fin m]); ("mass_ratio"%string, [Fin q])] (given names d) s) = Err ValueError).
Proof.
  exists (map (fun e => (fst e, match snd e with Uniform a b => if Req_EM_T a (-4) then Fin (-1) else Fin a | LogUniform a b => Fin a | Fixed v => Fin v end)) bbh_population).
  split.
  - unfold draw_of, bbh_population. cbn [map fst snd].
    repeat (apply Forall2_cons; [cbn [fst snd in_support]; split; [reflexivity|]; repeat match goal with |- context [Req_EM_T ?a ?b] => destruct (Req_EM_T a b); try (exfalso; lra) end; eexists; split; [reflexivity|lra]|]); apply Forall2_nil.
  - intros bk Hb. unfold bbh_population. cbn [map fst snd]. repeat match goal with |- context [Req_EM_T ?a ?b] => destruct (Req_EM_T a b); try (exfalso; lra) end.
    assert (J : is_jax bk = false) by (destruct bk; auto; now contradiction Hb). split.
    + intros a_1 a_2. kwred.
      unfold independent_spin_magnitude_beta. rewrite beta_zero by exact J. reflexivity.
    + intros li nm nq cache s names m q Hs HN.
      assert (NM : names = ["alpha"; "mmin"; "mmax"; "lam"; "mpp"; "sigpp"; "beta"; "delta_m"]%string) by (injection HN as <-; reflexivity). subst names. clear HN.
      match goal with |- context [given ?nn ?dd] => change (given nn dd) with (mass_parameters (-1) 3 30 0 20 (5/10) (-1) 0) end. unfold smoothed_init in Hs. simpl fst in Hs. simpl snd in Hs. destruct (Nat.ltb nm 2); [discriminate|]. destruct (Nat.ltb nq 2); [discriminate|]. injection Hs as <-.
      set (s := {| sm_mmin := Fin 2 |}). unfold class_call. rewrite call_eq.
      change (dlookup "beta" (mass_parameters (-1) 3 30 0 20 (5/10) (-1) 0)) with (@Ok xf (Fin (-1))). cbv zeta. change (sm_mmin s) with (Fin 2). change (sm_mmax s) with (Fin 100).
      change (ddel "beta" (mass_parameters (-1) 3 30 0 20 (5/10) (-1) 0)) with (single_peak_kw (-1) 3 30 0 20 (5/10) 0).
      change (dget_default "mmin" (Fin 2) (single_peak_kw (-1) 3 30 0 20 (5/10) 0)) with (Fin 3). change (dget_default "mmax" (Fin 100) (single_peak_kw (-1) 3 30 0 20 (5/10) 0)) with (Fin 30).
      rewrite flt_fin, Rltb_false, andb_false_r by lra. replace (fgt (Fin 30) (Fin 100)) with false by (symmetry; unfold fgt; rewrite flt_fin; apply Rltb_false; lra). rewrite andb_false_r.
      change (kw_merge (single_peak_kw (-1) 3 30 0 20 (5/10) 0) (class_kwargs SinglePeak (Fin 100))) with (Ok (single_peak_kw (-1) 3 30 0 20 (5/10) 0 ++ class_kwargs SinglePeak (Fin 100))%list). cbv beta iota.
      unfold p_m1. cbn [dlookup dget String.eqb Ascii.eqb Bool.eqb bind]. cbv zeta. unfold smoothed_primary. cbn [mapM].
      match goal with |- context [class_primary SinglePeak bk ?kk (Fin m)] => replace (class_primary SinglePeak bk kk (Fin m)) with (@Err xf ValueError) end; [reflexivity|].
      symmetry. unfold class_primary, two_component_kw. cbn [kwbind]. unfold kwbind. kwred. cbn. unfold two_component_single. rewrite powerlaw_one; [reflexivity|exact J|simpl; auto].
Qed.

Lemma C133_spin_file_refuted_pf :
  forall file bk d names a_1 a_2 c_1 c_2, file = spin_file \/ file = mass_rates -> draw_of file d ->
  magnitude_kw bk a_1 a_2 (given names d) = Err TypeError /\ iid_spin_kw bk a_1 a_2 c_1 c_2 (given names d) = Err TypeError.
Proof.
  intros file bk d names a_1 a_2 c_1 c_2 Hf Hd.
  assert (K : dget "alpha_chi_1" (given names d) = None /\ dget "alpha_chi" (given names d) = None).
  { split; (destruct (dget _ (given names d)) as [v|] eqn:E; [exfalso|reflexivity]); apply dget_In in E; unfold given in E; apply filter_In in E; destruct E as [E _];
    (destruct Hf as [->| ->]; unfold spin_file, mass_rates in Hd; split_draw Hd; cbn [In] in E; repeat (destruct E as [E|E]; [discriminate E|]); exact E). }
  destruct K as [K1 K2]. split.
  - unfold magnitude_kw, kwbind, magnitude_args. cbn [forallb]. unfold dmem at 1. rewrite K1. reflexivity.
  - unfold iid_spin_kw, kwbind, iid_spin_args. cbn [forallb]. unfold dmem at 4. rewrite K2, !andb_false_r. cbn. rewrite ?andb_false_r. reflexivity.
Qed.

Lemma C133_coverage_pf :
  let covers (file : dict prior) (args : list string) := forall d, draw_of file d -> forall a, In a args -> exists x, dget a (given args d) = Some (Fin x) in
  covers bbh_population magnitude_args /\ covers bbh_population orientation_args /\ covers spin_file orientation_args /\ covers spin_talbot_thrane orientation_args /\
  ~ covers mass_rates orientation_args /\ ~ covers mass_rates magnitude_args /\ ~ covers spin_file magnitude_args /\
  (forall file, In file [bbh_population; mass_rates; spin_file; spin_talbot_thrane] -> ~ covers file iid_spin_args).
Proof.
  cbv zeta. repeat split.
  1-4: intros d Hd a Ia; unfold bbh_population, spin_file, spin_talbot_thrane in Hd; split_draw Hd; cbn [In magnitude_args orientation_args] in Ia; repeat (destruct Ia as [<-|Ia]; [eexists; reflexivity|]); destruct Ia.
  - intros C. destruct (C (low_draw mass_rates) (low_ok mass_rates (or_intror (or_introl eq_refl))) "xi_spin"%string (or_introl eq_refl)) as (x & E). discriminate E.
  - intros C. destruct (C (low_draw mass_rates) (low_ok mass_rates (or_intror (or_introl eq_refl))) "alpha_chi_1"%string (or_introl eq_refl)) as (x & E). discriminate E.
  - intros C. destruct (C (low_draw spin_file) (low_ok spin_file (or_intror (or_intror (or_introl eq_refl)))) "alpha_chi_1"%string (or_introl eq_refl)) as (x & E). discriminate E.
  - intros file I C. assert (In "sigma_spin"%string iid_spin_args) by (simpl; auto). destruct (C (low_draw file) (low_ok file I) "sigma_spin"%string H) as (x & E).
    cbn [In] in I. repeat (destruct I as [<-|I]; [discriminate E|]). exact I.
Qed.

