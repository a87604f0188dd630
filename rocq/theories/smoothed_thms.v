(** Proofs of the property theorems stated in [Props_smoothed]. *)
From Coq Require Import Reals Lra Lia Psatz String Bool.
From Coquelicot Require Import Coquelicot.
From Coq Require Import List.
From Verif Require Import Xf Py St Xf_facts Py_facts Calc Spec Utils_model Powerlaw_facts Truncnorm_facts Trap_facts
  Np Np_facts Mass_model Mass_facts Smoothed_model Smoothed_facts SpecSmooth.
Import ListNotations.
Local Open Scope R_scope.

Lemma C28_smoothing_window_pf :
  forall bk mmin mmax delta_m, 0 < delta_m ->
  let S := fun m => smoothing bk (Fin m) (Fin mmin) (Fin mmax) (Fin delta_m) in
  exists s : R -> R,
    (forall m, S m = Fin (s m)) /\
    (forall m, 0 <= s m <= 1) /\
    (forall m, m < mmin \/ mmax < m -> s m = 0) /\
    (forall m, mmin <= m <= mmax -> 0 < s m) /\
    (forall m m', mmin <= m -> m <= m' -> m' <= mmax -> s m <= s m') /\
    (forall m m', mmin + delta_m <= m <= mmax -> mmin + delta_m <= m' <= mmax -> s m = s m') /\
    (mmin + delta_m / 2 <= mmax -> s (mmin + delta_m / 2) = 1 / 2) /\
    (forall t, 0 <= t <= delta_m -> mmin + delta_m <= mmax -> s (mmin + t) + s (mmin + delta_m - t) = 1).
Proof.
  intros bk mn mx d Hd S. exists (sval mn mx d).
  assert (In : forall m, mn <= m <= mx -> sval mn mx d m = swin (clp ((m - mn) / d))).
  { intros m Hm. unfold sval. now rewrite !Rleb_true by lra. }
  split; [|split; [|split; [|split; [|split; [|split; [|split]]]]]].
  - intros; now apply smoothing_val.
  - intros m. unfold sval. destruct (_ && _); [|lra]. assert (W := swin_range (clp ((m - mn) / d))). lra.
  - intros m [H|H]; unfold sval; [rewrite (Rleb_false mn m)|rewrite (Rleb_false m mx), andb_false_r]; auto.
  - intros m H. rewrite In by auto. apply swin_range.
  - intros m m' H1 H2 H3. rewrite !In by lra. assert (B := clp_bounds ((m - mn) / d)). assert (B' := clp_bounds ((m' - mn) / d)).
    apply swin_mono; try lra. apply clp_mono. apply Rmult_le_compat_r; [left; now apply Rinv_0_lt_compat|lra].
  - assert (C : forall m, mn + d <= m -> clp ((m - mn) / d) = 1 - 1 / 1000000).
    { intros m Hm. apply clp_hi. apply Rmult_le_reg_r with d; auto. replace ((m - mn) / d * d) with (m - mn) by (field; lra). lra. }
    intros m m' H H'. rewrite !In by lra. rewrite !C by lra. reflexivity.
  - intros H. rewrite In by lra. replace ((mn + d / 2 - mn) / d) with (1 / 2) by (field; lra).
    assert (E : clp (1 / 2) = 1 / 2) by (unfold clp; rewrite !Rltb_false by lra; reflexivity). rewrite E.
    assert (W := swin_sym (1 / 2)). replace (1 - 1 / 2) with (1 / 2) in W by lra. lra.
  - intros t Ht H. rewrite !In by lra.
    replace ((mn + d - t - mn) / d) with (1 - (mn + t - mn) / d) by (field; lra).
    rewrite clp_sym. apply swin_sym.
Qed.

Lemma C28_smoothing_range_pf :
  forall bk m mmin mmax delta_m,
  (exists r, smoothing bk m mmin mmax delta_m = Fin r /\ 0 <= r <= 1) /\
  (forall d, delta_m = Fin d -> d <= 0 -> bk <> Jax -> smoothing bk m mmin mmax delta_m = Fin 1).
Proof.
  intros. split; [apply smoothing_range|]. intros d -> Hd Hb. now apply smoothing_off.
Qed.

(** [p_m1] for a primary model returning finite values. *)
Lemma smoothed_primary_fin bk prim s kw mn mx d f ms : sm_mmax s = Fin mx -> 0 < d ->
  (forall m, In m ms -> prim kw (Fin m) = Ok (Fin (f m))) ->
  smoothed_primary bk prim s kw (Fin mn) (Fin d) (map Fin ms) = Ok (map Fin (map (fun m => f m * sval mn mx d m) ms)).
Proof.
  intros E Hd H. unfold smoothed_primary.
  rewrite (mapM_ok_in _ (fun x => fmul (Fin (f (toR x))) (smoothing bk x (Fin mn) (sm_mmax s) (Fin d)))).
  - f_equal. rewrite !map_map. apply map_ext. intros m. rewrite E, smoothing_val by auto. reflexivity.
  - intros x Hx. apply in_map_iff in Hx. destruct Hx as [m [<- Hm]]. rewrite H by auto. reflexivity.
Qed.
Lemma norm_or_one_fin N d : d <> 0 -> norm_or_one (Fin N) (Fin d) = Fin N.
Proof.
  intros H. unfold norm_or_one. unfold fne. rewrite feq_fin, Reqb_false by auto. cbn [negb of_bool].
  rewrite nan_to_num_Fin. autorewrite with xf. f_equal; ring.
Qed.
Definition m1norm (f : R -> R) mn mx d grid : R := Rtrap (map (fun m => f m * sval mn mx d m) grid) grid.
Lemma m1norm_pos f mn mx d grid : 0 < d -> strictly_increasing grid -> (2 <= List.length grid)%nat ->
  (forall m, In m grid -> 0 <= f m) -> (exists m, In m grid /\ mn <= m <= mx /\ 0 < f m) -> 0 < m1norm f mn mx d grid.
Proof.
  intros Hd Hg L Hf [m [Hm [Hb Hp]]]. apply Rtrap_pos_one; auto; [now rewrite map_length| |].
  - apply Forall_map, Forall_forall. intros x Hx. apply Rmult_le_pos; [now apply Hf|].
    unfold sval. destruct (_ && _); [|lra]. left; apply swin_range.
  - apply Exists_exists. eexists; split; [apply in_map; exact Hm|]. simpl.
    apply Rmult_lt_0_compat; auto. unfold sval. rewrite !Rleb_true by lra. apply swin_range.
Qed.
Lemma p_m1_fin bk prim s kw mn mx d f grid ms : sm_mmax s = Fin mx -> sm_m1s s = map Fin grid -> 0 < d ->
  dget "delta_m" kw = Some (Fin d) -> dget_default "mmin" (sm_mmin s) kw = Fin mn ->
  dget_default "mmin" (sm_mmin s) (ddel "delta_m" kw) = Fin mn ->
  (forall m, In m grid \/ In m ms -> prim (ddel "delta_m" kw) (Fin m) = Ok (Fin (f m))) ->
  m1norm f mn mx d grid <> 0 ->
  forall ds, dget "mass_1" ds = Some (map Fin ms) ->
  p_m1 bk prim s ds kw = Ok (map (fun m => Fin (f m * sval mn mx d m / m1norm f mn mx d grid)) ms).
Proof.
  intros Emx Eg Hd Hdm Hmn Hmn' Hf HN ds Hds. unfold p_m1, norm_p_m1.
  assert (Dd : dget_default "delta_m" (Fin 0) kw = Fin d) by (unfold dget_default; now rewrite Hdm).
  rewrite (dlookup_ok _ _ _ Hds). cbn [bind]. cbv zeta. rewrite !Dd, Hmn, Hmn', Eg.
  rewrite (smoothed_primary_fin bk prim s _ mn mx d f ms) by auto. cbn [bind].
  rewrite feq_fin, Reqb_false, andb_false_r by lra.
  rewrite (smoothed_primary_fin bk prim s _ mn mx d f grid) by auto. cbn [bind].
  rewrite trapezoid_fin. fold (m1norm f mn mx d grid). rewrite norm_or_one_fin by lra. f_equal.
  rewrite !map_map. apply map_ext. intros m. now rewrite fdiv_fin.
Qed.
Lemma fdiv_1_r x : fdiv x (Fin 1) = x.
Proof. destruct x as [a| | |]; simpl; [rewrite Reqb_false by lra; f_equal; field|rewrite Rltb_false by lra|rewrite Rltb_false by lra|]; reflexivity. Qed.
Lemma dlookup_one {V} k (v : V) : dlookup k [(k, v)] = Ok v.
Proof. unfold dlookup; simpl. now rewrite String.eqb_refl. Qed.
Lemma dget_default_ddel_other {V} k k' (v : V) d : k <> k' -> dget_default k v (ddel k' d) = dget_default k v d.
Proof. intros H. unfold dget_default. now rewrite dget_ddel_other. Qed.

Lemma C29_primary_normalised_pf :
  forall bk primary s kwargs mmin mmax delta_m (grid : list R) (f : R -> R),
  sm_m1s s = map Fin grid -> strictly_increasing grid -> (2 <= List.length grid)%nat -> sm_mmax s = Fin mmax ->
  dget "delta_m" kwargs = Some (Fin delta_m) -> 0 < delta_m ->
  dget_default "mmin" (sm_mmin s) kwargs = Fin mmin ->
  (forall m, In m grid -> primary (ddel "delta_m" kwargs) (Fin m) = Ok (Fin (f m)) /\ 0 <= f m) ->
  (exists m, In m grid /\ mmin <= m <= mmax /\ 0 < f m) ->
  exists p, p_m1 bk primary s [("mass_1"%string, sm_m1s s)] kwargs = Ok p /\ trapezoid p (sm_m1s s) = Fin 1 /\
            Forall (fun v => exists r, v = Fin r /\ 0 <= r) p.
Proof.
  intros bk prim s kw mn mx d grid f Eg Ig L Emx Hdm Hd Hmn Hf Hp.
  assert (P : 0 < m1norm f mn mx d grid) by (apply m1norm_pos; auto; intros; now apply Hf).
  assert (E : p_m1 bk prim s [("mass_1"%string, sm_m1s s)] kw
     = Ok (map (fun m => Fin (f m * sval mn mx d m / m1norm f mn mx d grid)) grid)).
  { apply (p_m1_fin bk prim s kw mn mx d f grid grid); auto; [|intros m [H|H]; now apply Hf|lra|simpl; now rewrite Eg].
    rewrite dget_default_ddel_other by discriminate. exact Hmn. }
  rewrite E. eexists; split; [reflexivity|]. split.
  - rewrite Eg. rewrite <- (map_map (fun m => f m * sval mn mx d m) (fun v => Fin (v / m1norm f mn mx d grid))).
    rewrite (map_ext_in _ (fun v => Fin (/ m1norm f mn mx d grid * v))) by (intros; f_equal; unfold Rdiv; ring).
    rewrite <- (map_map (Rmult (/ m1norm f mn mx d grid)) Fin), trapezoid_fin, Rtrap_scale.
    fold (m1norm f mn mx d grid). f_equal. field. lra.
  - apply Forall_map, Forall_forall. intros m Hm. eexists; split; [reflexivity|].
    apply Rmult_le_pos; [|left; now apply Rinv_0_lt_compat].
    apply Rmult_le_pos; [now apply Hf|]. unfold sval. destruct (_ && _); [|lra]. left; apply swin_range.
Qed.

Lemma C29_primary_normalised_any_pf :
  forall bk primary s kwargs delta_m (grid : list R) vals N,
  sm_m1s s = map Fin grid -> (2 <= List.length grid)%nat ->
  dget "delta_m" kwargs = Some (Fin delta_m) -> delta_m <> 0 ->
  let mmin := dget_default "mmin" (sm_mmin s) kwargs in
  mapM (fun m => p <- primary (ddel "delta_m" kwargs) m ;; Ok (fmul p (smoothing bk m mmin (sm_mmax s) (Fin delta_m)))) (sm_m1s s) = Ok vals ->
  trapezoid vals (sm_m1s s) = Fin N -> N <> 0 ->
  exists p, p_m1 bk primary s [("mass_1"%string, sm_m1s s)] kwargs = Ok p /\ trapezoid p (sm_m1s s) = Fin 1.
Proof.
  intros bk prim s kw d grid vals N Eg L Hdm Hd mmin HV HT HN. unfold p_m1, norm_p_m1.
  assert (Dd : dget_default "delta_m" (Fin 0) kw = Fin d) by (unfold dget_default; now rewrite Hdm).
  rewrite dlookup_one. cbn [bind]. cbv zeta. rewrite !Dd. rewrite dget_default_ddel_other by discriminate. fold mmin.
  unfold smoothed_primary. rewrite HV. cbn [bind].
  rewrite feq_fin, Reqb_false, andb_false_r by auto. cbn [bind].
  rewrite HT, norm_or_one_fin by auto. eexists; split; [reflexivity|].
  rewrite Eg in *. apply trapezoid_normalise; auto.
  apply mapM_length in HV. now rewrite HV, map_length.
Qed.

Lemma C29_no_smoothing_no_renormalisation_pf :
  forall bk primary s kwargs ms (f : xf -> xf), bk <> Jax ->
  dget_default "delta_m" (Fin 0) kwargs = Fin 0 ->
  (forall m, In m ms -> primary (ddel "delta_m" kwargs) m = Ok (f m)) ->
  p_m1 bk primary s [("mass_1"%string, ms)] kwargs = Ok (map f ms).
Proof.
  intros bk prim s kw ms f Hb Hd Hf. unfold p_m1, norm_p_m1. rewrite dlookup_one. cbn [bind]. rewrite Hd.
  unfold smoothed_primary. rewrite (mapM_ok_in _ f).
  - cbn [bind]. rewrite feq_fin, Reqb_true by auto. replace (negb (is_jax bk)) with true by (destruct bk; auto; congruence).
    cbn [andb bind]. f_equal. rewrite map_map. apply map_ext. intros m. apply fdiv_1_r.
  - intros m Hm. rewrite Hf by auto. cbn [bind]. rewrite smoothing_off by (auto; lra). now rewrite fmul_1_r.
Qed.

Definition single_peak_kw alpha mmin mmax lam mpp sigpp delta_m : dict xf :=
  [("alpha", Fin alpha); ("mmin", Fin mmin); ("mmax", Fin mmax); ("lam", Fin lam); ("mpp", Fin mpp);
   ("sigpp", Fin sigpp); ("delta_m", Fin delta_m)]%string.
Lemma twoval_pos alpha mmin mmax lam mpp sigpp gmax x : 0 < mmin < mmax -> mmin < gmax -> 0 < sigpp -> 0 <= lam <= 1 ->
  mmax <= gmax -> mmin <= x <= mmax -> 0 < twoval alpha mmin mmax lam mpp sigpp gmax x.
Proof.
  intros. unfold twoval. rewrite plval_in, tnval_in by lra.
  assert (P := plpdf_pos (- alpha) mmax mmin x ltac:(lra)). assert (Q := tnpdf_pos mpp sigpp gmax mmin x ltac:(lra) ltac:(lra)).
  destruct (Req_dec lam 1) as [->|].
  - lra.
  - assert (0 < (1 - lam) * plpdf (- alpha) mmax mmin x) by (apply Rmult_lt_0_compat; lra).
    assert (0 <= lam * tnpdf mpp sigpp gmax mmin x) by (apply Rmult_le_pos; lra). lra.
Qed.
Lemma twoval_nonneg alpha mmin mmax lam mpp sigpp gmax x : 0 < mmin < mmax -> mmin < gmax -> 0 < sigpp -> 0 <= lam <= 1 ->
  0 <= twoval alpha mmin mmax lam mpp sigpp gmax x.
Proof.
  intros. unfold twoval. assert (0 <= plval (- alpha) mmax mmin x) by (apply plval_nonneg; lra).
  assert (0 <= tnval mpp sigpp gmax mmin x) by (apply tnval_nonneg; lra).
  apply Rplus_le_le_0_compat; apply Rmult_le_pos; lra.
Qed.
Lemma sp_gmax bk s alpha mmin mmax lam mpp sigpp d gmax x : sm_mmax s = Fin gmax ->
  0 < mmin < mmax -> mmin < gmax -> 0 < sigpp -> (bk = Jax \/ alpha <> -1) -> 0 < x ->
  class_primary SinglePeak bk (ddel "delta_m" (single_peak_kw alpha mmin mmax lam mpp sigpp d ++ class_kwargs SinglePeak (sm_mmax s))) (Fin x)
  = Ok (Fin (twoval alpha mmin mmax lam mpp sigpp gmax x)).
Proof. intros E; intros. rewrite E. cbn. now apply two_val. Qed.

Lemma C29_single_peak_normalised_pf :
  forall bk lo hi n nq cache s alpha mmin mmax lam mpp sigpp delta_m,
  smoothed_init lo hi (n, nq) cache = Ok s -> 0 < lo < hi ->
  lo <= mmin < mmax -> mmax <= hi -> 0 <= lam <= 1 -> 0 < sigpp -> 0 < delta_m -> (bk = Jax \/ alpha <> -1) ->
  (exists i, (i < n)%nat /\ mmin <= lo + INR i * ((hi - lo) / INR (n - 1)) <= mmax) ->
  let kwargs := (single_peak_kw alpha mmin mmax lam mpp sigpp delta_m ++ class_kwargs SinglePeak (sm_mmax s))%list in
  exists p, p_m1 bk (class_primary SinglePeak bk) s [("mass_1"%string, sm_m1s s)] kwargs = Ok p /\
            trapezoid p (sm_m1s s) = Fin 1 /\ Forall (fun v => exists r, v = Fin r /\ 0 <= r) p.
Proof.
  intros bk lo hi n nq ca s alpha mmin mmax lam mpp sigpp d Hs Hlo Hmm Hmx Hlam Hsig Hd Ha [i [Hi Hb]] kw.
  unfold smoothed_init in Hs. simpl fst in Hs. simpl snd in Hs.
  destruct (Nat.ltb_spec n 2) as [|Hn]; [discriminate|]. destruct (Nat.ltb nq 2); [discriminate|]. injection Hs as <-.
  apply (C29_primary_normalised_pf bk _ _ kw mmin hi d (linspace lo hi n) (twoval alpha mmin mmax lam mpp sigpp hi)); auto.
  - apply linspace_incr; auto; lra.
  - now rewrite linspace_length.
  - intros m Hm. apply linspace_bounds in Hm; [|lra]. split.
    + apply sp_gmax; auto; lra.
    + apply twoval_nonneg; lra.
  - exists (lo + INR i * ((hi - lo) / INR (n - 1))). split; [|split; [lra|]].
    + unfold linspace. apply in_map_iff. exists i. split; auto. apply in_seq; lia.
    + apply twoval_pos; lra.
Qed.

Lemma C30_beta_required_pf :
  forall bk primary skw interp s ds kwargs, dget "beta" kwargs = None ->
  smoothed_call bk primary skw interp ds kwargs s = (s, Err (KeyError "beta")).
Proof.
  intros bk prim skw li s ds kw H. unfold smoothed_call, sbind at 1, slift. now rewrite dlookup_err.
Qed.

Lemma C30_bounds_rejected_pf :
  forall bk primary skw interp s ds kwargs beta,
  bk <> Jax -> dget "beta" kwargs = Some beta ->
  flt (dget_default "mmin" (sm_mmin s) kwargs) (sm_mmin s) = true \/
  fgt (dget_default "mmax" (sm_mmax s) kwargs) (sm_mmax s) = true ->
  smoothed_call bk primary skw interp ds kwargs s = (s, Err ValueError).
Proof.
  intros bk prim skw li s ds kw b Hb H0 H. unfold smoothed_call, sbind at 1, slift. rewrite (dlookup_ok _ _ _ H0).
  unfold sbind at 1, sget. rewrite !dget_default_ddel_other by discriminate.
  replace (is_jax bk) with false by (destruct bk; auto; congruence). cbn [negb andb].
  destruct H as [->| ->]; [reflexivity|]. destruct (flt _ _); reflexivity.
Qed.

Lemma C30_accepted_pf :
  forall bk primary skw interp s ds kwargs beta m1 q,
  dget "beta" kwargs = Some beta ->
  bk = Jax \/ (flt (dget_default "mmin" (sm_mmin s) kwargs) (sm_mmin s) = false /\
               fgt (dget_default "mmax" (sm_mmax s) kwargs) (sm_mmax s) = false) ->
  (forall k, In k (dkeys (skw (sm_mmax s))) -> dget k (ddel "beta" kwargs) = None) ->
  (forall kw m, exists v, primary kw m = Ok v) ->
  dget "mass_1" ds = Some m1 -> dget "mass_ratio" ds = Some q -> List.length q = List.length m1 ->
  sm_masses s = None ->
  exists l, snd (smoothed_call bk primary skw interp ds kwargs s) = Ok l /\ List.length l = List.length m1.
Proof.
  intros bk prim skw li s ds kw b m1 q H0 H Hk Hp E1 E2 EL Hm. unfold smoothed_call, sbind at 1, slift. rewrite (dlookup_ok _ _ _ H0).
  unfold sbind at 1, sget. rewrite !dget_default_ddel_other by discriminate.
  assert (A : negb (is_jax bk) && flt (dget_default "mmin" (sm_mmin s) kw) (sm_mmin s) = false).
  { destruct H as [->|[-> _]]; [reflexivity|apply andb_false_r]. }
  assert (B : negb (is_jax bk) && fgt (dget_default "mmax" (sm_mmax s) kw) (sm_mmax s) = false).
  { destruct H as [->|[_ ->]]; [reflexivity|apply andb_false_r]. }
  rewrite A, B. unfold sbind at 1, kw_merge.
  replace (existsb _ _) with false.
  2:{ symmetry. apply not_true_iff_false. intros C. apply existsb_exists in C. destruct C as [k [C1 C2]].
      unfold dmem in C2. rewrite (Hk k C1) in C2. discriminate. }
  set (kw' := (ddel "beta" kw ++ skw (sm_mmax s))%list).
  assert (PM : exists pm, p_m1 bk prim s ds kw' = Ok pm /\ List.length pm = List.length m1).
  { unfold p_m1. rewrite (dlookup_ok _ _ _ E1). cbn [bind].
    assert (SP : forall kw mn d ms, exists l, smoothed_primary bk prim s kw mn d ms = Ok l /\ List.length l = List.length ms).
    { intros kw0 mn d ms. unfold smoothed_primary. induction ms as [|m ms [l [IH1 IH2]]]; [exists nil; split; reflexivity|].
      simpl. destruct (Hp kw0 m) as [v ->]. cbn [bind]. rewrite IH1. cbn [bind]. eexists; split; [reflexivity|]. simpl; lia. }
    destruct (SP (ddel "delta_m" kw') (dget_default "mmin" (sm_mmin s) kw') (dget_default "delta_m" (Fin 0) kw') m1) as [l [-> Ll]]. cbn [bind].
    unfold norm_p_m1. destruct (negb (is_jax bk) && feq _ _); cbn [bind].
    - eexists; split; [reflexivity|]. now rewrite map_length.
    - edestruct SP as [l' [-> _]]. cbn [bind]. eexists; split; [reflexivity|]. now rewrite map_length. }
  destruct PM as [pm [-> Lpm]].
  set (mn := dget_default "mmin" (sm_mmin s) kw). set (d := dget_default "delta_m" (Fin 0) kw).
  assert (Q : bcast2 (qd bk b mn d) m1 q = Some (zipWith (qd bk b mn d) m1 q)).
  { unfold bcast2. now rewrite EL, Nat.eqb_refl. }
  unfold sbind at 1. unfold sbind at 1. rewrite (p_q_cases _ _ _ _ _ _ _ _ _ _ E1 E2 Q), Hm.
  replace (if sm_cache s then None else None) with (@None (list xf)) by (destruct (sm_cache s); reflexivity).
  unfold fresh_pq.
  assert (LQ : List.length (zipWith (qd bk b mn d) m1 q) = List.length m1) by (unfold zipWith; rewrite map_length, combine_length; lia).
  assert (BI : forall x y, List.length x = List.length y -> bcast_into bk fdiv x y = Ok (zipWith fdiv x y)).
  { intros x y Hl. unfold bcast_into, bcast, bcast2. rewrite Hl, Nat.eqb_refl. destruct (is_jax bk); reflexivity. }
  rewrite BI by (unfold norms_at; rewrite map_length; auto). cbn [rmap]. unfold bcast, bcast2, slift.
  assert (LR : List.length (map nan_to_num (zipWith fdiv (zipWith (qd bk b mn d) m1 q) (norms_at bk li s b mn d m1))) = List.length m1).
  { rewrite map_length. unfold zipWith at 1. rewrite map_length, combine_length, LQ. unfold norms_at. rewrite map_length. lia. }
  rewrite LR, Lpm, Nat.eqb_refl. simpl. eexists; split; [reflexivity|].
  unfold zipWith at 1. rewrite map_length, combine_length, LR. lia.
Qed.

Section H.
  Context (bk : backend) (prim : dict xf -> xf -> result xf) (skw : xf -> dict xf) (li : list xf -> list xf -> xf -> xf).
  Notation call := (smoothed_call bk prim skw li).

  Lemma p_q_state ds b mn d s : fst (p_q bk li ds b mn d s) = s \/
    exists m1, dget "mass_1" ds = Some m1 /\ fst (p_q bk li ds b mn d s) = set_masses (Some m1) s.
  Proof.
    destruct (dget "mass_1" ds) as [m1|] eqn:E1.
    2:{ left. destruct (p_q_err bk li ds b mn d s) as [e [-> _]]; auto. }
    destruct (dget "mass_ratio" ds) as [q|] eqn:E2.
    2:{ left. destruct (p_q_err bk li ds b mn d s) as [e [-> _]]; auto. }
    destruct (bcast2 (qd bk b mn d) m1 q) as [pq|] eqn:E3.
    2:{ left. destruct (p_q_err bk li ds b mn d s) as [e [-> _]]; auto. right; right; eauto. }
    rewrite (p_q_cases _ _ _ _ _ _ _ _ _ _ E1 E2 E3).
    destruct (if sm_cache s then sm_masses s else None) as [ms|]; [destruct (bcast_into bk fdiv pq _)|]; eauto.
  Qed.
  Lemma call_eq ds kw s : call ds kw s =
    match dlookup "beta" kw with
    | Err e => (s, Err e)
    | Ok b =>
        let mn := dget_default "mmin" (sm_mmin s) (ddel "beta" kw) in
        let mx := dget_default "mmax" (sm_mmax s) (ddel "beta" kw) in
        let d := dget_default "delta_m" (Fin 0) (ddel "beta" kw) in
        if negb (is_jax bk) && flt mn (sm_mmin s) then (s, Err ValueError)
        else if negb (is_jax bk) && fgt mx (sm_mmax s) then (s, Err ValueError)
        else match kw_merge (ddel "beta" kw) (skw (sm_mmax s)) with
             | Err e => (s, Err e)
             | Ok kw' => match p_m1 bk prim s ds kw' with
                         | Err e => (s, Err e)
                         | Ok pm => (fst (p_q bk li ds b mn d s),
                                     match snd (p_q bk li ds b mn d s) with Ok pq => bcast bk fmul pm pq | Err e => Err e end)
                         end
             end
    end.
  Proof.
    unfold smoothed_call, sbind at 1, slift. destruct (dlookup "beta" kw) as [b|e]; [|reflexivity].
    unfold sbind at 1, sget. cbv zeta. destruct (_ && _); [reflexivity|]. destruct (_ && _); [reflexivity|].
    unfold sbind at 1. destruct (kw_merge _ _) as [kw'|]; [|reflexivity]. unfold sbind at 1. destruct (p_m1 _ _ _ _ _); [|reflexivity].
    unfold sbind at 1. destruct (p_q _ _ _ _ _ _ _) as [s' [?|?]]; reflexivity.
  Qed.
  Lemma call_state ds kw s : fst (call ds kw s) = s \/
    exists m1, dget "mass_1" ds = Some m1 /\ fst (call ds kw s) = set_masses (Some m1) s.
  Proof.
    rewrite call_eq. destruct (dlookup "beta" kw) as [b|]; [|auto]. cbv zeta.
    destruct (_ && _); [auto|]. destruct (_ && _); [auto|].
    destruct (kw_merge _ _) as [kw'|]; [|auto]. destruct (p_m1 _ _ _ _ _); [|auto]. cbn [fst]. apply p_q_state.
  Qed.
  (** The result of a call only depends on the cached masses through [p_q]. *)
  Lemma call_masses ds kw s ms :
    (forall b mn d, snd (p_q bk li ds b mn d (set_masses ms s)) = snd (p_q bk li ds b mn d s)) ->
    snd (call ds kw (set_masses ms s)) = snd (call ds kw s).
  Proof.
    intros H. rewrite !call_eq. destruct (dlookup "beta" kw) as [b|]; [|reflexivity]. cbv zeta.
    cbn [sm_mmin sm_mmax set_masses]. change (p_m1 bk prim (set_masses ms s)) with (p_m1 bk prim s).
    destruct (_ && _); [reflexivity|]. destruct (_ && _); [reflexivity|].
    destruct (kw_merge _ _) as [kw'|]; [|reflexivity]. destruct (p_m1 _ _ _ _ _); [|reflexivity]. cbn [snd]. now rewrite H.
  Qed.
  Lemma run_inv h : forall s, exists ms, run call h s = set_masses ms s /\
    (ms = sm_masses s \/ exists c m', In c h /\ dget "mass_1" (fst c) = Some m' /\ ms = Some m').
  Proof.
    induction h as [|[ds kw] h IH]; intros s; simpl.
    - exists (sm_masses s). split; auto. now rewrite set_masses_same.
    - destruct (IH (fst (call ds kw s))) as [ms [E HC]]. rewrite E. clear E.
      destruct (call_state ds kw s) as [E|[m1 [Em E]]]; rewrite E in *.
      + exists ms. split; auto. destruct HC as [->|[c [m' [A [B ->]]]]]; [auto|]. right; exists c, m'; auto.
      + exists ms. split; [apply set_masses_twice|]. right. destruct HC as [->|[c [m' [A [B ->]]]]].
        * exists (ds, kw), m1. auto.
        * exists c, m'. auto.
  Qed.
End H.

Lemma C31_uncached_pf :
  forall bk primary skw interp s history dataset kwargs, sm_cache s = false ->
  let call := smoothed_call bk primary skw interp in
  snd (call dataset kwargs (run call history s)) = snd (call dataset kwargs s).
Proof.
  intros bk prim skw li s h ds kw Hc call. destruct (run_inv bk prim skw li h s) as [ms [E _]]. fold call in E. rewrite E.
  apply call_masses. intros b mn d.
  destruct (dget "mass_1" ds) as [m1|] eqn:E1.
  2:{ destruct (p_q_err bk li ds b mn d s) as [e [-> HE]]; auto. now rewrite HE. }
  destruct (dget "mass_ratio" ds) as [q|] eqn:E2.
  2:{ destruct (p_q_err bk li ds b mn d s) as [e [-> HE]]; auto. now rewrite HE. }
  destruct (bcast2 (qd bk b mn d) m1 q) as [pq|] eqn:E3.
  2:{ destruct (p_q_err bk li ds b mn d s) as [e [-> HE]]; [right; right; eauto|]. now rewrite HE. }
  rewrite !(p_q_cases _ _ _ _ _ _ _ _ _ _ E1 E2 E3). cbn [sm_cache set_masses]. rewrite Hc. reflexivity.
Qed.

Lemma C31_cached_partial_pf :
  forall bk primary skw interp s history dataset kwargs m1 q,
  sm_masses s = None ->
  dget "mass_1" dataset = Some m1 -> dget "mass_ratio" dataset = Some q -> List.length q = List.length m1 ->
  (forall c m', In c history -> dget "mass_1" (fst c) = Some m' ->
      m' = m1 \/ (List.length m' <> List.length m1 /\ List.length m' <> 1%nat /\ (bk = Jax -> List.length m1 <> 1%nat))) ->
  let call := smoothed_call bk primary skw interp in
  snd (call dataset kwargs (run call history s)) = snd (call dataset kwargs s).
Proof.
  intros bk prim skw li s h ds kw m1 q Hn E1 E2 EL HH call.
  destruct (run_inv bk prim skw li h s) as [ms [E HC]]. fold call in E. rewrite E.
  apply call_masses. intros b mn d.
  assert (E3 : bcast2 (qd bk b mn d) m1 q = Some (zipWith (qd bk b mn d) m1 q)).
  { unfold bcast2. now rewrite EL, Nat.eqb_refl. }
  assert (LQ : List.length (zipWith (qd bk b mn d) m1 q) = List.length m1) by (unfold zipWith; rewrite map_length, combine_length; lia).
  rewrite !(p_q_cases _ _ _ _ _ _ _ _ _ _ E1 E2 E3). cbn [sm_cache sm_masses set_masses]. rewrite Hn.
  replace (if sm_cache s then None else None) with (@None (list xf)) by (destruct (sm_cache s); reflexivity).
  destruct (sm_cache s); [|reflexivity]. destruct HC as [->|[c [m' [HI [Hm ->]]]]]; [now rewrite Hn|].
  change (norms_at bk li (set_masses (Some m') s)) with (norms_at bk li s).
  change (fresh_pq bk li (set_masses (Some m') s)) with (fresh_pq bk li s).
  destruct (HH c m' HI Hm) as [->|[N1 [N2 N3]]].
  - unfold fresh_pq. destruct (bcast_into bk fdiv _ (norms_at bk li s b mn d m1)); reflexivity.
  - assert (X : bcast_into bk fdiv (zipWith (qd bk b mn d) m1 q) (norms_at bk li s b mn d m') = Err (shape_error bk)).
    { assert (LN : List.length (norms_at bk li s b mn d m') = List.length m') by apply map_length.
      unfold bcast_into, bcast, bcast2. rewrite LQ, LN. rewrite (proj2 (Nat.eqb_neq _ _)) by auto.
      destruct (norms_at bk li s b mn d m') as [|n0 [|n1 n']]; simpl in LN; try lia.
      - destruct bk; auto. simpl is_jax. cbn iota. destruct (zipWith _ m1 q) as [|z0 [|z1 z']]; simpl in LQ; try reflexivity; exfalso; apply N3; [reflexivity|congruence].
      - destruct bk; auto. simpl is_jax. cbn iota. destruct (zipWith _ m1 q) as [|z0 [|z1 z']]; simpl in LQ; try reflexivity; exfalso; apply N3; [reflexivity|congruence]. }
    rewrite X. reflexivity.
Qed.

Lemma xls_3 : xlinspace 2 8 3 = [Fin 2; Fin 5; Fin 8].
Proof. unfold xlinspace, linspace. simpl. repeat apply (f_equal2 (@cons xf)); try reflexivity; apply f_equal; lra. Qed.
Lemma xls_2 : xlinspace (1 / 1000) 1 2 = [Fin (1 / 1000); Fin 1].
Proof. unfold xlinspace, linspace. simpl. repeat apply (f_equal2 (@cons xf)); try reflexivity; apply f_equal; lra. Qed.
Definition wcst : R := swin (1 - 1 / 1000000).
Lemma wcst_pos : 0 < wcst. Proof. apply swin_range. Qed.
Lemma qd_one bk m : 3 <= m -> qd bk (Fin 0) (Fin 2) (Fin 1) (Fin m) (Fin 1) = Fin (/ (1 - 2 / m) * wcst).
Proof.
  intros H. unfold qd. rewrite fdiv_fin by lra.
  assert (L : 0 < 2 / m < 1).
  { split; [apply Rdiv_lt_0_compat; lra|]. apply Rmult_lt_reg_r with m; [lra|]. replace (2 / m * m) with 2 by (field; lra). lra. }
  rewrite powerlaw_body_in by lra. rewrite fmul_fin, smoothing_val by lra. rewrite fmul_fin. f_equal. f_equal.
  - unfold plpdf, plnorm. rewrite Reqb_false by lra. rewrite !Rplus_0_r. rewrite !Rpower_1 by lra.
    unfold Rpower at 1. rewrite ln_1, Rmult_0_l, exp_0. field. lra.
  - unfold sval. rewrite !Rleb_true by lra. cbn [andb]. rewrite clp_hi by lra. reflexivity.
Qed.
Lemma qd_low bk m : 3 <= m <= 8 -> qd bk (Fin 0) (Fin 2) (Fin 1) (Fin m) (Fin (1 / 1000)) = Fin 0.
Proof.
  intros H. unfold qd. rewrite fdiv_fin by lra.
  assert (L : 1 / 1000 < 2 / m < 1).
  { split; apply Rmult_lt_reg_r with m; try lra; replace (2 / m * m) with 2 by (field; lra); lra. }
  rewrite powerlaw_body_out by lra. rewrite fmul_fin, smoothing_val by lra. rewrite fmul_fin. f_equal. ring.
Qed.
Lemma qnorm_wit bk m : 3 <= m <= 8 ->
  qnorm bk [Fin (1 / 1000); Fin 1] (Fin 0) (Fin 2) (Fin 1) (Fin m) = Fin ((1 - 1 / 1000) / 2 * (/ (1 - 2 / m) * wcst)).
Proof.
  intros H. unfold qnorm. cbn [map]. rewrite qd_one, qd_low by lra.
  change (trapezoid [Fin 0; Fin (/ (1 - 2 / m) * wcst)] [Fin (1 / 1000); Fin 1]) with
    (trapezoid (map Fin [0; / (1 - 2 / m) * wcst]) (map Fin [1 / 1000; 1])).
  rewrite trapezoid_fin, norm_or_one_fin by lra. f_equal. unfold Rtrap. lra.
Qed.
Definition wit_kw : dict xf := (single_peak_kw 2 2 8 (1/2) 5 1 1 ++ [("beta"%string, Fin 0)])%list.
Definition wit_ds (m : R) : dict (list xf) := [("mass_1"%string, [Fin m]); ("mass_ratio"%string, [Fin 1])].
Definition wit_state : smoothed :=
  {| sm_mmin := Fin 2; sm_mmax := Fin 8; sm_m1s := map Fin [2; 5; 8]; sm_qs := [Fin (1 / 1000); Fin 1];
     sm_cache := true; sm_masses := None |}.
Lemma wit_init : smoothed_init 2 8 (3, 2)%nat true = Ok wit_state.
Proof. unfold smoothed_init. simpl fst; simpl snd. rewrite xls_3, xls_2. reflexivity. Qed.
Lemma wit_pm bk s m : sm_mmax s = Fin 8 -> sm_mmin s = Fin 2 -> sm_m1s s = map Fin [2; 5; 8] -> 2 <= m <= 8 ->
  exists r, 0 < r /\
  p_m1 bk (class_primary SinglePeak bk) s (wit_ds m)
    (single_peak_kw 2 2 8 (1/2) 5 1 1 ++ class_kwargs SinglePeak (sm_mmax s)) = Ok [Fin r].
Proof.
  intros E1 E2 E3 Hm.
  assert (P : 0 < m1norm (twoval 2 2 8 (1/2) 5 1 8) 2 8 1 [2; 5; 8]).
  { apply m1norm_pos; try lra; [simpl; lra|simpl; lia| |].
    - intros; apply twoval_nonneg; lra.
    - exists 5. split; [simpl; auto|]. split; [lra|]. apply twoval_pos; lra. }
  rewrite (p_m1_fin bk _ s _ 2 8 1 (twoval 2 2 8 (1/2) 5 1 8) [2; 5; 8] [m]); auto; try lra.
  - simpl map. eexists; split; [|reflexivity].
    apply Rdiv_lt_0_compat; auto. apply Rmult_lt_0_compat; [apply twoval_pos; lra|].
    unfold sval. rewrite !Rleb_true by lra. apply swin_range.
  - intros x Hx. assert (0 < x) by (destruct Hx as [Hx|Hx]; simpl in Hx; lra). apply sp_gmax; auto; try (right; lra); lra.
Qed.
Section W.
  Context (bk : backend) (li : list xf -> list xf -> xf -> xf)
    (Hli : forall nodes vals i, (i < List.length nodes)%nat -> List.length vals = List.length nodes -> NoDup nodes ->
        li nodes vals (nth i nodes NaN) = nth i vals NaN).
  Lemma wit_norms s m : m = 5 \/ m = 8 -> sm_m1s s = map Fin [2; 5; 8] -> sm_qs s = [Fin (1 / 1000); Fin 1] ->
    norms_at bk li s (Fin 0) (Fin 2) (Fin 1) [Fin m] = [Fin ((1 - 1 / 1000) / 2 * (/ (1 - 2 / m) * wcst))].
  Proof.
    intros Hm E1 E2. unfold norms_at. cbn [map]. f_equal. rewrite E1, E2.
    set (vals := map _ (map Fin [2; 5; 8])).
    assert (ND : NoDup (map Fin [2; 5; 8])).
    { repeat constructor; simpl; intros H; repeat destruct H as [H|H]; try injection H; try lra; auto. }
    destruct Hm as [->| ->].
    - change (Fin 5) with (nth 1 (map Fin [2; 5; 8]) NaN) at 1. rewrite Hli; [|simpl; lia|reflexivity|exact ND].
      unfold vals. simpl nth. apply qnorm_wit. lra.
    - change (Fin 8) with (nth 2 (map Fin [2; 5; 8]) NaN) at 1. rewrite Hli; [|simpl; lia|reflexivity|exact ND].
      unfold vals. simpl nth. apply qnorm_wit. lra.
  Qed.
  (** One call on the witness: fresh, and after the masses [Fin 5] were cached. *)
  Lemma wit_call s m ms : sm_mmax s = Fin 8 -> sm_mmin s = Fin 2 -> sm_m1s s = map Fin [2; 5; 8] ->
    sm_qs s = [Fin (1 / 1000); Fin 1] -> sm_cache s = true -> m = 5 \/ m = 8 ->
    (sm_masses s = None /\ ms = m) \/ (sm_masses s = Some [Fin ms] /\ (ms = 5 \/ ms = 8)) ->
    exists r, 0 < r /\
      p_m1 bk (class_primary SinglePeak bk) s (wit_ds m)
        (single_peak_kw 2 2 8 (1/2) 5 1 1 ++ class_kwargs SinglePeak (sm_mmax s)) = Ok [Fin r] /\
      class_call SinglePeak bk li (wit_ds m) wit_kw s =
      (set_masses (Some [Fin ms]) s, Ok [Fin (r * ((1 - 2 / ms) / (1 - 2 / m) * 2 / (1 - 1 / 1000)))]).
  Proof.
    intros E1 E2 E3 E4 E5 Hm Hs. destruct (wit_pm bk s m E1 E2 E3 ltac:(lra)) as [r [Hr EP]]. exists r. split; auto. split; auto.
    assert (Hms : ms = 5 \/ ms = 8) by (destruct Hs as [[_ ->]|[_ H]]; auto).
    unfold class_call. rewrite call_eq. change (dlookup "beta" wit_kw) with (Ok (Fin 0)). cbn iota. cbv zeta.
    change (ddel "beta" wit_kw) with (single_peak_kw 2 2 8 (1/2) 5 1 1).
    change (dget_default "mmin" (sm_mmin s) (single_peak_kw 2 2 8 (1/2) 5 1 1)) with (Fin 2).
    change (dget_default "mmax" (sm_mmax s) (single_peak_kw 2 2 8 (1/2) 5 1 1)) with (Fin 8).
    change (dget_default "delta_m" (Fin 0) (single_peak_kw 2 2 8 (1/2) 5 1 1)) with (Fin 1).
    change (kw_merge (single_peak_kw 2 2 8 (1/2) 5 1 1) (class_kwargs SinglePeak (sm_mmax s))) with
      (Ok (single_peak_kw 2 2 8 (1/2) 5 1 1 ++ class_kwargs SinglePeak (sm_mmax s))%list). cbv iota beta. rewrite EP.
    rewrite E1, E2, flt_fin, fgt_fin, !Rltb_false by lra. rewrite andb_false_r.
    assert (Q : bcast2 (qd bk (Fin 0) (Fin 2) (Fin 1)) [Fin m] [Fin 1] = Some [Fin (/ (1 - 2 / m) * wcst)]).
    { unfold bcast2, zipWith. simpl. rewrite qd_one by lra. reflexivity. }
    assert (W := wcst_pos).
    assert (A : forall x, x = 5 \/ x = 8 -> 0 < 1 - 2 / x).
    { intros x [->| ->]; lra. }
    assert (Am := A m Hm). assert (Ams := A ms Hms).
    assert (PV : 0 < (1 - 1 / 1000) / 2 * (/ (1 - 2 / ms) * wcst)).
    { apply Rmult_lt_0_compat; [lra|]. apply Rmult_lt_0_compat; auto. now apply Rinv_0_lt_compat. }
    assert (BD : map nan_to_num (zipWith fdiv [Fin (/ (1 - 2 / m) * wcst)] [Fin ((1 - 1 / 1000) / 2 * (/ (1 - 2 / ms) * wcst))])
       = [Fin ((1 - 2 / ms) / (1 - 2 / m) * 2 / (1 - 1 / 1000))]).
    { unfold zipWith. cbn [combine map fst snd]. rewrite fdiv_fin by lra. rewrite nan_to_num_Fin. do 2 f_equal. field. 
      destruct Hm as [->| ->], Hms as [->| ->]; repeat split; lra. }
    assert (BI : forall a b : xf, bcast_into bk fdiv [a] [b] = Ok (zipWith fdiv [a] [b])).
    { intros. unfold bcast_into, bcast, bcast2. simpl. destruct (is_jax bk); reflexivity. }
    rewrite (p_q_cases bk li (wit_ds m) _ _ _ s [Fin m] [Fin 1] _ eq_refl eq_refl Q), E5.
    destruct Hs as [[Hs ->]|[Hs _]]; rewrite Hs.
    - unfold fresh_pq. rewrite wit_norms by auto. rewrite BI. cbn [rmap]. rewrite BD. cbn [fst snd]. unfold bcast, bcast2, zipWith. simpl. reflexivity.
    - rewrite wit_norms by auto. rewrite BI, BD.
      replace (set_masses (Some [Fin ms]) s) with s by (rewrite <- Hs; symmetry; apply set_masses_same). reflexivity.
  Qed.
End W.

Lemma C31_cached_refuted_pf :
  forall bk interp,
  (forall nodes vals i, (i < List.length nodes)%nat -> List.length vals = List.length nodes -> NoDup nodes ->
      interp nodes vals (nth i nodes NaN) = nth i vals NaN) ->
  let call := class_call SinglePeak bk interp in
  exists s kwargs ds1 ds2 a b, smoothed_init 2 8 (3, 2)%nat true = Ok s /\
    snd (call ds2 kwargs s) = Ok [Fin a] /\
    snd (call ds2 kwargs (run call [(ds1, kwargs)] s)) = Ok [Fin b] /\ b = 4 / 5 * a /\ 0 < a.
Proof.
  intros bk li Hli call.
  destruct (wit_call bk li Hli wit_state 8 8) as [r [Hr [EP E]]]; auto.
  destruct (wit_call bk li Hli wit_state 5 5) as [r1 [_ [_ E1]]]; auto.
  destruct (wit_call bk li Hli (set_masses (Some [Fin 5]) wit_state) 8 5) as [r2 [Hr2 [EP2 E2]]]; auto.
  change (p_m1 bk (class_primary SinglePeak bk) (set_masses (Some [Fin 5]) wit_state)) with (p_m1 bk (class_primary SinglePeak bk) wit_state) in EP2.
  cbn [sm_mmax set_masses] in EP2. rewrite EP in EP2. injection EP2 as <-.
  exists wit_state, wit_kw, (wit_ds 5), (wit_ds 8). do 2 eexists.
  split; [apply wit_init|]. unfold call. split; [rewrite E; reflexivity|]. split.
  - cbn [run fst snd]. rewrite E1. cbn [fst]. rewrite E2. reflexivity.
  - split; [field|]. apply Rmult_lt_0_compat; auto. lra.
Qed.

Lemma C32_never_nan_pf :
  forall bk interp ds beta mmin delta_m s l, snd (p_q bk interp ds beta mmin delta_m s) = Ok l ->
  Forall (fun v => exists r, v = Fin r) l.
Proof.
  intros bk li ds b mn d s l H.
  assert (F : forall l0, Forall (fun v => exists r, v = Fin r) (map nan_to_num l0)).
  { intros l0. apply Forall_map, Forall_forall. intros [] _; eexists; reflexivity. }
  destruct (dget "mass_1" ds) as [m1|] eqn:E1.
  2:{ destruct (p_q_err bk li ds b mn d s) as [e [E _]]; auto. rewrite E in H. discriminate. }
  destruct (dget "mass_ratio" ds) as [q|] eqn:E2.
  2:{ destruct (p_q_err bk li ds b mn d s) as [e [E _]]; auto. rewrite E in H. discriminate. }
  destruct (bcast2 (qd bk b mn d) m1 q) as [pq|] eqn:E3.
  2:{ destruct (p_q_err bk li ds b mn d s) as [e [E _]]; [right; right; eauto|]. rewrite E in H. discriminate. }
  rewrite (p_q_cases _ _ _ _ _ _ _ _ _ _ E1 E2 E3) in H. unfold fresh_pq in H.
  destruct (if sm_cache s then sm_masses s else None) as [ms|].
  - destruct (bcast_into bk fdiv pq (norms_at bk li s b mn d ms)).
    + injection H as <-. apply F.
    + destruct (bcast_into bk fdiv pq (norms_at bk li s b mn d m1)); [|discriminate]. injection H as <-. apply F.
  - destruct (bcast_into bk fdiv pq (norms_at bk li s b mn d m1)); [|discriminate]. injection H as <-. apply F.
Qed.

Lemma C32_ratio_normalised_pf :
  forall bk interp s beta mmin delta_m (qs : list R) i m N,
  (forall nodes vals j, (j < List.length nodes)%nat -> List.length vals = List.length nodes -> NoDup nodes ->
      interp nodes vals (nth j nodes NaN) = nth j vals NaN) ->
  sm_masses s = None -> NoDup (sm_m1s s) -> sm_qs s = map Fin qs -> (2 <= List.length qs)%nat ->
  (i < List.length (sm_m1s s))%nat -> nth i (sm_m1s s) NaN = m -> delta_m <> 0 ->
  trapezoid (map (fun q => fmul (powerlaw_body q beta (Fin 1) (fdiv mmin m)) (smoothing bk (fmul m q) mmin m (Fin delta_m))) (sm_qs s))
            (sm_qs s) = Fin N -> N <> 0 ->
  exists l, snd (p_q bk interp [("mass_1"%string, map (fun _ => m) (sm_qs s)); ("mass_ratio"%string, sm_qs s)]
                   beta mmin (Fin delta_m) s) = Ok l /\ trapezoid l (sm_qs s) = Fin 1.
Proof.
  intros bk li s b mn d qs i m N Hli Hn ND Eq Lq Hi Em Hd HT HN.
  set (ds := [("mass_1"%string, map (fun _ : xf => m) (sm_qs s)); ("mass_ratio"%string, sm_qs s)]).
  set (m1 := map (fun _ : xf => m) (sm_qs s)).
  assert (ZW : forall qs0 : list xf, zipWith (qd bk b mn (Fin d)) (map (fun _ => m) qs0) qs0 = map (qd bk b mn (Fin d) m) qs0).
  { intros qs0. unfold zipWith. induction qs0; simpl; f_equal; auto. }
  assert (E3 : bcast2 (qd bk b mn (Fin d)) m1 (sm_qs s) = Some (map (qd bk b mn (Fin d) m) (sm_qs s))).
  { unfold bcast2, m1. rewrite map_length, Nat.eqb_refl. now rewrite ZW. }
  rewrite (p_q_cases bk li ds b mn (Fin d) s m1 (sm_qs s) _ eq_refl eq_refl E3), Hn.
  replace (if sm_cache s then None else None) with (@None (list xf)) by (destruct (sm_cache s); reflexivity).
  unfold fresh_pq.
  assert (EN : norms_at bk li s b mn (Fin d) m1 = map (fun _ => Fin N) (sm_qs s)).
  { unfold norms_at, m1. rewrite map_map. apply map_ext. intros _. rewrite <- Em at 1. rewrite Hli; auto; [|now rewrite map_length].
    rewrite (nth_indep _ NaN (qnorm bk (sm_qs s) b mn (Fin d) NaN)) by now rewrite map_length.
    rewrite map_nth, Em. unfold qnorm.
    change (map (qd bk b mn (Fin d) m) (sm_qs s)) with
      (map (fun q => fmul (powerlaw_body q b (Fin 1) (fdiv mn m)) (smoothing bk (fmul m q) mn m (Fin d))) (sm_qs s)).
    rewrite HT. now apply norm_or_one_fin. }
  rewrite EN.
  assert (BI : bcast_into bk fdiv (map (qd bk b mn (Fin d) m) (sm_qs s)) (map (fun _ => Fin N) (sm_qs s)) =
               Ok (map (fun q => fdiv (qd bk b mn (Fin d) m q) (Fin N)) (sm_qs s))).
  { unfold bcast_into, bcast, bcast2. rewrite !map_length, Nat.eqb_refl.
    assert (Z : zipWith fdiv (map (qd bk b mn (Fin d) m) (sm_qs s)) (map (fun _ => Fin N) (sm_qs s)) =
                map (fun q => fdiv (qd bk b mn (Fin d) m q) (Fin N)) (sm_qs s)).
    { unfold zipWith. generalize (sm_qs s) as q0. induction q0; simpl; f_equal; auto. }
    rewrite Z. destruct (is_jax bk); reflexivity. }
  rewrite BI. cbn [rmap snd]. eexists; split; [reflexivity|].
  rewrite Eq in HT |- *.
  destruct (trapezoid_fin_inv (map (qd bk b mn (Fin d) m) (map Fin qs)) qs N) as [ys [EY HR]]; [rewrite !map_length; auto|auto|exact HT|].
  rewrite map_map. rewrite (map_ext_in _ (fun q => fdiv (qd bk b mn (Fin d) m q) (Fin N))).
  - rewrite <- (map_map (qd bk b mn (Fin d) m) (fun v => fdiv v (Fin N))).
    apply trapezoid_normalise; auto. now rewrite !map_length.
  - intros q Hq. assert (HF : exists r, qd bk b mn (Fin d) m q = Fin r).
    { assert (HI : In (qd bk b mn (Fin d) m q) (map Fin ys)) by (rewrite <- EY; apply (in_map (qd bk b mn (Fin d) m)); auto).
      apply in_map_iff in HI. destruct HI as [r [<- _]]. eauto. }
    destruct HF as [r ->]. now rewrite fdiv_fin.
Qed.

Fixpoint reads (fixed : list string) (n : nat) (mo : model_object) : model_object :=
  match n with O => mo | S n' => reads fixed n' (fst (variable_names fixed mo)) end.
Lemma filter_fixed v fixed l : In v (filter (fun v => negb (existsb (String.eqb v) fixed)) l) <-> In v l /\ ~ In v fixed.
Proof.
  rewrite filter_In. split; intros [H1 H2]; split; auto.
  - intros H. apply negb_true_iff in H2. rewrite <- not_true_iff_false in H2. apply H2, existsb_exists.
    exists v. split; auto. apply String.eqb_refl.
  - apply negb_true_iff, not_true_iff_false. intros H. apply existsb_exists in H. destruct H as [w [Hw E]].
    apply String.eqb_eq in E. now subst.
Qed.

Lemma C33_variable_names_pf :
  forall fixed args n,
  let mo := {| mo_args := args; mo_names := None |} in
  reads fixed n mo = mo /\
  exists names, snd (variable_names fixed (reads fixed n mo)) = Ok names /\
    forall v, In v names <-> ((In v (tl args) \/ v = "beta" \/ v = "delta_m")%string /\ ~ In v fixed).
Proof.
  intros fixed args n mo.
  assert (E : forall n, reads fixed n mo = mo) by (induction n0; auto).
  split; [apply E|]. rewrite E. eexists; split; [reflexivity|].
  intros v. rewrite filter_fixed, in_app_iff. simpl. intuition (subst; auto).
Qed.

Lemma C33_class_names_pf :
  forall c mmax, snd (variable_names (dkeys (class_kwargs c mmax)) (class_object c)) = Ok (match c with
    | SinglePeak => ["alpha"; "mmin"; "mmax"; "lam"; "mpp"; "sigpp"; "beta"; "delta_m"]
    | MultiPeak => ["alpha"; "mmin"; "mmax"; "lam"; "lam_1"; "mpp_1"; "sigpp_1"; "mpp_2"; "sigpp_2"; "beta"; "delta_m"]
    | BrokenPowerLaw => ["alpha_1"; "alpha_2"; "mmin"; "mmax"; "break_fraction"; "beta"; "delta_m"]
    | BrokenPowerLawPeak => ["alpha_1"; "alpha_2"; "mmin"; "mmax"; "break_fraction"; "lam"; "mpp"; "sigpp"; "beta"; "delta_m"]
    end)%string.
Proof. intros [] mmax; reflexivity. Qed.

Definition creq (c : smoothed_class) : list string :=
  match c with SinglePeak => two_component_args | MultiPeak => three_component_args
             | BrokenPowerLaw => double_power_law_args | BrokenPowerLawPeak => double_power_law_peak_args end.
Definition copt (c : smoothed_class) : list string :=
  match c with BrokenPowerLaw => [] | _ => ["gaussian_mass_maximum"%string] end.
Definition bound (c : smoothed_class) (kw : dict xf) : bool :=
  forallb (fun k => dmem k kw) (creq c) && forallb (fun k => existsb (String.eqb k) (creq c ++ copt c)%list) (dkeys kw).
Lemma powerlaw_okval bk kw x a h l : (exists v, powerlaw bk kw x a h l = Ok v) \/ powerlaw bk kw x a h l = Err ValueError.
Proof. rewrite powerlaw_cases. destruct (is_jax bk); eauto. destruct (_ && _); auto. destruct (_ && _); eauto. Qed.
Lemma truncnorm_okval bk kw x mu s h l : (exists v, truncnorm bk kw x mu s h l = Ok v) \/ truncnorm bk kw x mu s h l = Err ValueError.
Proof. rewrite truncnorm_cases. destruct (is_jax bk); eauto. destruct (_ && _); eauto. Qed.
Ltac okval := repeat match goal with
  | |- context [powerlaw ?bk ?kw ?a ?b ?c ?d] => destruct (powerlaw_okval bk kw a b c d) as [[? ->]| ->]; cbn [bind]; [|now right]
  | |- context [truncnorm ?bk ?kw ?a ?b ?c ?d ?e] => destruct (truncnorm_okval bk kw a b c d e) as [[? ->]| ->]; cbn [bind]; [|now right]
  end; left; eexists; reflexivity.
Lemma class_primary_cases c bk kw m :
  (bound c kw = false -> class_primary c bk kw m = Err TypeError) /\
  (bound c kw = true -> (exists v, class_primary c bk kw m = Ok v) \/ class_primary c bk kw m = Err ValueError).
Proof.
  split; intros H; destruct c; unfold class_primary, two_component_kw, three_component_kw, double_power_law_kw,
    double_power_law_peak_kw, kwbind, bound, creq, copt in *; rewrite H; cbn [bind]; auto.
  - unfold two_component_single. okval.
  - unfold three_component_single. okval.
  - unfold double_power_law_primary_mass. okval.
  - unfold double_power_law_peak_primary_mass, double_power_law_primary_mass. okval.
Qed.
Lemma bound_spec c kw : bound c kw = true <->
  (forall k, In k (creq c) -> In k (dkeys kw)) /\ (forall k, In k (dkeys kw) -> In k (creq c) \/ In k (copt c)).
Proof.
  unfold bound. rewrite andb_true_iff, !forallb_forall. split; intros [H1 H2]; split.
  - intros k Hk. apply dmem_In, H1, Hk.
  - intros k Hk. specialize (H2 k Hk). apply existsb_exists in H2. destruct H2 as [k' [Hk' E]]. apply String.eqb_eq in E. subst.
    now apply in_app_iff.
  - intros k Hk. apply dmem_In, H1, Hk.
  - intros k Hk. apply existsb_exists. exists k. split; [apply in_app_iff, H2, Hk|apply String.eqb_refl].
Qed.
Lemma dkeys_ddel_iff {V} x k (d : dict V) : dwf d -> (In k (dkeys (ddel x d)) <-> In k (dkeys d) /\ k <> x).
Proof.
  intros W. split.
  - intros H. split; [now apply dkeys_ddel in H|]. intros ->.
    assert (E := dget_ddel_same x d W). apply dget_None_keys in E. contradiction.
  - intros [H N]. destruct (dget k (ddel x d)) eqn:E.
    + apply dget_In in E. apply (in_map fst) in E. exact E.
    + exfalso. rewrite dget_ddel_other in E by auto. apply dget_None_keys in E. contradiction.
Qed.
Lemma smoothed_primary_cases c bk s kw mn d ms :
  (bound c kw = false -> ms <> [] -> smoothed_primary bk (class_primary c bk) s kw mn d ms = Err TypeError) /\
  (bound c kw = true -> (exists v, smoothed_primary bk (class_primary c bk) s kw mn d ms = Ok v /\ List.length v = List.length ms) \/
     smoothed_primary bk (class_primary c bk) s kw mn d ms = Err ValueError).
Proof.
  unfold smoothed_primary. split.
  - intros H N. destruct ms as [|m ms]; [congruence|]. simpl.
    rewrite (proj1 (class_primary_cases c bk kw m) H). reflexivity.
  - intros H. induction ms as [|m ms IH]; [left; exists nil; split; reflexivity|]. simpl.
    destruct (proj2 (class_primary_cases c bk kw m) H) as [[v ->]| ->]; cbn [bind]; [|now right].
    destruct IH as [[l [-> L]]| ->]; cbn [bind]; [|now right]. left. eexists; split; [reflexivity|]. simpl; lia.
Qed.
Lemma p_m1_cases c bk s ds kw m1 : dget "mass_1" ds = Some m1 -> m1 <> [] ->
  (bound c (ddel "delta_m" kw) = false -> p_m1 bk (class_primary c bk) s ds kw = Err TypeError) /\
  (bound c (ddel "delta_m" kw) = true -> (exists v, p_m1 bk (class_primary c bk) s ds kw = Ok v /\ List.length v = List.length m1) \/
     p_m1 bk (class_primary c bk) s ds kw = Err ValueError).
Proof.
  intros E N. unfold p_m1, norm_p_m1. rewrite (dlookup_ok _ _ _ E). cbn [bind]. split; intros H.
  - rewrite (proj1 (smoothed_primary_cases c bk s _ _ _ m1) H N). reflexivity.
  - destruct (proj2 (smoothed_primary_cases c bk s (ddel "delta_m" kw) (dget_default "mmin" (sm_mmin s) kw) (dget_default "delta_m" (Fin 0) kw) m1) H)
      as [[l [-> L]]| ->]; cbn [bind]; [|now right].
    destruct (_ && _); cbn [bind]; [left; eexists; split; [reflexivity|now rewrite map_length]|].
    match goal with |- context [smoothed_primary bk (class_primary c bk) s ?k ?mn ?d ?ms] =>
      destruct (proj2 (smoothed_primary_cases c bk s k mn d ms) H) as [[l' [-> _]]| ->] end; cbn [bind]; [|now right].
    left; eexists; split; [reflexivity|now rewrite map_length].
Qed.
Lemma p_q_fresh_ok bk li ds b mn d s m1 q : dget "mass_1" ds = Some m1 -> dget "mass_ratio" ds = Some q ->
  List.length q = List.length m1 -> sm_masses s = None ->
  exists s' l, p_q bk li ds b mn d s = (s', Ok l) /\ List.length l = List.length m1.
Proof.
  intros E1 E2 EL Hm.
  assert (Q : bcast2 (qd bk b mn d) m1 q = Some (zipWith (qd bk b mn d) m1 q)).
  { unfold bcast2. now rewrite EL, Nat.eqb_refl. }
  rewrite (p_q_cases _ _ _ _ _ _ _ _ _ _ E1 E2 Q), Hm.
  replace (if sm_cache s then None else None) with (@None (list xf)) by (destruct (sm_cache s); reflexivity).
  assert (LQ : List.length (zipWith (qd bk b mn d) m1 q) = List.length m1) by (unfold zipWith; rewrite map_length, combine_length; lia).
  assert (BI : forall x y, List.length x = List.length y -> bcast_into bk fdiv x y = Ok (zipWith fdiv x y)).
  { intros x y Hl. unfold bcast_into, bcast, bcast2. rewrite Hl, Nat.eqb_refl. destruct (is_jax bk); reflexivity. }
  unfold fresh_pq. rewrite BI by (unfold norms_at; rewrite map_length; auto). cbn [rmap].
  do 2 eexists; split; [reflexivity|]. rewrite map_length. unfold zipWith at 1. rewrite map_length, combine_length, LQ.
  unfold norms_at. rewrite map_length. lia.
Qed.
Lemma names_are_the_keywords c bk li s ds kw names m1 q :
  snd (variable_names (dkeys (class_kwargs c (sm_mmax s))) (class_object c)) = Ok names ->
  dwf kw -> dget "mass_1" ds = Some m1 -> dget "mass_ratio" ds = Some q -> List.length q = List.length m1 -> m1 <> [] ->
  sm_masses s = None ->
  let r := snd (class_call c bk li ds kw s) in
  ((forall k, In k (dkeys kw) <-> In k names) ->
     (exists l, r = Ok l) \/ r = Err ValueError) /\
  ((exists k, k <> "delta_m"%string /\ In k names /\ ~ In k (dkeys kw)) ->
     r = Err TypeError \/ r = Err (KeyError "beta") \/ r = Err ValueError) /\
  ((exists k, In k (dkeys kw) /\ ~ In k names) -> In "beta"%string (dkeys kw) ->
     r = Err TypeError \/ r = Err ValueError).
Proof.
  intros HN W E1 E2 EL NE Hm r.
  assert (N : forall k, In k names <-> In k (creq c) \/ k = "beta"%string \/ k = "delta_m"%string).
  { assert (names = creq c ++ ["beta"; "delta_m"]%string)%list as -> by (destruct c; injection HN as <-; reflexivity).
    intros k. rewrite in_app_iff. simpl. intuition auto. }
  assert (OK : dkeys (class_kwargs c (sm_mmax s)) = copt c) by (destruct c; reflexivity).
  assert (RD : forall k, In k (creq c) -> k <> "beta"%string /\ k <> "delta_m"%string /\ ~ In k (copt c)).
  { intros k Hk. destruct c; simpl in Hk; repeat destruct Hk as [<-|Hk]; try contradiction;
      (split; [discriminate|]; split; [discriminate|]); simpl; intros H; repeat destruct H as [H|H]; try discriminate; auto. }
  assert (OD : forall k, In k (copt c) -> k <> "beta"%string /\ k <> "delta_m"%string).
  { intros k Hk. destruct c; simpl in Hk; repeat destruct Hk as [<-|Hk]; try contradiction; split; discriminate. }
  unfold r, class_call. rewrite call_eq.
  destruct (dget "beta" kw) as [b|] eqn:EB.
  2:{ rewrite (dlookup_err _ _ EB). cbn [snd]. split; [|split].
      - intros H. exfalso. apply dget_None_keys in EB. apply EB, H, N. auto.
      - auto.
      - intros _ H. exfalso. apply dget_None_keys in EB. auto. }
  rewrite (dlookup_ok _ _ _ EB). cbv zeta.
  destruct (_ && flt _ _); [cbn; auto|]. destruct (_ && fgt _ _); [cbn; auto|].
  unfold kw_merge. rewrite OK.
  destruct (existsb (fun k => dmem k (ddel "beta" kw)) (copt c)) eqn:EM.
  { cbn [snd]. split; [|split; auto]. intros H. exfalso.
    apply existsb_exists in EM. destruct EM as [k [Hk Hd]]. apply dmem_In in Hd. apply dkeys_ddel in Hd.
    apply H, N in Hd. destruct (OD k Hk) as [? ?]. destruct Hd as [Hd|[Hd|Hd]]; auto. apply RD in Hd. tauto. }
  set (kw' := (ddel "beta" kw ++ class_kwargs c (sm_mmax s))%list).
  assert (DJ : forall k, In k (dkeys (ddel "beta" kw)) -> ~ In k (copt c)).
  { intros k Hk Hc. rewrite <- not_true_iff_false in EM. apply EM, existsb_exists. exists k. split; auto. now apply dmem_In. }
  assert (W' : dwf kw').
  { unfold dwf, kw', dkeys. rewrite map_app. fold (dkeys (ddel "beta" kw)). fold (dkeys (class_kwargs c (sm_mmax s))). rewrite OK.
    assert (A : NoDup (dkeys (ddel "beta" kw))) by (apply dwf_ddel; auto).
    assert (B : NoDup (copt c)) by (destruct c; repeat constructor; simpl; auto).
    revert A DJ. generalize (dkeys (ddel "beta" kw)) as l. induction l as [|x l IH]; intros A DJ; simpl; auto.
    inversion A; subst. constructor; [|apply IH; auto; intros; apply DJ; now right].
    rewrite in_app_iff. intros [H|H]; auto. apply (DJ x); auto. now left. }
  assert (K : forall k, In k (dkeys (ddel "delta_m" kw')) <-> ((In k (dkeys kw) /\ k <> "beta"%string) \/ In k (copt c)) /\ k <> "delta_m"%string).
  { intros k. rewrite dkeys_ddel_iff by auto. unfold kw', dkeys. rewrite map_app, in_app_iff. fold (dkeys (ddel "beta" kw)).
    fold (dkeys (class_kwargs c (sm_mmax s))). rewrite OK, dkeys_ddel_iff by auto. tauto. }
  destruct (p_m1_cases c bk s ds kw' m1 E1 NE) as [PF PT].
  destruct (bound c (ddel "delta_m" kw')) eqn:EBd.
  - apply bound_spec in EBd. destruct EBd as [B1 B2]. split; [|split].
    + intros _. destruct (PT eq_refl) as [[v [-> Lv]]| ->]; [|now right].
      destruct (p_q_fresh_ok bk li ds b (dget_default "mmin" (sm_mmin s) (ddel "beta" kw)) (dget_default "delta_m" (Fin 0) (ddel "beta" kw)) s m1 q E1 E2 EL Hm) as [s' [l [-> Ll]]].
      cbn [fst snd]. unfold bcast, bcast2. rewrite Lv, Ll, Nat.eqb_refl. left; eexists; reflexivity.
    + intros [k [Hk1 [Hk2 Hk3]]]. exfalso. apply N in Hk2. destruct Hk2 as [Hk2|[Hk2|Hk2]]; auto.
      * assert (Hr := RD k Hk2). apply B1, K in Hk2. tauto.
      * subst. apply Hk3. apply dget_In in EB. apply (in_map fst) in EB. exact EB.
    + intros [k [Hk1 Hk2]] _. exfalso. apply Hk2, N.
      destruct (string_dec k "beta"); auto. destruct (string_dec k "delta_m"); auto.
      destruct (B2 k); [apply K; tauto|auto|]. exfalso. apply (DJ k); auto. apply dkeys_ddel_iff; auto.
  - rewrite (PF eq_refl). cbn [snd]. split; [|split; auto]. intros H. exfalso.
    rewrite <- not_true_iff_false in EBd. apply EBd, bound_spec. split.
    + intros k Hk. apply K. assert (Hr := RD k Hk). split; [left; split; [apply H, N; auto|tauto]|tauto].
    + intros k Hk. apply K in Hk. destruct Hk as [[[Hk Hb]|Hk] Hd]; auto.
      apply H, N in Hk. destruct Hk as [Hk|[Hk|Hk]]; auto; contradiction.
Qed.

Lemma C33_names_are_the_keywords_pf :
  forall c bk interp s ds kwargs names m1 q,
  snd (variable_names (dkeys (class_kwargs c (sm_mmax s))) (class_object c)) = Ok names ->
  dwf kwargs -> dget "mass_1" ds = Some m1 -> dget "mass_ratio" ds = Some q -> List.length q = List.length m1 -> m1 <> [] ->
  sm_masses s = None ->
  let r := snd (class_call c bk interp ds kwargs s) in
  ((forall k, In k (dkeys kwargs) <-> In k names) ->
     (exists l, r = Ok l) \/ r = Err ValueError) /\
  ((exists k, k <> "delta_m"%string /\ In k names /\ ~ In k (dkeys kwargs)) ->
     r = Err TypeError \/ r = Err (KeyError "beta") \/ r = Err ValueError) /\
  ((exists k, In k (dkeys kwargs) /\ ~ In k names) -> In "beta"%string (dkeys kwargs) ->
     r = Err TypeError \/ r = Err ValueError).
Proof. exact names_are_the_keywords. Qed.

Lemma C33_getter_mutates_refuted_pf :
  forall fixed args names n,
  mo_names (reads fixed n {| mo_args := args; mo_names := Some names |}) =
  Some (names ++ List.concat (List.repeat ["beta"; "delta_m"]%string n))%list.
Proof.
  intros fixed args names n. revert names; induction n as [|n IH]; intros names; simpl.
  - now rewrite app_nil_r.
  - rewrite IH. f_equal. rewrite <- app_assoc. reflexivity.
Qed.

