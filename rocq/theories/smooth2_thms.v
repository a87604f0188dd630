(** Proofs of the property theorems stated in [Props_smooth2]. *)
From Coq Require Import Reals Lra Lia Psatz String Bool.
From Coquelicot Require Import Coquelicot.
From Coq Require Import List.
From Verif Require Import Xf Py St Xf_facts Py_facts Calc Spec Utils_model Powerlaw_facts Truncnorm_facts Trap_facts
  Np Np_facts Mass_model Mass_facts Smoothed_model Smoothed_facts SpecSmooth SpecClass smoothed_thms.
Import ListNotations.
Local Open Scope R_scope.

Lemma clp_mid t : 1 / 1000000 <= t <= 1 - 1 / 1000000 -> clp t = t.
Proof. intros H. unfold clp. now rewrite !Rltb_false by lra. Qed.
Lemma clp_low t : t <= 1 / 1000000 -> clp t = 1 / 1000000.
Proof.
  intros H. unfold clp. destruct (Rltb_spec t (1 / 1000000)); auto. rewrite Rltb_false by lra. lra.
Qed.
Lemma clp_clamp t : clp t = clampR (1 / 1000000) (1 - 1 / 1000000) t.
Proof.
  unfold clp, clampR. destruct (Rltb_spec t (1 / 1000000)).
  - rewrite Rmin_right by lra. now rewrite Rmax_left by lra.
  - destruct (Rltb_spec (1 - 1 / 1000000) t).
    + rewrite Rmin_left by lra. now rewrite Rmax_right by lra.
    + rewrite Rmin_right by lra. now rewrite Rmax_right by lra.
Qed.
Lemma swin_cont s : 0 < s < 1 -> continuous swin s.
Proof.
  intros H. apply (ex_derive_continuous (V := R_NormedModule)). unfold swin. auto_derive. repeat split; try lra.
  assert (P := exp_pos (/ s - / (1 - s))). unfold Rminus in P. lra.
Qed.
Lemma swin_strict s u : 0 < s -> s < u -> u < 1 -> swin s < swin u.
Proof.
  intros. unfold swin. assert (P := exp_pos (/ s - / (1 - s))). assert (Q := exp_pos (/ u - / (1 - u))).
  assert (/ u < / s) by (apply Rinv_lt_contravar; [apply Rmult_lt_0_compat|]; lra).
  assert (/ (1 - s) < / (1 - u)) by (apply Rinv_lt_contravar; [apply Rmult_lt_0_compat|]; lra).
  apply Rinv_lt_contravar; [apply Rmult_lt_0_compat; lra|]. apply Rplus_lt_compat_l. apply exp_increasing. lra.
Qed.
Lemma swin_tiny : swin (1 / 1000000) <= exp (- 999998).
Proof.
  unfold swin. replace (/ (1 / 1000000)) with 1000000 by field.
  assert (E : / (1 - 1 / 1000000) <= 2).
  { apply Rmult_le_reg_r with (1 - 1 / 1000000); [lra|]. rewrite Rinv_l by lra. lra. }
  assert (L : exp 999998 <= exp (1000000 - / (1 - 1 / 1000000))).
  { destruct (Req_dec 999998 (1000000 - / (1 - 1 / 1000000))) as [<-|]; [lra|]. left. apply exp_increasing. lra. }
  replace (- 999998) with (Ropp 999998) by lra. rewrite exp_Ropp. assert (P := exp_pos 999998). apply Rinv_le_contravar; lra.
Qed.

Lemma C28_closed_form_pf :
  forall bk mmin mmax delta_m, 0 < delta_m ->
  exists s : R -> R,
    (forall m, smoothing bk (Fin m) (Fin mmin) (Fin mmax) (Fin delta_m) = Fin (s m)) /\
    (forall m, mmin + delta_m / 1000000 <= m <= mmin + delta_m - delta_m / 1000000 -> m <= mmax ->
       s m = / (exp (delta_m / (m - mmin) + delta_m / (m - mmin - delta_m)) + 1)) /\
    (forall m, mmin < m < mmax -> continuous s m) /\
    (forall m m', mmin + delta_m / 1000000 <= m -> m < m' -> m' <= mmin + delta_m - delta_m / 1000000 -> m' <= mmax -> s m < s m') /\
    (forall m, mmin <= m <= mmin + delta_m / 1000000 -> m <= mmax -> s m <= exp (- 999998)) /\
    (forall m, mmin + delta_m - delta_m / 1000000 <= m <= mmax -> 1 - exp (- 999998) <= s m).
Proof.
  intros bk mn mx d Hd. exists (sval mn mx d).
  assert (In : forall m, mn <= m <= mx -> sval mn mx d m = swin (clp ((m - mn) / d))).
  { intros m Hm. unfold sval. now rewrite !Rleb_true by lra. }
  assert (Lo : forall m c, m - mn <= c * d -> (m - mn) / d <= c).
  { intros m c H. apply Rmult_le_reg_r with d; auto. replace ((m - mn) / d * d) with (m - mn) by (field; lra). lra. }
  assert (Hi : forall m c, c * d <= m - mn -> c <= (m - mn) / d).
  { intros m c H. apply Rmult_le_reg_r with d; auto. replace ((m - mn) / d * d) with (m - mn) by (field; lra). lra. }
  split; [|split; [|split; [|split; [|split]]]].
  - intros; now apply smoothing_val.
  - intros m H1 H2. rewrite In by lra. rewrite clp_mid by (split; [apply Hi|apply Lo]; lra).
    unfold swin. rewrite (Rplus_comm 1). do 3 f_equal.
    assert (0 < m - mn) by lra. assert (m - mn < d) by lra. field. repeat split; lra.
  - intros m Hm. apply (continuous_ext_loc (sval mn mx d) (fun y => swin (clp ((y - mn) / d)))).
    + assert (P : 0 < Rmin (m - mn) (mx - m)) by (apply Rmin_pos; lra).
      exists (mkposreal _ P). intros y Hy. change (Rabs (y - m) < Rmin (m - mn) (mx - m)) in Hy.
      assert (A := Rmin_l (m - mn) (mx - m)). assert (B := Rmin_r (m - mn) (mx - m)). apply Rabs_def2 in Hy.
      symmetry; apply In. lra.
    + apply (continuous_comp (fun y => clp ((y - mn) / d)) swin).
      * apply (continuous_ext (fun y => clampR (1 / 1000000) (1 - 1 / 1000000) ((y - mn) / d))); [intros; now rewrite clp_clamp|].
        apply (continuous_comp (fun y => (y - mn) / d) (clampR (1 / 1000000) (1 - 1 / 1000000))).
        -- apply (ex_derive_continuous (V := R_NormedModule)). auto_derive. lra.
        -- apply clampR_cont. lra.
      * apply swin_cont. assert (B := clp_bounds ((m - mn) / d)). lra.
  - intros m m' H1 H2 H3 H4. rewrite !In by lra. rewrite !clp_mid by (split; [apply Hi|apply Lo]; lra).
    apply swin_strict.
    + assert (1 / 1000000 <= (m - mn) / d) by (apply Hi; lra). lra.
    + apply Rmult_lt_compat_r; [now apply Rinv_0_lt_compat|lra].
    + assert ((m' - mn) / d <= 1 - 1 / 1000000) by (apply Lo; lra). lra.
  - intros m H1 H2. rewrite In by lra. rewrite clp_low by (apply Lo; lra). apply swin_tiny.
  - intros m H. rewrite In by lra.
    assert (E : clp ((m - mn) / d) = 1 - 1 / 1000000).
    { assert (1 - 1 / 1000000 <= (m - mn) / d) by (apply Hi; lra). unfold clp. rewrite Rltb_false by lra.
      destruct (Rltb_spec (1 - 1 / 1000000) ((m - mn) / d)); lra. }
    rewrite E. assert (S := swin_sym (1 / 1000000)). assert (T := swin_tiny). lra.
Qed.

(** ** The class densities *)
Lemma threeval_pos alpha mmin mmax lam lam_1 mpp_1 sigpp_1 mpp_2 sigpp_2 gmax x :
  0 < mmin < mmax -> mmin < gmax -> 0 < sigpp_1 -> 0 < sigpp_2 -> 0 <= lam <= 1 -> 0 <= lam_1 <= 1 -> mmax <= gmax ->
  (0 <= threeval alpha mmin mmax lam lam_1 mpp_1 sigpp_1 mpp_2 sigpp_2 gmax x) /\
  (mmin <= x <= mmax -> 0 < threeval alpha mmin mmax lam lam_1 mpp_1 sigpp_1 mpp_2 sigpp_2 gmax x).
Proof.
  intros. unfold threeval.
  assert (A := plval_nonneg (- alpha) mmax mmin x ltac:(lra)).
  assert (B := tnval_nonneg mpp_1 sigpp_1 gmax mmin x ltac:(lra) ltac:(lra)).
  assert (C := tnval_nonneg mpp_2 sigpp_2 gmax mmin x ltac:(lra) ltac:(lra)).
  assert (0 <= lam * lam_1) by (apply Rmult_le_pos; lra). assert (0 <= lam * (1 - lam_1)) by (apply Rmult_le_pos; lra).
  assert (0 <= lam * lam_1 * tnval mpp_1 sigpp_1 gmax mmin x) by (apply Rmult_le_pos; lra).
  assert (0 <= lam * (1 - lam_1) * tnval mpp_2 sigpp_2 gmax mmin x) by (apply Rmult_le_pos; lra).
  assert (0 <= (1 - lam) * plval (- alpha) mmax mmin x) by (apply Rmult_le_pos; lra).
  split; [lra|]. intros Hx. rewrite plval_in, !tnval_in in * by lra.
  assert (P := plpdf_pos (- alpha) mmax mmin x ltac:(lra)).
  assert (Q1 := tnpdf_pos mpp_1 sigpp_1 gmax mmin x ltac:(lra) ltac:(lra)).
  assert (Q2 := tnpdf_pos mpp_2 sigpp_2 gmax mmin x ltac:(lra) ltac:(lra)).
  destruct (Rlt_dec lam 1).
  - assert (0 < (1 - lam) * plpdf (- alpha) mmax mmin x) by (apply Rmult_lt_0_compat; lra). lra.
  - assert (lam = 1) by lra. subst lam. destruct (Req_dec lam_1 0) as [->|].
    + assert (0 < 1 * (1 - 0) * tnpdf mpp_2 sigpp_2 gmax mmin x) by (apply Rmult_lt_0_compat; lra). lra.
    + assert (0 < 1 * lam_1 * tnpdf mpp_1 sigpp_1 gmax mmin x) by (apply Rmult_lt_0_compat; lra). lra.
Qed.
Lemma dpeakval_pos a1 a2 mmin mmax bf lam mpp sigpp gmax x :
  0 < mmin < mmax -> 0 < bf < 1 -> mmin < gmax -> 0 < sigpp -> 0 <= lam <= 1 -> mmax <= gmax ->
  (0 <= dpeakval a1 a2 mmin mmax bf lam mpp sigpp gmax x) /\
  (mmin <= x <= mmax -> 0 < dpeakval a1 a2 mmin mmax bf lam mpp sigpp gmax x).
Proof.
  intros. unfold dpeakval.
  assert (A := dplval_nonneg a1 a2 mmin mmax bf ltac:(lra) ltac:(lra) x).
  assert (B := tnval_nonneg mpp sigpp gmax mmin x ltac:(lra) ltac:(lra)).
  assert (0 <= lam * tnval mpp sigpp gmax mmin x) by (apply Rmult_le_pos; lra).
  assert (0 <= (1 - lam) * dplval a1 a2 mmin mmax bf x) by (apply Rmult_le_pos; lra).
  split; [lra|]. intros Hx. assert (P := dplval_pos a1 a2 mmin mmax bf ltac:(lra) ltac:(lra) x Hx).
  rewrite tnval_in in * by lra. assert (Q := tnpdf_pos mpp sigpp gmax mmin x ltac:(lra) ltac:(lra)).
  destruct (Rlt_dec lam 1).
  - assert (0 < (1 - lam) * dplval a1 a2 mmin mmax bf x) by (apply Rmult_lt_0_compat; lra). lra.
  - assert (lam = 1) by lra. subst lam. lra.
Qed.
Lemma class_density bk c mmin mmax hyper d gmax : legal bk mmin mmax c hyper -> 0 < mmin < mmax -> mmax <= gmax ->
  let kw := (("delta_m"%string, Fin d) :: hyper ++ class_kwargs c (Fin gmax))%list in
  dget "mmin" kw = Some (Fin mmin) /\
  exists f : R -> R, (forall x, 0 < x -> class_primary c bk (ddel "delta_m" kw) (Fin x) = Ok (Fin (f x))) /\
    (forall x, 0 <= f x) /\ (forall x, mmin <= x <= mmax -> 0 < f x).
Proof.
  intros L Hm Hg kw. subst kw. destruct L; (split; [reflexivity|]).
  - exists (twoval alpha mmin mmax lam mpp sigpp gmax). repeat split.
    + intros x Hx. cbn. apply two_val; auto; lra.
    + intros x. apply twoval_nonneg; lra.
    + intros x Hx. apply twoval_pos; lra.
  - exists (threeval alpha mmin mmax lam lam_1 mpp_1 sigpp_1 mpp_2 sigpp_2 gmax). repeat split.
    + intros x Hx. cbn. apply three_val; auto; lra.
    + intros x. apply threeval_pos; auto; lra.
    + intros x Hx. apply threeval_pos; auto; lra.
  - exists (dplval alpha_1 alpha_2 mmin mmax b). repeat split.
    + intros x Hx. cbn. apply dpl_val; auto. unfold slope_ok in *. tauto.
    + intros x. now apply dplval_nonneg.
    + intros x Hx. now apply dplval_pos.
  - exists (dpeakval alpha_1 alpha_2 mmin mmax b lam mpp sigpp gmax). repeat split.
    + intros x Hx. cbn. apply dpeak_val; auto; try lra. unfold slope_ok in *. tauto.
    + intros x. apply dpeakval_pos; auto; lra.
    + intros x Hx. apply dpeakval_pos; auto; lra.
Qed.

Lemma C29_classes_normalised_pf :
  forall bk c lo hi n nq cache s hyper mmin mmax delta_m,
  smoothed_init lo hi (n, nq) cache = Ok s -> 0 < lo < hi -> lo <= mmin < mmax -> mmax <= hi -> 0 < delta_m ->
  legal bk mmin mmax c hyper ->
  (exists i, (i < n)%nat /\ mmin <= lo + INR i * ((hi - lo) / INR (n - 1)) <= mmax) ->
  let kwargs := (("delta_m"%string, Fin delta_m) :: hyper ++ class_kwargs c (sm_mmax s))%list in
  exists p, p_m1 bk (class_primary c bk) s [("mass_1"%string, sm_m1s s)] kwargs = Ok p /\
            trapezoid p (sm_m1s s) = Fin 1 /\ Forall (fun v => exists r, v = Fin r /\ 0 <= r) p.
Proof.
  intros bk c lo hi n nq ca s hyper mmin mmax d Hs Hlo Hmm Hmx Hd HL [i [Hi Hb]] kw.
  unfold smoothed_init in Hs. simpl fst in Hs. simpl snd in Hs.
  destruct (Nat.ltb_spec n 2) as [|Hn]; [discriminate|]. destruct (Nat.ltb nq 2); [discriminate|]. injection Hs as <-.
  destruct (class_density bk c mmin mmax hyper d hi HL ltac:(lra) Hmx) as [E [f [F1 [F2 F3]]]].
  cbn [sm_mmax] in kw. fold kw in E, F1.
  apply (C29_primary_normalised_pf bk _ _ kw mmin hi d (linspace lo hi n) f); auto.
  - apply linspace_incr; auto; lra.
  - now rewrite linspace_length.
  - unfold dget_default. now rewrite E.
  - intros m Hm. apply linspace_bounds in Hm; [|lra]. split; [apply F1; lra|apply F2].
  - exists (lo + INR i * ((hi - lo) / INR (n - 1))). split; [|split; [lra|]].
    + unfold linspace. apply in_map_iff. exists i. split; auto. apply in_seq; lia.
    + now apply F3.
Qed.

(** ** The mass ratio rows *)
Definition qv (beta mn d m q : R) : R := plval beta 1 (mn / m) q * sval mn m d (m * q).
Lemma qd_fin bk beta mn d m q : 0 < mn < m -> 0 < d -> 0 < q ->
  qd bk (Fin beta) (Fin mn) (Fin d) (Fin m) (Fin q) = Fin (qv beta mn d m q).
Proof.
  intros Hm Hd Hq. unfold qd, qv. rewrite fdiv_fin by lra.
  rewrite powerlaw_body_val; auto.
  - rewrite fmul_fin. rewrite smoothing_val by auto. apply fmul_fin.
  - split; [apply Rdiv_lt_0_compat; lra|]. apply Rmult_lt_reg_r with m; [lra|]. replace (mn / m * m) with mn by (field; lra). lra.
Qed.
Lemma qv_nonneg beta mn d m q : 0 < mn < m -> 0 <= qv beta mn d m q.
Proof.
  intros Hm. unfold qv. apply Rmult_le_pos.
  - apply plval_nonneg. split; [apply Rdiv_lt_0_compat; lra|]. apply Rmult_lt_reg_r with m; [lra|]. replace (mn / m * m) with mn by (field; lra). lra.
  - unfold sval. destruct (_ && _); [|lra]. left; apply swin_range.
Qed.
Lemma qv_one beta mn d m : 0 < mn < m -> 0 < qv beta mn d m 1.
Proof.
  intros Hm. assert (0 < mn / m < 1).
  { split; [apply Rdiv_lt_0_compat; lra|]. apply Rmult_lt_reg_r with m; [lra|]. replace (mn / m * m) with mn by (field; lra). lra. }
  unfold qv. rewrite plval_in by lra. apply Rmult_lt_0_compat; [apply plpdf_pos; lra|].
  unfold sval. rewrite !Rleb_true by lra. apply swin_range.
Qed.
Definition qN (beta mn d m : R) (qs : list R) : R := Rtrap (map (qv beta mn d m) qs) qs.
Lemma qN_pos beta mn d m qs : 0 < mn < m -> strictly_increasing qs -> (2 <= List.length qs)%nat -> In 1 qs -> 0 < qN beta mn d m qs.
Proof.
  intros Hm Hs L H1. apply Rtrap_pos_one; auto; [now rewrite map_length| |].
  - apply Forall_map, Forall_forall. intros; now apply qv_nonneg.
  - apply Exists_exists. exists (qv beta mn d m 1). split; [now apply in_map|now apply qv_one].
Qed.
Lemma qnorm_fin bk beta mn d m qs : 0 < mn < m -> 0 < d -> (forall q, In q qs -> 0 < q) ->
  qnorm bk (map Fin qs) (Fin beta) (Fin mn) (Fin d) (Fin m) = Fin (qN beta mn d m qs).
Proof.
  intros Hm Hd Hq. unfold qnorm. rewrite map_map, (map_ext_in _ (fun q => Fin (qv beta mn d m q))).
  - rewrite <- (map_map (qv beta mn d m) Fin), trapezoid_fin. apply norm_or_one_fin. lra.
  - intros q H. apply qd_fin; auto.
Qed.
Lemma zip_grid {A B C} (F : A -> B -> C) (ms : list A) (qs : list B) :
  zipWith F (List.concat (map (fun m => map (fun _ => m) qs) ms)) (List.concat (map (fun _ => qs) ms)) =
  List.concat (map (fun m => map (F m) qs) ms).
Proof.
  unfold zipWith. induction ms as [|m ms IH]; [reflexivity|]. simpl.
  assert (Z : forall (q0 : list B) a b, map (fun p => F (fst p) (snd p)) (combine (map (fun _ => m) q0 ++ a) (q0 ++ b)) =
              (map (F m) q0 ++ map (fun p => F (fst p) (snd p)) (combine a b))%list).
  { induction q0; intros; simpl; f_equal; auto. }
  rewrite Z, IH. reflexivity.
Qed.
Lemma zip_concat {A B C D} (F : A -> B -> C) (g : D -> list A) (h : D -> list B) (k : D -> list C) ds :
  (forall d, In d ds -> List.length (g d) = List.length (h d) /\ zipWith F (g d) (h d) = k d) ->
  zipWith F (List.concat (map g ds)) (List.concat (map h ds)) = List.concat (map k ds).
Proof.
  intros H. unfold zipWith. induction ds as [|d ds IH]; [reflexivity|]. simpl.
  assert (Z : forall (x : list A) (y : list B) a b, List.length x = List.length y ->
     map (fun p => F (fst p) (snd p)) (combine (x ++ a) (y ++ b)) =
     (map (fun p => F (fst p) (snd p)) (combine x y) ++ map (fun p => F (fst p) (snd p)) (combine a b))%list).
  { induction x; intros [|y0 y] a0 b0 E; try discriminate; simpl; f_equal; auto. }
  destruct (H d (or_introl eq_refl)) as [HL HE]. rewrite Z by auto. f_equal; [exact HE|]. apply IH. intros; apply H; now right.
Qed.
Lemma zip_map2 {A B C D} (F : A -> B -> C) (g : D -> A) (h : D -> B) l : zipWith F (map g l) (map h l) = map (fun d => F (g d) (h d)) l.
Proof. unfold zipWith. induction l; simpl; f_equal; auto. Qed.
Lemma concat_len {A D} (g h : D -> list A) ds : (forall d, In d ds -> List.length (g d) = List.length (h d)) ->
  List.length (List.concat (map g ds)) = List.length (List.concat (map h ds)).
Proof.
  induction ds as [|d ds IH]; intros H; [reflexivity|]. simpl. rewrite !app_length, (H d (or_introl eq_refl)), IH; auto.
  intros; apply H; now right.
Qed.
Lemma map_concat_map {A B D} (F : A -> B) (g : D -> list A) ds : map F (List.concat (map g ds)) = List.concat (map (fun d => map F (g d)) ds).
Proof. rewrite concat_map, map_map. reflexivity. Qed.
Lemma NoDup_incr grid : strictly_increasing grid -> NoDup grid.
Proof.
  assert (G : forall l x, strictly_increasing (x :: l) -> forall y, In y l -> x < y).
  { induction l as [|a l IH]; intros x H y Hy; [inversion Hy|]. destruct H as [H1 H2]. destruct Hy as [<-|Hy]; auto.
    assert (a < y) by (apply IH; auto). lra. }
  induction grid as [|x l IH]; intros H; constructor.
  - intros Hi. assert (x < x) by (apply (G l x H x Hi)). lra.
  - apply IH. destruct l; [exact I|apply H].
Qed.
Lemma NoDup_Fin grid : NoDup grid -> NoDup (map Fin grid).
Proof. intros H. apply FinFun.Injective_map_NoDup; auto. intros x y E. now injection E. Qed.

(** The mass ratio factor on the product grid. *)
Definition qrow bk (beta mn d : R) (qs : list R) (m : R) : list xf :=
  map (fun q => nan_to_num (fdiv (qd bk (Fin beta) (Fin mn) (Fin d) (Fin m) (Fin q)) (qnorm bk (map Fin qs) (Fin beta) (Fin mn) (Fin d) (Fin m)))) qs.
Lemma pq_grid bk li s beta mn d ms qs : exact_at_nodes li -> sm_masses s = None -> sm_m1s s = map Fin ms -> sm_qs s = map Fin qs ->
  NoDup ms ->
  snd (p_q bk li (grid_dataset (map Fin ms) (map Fin qs)) (Fin beta) (Fin mn) (Fin d) s) = Ok (List.concat (map (qrow bk beta mn d qs) ms)).
Proof.
  intros Hli Hn Em Eq ND. set (D := grid_dataset _ _).
  set (m1 := List.concat (map (fun m => map (fun _ => m) (map Fin qs)) (map Fin ms))).
  set (q := List.concat (map (fun _ => map Fin qs) (map Fin ms))).
  assert (LQ : List.length m1 = List.length q).
  { unfold m1, q. apply concat_len. intros; now rewrite map_length. }
  set (U := List.concat (map (fun m => map (qd bk (Fin beta) (Fin mn) (Fin d) m) (map Fin qs)) (map Fin ms))).
  assert (E3 : bcast2 (qd bk (Fin beta) (Fin mn) (Fin d)) m1 q = Some U).
  { unfold bcast2. rewrite LQ, Nat.eqb_refl. f_equal. apply zip_grid. }
  rewrite (p_q_cases bk li D _ _ _ s m1 q U eq_refl eq_refl E3), Hn.
  replace (if sm_cache s then None else None) with (@None (list xf)) by (destruct (sm_cache s); reflexivity).
  unfold fresh_pq. cbn [snd].
  set (V := List.concat (map (fun m => map (fun _ : xf => qnorm bk (map Fin qs) (Fin beta) (Fin mn) (Fin d) m) (map Fin qs)) (map Fin ms))).
  assert (EN : norms_at bk li s (Fin beta) (Fin mn) (Fin d) m1 = V).
  { unfold norms_at, m1, V. rewrite map_concat_map. f_equal. apply map_ext_in. intros m Hm. rewrite map_map.
    apply map_ext. intros _. rewrite Em, Eq.
    destruct (In_nth _ _ NaN Hm) as [i [Hi <-]]. rewrite Hli; auto; [|now rewrite map_length|now apply NoDup_Fin].
    rewrite (nth_indep _ NaN (qnorm bk (map Fin qs) (Fin beta) (Fin mn) (Fin d) NaN)) by now rewrite map_length.
    now rewrite map_nth. }
  rewrite EN.
  assert (LU : List.length U = List.length V).
  { unfold U, V. apply concat_len. intros; now rewrite !map_length. }
  assert (BI : bcast_into bk fdiv U V = Ok (zipWith fdiv U V)).
  { unfold bcast_into, bcast, bcast2. rewrite LU, Nat.eqb_refl. destruct (is_jax bk); reflexivity. }
  rewrite BI. cbn [rmap]. f_equal. unfold U, V.
  rewrite (zip_concat fdiv _ _ (fun m => map (fun q => fdiv (qd bk (Fin beta) (Fin mn) (Fin d) m q) (qnorm bk (map Fin qs) (Fin beta) (Fin mn) (Fin d) m)) (map Fin qs))).
  - rewrite map_concat_map, map_map. f_equal. apply map_ext. intros m. unfold qrow. now rewrite !map_map.
  - intros m _. split; [now rewrite !map_length|]. apply zip_map2.
Qed.
Lemma row_trap bk beta mn d qs m g : 0 < mn < m -> 0 < d -> strictly_increasing qs -> (2 <= List.length qs)%nat -> In 1 qs ->
  (forall q, In q qs -> 0 < q) -> trapezoid (map (fmul (Fin g)) (qrow bk beta mn d qs m)) (map Fin qs) = Fin g.
Proof.
  intros Hm Hd Hs L H1 Hq. assert (P := qN_pos beta mn d m qs Hm Hs L H1). unfold qrow. rewrite map_map.
  rewrite (map_ext_in _ (fun q => Fin (g / qN beta mn d m qs * qv beta mn d m q))).
  - rewrite <- (map_map (qv beta mn d m) (fun v => Fin (g / qN beta mn d m qs * v))).
    rewrite <- (map_map (Rmult (g / qN beta mn d m qs)) Fin), trapezoid_fin, Rtrap_scale.
    fold (qN beta mn d m qs). f_equal. field. lra.
  - intros q Hin. rewrite qnorm_fin, qd_fin by auto. rewrite fdiv_fin by lra. rewrite nan_to_num_Fin, fmul_fin. f_equal. field. lra.
Qed.
Lemma nan_to_num_is x : exists r, nan_to_num x = Fin r.
Proof. destruct x; eexists; reflexivity. Qed.
Lemma row_zero bk beta mn d qs m : trapezoid (map (fmul (Fin 0)) (qrow bk beta mn d qs m)) (map Fin qs) = Fin 0.
Proof.
  unfold qrow. rewrite map_map. rewrite (map_ext _ (fun q => Fin (0 * q))).
  - rewrite <- (map_map (Rmult 0) Fin), trapezoid_fin, Rtrap_scale. f_equal. ring.
  - intros q. destruct (nan_to_num_is (fdiv (qd bk (Fin beta) (Fin mn) (Fin d) (Fin m) (Fin q)) (qnorm bk (map Fin qs) (Fin beta) (Fin mn) (Fin d) (Fin m)))) as [r ->].
    rewrite fmul_fin. f_equal. ring.
Qed.
Lemma qgrid_one nq : (2 <= nq)%nat -> In 1 (linspace (1 / 1000) 1 nq).
Proof.
  intros H. rewrite <- (linspace_last (1 / 1000) 1 nq H) at 1.
  assert (L := linspace_length (1 / 1000) 1 nq). destruct (linspace (1 / 1000) 1 nq) as [|x l] eqn:E; [simpl in L; lia|].
  assert (exists l', exists a, (x :: l = l' ++ [a])%list) as [l' [a ->]] by (exists (removelast (x :: l)), (last (x :: l) 0); now apply app_removelast_last).
  rewrite last_last. apply in_or_app. right. now left.
Qed.

Lemma C32_ratio_normalised_all_pf :
  forall bk interp lo hi n nq cache s beta mmin delta_m m,
  smoothed_init lo hi (n, nq) cache = Ok s -> exact_at_nodes interp -> lo < hi -> 0 < mmin -> 0 < delta_m ->
  In (Fin m) (sm_m1s s) -> mmin < m ->
  exists l, snd (p_q bk interp [("mass_1"%string, map (fun _ => Fin m) (sm_qs s)); ("mass_ratio"%string, sm_qs s)]
                   (Fin beta) (Fin mmin) (Fin delta_m) s) = Ok l /\ trapezoid l (sm_qs s) = Fin 1.
Proof.
  intros bk li lo hi n nq ca s beta mn d m Hs Hli Hlo Hmn Hd Hin Hm.
  unfold smoothed_init in Hs. simpl fst in Hs. simpl snd in Hs.
  destruct (Nat.ltb_spec n 2) as [|Hn]; [discriminate|]. destruct (Nat.ltb_spec nq 2) as [|Hnq]; [discriminate|].
  injection Hs as Hs. set (qs := linspace (1 / 1000) 1 nq) in *.
  assert (E1 : sm_m1s s = map Fin (linspace lo hi n)) by now rewrite <- Hs. assert (E2 : sm_qs s = map Fin qs) by now rewrite <- Hs.
  assert (E3 : sm_masses s = None) by now rewrite <- Hs. clear Hs.
  assert (Q0 : forall q, In q qs -> 0 < q) by (intros q Hq; apply linspace_bounds in Hq; lra).
  assert (Qi : strictly_increasing qs) by (apply linspace_incr; auto; lra).
  assert (QL : (2 <= List.length qs)%nat) by (unfold qs; now rewrite linspace_length).
  assert (Q1 : In 1 qs) by now apply qgrid_one.
  destruct (In_nth _ _ NaN Hin) as [i [Hi Ei]].
  apply (C32_ratio_normalised_pf bk li s (Fin beta) (Fin mn) d qs i (Fin m) (qN beta mn d m qs)); auto.
  - rewrite E1. apply NoDup_Fin, NoDup_incr, linspace_incr; auto.
  - lra.
  - rewrite E2, map_map, (map_ext_in _ (fun q => Fin (qv beta mn d m q))).
    + rewrite <- (map_map (qv beta mn d m) Fin). now rewrite trapezoid_fin.
    + intros q Hq. apply (qd_fin bk); auto.
  - assert (P := qN_pos beta mn d m qs ltac:(lra) Qi QL Q1). lra.
Qed.

Lemma C101_joint_normalised_pf :
  forall bk c interp lo hi n nq cache s hyper mmin mmax delta_m beta,
  smoothed_init lo hi (n, nq) cache = Ok s -> exact_at_nodes interp -> 0 < lo < hi -> lo <= mmin < mmax -> mmax <= hi -> 0 < delta_m ->
  legal bk mmin mmax c hyper ->
  (exists i, (i < n)%nat /\ mmin < lo + INR i * ((hi - lo) / INR (n - 1)) <= mmax) ->
  ~ In (Fin mmin) (sm_m1s s) ->
  exists rows, snd (class_call c bk interp (grid_dataset (sm_m1s s) (sm_qs s))
                     (("beta", Fin beta) :: ("delta_m", Fin delta_m) :: hyper)%string s) = Ok (List.concat rows) /\
    List.length rows = n /\ Forall (fun row => List.length row = nq) rows /\
    trapezoid (map (fun row => trapezoid row (sm_qs s)) rows) (sm_m1s s) = Fin 1.
Proof.
  intros bk c li lo hi n nq ca s hyper mmin mmax d beta Hs Hli Hlo Hmm Hmx Hd HL [i [Hi Hb]] Hoff.
  unfold smoothed_init in Hs. simpl fst in Hs. simpl snd in Hs.
  destruct (Nat.ltb_spec n 2) as [|Hn]; [discriminate|]. destruct (Nat.ltb_spec nq 2) as [|Hnq]; [discriminate|].
  injection Hs as Hs. set (ms := linspace lo hi n) in *. set (qs := linspace (1 / 1000) 1 nq) in *.
  assert (E1 : sm_m1s s = map Fin ms) by now rewrite <- Hs. assert (E2 : sm_qs s = map Fin qs) by now rewrite <- Hs.
  assert (E3 : sm_masses s = None) by now rewrite <- Hs. assert (E4 : sm_mmax s = Fin hi) by now rewrite <- Hs.
  assert (E5 : sm_mmin s = Fin lo) by now rewrite <- Hs. clear Hs.
  rewrite E1, E2 in *.
  assert (Q0 : forall q, In q qs -> 0 < q) by (intros q Hq; apply linspace_bounds in Hq; lra).
  assert (Qi : strictly_increasing qs) by (apply linspace_incr; auto; lra).
  assert (QL : (2 <= List.length qs)%nat) by (unfold qs; now rewrite linspace_length).
  assert (Q1 : In 1 qs) by now apply qgrid_one.
  assert (Mi : strictly_increasing ms) by (apply linspace_incr; auto; lra).
  assert (M0 : forall m, In m ms -> lo <= m <= hi) by (intros m Hm; apply linspace_bounds in Hm; lra).
  destruct (class_density bk c mmin mmax hyper d hi HL ltac:(lra) Hmx) as [Emm [f [F1 [F2 F3]]]].
  set (kw := (("delta_m"%string, Fin d) :: hyper ++ class_kwargs c (Fin hi))%list) in *.
  set (N := m1norm f mmin hi d ms).
  assert (NP : 0 < N).
  { apply m1norm_pos; auto; [unfold ms; now rewrite linspace_length|].
    exists (lo + INR i * ((hi - lo) / INR (n - 1))). split; [|split; [lra|]].
    - unfold ms, linspace. apply in_map_iff. exists i. split; auto. apply in_seq; lia.
    - apply F3; lra. }
  set (g := fun m => f m * sval mmin hi d m / N).
  assert (PM : p_m1 bk (class_primary c bk) s (grid_dataset (map Fin ms) (map Fin qs)) kw =
               Ok (List.concat (map (fun m => map (fun _ => Fin (g m)) qs) ms))).
  { rewrite (p_m1_fin bk (class_primary c bk) s kw mmin hi d f ms (List.concat (map (fun m => map (fun _ => m) qs) ms))); auto.
    - f_equal. fold N. rewrite map_concat_map. f_equal. apply map_ext. intros m. now rewrite map_map.
    - unfold dget_default. now rewrite Emm.
    - rewrite dget_default_ddel_other by discriminate. unfold dget_default. now rewrite Emm.
    - intros m [Hm|Hm]; [apply F1; apply M0 in Hm; lra|]. apply in_concat in Hm. destruct Hm as [l [Hl Hm]].
      apply in_map_iff in Hl. destruct Hl as [m' [<- Hm']]. apply in_map_iff in Hm. destruct Hm as [? [<- _]].
      apply F1. apply M0 in Hm'. lra.
    - fold N. lra.
    - unfold grid_dataset. cbn. f_equal. rewrite map_map, map_concat_map. f_equal. apply map_ext. intros m. now rewrite !map_map. }
  assert (PQ := pq_grid bk li s beta mmin d ms qs Hli E3 E1 E2 (NoDup_incr _ Mi)).
  exists (map (fun m => map (fmul (Fin (g m))) (qrow bk beta mmin d qs m)) ms).
  assert (Hmin : dget_default "mmin" (sm_mmin s) (("delta_m"%string, Fin d) :: hyper) = Fin mmin /\
                 dget_default "mmax" (sm_mmax s) (("delta_m"%string, Fin d) :: hyper) = Fin mmax /\
                 ddel "beta" (("beta", Fin beta) :: ("delta_m", Fin d) :: hyper)%string = (("delta_m"%string, Fin d) :: hyper) /\
                 kw_merge (("delta_m"%string, Fin d) :: hyper) (class_kwargs c (Fin hi)) = Ok kw).
  { subst kw. destruct HL; repeat split; reflexivity. }
  destruct Hmin as [G1 [G2 [G3 G4]]].
  split; [|split; [|split]].
  - unfold class_call. rewrite call_eq. cbn [dlookup dget String.eqb Ascii.eqb Bool.eqb]. cbv zeta.
    rewrite G3, G1, G2, E4, E5, flt_fin, fgt_fin, !Rltb_false, !andb_false_r, G4, PM by lra. cbn [snd].
    change (dget_default "delta_m" (Fin 0) (("delta_m"%string, Fin d) :: hyper)) with (Fin d).
    rewrite PQ. unfold bcast, bcast2.
    set (A := List.concat (map (fun m => map (fun _ => Fin (g m)) qs) ms)). set (B := List.concat (map (qrow bk beta mmin d qs) ms)).
    assert (LAB : List.length A = List.length B) by (unfold A, B; apply concat_len; intros; unfold qrow; now rewrite !map_length).
    rewrite LAB, Nat.eqb_refl. f_equal. unfold A, B. apply zip_concat. intros m _. unfold qrow. rewrite !map_length. split; auto.
    rewrite zip_map2, map_map. reflexivity.
  - rewrite map_length. apply linspace_length.
  - apply Forall_map, Forall_forall. intros m _. unfold qrow. rewrite !map_length. apply linspace_length.
  - rewrite map_map. rewrite (map_ext_in _ (fun m => Fin (g m))).
    + unfold g. rewrite <- (map_map (fun m => f m * sval mmin hi d m) (fun v => Fin (v / N))).
      rewrite (map_ext_in _ (fun v => Fin (/ N * v))) by (intros; f_equal; unfold Rdiv; ring).
      rewrite <- (map_map (Rmult (/ N)) Fin), trapezoid_fin, Rtrap_scale. fold (m1norm f mmin hi d ms). fold N. f_equal. field. lra.
    + intros m Hm. destruct (Rtotal_order m mmin) as [H|[H|H]].
      * assert (E : g m = 0). { unfold g, sval. rewrite (Rleb_false mmin m) by lra. cbn [andb]. unfold Rdiv. ring. }
        rewrite E. apply row_zero.
      * exfalso. apply Hoff. subst m. now apply in_map.
      * apply row_trap; auto; lra.
Qed.

