(** Proofs of the property theorems stated in [Props_steps]. *)
From Coq Require Import Reals Lra Lia Psatz String Bool.
From Coquelicot Require Import Coquelicot.
From Coq Require Import List.
From Verif Require Import Xf Py St Xf_facts Py_facts Calc Spec Utils_model Powerlaw_facts Truncnorm_facts Trap_facts Np Np_facts
  Mass_model Mass_facts Smoothed_model Smoothed_facts smoothed_thms smooth2_thms SpecClass SpecCont Gauss_facts cont_thms.
Import ListNotations.
Local Open Scope R_scope.
Local Opaque linspace xlinspace.
Lemma gap_below x (l : list R) : exists d, 0 < d /\ forall y, In y l -> y < x -> y <= x - d.
Proof.
  induction l as [|a l [d [D H]]]; [exists 1; split; [lra|intros y []]|]. destruct (Rlt_dec a x) as [L|L].
  - exists (Rmin d (x - a)). split; [apply Rmin_glb_lt; lra|]. assert (W1 := Rmin_l d (x - a)). assert (W2 := Rmin_r d (x - a)).
    intros y [<-|I] Hy; [lra|]. specialize (H y I Hy). lra.
  - exists d. split; [exact D|]. intros y [<-|I] Hy; [lra|]. now apply H.
Qed.
Lemma sval_nonneg mn mx d x : 0 <= sval mn mx d x.
Proof. unfold sval. destruct (_ && _); [|lra]. left; apply swin_range. Qed.
Lemma sval_pos mn mx d x : mn <= x <= mx -> 0 < sval mn mx d x.
Proof. intros. unfold sval. rewrite !Rleb_true by lra. apply swin_range. Qed.
(** The grid sum of the unnormalised smoothed power law cut at [top]. *)
Definition cutw (alpha mmin d hi top x : R) : R := (if Rleb mmin x && Rleb x top then Rpower x (- alpha) else 0) * sval mmin hi d x.
Definition cutsum (alpha mmin d hi top : R) (grid : list R) : R := Rtrap (map (cutw alpha mmin d hi top) grid) grid.
Lemma cutw_nonneg alpha mmin d hi top x : 0 <= cutw alpha mmin d hi top x.
Proof. unfold cutw. apply Rmult_le_pos; [|apply sval_nonneg]. destruct (_ && _); [left; apply exp_pos|lra]. Qed.
Lemma cutw_pos alpha mmin d hi top x : mmin <= x <= top -> top <= hi -> 0 < cutw alpha mmin d hi top x.
Proof. intros. unfold cutw. rewrite !Rleb_true by lra. cbn [andb]. apply Rmult_lt_0_compat; [apply exp_pos|apply sval_pos; lra]. Qed.
Lemma cutsum_pos alpha mmin d hi top grid y : strictly_increasing grid -> (2 <= List.length grid)%nat -> In y grid -> mmin <= y <= top -> top <= hi -> 0 < cutsum alpha mmin d hi top grid.
Proof.
  intros I L Hy B T. apply Rtrap_pos_one; auto; [now rewrite map_length| |].
  - apply Forall_map, Forall_forall. intros. apply cutw_nonneg.
  - apply Exists_exists. eexists; split; [apply in_map; exact Hy|]. now apply cutw_pos.
Qed.
Lemma cutsum_norm alpha mmin mmax d hi grid mpp sigpp : 0 < mmin < mmax ->
  m1norm (twoval alpha mmin mmax 0 mpp sigpp hi) mmin hi d grid = plnorm (- alpha) mmax mmin * cutsum alpha mmin d hi mmax grid.
Proof.
  intros H. unfold m1norm, cutsum. rewrite <- Rtrap_scale. f_equal. rewrite map_map. apply map_ext. intros x. unfold twoval, cutw.
  destruct (Rleb_spec mmin x) as [A|A]; cbn [andb]; [destruct (Rleb_spec x mmax) as [B|B]|].
  - rewrite plval_in by lra. unfold plpdf. ring.
  - rewrite plval_out by lra. ring.
  - rewrite plval_out by lra. ring.
Qed.
Lemma cut_density bk s lo hi n alpha mmin mmax mpp sigpp d m :
  sm_mmax s = Fin hi -> sm_m1s s = map Fin (linspace lo hi n) -> 0 < lo < hi -> 0 < mmin < mmax -> mmax <= hi -> 0 < sigpp -> 0 < d -> slope_ok bk alpha -> mmin <= m <= mmax ->
  cutsum alpha mmin d hi mmax (linspace lo hi n) <> 0 ->
  p_m1 bk (class_primary SinglePeak bk) s [("mass_1"%string, [Fin m])] (single_peak_kw alpha mmin mmax 0 mpp sigpp d ++ class_kwargs SinglePeak (sm_mmax s))%list
  = Ok [Fin (Rpower m (- alpha) * sval mmin hi d m / cutsum alpha mmin d hi mmax (linspace lo hi n))].
Proof.
  intros Ex Eg Hlo Hm Hh Hs Hd Ha Hb HN. assert (P := plnorm_pos (- alpha) mmax mmin Hm).
  rewrite (p_m1_fin bk _ s _ mmin hi d (twoval alpha mmin mmax 0 mpp sigpp hi) (linspace lo hi n) [m]); auto.
  - cbn [map]. do 3 f_equal. rewrite cutsum_norm by exact Hm. unfold twoval. rewrite plval_in by lra. unfold plpdf. field. split; [exact HN|lra].
  - intros x I. apply sp_gmax; auto; try lra. destruct I as [I|[<-|[]]]; [|lra]. apply linspace_bounds in I; lra.
  - rewrite cutsum_norm by exact Hm. apply Rmult_integral_contrapositive_currified; [lra|exact HN].
Qed.
Lemma init_grid lo hi n nq cache s : smoothed_init lo hi (n, nq) cache = Ok s -> sm_mmax s = Fin hi /\ sm_m1s s = map Fin (linspace lo hi n) /\ (2 <= n)%nat /\ sm_mmin s = Fin lo.
Proof.
  intros Hs. unfold smoothed_init in Hs. simpl fst in Hs. simpl snd in Hs.
  destruct (Nat.ltb_spec n 2) as [|Hn]; [discriminate|]. destruct (Nat.ltb nq 2); [discriminate|]. injection Hs as <-. repeat split; auto.
Qed.
Lemma C131_flat_pf :
  forall bk lo hi n nq cache s alpha mmin mmax mmax' mpp sigpp delta m,
  smoothed_init lo hi (n, nq) cache = Ok s -> 0 < lo < hi -> 0 < mmin < mmax -> mmax <= mmax' -> mmax' <= hi -> 0 < sigpp -> 0 < delta -> slope_ok bk alpha ->
  mmin <= m <= mmax -> (exists y, In (Fin y) (sm_m1s s) /\ mmin <= y <= mmax) -> (forall y, In (Fin y) (sm_m1s s) -> ~ mmax < y <= mmax') ->
  let density := fun top => p_m1 bk (class_primary SinglePeak bk) s [("mass_1"%string, [Fin m])]
                   (single_peak_kw alpha mmin top 0 mpp sigpp delta ++ class_kwargs SinglePeak (sm_mmax s))%list in
  density mmax' = density mmax /\ exists v, 0 < v /\ density mmax = Ok [Fin v].
Proof.
  intros bk lo hi n nq ca s alpha mn mx mx' mpp sg d m Hs Hlo Hmn Hmm Hh Hsg Hd Ha Hb (y & Iy & By) Hno density.
  destruct (init_grid _ _ _ _ _ _ Hs) as (Ex & Eg & Hn & _).
  assert (Gn : forall z, In z (linspace lo hi n) -> In (Fin z) (sm_m1s s)) by (intros z I; rewrite Eg; now apply in_map).
  assert (Iy' : In y (linspace lo hi n)). { rewrite Eg in Iy. apply in_map_iff in Iy. destruct Iy as (z & E & I). now injection E as <-. }
  assert (Sg : strictly_increasing (linspace lo hi n)) by (apply linspace_incr; auto; lra). assert (Ln : (2 <= List.length (linspace lo hi n))%nat) by now rewrite linspace_length.
  assert (E : cutsum alpha mn d hi mx' (linspace lo hi n) = cutsum alpha mn d hi mx (linspace lo hi n)).
  { unfold cutsum. f_equal. apply map_ext_in. intros z I. unfold cutw. specialize (Hno z (Gn z I)). destruct (Rleb_spec z mx'), (Rleb_spec z mx); auto; exfalso; lra. }
  assert (P := cutsum_pos alpha mn d hi mx (linspace lo hi n) y Sg Ln Iy' By ltac:(lra)). unfold density.
  rewrite (cut_density bk s lo hi n alpha mn mx mpp sg d m) by (auto; try lra). rewrite (cut_density bk s lo hi n alpha mn mx' mpp sg d m) by (auto; try lra). rewrite E. split; [reflexivity|].
  eexists. split; [|reflexivity]. apply Rdiv_lt_0_compat; [|exact P]. apply Rmult_lt_0_compat; [apply exp_pos|apply sval_pos; lra].
Qed.

Lemma C131_jump_refuted_pf :
  forall bk lo hi n nq cache s alpha mmin mpp sigpp delta m x,
  smoothed_init lo hi (n, nq) cache = Ok s -> 0 < lo < hi -> 0 < mmin -> 0 < sigpp -> 0 < delta -> slope_ok bk alpha ->
  In (Fin x) (sm_m1s s) -> mmin <= m < x -> (exists y, In (Fin y) (sm_m1s s) /\ mmin <= y < x) ->
  let density := fun top => p_m1 bk (class_primary SinglePeak bk) s [("mass_1"%string, [Fin m])]
                   (single_peak_kw alpha mmin top 0 mpp sigpp delta ++ class_kwargs SinglePeak (sm_mmax s))%list in
  exists small v w, 0 < small /\ 0 < v < w /\ density x = Ok [Fin v] /\ forall mmax, x - small < mmax < x -> density mmax = Ok [Fin w].
Proof.
  intros bk lo hi n nq ca s alpha mn mpp sg d m x Hs Hlo Hmn Hsg Hd Ha Ix Hb (y & Iy & By) density.
  destruct (init_grid _ _ _ _ _ _ Hs) as (Ex & Eg & Hn & _).
  assert (Gi : forall z, In (Fin z) (sm_m1s s) -> In z (linspace lo hi n)). { intros z I. rewrite Eg in I. apply in_map_iff in I. destruct I as (z' & E & I). now injection E as <-. }
  assert (Sg : strictly_increasing (linspace lo hi n)) by (apply linspace_incr; auto; lra). assert (Ln : (2 <= List.length (linspace lo hi n))%nat) by now rewrite linspace_length.
  apply Gi in Ix. apply Gi in Iy. assert (Bx := linspace_bounds lo hi n x ltac:(lra) Ix).
  destruct (gap_below x (linspace lo hi n)) as (d0 & D0 & G). set (small := Rmin d0 (x - m)). assert (W1 : small <= d0) by apply Rmin_l. assert (W2 : small <= x - m) by apply Rmin_r.
  assert (W0 : 0 < small) by (apply Rmin_glb_lt; lra). assert (Gy := G y Iy ltac:(lra)).
  assert (Px := cutsum_pos alpha mn d hi x (linspace lo hi n) y Sg Ln Iy ltac:(lra) ltac:(lra)).
  set (mid := x - small / 2). assert (Hmid : x - small < mid < x) by (unfold mid; lra).
  assert (E : forall t, x - small < t < x -> cutsum alpha mn d hi t (linspace lo hi n) = cutsum alpha mn d hi mid (linspace lo hi n)).
  { intros t Ht. unfold cutsum. f_equal. apply map_ext_in. intros z I. unfold cutw. specialize (G z I). destruct (Rleb_spec z t), (Rleb_spec z mid); auto; exfalso; lra. }
  assert (Pm := cutsum_pos alpha mn d hi mid (linspace lo hi n) y Sg Ln Iy ltac:(lra) ltac:(lra)).
  assert (L : cutsum alpha mn d hi mid (linspace lo hi n) < cutsum alpha mn d hi x (linspace lo hi n)).
  { apply Rminus_gt_0_lt. unfold cutsum.
    replace (Rtrap (map (cutw alpha mn d hi x) (linspace lo hi n)) (linspace lo hi n) - Rtrap (map (cutw alpha mn d hi mid) (linspace lo hi n)) (linspace lo hi n))
      with (Rtrap (map (fun z => cutw alpha mn d hi x z - cutw alpha mn d hi mid z) (linspace lo hi n)) (linspace lo hi n)).
    - apply Rtrap_pos_one; auto; [now rewrite map_length| |].
      + apply Forall_map, Forall_forall. intros z I. unfold cutw. assert (Q := sval_nonneg mn hi d z). assert (Q2 := exp_pos (- alpha * ln z)). fold (Rpower z (- alpha)) in Q2.
        destruct (Rleb_spec mn z); cbn [andb]; [|lra]. destruct (Rleb_spec z x), (Rleb_spec z mid); try (exfalso; lra); try lra. assert (0 <= Rpower z (- alpha) * sval mn hi d z) by (apply Rmult_le_pos; lra). lra.
      + apply Exists_exists. eexists; split; [apply (in_map _ _ x Ix)|]. cbv beta. assert (Q := cutw_pos alpha mn d hi x x ltac:(lra) ltac:(lra)). unfold cutw at 2. rewrite (Rleb_false x mid) by lra. rewrite andb_false_r. lra.
    - clear - n. induction (linspace lo hi n) as [|a [|b l] IH]; [simpl; ring|simpl; ring|]. cbn [map] in IH |- *. rewrite !Rtrap_cons. rewrite IH. field. }
  exists small, (Rpower m (- alpha) * sval mn hi d m / cutsum alpha mn d hi x (linspace lo hi n)), (Rpower m (- alpha) * sval mn hi d m / cutsum alpha mn d hi mid (linspace lo hi n)).
  assert (Pn : 0 < Rpower m (- alpha) * sval mn hi d m) by (apply Rmult_lt_0_compat; [apply exp_pos|apply sval_pos; lra]).
  split; [exact W0|]. split; [split; [now apply Rdiv_lt_0_compat|]|split].
  - apply Rmult_lt_compat_l; [exact Pn|]. apply Rinv_lt_contravar; [now apply Rmult_lt_0_compat|exact L].
  - unfold density. apply (cut_density bk s lo hi n); auto; lra.
  - intros t Ht. rewrite <- (E t Ht). unfold density. apply (cut_density bk s lo hi n); auto; try lra. rewrite (E t Ht). lra.
Qed.

Lemma clp_cont t : continuous clp t.
Proof.
  apply (c_ext (T := R_UniformSpace) (clampR (1 / 1000000) (1 - 1 / 1000000))); [intros u; symmetry; apply clp_clamp|].
  intros P [e He]. exists e. intros y Hy. apply He. change (Rabs (y - t) < e) in Hy. change (Rabs (clampR (1 / 1000000) (1 - 1 / 1000000) y - clampR (1 / 1000000) (1 - 1 / 1000000) t) < e).
  eapply Rle_lt_trans; [|exact Hy]. rewrite <- !clp_clamp. unfold clp.
  destruct (Rltb_spec y (1 / 1000000)), (Rltb_spec t (1 / 1000000)), (Rltb_spec (1 - 1 / 1000000) y), (Rltb_spec (1 - 1 / 1000000) t); unfold Rabs; repeat destruct (Rcase_abs _); lra.
Qed.
Section S.
  Context {T : UniformSpace}.
  Lemma c_sval (mn d x : T -> R) mx t : continuous mn t -> continuous d t -> continuous x t -> 0 < d t -> mn t <> x t -> (x t < mx \/ forall u, x u = x t) -> continuous (fun u => sval (mn u) mx (d u) (x u)) t.
  Proof.
    intros Cm Cd Cx Hd N HX. destruct (Rtotal_order (x t) (mn t)) as [L|[L|L]]; [|congruence|].
    - apply (c_local (fun _ => 0)); [|apply c_const]. eapply filter_imp; [|exact (near_lt x mn t Cx Cm L)]. intros u H. cbv beta in H. unfold sval. now rewrite Rleb_false by lra.
    - assert (CW : continuous (fun u => swin (clp ((x u - mn u) / d u))) t).
      { apply (c_comp (fun u => clp ((x u - mn u) / d u)) swin).
        - apply (c_comp (fun u => (x u - mn u) / d u) clp); [apply c_div; [now apply c_minus|exact Cd|lra]|apply clp_cont].
        - apply swin_cont. assert (B := clp_bounds ((x t - mn t) / d t)). lra. }
      destruct (Rle_dec (x t) mx) as [B|B].
      + apply (c_local (fun u => swin (clp ((x u - mn u) / d u)))); [|exact CW].
        assert (LX : locally t (fun u => x u <= mx)). { destruct HX as [HX|HX]; [|apply filter_forall; intros u; rewrite HX; exact B]. eapply filter_imp; [|exact (near_lt x (fun _ => mx) t Cx (c_const mx t) HX)]. intros u H. cbv beta in H. lra. }
        eapply filter_imp; [|exact (filter_and _ _ (near_lt mn x t Cm Cx L) LX)]. intros u [H1 H2]. cbv beta in H1, H2. unfold sval. now rewrite !Rleb_true by lra.
      + destruct HX as [HX|HX]; [lra|]. apply (c_local (fun _ => 0)); [|apply c_const]. apply filter_forall. intros u. unfold sval. rewrite HX. rewrite (Rleb_false (x t) mx) by lra. now rewrite andb_false_r.
  Qed.
  Lemma c_rtrap (F : T -> R -> R) grid t : (forall x, In x grid -> continuous (fun u => F u x) t) -> continuous (fun u => Rtrap (map (F u) grid) grid) t.
  Proof.
    induction grid as [|a [|b l] IH]; intros H; [apply c_const|apply c_const|].
    apply (c_ext (fun u => (F u a + F u b) * (b - a) / 2 + Rtrap (map (F u) (b :: l)) (b :: l))).
    { intros u. cbn [map]. rewrite Rtrap_cons. unfold Rdiv. ring. }
    apply c_plus; [|apply IH; intros; apply H; now right]. apply c_div; [|apply c_const|lra]. apply c_mult; [|apply c_const]. apply c_plus; apply H; simpl; auto.
  Qed.
  Lemma near_grid (Q : T -> R -> Prop) grid t : (forall x, In x grid -> locally t (fun u => Q u x)) -> locally t (fun u => forall x, In x grid -> Q u x).
  Proof.
    induction grid as [|a l IH]; intros H; [apply filter_forall; intros u x []|].
    eapply filter_imp; [|exact (filter_and _ _ (H a (or_introl eq_refl)) (IH (fun x I => H x (or_intror I))))]. intros u [A B] x [<-|I]; auto.
  Qed.
  (** The number a call returns. *)
  Definition number (r : result xf) : R := match r with Ok (Fin v) => v | _ => 0 end.
  Lemma call_number (f : T -> result xf) t : continuous_call f t -> locally t (fun u => f u = Ok (Fin (number (f u)))) /\ continuous (fun u => number (f u)) t.
  Proof.
    intros (g & G1 & G2). split.
    - eapply filter_imp; [|exact G1]. intros u E. unfold returns in E. now rewrite E.
    - apply (c_local g); [|exact G2]. eapply filter_imp; [|exact G1]. intros u E. unfold returns in E. now rewrite E.
  Qed.
End S.
Lemma C131_continuous_pf :
  forall (T : UniformSpace) bk primary s (kw : T -> dict xf) (mmin delta mass : T -> R) grid mx t,
  sm_m1s s = map Fin grid -> strictly_increasing grid -> (2 <= List.length grid)%nat -> sm_mmax s = Fin mx ->
  (forall u, dget "delta_m" (kw u) = Some (Fin (delta u)) /\ dget_default "mmin" (sm_mmin s) (kw u) = Fin (mmin u)) ->
  continuous mmin t -> continuous delta t -> continuous mass t -> 0 < delta t -> mmin t < mass t < mx -> ~ In (mmin t) grid ->
  continuous_call (fun u => primary (ddel "delta_m" (kw u)) (Fin (mass u))) t ->
  (forall x, In x grid -> continuous_call (fun u => primary (ddel "delta_m" (kw u)) (Fin x)) t) ->
  (forall x v, In x grid -> primary (ddel "delta_m" (kw t)) (Fin x) = Ok (Fin v) -> 0 <= v) ->
  (exists x v, In x grid /\ mmin t <= x <= mx /\ primary (ddel "delta_m" (kw t)) (Fin x) = Ok (Fin v) /\ 0 < v) ->
  exists g : T -> R, continuous g t /\ locally t (fun u => p_m1 bk primary s [("mass_1"%string, [Fin (mass u)])] (kw u) = Ok [Fin (g u)]).
Proof.
  intros T bk prim s kw mn d ms grid mx t Eg Ig Lg Ex K Cmn Cd Cms Hd Hms Hng CP CG NN (x0 & v0 & I0 & B0 & E0 & P0).
  set (f := fun (u : T) (x : R) => number (prim (ddel "delta_m" (kw u)) (Fin x))).
  destruct (call_number _ t CP) as [LP CP']. assert (LG : locally t (fun u => forall x, In x grid -> prim (ddel "delta_m" (kw u)) (Fin x) = Ok (Fin (f u x)))) by (apply near_grid; intros x I; exact (proj1 (call_number _ t (CG x I)))).
  assert (CN : continuous (fun u => m1norm (f u) (mn u) mx (d u) grid) t).
  { apply (c_rtrap (fun u m => f u m * sval (mn u) mx (d u) m)). intros x I. apply c_mult; [exact (proj2 (call_number _ t (CG x I)))|].
    apply (c_sval mn d (fun _ => x)); auto; [apply c_const|]. intros E. apply Hng. now rewrite E. }
  assert (PN : 0 < m1norm (f t) (mn t) mx (d t) grid).
  { apply m1norm_pos; auto.
    - intros x I. apply (NN x); auto. exact (locally_singleton _ _ LG x I).
    - exists x0. repeat split; auto; try lra. unfold f. now rewrite E0. }
  exists (fun u => f u (ms u) * sval (mn u) mx (d u) (ms u) / m1norm (f u) (mn u) mx (d u) grid). split.
  - apply c_div; [|exact CN|lra]. apply c_mult; [exact CP'|]. apply c_sval; auto; lra.
  - eapply filter_imp; [|exact (filter_and _ _ (filter_and _ _ LP LG) (filter_and _ _ (near_lt (fun _ => 0) d t (c_const 0 t) Cd Hd) (near_lt (fun _ => 0) _ t (c_const 0 t) CN PN)))].
    intros u [[A B] [C D]]. cbv beta in *. destruct (K u) as [K1 K2].
    rewrite (p_m1_fin bk prim s (kw u) (mn u) mx (d u) (f u) grid [ms u]); auto.
    + rewrite dget_default_ddel_other by discriminate. exact K2.
    + intros x [I|[<-|[]]]; [now apply B|exact A].
    + lra.
Qed.

Section V.
  Context {T : UniformSpace}.
  Lemma c_plval (alpha high low : T -> R) x t : continuous alpha t -> continuous high t -> continuous low t -> 0 < low t < high t -> 0 < x -> x <> low t -> x <> high t ->
    continuous (fun u => plval (alpha u) (high u) (low u) x) t.
  Proof.
    intros Ca Ch Cl H Hx N1 N2. destruct (Rtotal_order x (low t)) as [L|[L|L]]; [|contradiction|].
    - apply (c_local (fun _ => 0)); [|apply c_const]. eapply filter_imp; [|exact (near_lt (fun _ => x) low t (c_const x t) Cl L)]. intros u A. cbv beta in A. now rewrite plval_out by lra.
    - destruct (Rtotal_order x (high t)) as [G|[G|G]]; [|contradiction|].
      + apply (c_local (fun u => plpdf (alpha u) (high u) (low u) x)); [|apply (c_plpdf (fun _ => x)); auto; apply c_const].
        eapply filter_imp; [|exact (filter_and _ _ (near_lt low (fun _ => x) t Cl (c_const x t) L) (near_lt (fun _ => x) high t (c_const x t) Ch G))]. intros u [A B]. cbv beta in A, B. now rewrite plval_in by lra.
      + apply (c_local (fun _ => 0)); [|apply c_const]. eapply filter_imp; [|exact (near_lt high (fun _ => x) t Ch (c_const x t) G)]. intros u A. cbv beta in A. now rewrite plval_out by lra.
  Qed.
  Lemma c_tnval (mu sigma low : T -> R) high x t : continuous mu t -> continuous sigma t -> continuous low t -> 0 < sigma t -> low t < high -> x <> low t ->
    continuous (fun u => tnval (mu u) (sigma u) high (low u) x) t.
  Proof.
    intros Cm Cs Cl Hs H N. destruct (Rtotal_order x (low t)) as [L|[L|L]]; [|contradiction|].
    - apply (c_local (fun _ => 0)); [|apply c_const]. eapply filter_imp; [|exact (near_lt (fun _ => x) low t (c_const x t) Cl L)]. intros u A. cbv beta in A. now rewrite tnval_out by lra.
    - destruct (Rle_dec x high) as [G|G].
      + apply (c_local (fun u => tnpdf (mu u) (sigma u) high (low u) x)); [|apply (c_tnpdf (fun _ => x) mu sigma (fun _ => high) low); auto; apply c_const].
        eapply filter_imp; [|exact (near_lt low (fun _ => x) t Cl (c_const x t) L)]. intros u A. cbv beta in A. now rewrite tnval_in by lra.
      + apply (c_local (fun _ => 0)); [|apply c_const]. apply filter_forall. intros u. now rewrite tnval_out by lra.
  Qed.
End V.
Lemma C131_single_peak_partial_pf :
  forall (T : UniformSpace) bk lo hi n nq cache s (alpha mmin mmax lam mpp sigpp delta mass : T -> R) t,
  smoothed_init lo hi (n, nq) cache = Ok s -> 0 < lo < hi ->
  continuous alpha t -> continuous mmin t -> continuous mmax t -> continuous lam t -> continuous mpp t -> continuous sigpp t -> continuous delta t -> continuous mass t ->
  0 < mmin t < mass t -> mass t < mmax t -> mmax t <= hi -> 0 <= lam t <= 1 -> 0 < sigpp t -> 0 < delta t -> slope_ok bk (alpha t) ->
  ~ In (Fin (mmin t)) (sm_m1s s) -> ~ In (Fin (mmax t)) (sm_m1s s) -> (exists y, In (Fin y) (sm_m1s s) /\ mmin t < y < mmax t) ->
  exists g : T -> R, continuous g t /\ locally t (fun u => p_m1 bk (class_primary SinglePeak bk) s [("mass_1"%string, [Fin (mass u)])]
    (single_peak_kw (alpha u) (mmin u) (mmax u) (lam u) (mpp u) (sigpp u) (delta u) ++ class_kwargs SinglePeak (sm_mmax s))%list = Ok [Fin (g u)]).
Proof.
  intros T bk lo hi n nq ca s al mn mx lam mpp sg d ms t Hs Hlo Cal Cmn Cmx Clam Cmpp Csg Cd Cms [H1 H2] H3 H4 H5 H6 H7 HA N1 N2 (y & Iy & By).
  destruct (init_grid _ _ _ _ _ _ Hs) as (Ex & Eg & Hn & El).
  assert (Gi : forall z, In (Fin z) (sm_m1s s) <-> In z (linspace lo hi n)). { intros z. rewrite Eg. split; [|intros; now apply in_map]. intros I. apply in_map_iff in I. destruct I as (z' & E & I). now injection E as <-. }
  rewrite Gi in N1, N2, Iy.
  assert (NS : locally t (fun u => slope_ok bk (al u))). { destruct HA as [HA|HA]; [apply filter_forall; intros u; now left|]. eapply filter_imp; [|exact (near_ne al (-1) t Cal HA)]. intros u B. now right. }
  assert (NV : forall x, 0 < x -> locally t (fun u => class_primary SinglePeak bk (ddel "delta_m" (single_peak_kw (al u) (mn u) (mx u) (lam u) (mpp u) (sg u) (d u) ++ class_kwargs SinglePeak (sm_mmax s))) (Fin x) = Ok (Fin (twoval (al u) (mn u) (mx u) (lam u) (mpp u) (sg u) hi x)))).
  { intros x Hx. eapply filter_imp; [|exact (filter_and _ _ (filter_and _ _ (near_lt (fun _ => 0) mn t (c_const 0 t) Cmn H1) (near_lt mn mx t Cmn Cmx (Rlt_trans _ _ _ H2 H3))) (filter_and _ _ (near_lt mn (fun _ => hi) t Cmn (c_const hi t) (Rlt_le_trans _ _ _ (Rlt_trans _ _ _ H2 H3) H4)) (filter_and _ _ (near_lt (fun _ => 0) sg t (c_const 0 t) Csg H6) NS)))].
    intros u [[A B] [C [D E]]]. cbv beta in *. apply sp_gmax; auto. }
  apply (C131_continuous_pf T bk (class_primary SinglePeak bk) s _ mn d ms (linspace lo hi n) hi t); auto.
  - apply linspace_incr; auto; lra.
  - now rewrite linspace_length.
  - lra.
  - destruct (C129_peak_models_pf T bk ms al mn mx lam mpp sg (fun _ => hi) lam mpp sg t) as [(g & G1 & G2) _]; auto; try apply c_const; try lra.
    exists g. split; [|exact G2]. eapply filter_imp; [|exact G1]. intros u E. unfold returns in *. rewrite Ex. exact E.
  - intros x I. assert (Bx := linspace_bounds lo hi n x ltac:(lra) I). exists (fun u => twoval (al u) (mn u) (mx u) (lam u) (mpp u) (sg u) hi x). split; [apply NV; lra|].
    unfold twoval. assert (X1 : x <> mn t) by congruence. assert (X2 : x <> mx t) by congruence. apply c_plus; apply c_mult; auto.
    + apply c_minus; [apply c_const|exact Clam].
    + apply (c_plval (fun u => - al u) mx mn); auto; try lra. now apply c_opp.
    + apply c_tnval; auto. lra.
  - intros x v I E. assert (Bx := linspace_bounds lo hi n x ltac:(lra) I). rewrite (locally_singleton _ _ (NV x ltac:(lra))) in E. injection E as <-. apply twoval_nonneg; lra.
  - assert (Bx := linspace_bounds lo hi n y ltac:(lra) Iy). eexists y, _. split; [exact Iy|]. split; [lra|]. split; [exact (locally_singleton _ _ (NV y ltac:(lra)))|]. apply twoval_pos; lra.
Qed.

