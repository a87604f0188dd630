(** Proofs of the property theorems stated in [Props_ipl]. *)
From Coq Require Import Reals Lra Lia Psatz String Bool.
From Coquelicot Require Import Coquelicot.
From Coq Require Import List.
From Verif Require Import Xf Py St Xf_facts Py_facts Calc Spec Utils_model Powerlaw_facts Truncnorm_facts Trap_facts
  Np Np_facts Mass_model Mass_facts Smoothed_model Smoothed_facts SpecSmooth Interp_model Interp_facts smoothed_thms interp_thms.
Import ListNotations.
Local Open Scope R_scope.

Lemma last_map_fin x0 x : last (map Fin x) (Fin x0) = Fin (last x x0).
Proof. revert x0; induction x as [|x1 x IH]; intros; [reflexivity|]. destruct x; [reflexivity|]. apply (IH x0). Qed.
Lemma ends_fin x : x <> [] -> ends (map Fin x) = Ok (Fin (hd 0 x), Fin (last x 0)).
Proof.
  destruct x as [|x0 x]; [congruence|]. intros _. simpl map. rewrite ends_cons, last_map_fin. cbn [hd]. now rewrite last_cons_default.
Qed.

Section P.
  Context (bk : backend) (spl : string -> list xf -> list xf -> xf -> xf) (s : ipl) (kw : dict xf) (grid fv xv : list R)
          (alpha mn mx d hi : R) (g w w' : R -> R).
  Hypothesis G1 : sm_m1s (fst s) = map Fin grid.
  Hypothesis G2 : in_xs (snd s) = map Fin grid.
  Hypothesis Gpos : forall m, In m grid -> 0 < m.
  Hypothesis Fr : in_norm (snd s) = None.
  Hypothesis Pa : in_params (snd s) = ["mass_1"%string].
  Hypothesis Lg : in_log (snd s) = true.
  Hypothesis Hi : sm_mmax (fst s) = Fin hi.
  Hypothesis Ex : extract_spline_points (snd s) kw = Ok (map Fin fv, map Fin xv).
  Hypothesis Xn : xv <> [].
  Hypothesis Ka : dget "alpha" (ddel "delta_m" kw) = Some (Fin alpha).
  Hypothesis Kn : dget "mmin" (ddel "delta_m" kw) = Some (Fin mn).
  Hypothesis Kx : dget "mmax" (ddel "delta_m" kw) = Some (Fin mx).
  Hypothesis Kd : dget_default "delta_m" (Fin 0) kw = Fin d.
  Hypothesis Lgl : 0 < mn < mx.
  Hypothesis Al : bk = Jax \/ alpha <> -1.
  Hypothesis Spl : forall m, 0 < m -> spl (in_kind (snd s)) (node_scale (snd s) (map Fin xv)) (map Fin fv) (Fin (ln m)) = Fin (g m).
  Hypothesis Win : forall m, smoothing bk (Fin m) (Fin mn) (Fin hi) (Fin d) = Fin (w m).
  Hypothesis Win' : forall m, fpow (Fin (w m)) (of_bool (Rltb 0 d)) = Fin (w' m).

  Definition pl m := plval (- alpha) mx mn m.
  Definition msk m : R := if Rleb (hd 0 xv) m && Rleb m (last xv 0) then 1 else 0.
  Definition dval m := pl m * w m * (exp (g m) * msk m).
  Definition nval m := pl m * w' m * exp (g m).

  Lemma ipl_pl ms : (forall m, In m ms -> 0 < m) -> ipl_powerlaw bk (ddel "delta_m" kw) (map Fin ms) = Ok (map Fin (map pl ms)).
  Proof.
    intros H. unfold ipl_powerlaw. rewrite (dlookup_ok _ _ _ Ka), (dlookup_ok _ _ _ Kn), (dlookup_ok _ _ _ Kx). cbn [bind].
    rewrite (mapM_ok_in _ (fun m => Fin (pl (toR m)))).
    - f_equal. rewrite !map_map. reflexivity.
    - intros x Hx. apply in_map_iff in Hx. destruct Hx as [m [<- Hm]]. apply plm_val; auto.
  Qed.
  Lemma kwmin : dget_default "mmin" (sm_mmin (fst s)) kw = Fin mn.
  Proof.
    unfold dget_default. rewrite <- (dget_ddel_other "mmin" "delta_m") by discriminate. now rewrite Kn.
  Qed.
  Lemma ipl_val ms : (forall m, In m ms -> 0 < m) -> Rtrap (map nval grid) grid <> 0 ->
    snd (ipl_p_m1 bk spl [("mass_1"%string, map Fin ms)] kw s) = Ok (map (fun m => Fin (dval m / Rtrap (map nval grid) grid)) ms).
  Proof.
    intros Hms HN. unfold ipl_p_m1, sbind, sget, slift. rewrite Ex. cbn [fst snd]. rewrite dlookup_one.
    rewrite Kd, ipl_pl by auto. rewrite kwmin, Hi.
    rewrite bcast_into_same by now rewrite !map_length.
    assert (Wm : map (fun m => smoothing bk m (Fin mn) (Fin hi) (Fin d)) (map Fin ms) = map (fun m => Fin (w m)) ms).
    { rewrite map_map. apply map_ext. apply Win. }
    rewrite Wm, map_map. rewrite (zipWith_map2 fmul (fun m => Fin (pl m)) (fun m => Fin (w m)) ms).
    unfold on_snd.
    rewrite (unnormed_fresh bk spl (snd s) _ _ _ _ (fun _ => map Fin ms)); auto.
    2:{ rewrite Pa. intros p [<-|[]]. reflexivity. }
    fold (data_of (snd s) (map Fin xv) (fun _ => map Fin ms)).
    rewrite (unnormed_ok bk spl (snd s) _ (map Fin xv) (map Fin xv) (data_of (snd s) (map Fin xv) (fun _ => map Fin ms)) _ _ _ (map Fin ms)
              (Fin (hd 0 xv), Fin (last xv 0)) eq_refl).
    2:{ unfold data_of. rewrite Pa. reflexivity. }
    2:{ reflexivity. }
    2:{ now apply ends_fin. }
    rewrite bcast_into_same by (unfold column; now rewrite !map_length).
    assert (Cm : column spl (snd s) (map Fin xv) (map Fin fv) (Fin (hd 0 xv), Fin (last xv 0)) (map Fin ms)
       = map (fun m => Fin (exp (g m) * msk m)) ms).
    { unfold column. rewrite map_map. rewrite Lg. unfold in_range. cbn [fst snd]. apply map_ext_in.
      intros m Hm. rewrite flog_fin by auto. rewrite Spl by auto. rewrite fge_fin, fle_fin. unfold msk.
      destruct (_ && _); cbn [of_bool]; autorewrite with xf; reflexivity. }
    rewrite Cm, zipWith_map2.
    unfold ipl_norm_p_m1. cbn [fst snd]. rewrite G1, ipl_pl by auto. cbn [bind].
    unfold dget_default at 1. rewrite Kn, Hi.
    rewrite bcast_into_same by now rewrite !map_length. cbn [bind].
    assert (Wg : map (fun m => fpow (smoothing bk m (Fin mn) (Fin hi) (Fin d)) (of_bool (fgt (Fin d) (Fin 0)))) (map Fin grid) = map (fun m => Fin (w' m)) grid).
    { rewrite map_map. apply map_ext. intros m. rewrite Win, fgt_fin. apply Win'. }
    rewrite Wg, map_map. rewrite (zipWith_map2 fmul (fun m => Fin (pl m)) (fun m => Fin (w' m)) grid).
    change (in_norm (built (snd s) (map Fin xv) (data_of (snd s) (map Fin xv) (fun _ => map Fin ms)))) with (Some (mk_spline (snd s) (map Fin xv) (in_xs (snd s)))).
    cbv beta iota.
    rewrite bcast_into_same.
    2:{ rewrite !map_length, spline_at_length. unfold mk_spline. cbn [sp_points]. rewrite node_scale_length, G2. now rewrite map_length. }
    assert (Sm : map fexp (spline_at spl (mk_spline (snd s) (map Fin xv) (in_xs (snd s))) (map Fin fv)) = map (fun m => Fin (exp (g m))) grid).
    { unfold spline_at, mk_spline. cbn [sp_kind sp_nodes sp_points]. rewrite G2. unfold node_scale at 2. rewrite Lg, !map_map.
      apply map_ext_in. intros m Hm. rewrite flog_fin by auto. now rewrite Spl by auto. }
    cbn [bind]. rewrite Sm, zipWith_map2.
    rewrite (map_ext (fun x => fmul (fmul (Fin (pl x)) (Fin (w' x))) (Fin (exp (g x)))) (fun m => Fin (nval m))) by reflexivity.
    rewrite <- (map_map nval Fin), trapezoid_fin. unfold sret. cbn [snd]. f_equal. rewrite map_map. apply map_ext. intros m.
    autorewrite with xf. rewrite fdiv_fin by auto. reflexivity.
  Qed.
  Lemma pl_nonneg m : 0 <= pl m.
  Proof. now apply plval_nonneg. Qed.
End P.
Lemma Rtrap_strict y z x : List.length y = List.length x -> List.length z = List.length x -> (2 <= List.length x)%nat -> strictly_increasing x ->
  (forall i, (i < List.length x)%nat -> nth i y 0 <= nth i z 0) -> (exists i, (i < List.length x)%nat /\ nth i y 0 < nth i z 0) ->
  Rtrap y x < Rtrap z x.
Proof.
  intros Ly Lz L2 Hx H [i [Hi Hlt]].
  assert (E := Rtrap_linear 1 (-1) z y x Lz Ly).
  assert (LL : List.length (lin 1 (-1) z y) = List.length x) by (unfold lin; rewrite map_length, combine_length; lia).
  assert (N : forall j, (j < List.length x)%nat -> nth j (lin 1 (-1) z y) 0 = nth j z 0 - nth j y 0).
  { intros j Hj. unfold lin. rewrite (nth_indep _ 0 ((fun p => 1 * fst p + -1 * snd p) (0, 0))) by (rewrite map_length, combine_length; lia).
    rewrite (map_nth (fun p => 1 * fst p + -1 * snd p)), combine_nth by lia. simpl. ring. }
  assert (0 < Rtrap (lin 1 (-1) z y) x); [|lra].
  apply Rtrap_pos_one; auto.
  - apply Forall_nth. intros j dd Hj. rewrite LL in Hj. rewrite (nth_indep _ dd 0) by lia. rewrite N by auto. specialize (H j Hj). lra.
  - apply Exists_nth. exists i, 0. rewrite LL. split; auto. rewrite N by auto. lra.
Qed.
Lemma map_nth0 (f : R -> R) l i : (i < List.length l)%nat -> nth i (map f l) 0 = f (nth i l 0).
Proof. intros H. rewrite (nth_indep _ 0 (f 0)) by now rewrite map_length. apply map_nth. Qed.
Lemma Rtrap_strict_map (f h : R -> R) x : (2 <= List.length x)%nat -> strictly_increasing x ->
  (forall m, In m x -> f m <= h m) -> (exists m, In m x /\ f m < h m) -> Rtrap (map f x) x < Rtrap (map h x) x.
Proof.
  intros L Hx H [m [Hm Hlt]]. apply Rtrap_strict; auto; rewrite ?map_length; auto.
  - intros i Hi. rewrite !map_nth0 by auto. apply H. now apply nth_In.
  - apply (In_nth _ _ 0) in Hm. destruct Hm as [i [Hi E]]. exists i. split; auto. rewrite !map_nth0 by auto. now rewrite E.
Qed.
(** The window as a function of the mass, and what the normalisation uses. *)
Lemma window_cases bk mn hi d : (0 < d \/ bk <> Jax) ->
  exists w, (forall m, smoothing bk (Fin m) (Fin mn) (Fin hi) (Fin d) = Fin (w m)) /\
            (forall m, fpow (Fin (w m)) (of_bool (Rltb 0 d)) = Fin (w m)) /\
            (forall m, 0 <= w m) /\ (forall m, mn <= m <= hi -> 0 < w m).
Proof.
  intros H. destruct (Rlt_dec 0 d) as [Hd|Hd].
  - exists (sval mn hi d). split; [intros; now apply smoothing_val|]. split; [|split].
    + intros m. rewrite Rltb_true by auto. cbn [of_bool]. apply fpow_1. unfold sval. destruct (_ && _); [|lra]. left; apply swin_range.
    + intros m. unfold sval. destruct (_ && _); [|lra]. left; apply swin_range.
    + intros m Hm. unfold sval. rewrite !Rleb_true by lra. apply swin_range.
  - destruct H as [H|H]; [lra|]. exists (fun _ => 1). split; [intros; apply smoothing_off; auto; lra|]. split; [|split; intros; lra].
    intros m. rewrite Rltb_false by lra. apply fpow_zero_zero.
Qed.
Lemma window_jax mn hi d : d <= 0 ->
  exists w, (forall m, smoothing Jax (Fin m) (Fin mn) (Fin hi) (Fin d) = Fin (w m)) /\
            (forall m, fpow (Fin (w m)) (of_bool (Rltb 0 d)) = Fin 1) /\ (forall m, 0 <= w m < 1).
Proof.
  intros Hd.
  assert (W : forall m, exists r, smoothing Jax (Fin m) (Fin mn) (Fin hi) (Fin d) = Fin r /\ 0 <= r < 1).
  { intros m. unfold smoothing. cbn [is_jax orb]. cbv zeta.
    assert (H : exists t, nan_to_num (fdiv (fsub (Fin m) (Fin mn)) (Fin d)) = Fin t) by (destruct (fdiv (fsub (Fin m) (Fin mn)) (Fin d)); eexists; reflexivity).
    destruct H as [t ->]. rewrite fclip_fin, window_body by (destruct (clp_bounds t); lra).
    assert (B := swin_range (clp t)).
    destruct (fge (Fin m) (Fin mn)), (fle (Fin m) (Fin hi)); cbn [of_bool]; autorewrite with xf; eexists; (split; [reflexivity|lra]). }
  exists (fun m => toR (smoothing Jax (Fin m) (Fin mn) (Fin hi) (Fin d))). split; [|split].
  - intros m. destruct (W m) as [r [-> _]]. reflexivity.
  - intros m. rewrite Rltb_false by lra. apply fpow_zero_zero.
  - intros m. destruct (W m) as [r [-> H]]. exact H.
Qed.
Lemma ipl_init_fields nodes kind lo hi n nq reg s : ipl_init nodes kind lo hi (n, nq) reg = Ok s ->
  (2 <= n)%nat /\ sm_m1s (fst s) = xlinspace lo hi n /\ in_xs (snd s) = xlinspace lo hi n /\ in_norm (snd s) = None /\
  in_params (snd s) = ["mass_1"%string] /\ in_log (snd s) = true /\ sm_mmax (fst s) = Fin hi /\ in_kind (snd s) = kind /\
  List.length (in_xkeys (snd s)) = nodes /\ List.length (in_fkeys (snd s)) = nodes.
Proof.
  unfold ipl_init, smoothed_init. cbn [fst snd]. destruct (Nat.ltb n 2) eqn:E; [discriminate|]. destruct (Nat.ltb nq 2); [discriminate|].
  cbn [orb bind]. unfold interp_init. cbn [bind]. intros H. injection H as <-. apply Nat.ltb_ge in E.
  cbn [fst snd sm_m1s in_xs in_norm in_params in_log sm_mmax in_kind in_xkeys in_fkeys]. rewrite !map_length, !seq_length. repeat split; auto.
Qed.
Section Common.
  Context (bk : backend) (spl : string -> list xf -> list xf -> xf -> xf) (nodes : nat) (kind : string) (lo hi : R) (n nq : nat) (reg : bool)
    (s : ipl) (kw : dict xf) (f x : list R) (alpha mn mx d : R).
  Hypothesis Hnodes : (1 <= nodes)%nat.
  Hypothesis Hlo : 0 < lo < hi.
  Hypothesis Hs : ipl_init nodes kind lo hi (n, nq) reg = Ok s.
  Hypothesis Hk : forall kind nodes f t, List.length f = List.length nodes -> exists r, spl kind (map Fin nodes) (map Fin f) (Fin t) = Fin r.
  Hypothesis Ex : extract_spline_points (snd s) kw = Ok (map Fin f, map Fin x).
  Hypothesis Xp : Forall (fun t => 0 < t) x.
  Hypothesis Ka : dget "alpha" kw = Some (Fin alpha).
  Hypothesis Kn : dget "mmin" kw = Some (Fin mn).
  Hypothesis Kx : dget "mmax" kw = Some (Fin mx).
  Hypothesis Kd : dget_default "delta_m" (Fin 0) kw = Fin d.
  Hypothesis Lgl : 0 < mn < mx.
  Hypothesis Al : bk = Jax \/ alpha <> -1.
  Lemma grid_pos m : In m (linspace lo hi n) -> 0 < m <= hi.
  Proof. intros H. apply linspace_bounds in H; lra. Qed.
  Lemma ipl_general (w w' : R -> R) :
    (forall m, smoothing bk (Fin m) (Fin mn) (Fin hi) (Fin d) = Fin (w m)) ->
    (forall m, fpow (Fin (w m)) (of_bool (Rltb 0 d)) = Fin (w' m)) ->
    exists g, let grid := linspace lo hi n in let N := Rtrap (map (nval alpha mn mx g w') grid) grid in
      (N <> 0 -> snd (ipl_p_m1 bk spl [("mass_1"%string, map Fin grid)] kw s) = Ok (map (fun m => Fin (dval x alpha mn mx g w m / N)) grid)) /\
      (2 <= List.length grid)%nat /\ strictly_increasing grid.
  Proof.
    intros W W'. destruct (ipl_init_fields _ _ _ _ _ _ _ _ Hs) as (I0 & I1 & I2 & I3 & I4 & I5 & I6 & I7 & I8 & I9).
    assert (L := extract_lengths _ _ _ _ Ex). destruct L as [L1 [L2 _]]. rewrite !map_length in *. rewrite I8 in L2. rewrite I9 in L1.
    assert (NS : node_scale (snd s) (map Fin x) = map Fin (map ln x)).
    { unfold node_scale. rewrite I5, !map_map. apply map_ext_in. intros t Ht. apply flog_fin. rewrite Forall_forall in Xp. auto. }
    exists (fun m => toR (spl kind (map Fin (map ln x)) (map Fin f) (Fin (ln m)))). cbv zeta. split; [|split].
    - intros HN. eapply (ipl_val bk spl s kw (linspace lo hi n) f x alpha mn mx d hi); eauto.
      + intros m Hm. now apply grid_pos.
      + destruct x; [simpl in L2; lia|discriminate].
      + rewrite dget_ddel_other; [auto|discriminate].
      + rewrite dget_ddel_other; [auto|discriminate].
      + rewrite dget_ddel_other; [auto|discriminate].
      + intros m Hm. rewrite NS, I7. destruct (Hk kind (map ln x) f (ln m)) as [r Hr]; [rewrite map_length; congruence|]. rewrite Hr. reflexivity.
      + intros m Hm. now apply grid_pos.
    - rewrite linspace_length. exact I0.
    - apply linspace_incr; [lra|exact I0].
  Qed.
  Lemma pl_pos m : mn <= m <= mx -> 0 < plval (- alpha) mx mn m.
  Proof. intros H. rewrite plval_in by auto. apply plpdf_pos; lra. Qed.
End Common.

Lemma C79_normalised_pf :
  forall bk spl nodes kind lo hi n nq reg s kwargs (f x : list R) alpha mmin mmax delta_m,
  (1 <= nodes)%nat -> 0 < lo < hi -> ipl_init nodes kind lo hi (n, nq) reg = Ok s ->
  (forall kind nodes f t, List.length f = List.length nodes -> exists r, spl kind (map Fin nodes) (map Fin f) (Fin t) = Fin r) ->
  extract_spline_points (snd s) kwargs = Ok (map Fin f, map Fin x) -> Forall (fun t => 0 < t) x ->
  dget "alpha" kwargs = Some (Fin alpha) -> dget "mmin" kwargs = Some (Fin mmin) -> dget "mmax" kwargs = Some (Fin mmax) ->
  dget_default "delta_m" (Fin 0) kwargs = Fin delta_m -> 0 < mmin < mmax -> bk = Jax \/ alpha <> -1 ->
  (0 < delta_m \/ bk <> Jax) ->
  (exists m, In m (linspace lo hi n) /\ mmin <= m <= mmax) ->
  hd 0 x <= lo -> hi <= last x 0 ->
  let grid := xlinspace lo hi n in
  exists p, snd (ipl_p_m1 bk spl [("mass_1"%string, grid)] kwargs s) = Ok p /\ trapezoid p grid = Fin 1 /\
            Forall (fun v => exists r, v = Fin r /\ 0 <= r) p.
Proof.
  intros bk spl nodes kind lo hi n nq reg s kw f x alpha mn mx d Hn Hlo Hs Hk Ex Xp Ka Kn Kx Kd Lg Al Hd [m0 [Hm0 Hb]] Hx1 Hx2 grid.
  destruct (window_cases bk mn hi d Hd) as [w [W1 [W2 [W3 W4]]]].
  destruct (ipl_general bk spl nodes kind lo hi n nq reg s kw f x alpha mn mx d Hn Hlo Hs Hk Ex Xp Ka Kn Kx Kd Lg Al w w W1 W2) as [g [E [L I]]].
  assert (M : forall m, In m (linspace lo hi n) -> dval x alpha mn mx g w m = nval alpha mn mx g w m).
  { intros m Hm. apply linspace_bounds in Hm; [|lra]. unfold dval, nval, msk. rewrite !Rleb_true by lra. simpl. ring. }
  assert (NN : forall m, 0 <= nval alpha mn mx g w m).
  { intros m. unfold nval. assert (P := pl_nonneg alpha mn mx Lg m). assert (X := exp_pos (g m)).
    apply Rmult_le_pos; [apply Rmult_le_pos; auto|lra]. }
  assert (P : 0 < Rtrap (map (nval alpha mn mx g w) (linspace lo hi n)) (linspace lo hi n)).
  { apply Rtrap_pos_one; auto; [now rewrite map_length| |].
    - apply Forall_map, Forall_forall. auto.
    - apply Exists_exists. exists (nval alpha mn mx g w m0). split; [now apply in_map|].
      unfold nval, pl. assert (A := pl_pos alpha mn mx Lg m0 Hb). assert (X := exp_pos (g m0)).
      assert (B := linspace_bounds _ _ _ _ (Rlt_le _ _ (proj2 Hlo)) Hm0).
      assert (0 < w m0) by (apply W4; lra).
      apply Rmult_lt_0_compat; auto. apply Rmult_lt_0_compat; auto. }
  unfold grid, xlinspace. rewrite E by lra. eexists; split; [reflexivity|]. split.
  - rewrite (map_ext_in _ (fun m => Fin (/ Rtrap (map (nval alpha mn mx g w) (linspace lo hi n)) (linspace lo hi n) * nval alpha mn mx g w m))).
    2:{ intros m Hm. f_equal. rewrite M by auto. unfold Rdiv. ring. }
    rewrite <- (map_map (fun m => / Rtrap (map (nval alpha mn mx g w) (linspace lo hi n)) (linspace lo hi n) * nval alpha mn mx g w m) Fin), trapezoid_fin.
    rewrite <- (map_map (nval alpha mn mx g w) (Rmult (/ Rtrap (map (nval alpha mn mx g w) (linspace lo hi n)) (linspace lo hi n)))).
    rewrite Rtrap_scale. f_equal. field. lra.
  - apply Forall_map, Forall_forall. intros m Hm. eexists; split; [reflexivity|]. rewrite M by auto.
    apply Rmult_le_pos; auto. left; now apply Rinv_0_lt_compat.
Qed.

Lemma C79_nodes_inside_grid_refuted_pf :
  forall bk spl nodes kind lo hi n nq reg s kwargs (f x : list R) alpha mmin mmax delta_m,
  (1 <= nodes)%nat -> 0 < lo < hi -> ipl_init nodes kind lo hi (n, nq) reg = Ok s ->
  (forall kind nodes f t, List.length f = List.length nodes -> exists r, spl kind (map Fin nodes) (map Fin f) (Fin t) = Fin r) ->
  extract_spline_points (snd s) kwargs = Ok (map Fin f, map Fin x) -> Forall (fun t => 0 < t) x ->
  dget "alpha" kwargs = Some (Fin alpha) -> dget "mmin" kwargs = Some (Fin mmin) -> dget "mmax" kwargs = Some (Fin mmax) ->
  dget_default "delta_m" (Fin 0) kwargs = Fin delta_m -> 0 < mmin < mmax -> bk = Jax \/ alpha <> -1 ->
  (0 < delta_m \/ bk <> Jax) ->
  (exists m, In m (linspace lo hi n) /\ mmin <= m <= mmax /\ (m < hd 0 x \/ last x 0 < m)) ->
  let grid := xlinspace lo hi n in
  exists p v, snd (ipl_p_m1 bk spl [("mass_1"%string, grid)] kwargs s) = Ok p /\ trapezoid p grid = Fin v /\ v < 1.
Proof.
  intros bk spl nodes kind lo hi n nq reg s kw f x alpha mn mx d Hn Hlo Hs Hk Ex Xp Ka Kn Kx Kd Lg Al Hd [m0 [Hm0 [Hb Ho]]] grid.
  destruct (window_cases bk mn hi d Hd) as [w [W1 [W2 [W3 W4]]]].
  destruct (ipl_general bk spl nodes kind lo hi n nq reg s kw f x alpha mn mx d Hn Hlo Hs Hk Ex Xp Ka Kn Kx Kd Lg Al w w W1 W2) as [g [E [L I]]].
  assert (NN : forall m, 0 <= nval alpha mn mx g w m).
  { intros m. unfold nval. assert (P := pl_nonneg alpha mn mx Lg m). assert (X := exp_pos (g m)).
    apply Rmult_le_pos; [apply Rmult_le_pos; auto|lra]. }
  assert (N0 : 0 < nval alpha mn mx g w m0).
  { unfold nval, pl. assert (A := pl_pos alpha mn mx Lg m0 Hb). assert (X := exp_pos (g m0)).
      assert (B := linspace_bounds _ _ _ _ (Rlt_le _ _ (proj2 Hlo)) Hm0).
      assert (0 < w m0) by (apply W4; lra).
      apply Rmult_lt_0_compat; auto. apply Rmult_lt_0_compat; auto. }
  assert (M : forall m, dval x alpha mn mx g w m = nval alpha mn mx g w m * msk x m) by (intros; unfold dval, nval; ring).
  assert (P : 0 < Rtrap (map (nval alpha mn mx g w) (linspace lo hi n)) (linspace lo hi n)).
  { apply Rtrap_pos_one; auto; [now rewrite map_length| |].
    - apply Forall_map, Forall_forall. auto.
    - apply Exists_exists. exists (nval alpha mn mx g w m0). split; [now apply in_map|auto]. }
  assert (S : Rtrap (map (dval x alpha mn mx g w) (linspace lo hi n)) (linspace lo hi n) < Rtrap (map (nval alpha mn mx g w) (linspace lo hi n)) (linspace lo hi n)).
  { apply Rtrap_strict_map; auto.
    - intros m _. rewrite M. specialize (NN m). unfold msk. destruct (_ && _); lra.
    - exists m0. split; auto. rewrite M. unfold msk. destruct Ho as [Ho|Ho]; [rewrite (Rleb_false (hd 0 x) m0) by auto|rewrite (Rleb_false m0) by auto; rewrite andb_false_r]; simpl; lra. }
  set (N := Rtrap (map (nval alpha mn mx g w) (linspace lo hi n)) (linspace lo hi n)) in *.
  unfold grid, xlinspace. rewrite E by lra. do 2 eexists; split; [reflexivity|].
  rewrite (map_ext_in _ (fun m => Fin (/ N * dval x alpha mn mx g w m))) by (intros; f_equal; unfold Rdiv; ring).
  rewrite <- (map_map (fun m => / N * dval x alpha mn mx g w m) Fin), trapezoid_fin. split; [reflexivity|].
  rewrite <- (map_map (dval x alpha mn mx g w) (Rmult (/ N))). rewrite Rtrap_scale.
  apply Rmult_lt_reg_l with N; auto. rewrite <- Rmult_assoc, Rinv_r by lra. lra.
Qed.

Lemma C79_jax_unsmoothed_refuted_pf :
  forall spl nodes kind lo hi n nq reg s kwargs (f x : list R) alpha mmin mmax,
  (1 <= nodes)%nat -> 0 < lo < hi -> ipl_init nodes kind lo hi (n, nq) reg = Ok s ->
  (forall kind nodes f t, List.length f = List.length nodes -> exists r, spl kind (map Fin nodes) (map Fin f) (Fin t) = Fin r) ->
  extract_spline_points (snd s) kwargs = Ok (map Fin f, map Fin x) -> Forall (fun t => 0 < t) x ->
  dget "alpha" kwargs = Some (Fin alpha) -> dget "mmin" kwargs = Some (Fin mmin) -> dget "mmax" kwargs = Some (Fin mmax) ->
  dget_default "delta_m" (Fin 0) kwargs = Fin 0 -> 0 < mmin < mmax ->
  (exists m, In m (linspace lo hi n) /\ mmin <= m <= mmax) ->
  let grid := xlinspace lo hi n in
  exists p v, snd (ipl_p_m1 Jax spl [("mass_1"%string, grid)] kwargs s) = Ok p /\ trapezoid p grid = Fin v /\ v < 1.
Proof.
  intros spl nodes kind lo hi n nq reg s kw f x alpha mn mx Hn Hlo Hs Hk Ex Xp Ka Kn Kx Kd Lg [m0 [Hm0 Hb]] grid.
  destruct (window_jax mn hi 0 (Rle_refl 0)) as [w [W1 [W2 W3]]].
  destruct (ipl_general Jax spl nodes kind lo hi n nq reg s kw f x alpha mn mx 0 Hn Hlo Hs Hk Ex Xp Ka Kn Kx Kd Lg (or_introl eq_refl) w (fun _ => 1) W1 W2) as [g [E [L I]]].
  assert (NN : forall m, 0 <= nval alpha mn mx g (fun _ => 1) m).
  { intros m. unfold nval. assert (P := pl_nonneg alpha mn mx Lg m). assert (X := exp_pos (g m)).
    apply Rmult_le_pos; [apply Rmult_le_pos; auto; lra|lra]. }
  assert (N0 : 0 < nval alpha mn mx g (fun _ => 1) m0).
  { unfold nval, pl. assert (A := pl_pos alpha mn mx Lg m0 Hb). assert (X := exp_pos (g m0)).
    apply Rmult_lt_0_compat; auto. apply Rmult_lt_0_compat; auto. lra. }
  assert (M : forall m, dval x alpha mn mx g w m = nval alpha mn mx g (fun _ => 1) m * (w m * msk x m)) by (intros; unfold dval, nval; ring).
  assert (B : forall m, 0 <= w m * msk x m < 1) by (intros m; specialize (W3 m); unfold msk; destruct (_ && _); lra).
  assert (P : 0 < Rtrap (map (nval alpha mn mx g (fun _ => 1)) (linspace lo hi n)) (linspace lo hi n)).
  { apply Rtrap_pos_one; auto; [now rewrite map_length| |].
    - apply Forall_map, Forall_forall. auto.
    - apply Exists_exists. exists (nval alpha mn mx g (fun _ => 1) m0). split; [now apply in_map|auto]. }
  assert (S : Rtrap (map (dval x alpha mn mx g w) (linspace lo hi n)) (linspace lo hi n) < Rtrap (map (nval alpha mn mx g (fun _ => 1)) (linspace lo hi n)) (linspace lo hi n)).
  { apply Rtrap_strict_map; auto.
    - intros m _. rewrite M. specialize (NN m). specialize (B m). rewrite <- (Rmult_1_r (nval alpha mn mx g (fun _ => 1) m)) at 2.
      apply Rmult_le_compat_l; lra.
    - exists m0. split; auto. rewrite M. specialize (B m0). rewrite <- (Rmult_1_r (nval alpha mn mx g (fun _ => 1) m0)) at 2.
      apply Rmult_lt_compat_l; lra. }
  set (N := Rtrap (map (nval alpha mn mx g (fun _ => 1)) (linspace lo hi n)) (linspace lo hi n)) in *.
  unfold grid, xlinspace. rewrite E by lra. do 2 eexists; split; [reflexivity|].
  rewrite (map_ext_in _ (fun m => Fin (/ N * dval x alpha mn mx g w m))) by (intros; f_equal; unfold Rdiv; ring).
  rewrite <- (map_map (fun m => / N * dval x alpha mn mx g w m) Fin), trapezoid_fin. split; [reflexivity|].
  rewrite <- (map_map (dval x alpha mn mx g w) (Rmult (/ N))). rewrite Rtrap_scale.
  apply Rmult_lt_reg_l with N; auto. rewrite <- Rmult_assoc, Rinv_r by lra. lra.
Qed.

