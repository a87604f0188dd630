(** Proofs of the property theorems stated in [Props_iplb]. *)
From Coq Require Import Reals Lra Lia Psatz String Bool.
From Coquelicot Require Import Coquelicot.
From Coq Require Import List.
From Verif Require Import Xf Py St Xf_facts Py_facts Calc Spec Utils_model Powerlaw_facts Truncnorm_facts Trap_facts
  Np Np_facts Mass_model Mass_facts Smoothed_model Smoothed_facts SpecSmooth SpecClass Interp_model Interp_facts smoothed_thms smooth2_thms interp_thms ipl_thms.
Import ListNotations.
Local Open Scope R_scope.
Local Opaque linspace xlinspace.
Lemma zipWith_mapp {A B C D E} (f : C -> D -> E) (g : A -> C) (h : B -> D) : forall l l', zipWith f (map g l) (map h l') = map (fun p => f (g (fst p)) (h (snd p))) (combine l l').
Proof. unfold zipWith. induction l as [|a l IH]; intros [|b l']; simpl; auto. f_equal. apply IH. Qed.
Lemma zipWith_pairs {A B C E} (f : C -> A -> E) (g : A * B -> C) (h : A -> A) : forall l l', List.length l' = List.length l ->
  zipWith f (map g (combine l l')) (map h l) = map (fun p => f (g p) (h (fst p))) (combine l l').
Proof. unfold zipWith. induction l as [|a l IH]; intros [|b l'] E'; simpl in *; auto; try discriminate. f_equal. apply IH. lia. Qed.
Section Flow.
  Context (bk : backend) (spl : string -> list xf -> list xf -> xf -> xf) (li : list xf -> list xf -> xf -> xf).
  Definition pre (ds : dict (list xf)) (kw : dict xf) (s : ipl) : result ((list xf * list xf) * list xf) :=
    fm <- extract_spline_points (snd s) kw ;; m <- dlookup "mass_1"%string ds ;; p <- ipl_powerlaw bk (ddel "delta_m" kw) m ;;
    p <- bcast_into bk fmul p (map (fun m => smoothing bk m (dget_default "mmin" (sm_mmin (fst s)) kw) (sm_mmax (fst s)) (dget_default "delta_m" (Fin 0) kw)) m) ;;
    Ok (fm, p).
  Definition post (kw : dict xf) (f p px : list xf) (s : ipl) : result (list xf) :=
    p <- bcast_into bk fmul p px ;; n <- ipl_norm_p_m1 bk spl s (dget_default "delta_m" (Fin 0) kw) f (ddel "delta_m" kw) ;; Ok (map (fun p => fdiv p n) p).
  Lemma ipl_p_m1_eq ds kw s : ipl_p_m1 bk spl ds kw s =
    match pre ds kw s with
    | Err e => (s, Err e)
    | Ok (fm, p) =>
        let '(i, r) := p_x_unnormed bk spl ds "mass_1" (snd fm) (fst fm) (snd s) in
        ((fst s, i), px <- r ;; post kw (fst fm) p px (fst s, i))
    end.
  Proof.
    unfold ipl_p_m1, pre, sbind, sget, slift. cbv zeta. destruct (extract_spline_points (snd s) kw) as [fm|e]; [|reflexivity]. cbn [bind].
    destruct (dlookup "mass_1" ds) as [m|]; [|reflexivity]. cbn [bind].
    destruct (ipl_powerlaw bk _ m) as [p|]; [|reflexivity]. cbn [bind]. destruct (bcast_into bk fmul p _) as [p'|]; [|reflexivity]. cbn [bind].
    unfold on_snd. destruct (p_x_unnormed _ _ _ _ _ _ (snd s)) as [i [px|e]]; [|reflexivity]. cbn [bind]. unfold post.
    destruct (bcast_into bk fmul p' px) as [p''|]; [|reflexivity]. cbn [bind]. destruct (ipl_norm_p_m1 _ _ _ _ _ _) as [nn|]; [|reflexivity].
    destruct (fst s, i); reflexivity.
  Qed.
  Lemma ipl_call_eq ds kw s : ipl_call bk spl li ds kw s =
    match dlookup "beta" kw with
    | Err e => (s, Err e)
    | Ok b =>
      let kw := ddel "beta" kw in
      let mn := dget_default "mmin" (sm_mmin (fst s)) kw in
      if negb (is_jax bk) && flt mn (sm_mmin (fst s)) then (s, Err ValueError)
      else if negb (is_jax bk) && fgt (dget_default "mmax" (sm_mmax (fst s)) kw) (sm_mmax (fst s)) then (s, Err ValueError)
      else match ipl_p_m1 bk spl ds kw s with
           | (s', Err e) => (s', Err e)
           | (s', Ok pm) => let '(t, r) := p_q bk li ds b mn (dget_default "delta_m" (Fin 0) kw) (fst s') in
                            ((t, snd s'), pq <- r ;; bcast bk fmul pm pq)
           end
    end.
  Proof.
    unfold ipl_call, sbind at 1, slift. destruct (dlookup "beta" kw) as [b|]; [|reflexivity]. unfold sbind at 1, sget. cbv zeta.
    destruct (_ && _); [reflexivity|]. destruct (_ && _); [reflexivity|]. unfold sbind at 1. destruct (ipl_p_m1 _ _ _ _ _) as [s' [pm|]]; [|reflexivity].
    unfold sbind, on_fst. destruct (p_q _ _ _ _ _ _ _) as [t [pq|]]; reflexivity.
  Qed.
End Flow.
(** With the data of the cached masses the mass-ratio factor is that of a fresh instance. *)
Lemma pq_same bk li ds b mn d s m1 q : sm_masses s = None -> dget "mass_1" ds = Some m1 -> dget "mass_ratio" ds = Some q -> List.length q = List.length m1 ->
  snd (p_q bk li ds b mn d (set_masses (Some m1) s)) = snd (p_q bk li ds b mn d s).
Proof.
  intros Hn E1 E2 EL.
  assert (E3 : bcast2 (qd bk b mn d) m1 q = Some (zipWith (qd bk b mn d) m1 q)) by (unfold bcast2; now rewrite EL, Nat.eqb_refl).
  rewrite !(p_q_cases _ _ _ _ _ _ _ _ _ _ E1 E2 E3). cbn [sm_cache sm_masses set_masses]. rewrite Hn.
  replace (if sm_cache s then None else None) with (@None (list xf)) by (destruct (sm_cache s); reflexivity).
  destruct (sm_cache s); [|reflexivity].
  change (norms_at bk li (set_masses (Some m1) s)) with (norms_at bk li s). change (fresh_pq bk li (set_masses (Some m1) s)) with (fresh_pq bk li s).
  unfold fresh_pq. destruct (bcast_into bk fdiv _ (norms_at bk li s b mn d m1)); reflexivity.
Qed.
Section Hist.
  Context (bk : backend) (spl : string -> list xf -> list xf -> xf -> xf) (li : list xf -> list xf -> xf -> xf) (s1 : smoothed) (s2 : interp) (m1 x : list xf).
  Hypothesis Hn : sm_masses s1 = None.
  Hypothesis In0 : in_norm s2 = None.
  Hypothesis Pa : in_params s2 = ["mass_1"%string].
  Definition bt := built s2 x (data_of s2 x (fun _ => m1)).
  Definition rch (st : ipl) : Prop := (fst st = s1 \/ fst st = set_masses (Some m1) s1) /\ (snd st = s2 \/ snd st = bt).
  Lemma rch_min st : rch st -> sm_mmin (fst st) = sm_mmin s1 /\ sm_mmax (fst st) = sm_mmax s1 /\ sm_m1s (fst st) = sm_m1s s1.
  Proof. intros [[->| ->] _]; repeat split; reflexivity. Qed.
  Lemma rch_ext st kw : rch st -> extract_spline_points (snd st) kw = extract_spline_points s2 kw.
  Proof. intros [_ [->| ->]]; reflexivity. Qed.
  Lemma bt_unnormed ds xx f : dget "mass_1" ds = Some m1 -> xx = x ->
    p_x_unnormed bk spl ds "mass_1" xx f s2 = p_x_unnormed bk spl ds "mass_1" xx f bt /\ fst (p_x_unnormed bk spl ds "mass_1" xx f bt) = bt.
  Proof.
    intros E ->. split.
    - rewrite (unnormed_fresh bk spl s2 ds "mass_1" x f (fun _ => m1)); auto. rewrite Pa. intros p [<-|[]]. exact E.
    - rewrite unnormed_built; [reflexivity|discriminate].
  Qed.
  Definition fits (ds : dict (list xf)) (kw : dict xf) : Prop :=
    dget "mass_1" ds = Some m1 /\ forall f xx, extract_spline_points s2 kw = Ok (f, xx) -> xx = x.
  Lemma pre_rch ds kw st : rch st -> pre bk ds kw st = pre bk ds kw (s1, s2).
  Proof.
    intros H. destruct (rch_min st H) as [A [B C]]. unfold pre. rewrite (rch_ext st kw H), A, B. reflexivity.
  Qed.
  Lemma p_m1_rch ds kw st : rch st -> fits ds kw ->
    rch (fst (ipl_p_m1 bk spl ds kw st)) /\ fst (fst (ipl_p_m1 bk spl ds kw st)) = fst st /\ snd (ipl_p_m1 bk spl ds kw st) = snd (ipl_p_m1 bk spl ds kw (s1, s2)).
  Proof.
    intros H [F1 F2]. rewrite !ipl_p_m1_eq, (pre_rch ds kw st H). destruct (pre bk ds kw (s1, s2)) as [[[f xx] p]|e] eqn:P; [|split; [exact H|split; reflexivity]].
    assert (X : xx = x).
    { unfold pre in P. cbn [snd] in P. destruct (extract_spline_points s2 kw) as [[f0 x0]|] eqn:E; [|discriminate]. cbn [bind] in P.
      destruct (dlookup _ ds); [|discriminate]. cbn [bind] in P. destruct (ipl_powerlaw _ _ _); [|discriminate]. cbn [bind] in P.
      destruct (bcast_into _ _ _ _); [|discriminate]. cbn [bind] in P. injection P as <- <- _. eapply F2, eq_refl. }
    cbn [fst snd]. destruct (bt_unnormed ds xx f F1 X) as [B1 B2].
    assert (E : p_x_unnormed bk spl ds "mass_1" xx f (snd st) = p_x_unnormed bk spl ds "mass_1" xx f bt) by (destruct H as [_ [->| ->]]; auto).
    rewrite E, B1. destruct (p_x_unnormed bk spl ds "mass_1" xx f bt) as [i r]. cbn [fst] in B2. subst i. cbn [fst snd].
    split; [split; [apply H|now right]|]. split; [reflexivity|].
    destruct r as [px|e]; [|reflexivity]. cbn [bind]. unfold post. destruct (bcast_into bk fmul p px); [|reflexivity]. cbn [bind].
    replace (ipl_norm_p_m1 bk spl (fst st, bt)) with (ipl_norm_p_m1 bk spl (s1, bt)); [reflexivity|].
    destruct (rch_min st H) as [A [B C]]. unfold ipl_norm_p_m1. cbn [fst snd]. now rewrite A, B, C.
  Qed.
  Lemma call_rch ds kw st : rch st -> fits ds (ddel "beta" kw) -> rch (fst (ipl_call bk spl li ds kw st)).
  Proof.
    intros H F. rewrite ipl_call_eq. destruct (dlookup "beta" kw); [|exact H]. cbv zeta. destruct (_ && _); [exact H|]. destruct (_ && _); [exact H|].
    destruct (p_m1_rch ds (ddel "beta" kw) st H F) as [R1 [R2 _]]. destruct (ipl_p_m1 _ _ _ _ st) as [s' [pm|]]; [|exact R1]. cbn [fst] in R1, R2.
    match goal with |- context [p_q bk li ds ?b ?mn ?d (fst s')] => assert (Q := p_q_state bk li ds b mn d (fst s')); destruct (p_q bk li ds b mn d (fst s')) as [t r] end.
    cbn [fst] in *. split; cbn [fst snd]; [|apply R1]. destruct Q as [->|[m [E ->]]]; [apply R1|]. destruct F as [F _]. rewrite F in E. injection E as <-. right.
    destruct R1 as [[->| ->] _]; reflexivity.
  Qed.
  Lemma run_rch h st : rch st -> (forall c, In c h -> fits (fst c) (ddel "beta" (snd c))) -> rch (run (ipl_call bk spl li) h st).
  Proof.
    revert st. induction h as [|c h IH]; intros st H F; [exact H|]. simpl. apply IH; [|intros; apply F; now right]. apply call_rch; auto. apply F. now left.
  Qed.
  Lemma call_result ds kw st q : rch st -> fits ds (ddel "beta" kw) -> dget "mass_ratio" ds = Some q -> List.length q = List.length m1 ->
    snd (ipl_call bk spl li ds kw st) = snd (ipl_call bk spl li ds kw (s1, s2)).
  Proof.
    intros H F E L. rewrite !ipl_call_eq. destruct (dlookup "beta" kw); [|reflexivity]. cbv zeta. destruct (rch_min st H) as [A [B C]]. rewrite A, B. cbn [fst].
    destruct (_ && _); [reflexivity|]. destruct (_ && _); [reflexivity|].
    destruct (p_m1_rch ds (ddel "beta" kw) st H F) as [R1 [R2 R3]].
    assert (H0 : rch (s1, s2)) by (split; now left).
    destruct (p_m1_rch ds (ddel "beta" kw) (s1, s2) H0 F) as [T1 [T2 _]]. cbn [fst] in T2.
    destruct (ipl_p_m1 bk spl ds (ddel "beta" kw) st) as [s' r']. destruct (ipl_p_m1 bk spl ds (ddel "beta" kw) (s1, s2)) as [s'' r'']. cbn [fst snd] in R2, R3, T2. subst r'.
    destruct r'' as [pm|]; [|reflexivity]. rewrite R2, T2.
    match goal with |- context [p_q bk li ds ?b ?mn ?d s1] => assert (Q : snd (p_q bk li ds b mn d (fst st)) = snd (p_q bk li ds b mn d s1)) end.
    { destruct H as [[->| ->] _]; [reflexivity|]. eapply pq_same; eauto. apply F. }
    destruct (p_q bk li ds _ _ _ (fst st)) as [t1 r1], (p_q bk li ds _ _ _ s1) as [t2 r2]. cbn [snd] in *. now rewrite Q.
  Qed.
End Hist.
Lemma C30_spline_beta_required_pf :
  forall bk spl interp s ds kwargs, dget "beta" kwargs = None -> ipl_call bk spl interp ds kwargs s = (s, Err (KeyError "beta")).
Proof. intros bk spl li s ds kw H. rewrite ipl_call_eq. unfold dlookup. now rewrite H. Qed.

Lemma C30_spline_bounds_rejected_pf :
  forall bk spl interp s ds kwargs beta, bk <> Jax -> dget "beta" kwargs = Some beta ->
  flt (dget_default "mmin" (sm_mmin (fst s)) kwargs) (sm_mmin (fst s)) = true \/ fgt (dget_default "mmax" (sm_mmax (fst s)) kwargs) (sm_mmax (fst s)) = true ->
  ipl_call bk spl interp ds kwargs s = (s, Err ValueError).
Proof.
  intros bk spl li s ds kw b B Hb H. rewrite ipl_call_eq. rewrite (dlookup_ok _ _ _ Hb). cbv zeta.
  rewrite !dget_default_ddel_other by discriminate.
  replace (negb (is_jax bk)) with true by (destruct bk; auto; congruence). cbn [andb].
  destruct H as [->| ->]; [reflexivity|]. now destruct (flt _ _).
Qed.

Lemma C31_spline_partial_pf :
  forall bk spl interp nodes kind lo hi n nq reg s history dataset kwargs m1 q x,
  ipl_init nodes kind lo hi (n, nq) reg = Ok s ->
  dget "mass_1" dataset = Some m1 -> dget "mass_ratio" dataset = Some q -> List.length q = List.length m1 ->
  (forall c, In c ((dataset, kwargs) :: history) -> dget "mass_1" (fst c) = Some m1 /\
     forall f x', extract_spline_points (snd s) (ddel "beta" (snd c)) = Ok (f, x') -> x' = x) ->
  let call := ipl_call bk spl interp in
  snd (call dataset kwargs (run call history s)) = snd (call dataset kwargs s).
Proof.
  intros bk spl li nodes kind lo hi n nq reg s h ds kw m1 q x Hs E1 E2 EL F call.
  destruct (ipl_init_fields _ _ _ _ _ _ _ _ Hs) as (I0 & I1 & I2 & I3 & I4 & I5 & I6 & I7 & I8 & I9).
  assert (N0 : sm_masses (fst s) = None).
  { unfold ipl_init, smoothed_init in Hs. cbn [fst snd] in Hs. destruct (Nat.ltb n 2 || Nat.ltb nq 2); [discriminate|]. cbn [bind] in Hs.
    destruct (interp_init _ _ _ _ _ _ _ _); [|discriminate]. cbn [bind] in Hs. now injection Hs as <-. }
  destruct s as [s1 s2]. cbn [fst snd] in *.
  assert (R0 : rch s1 s2 m1 x (s1, s2)) by (split; now left).
  apply (call_result bk spl li s1 s2 m1 x N0 I3 I4 ds kw _ q); auto.
  - apply run_rch; auto. intros c Hc. apply F. now right.
  - apply (F (ds, kw)). now left.
Qed.

Section Val.
  Context (bk : backend) (spl : string -> list xf -> list xf -> xf -> xf) (s1 : smoothed) (s2 : interp) (ds : dict (list xf)) (kw : dict xf) (grid fv xv x0 ms ms0 : list R)
          (alpha mn mx d hi : R) (g w w' : R -> R).
  Hypothesis G1 : sm_m1s s1 = map Fin grid.
  Hypothesis G2 : in_xs s2 = map Fin grid.
  Hypothesis Gpos : forall m, In m grid -> 0 < m.
  Hypothesis Pa : in_params s2 = ["mass_1"%string].
  Hypothesis Lg : in_log s2 = true.
  Hypothesis Hi : sm_mmax s1 = Fin hi.
  Hypothesis Ex : extract_spline_points s2 kw = Ok (map Fin fv, map Fin xv).
  Hypothesis Xn : xv <> [].
  Hypothesis Ka : dget "alpha" kw = Some (Fin alpha).
  Hypothesis Kn : dget "mmin" kw = Some (Fin mn).
  Hypothesis Kx : dget "mmax" kw = Some (Fin mx).
  Hypothesis Kd : dget_default "delta_m" (Fin 0) kw = Fin d.
  Hypothesis Lgl : 0 < mn < mx.
  Hypothesis Al : bk = Jax \/ alpha <> -1.
  Hypothesis Spl : forall m, 0 < m -> spl (in_kind s2) (node_scale s2 (map Fin x0)) (map Fin fv) (Fin (ln m)) = Fin (g m).
  Hypothesis Win : forall m, smoothing bk (Fin m) (Fin mn) (Fin hi) (Fin d) = Fin (w m).
  Hypothesis Win' : forall m, fpow (Fin (w m)) (of_bool (Rltb 0 d)) = Fin (w' m).
  Hypothesis Ds : dget "mass_1" ds = Some (map Fin ms).
  Hypothesis Mp : forall m, In m ms -> 0 < m.
  Hypothesis M0p : forall m, In m ms0 -> 0 < m.
  Hypothesis ML : List.length ms0 = List.length ms.
  Let NN := Rtrap (map (nval alpha mn mx g w') grid) grid.
  Hypothesis HN : NN <> 0.
  Let st : ipl := (s1, built s2 (map Fin x0) (data_of s2 (map Fin x0) (fun _ => map Fin ms0))).
  Lemma dd k : (k =? "delta_m")%string = false -> dget k (ddel "delta_m" kw) = dget k kw.
  Proof. intros E. apply dget_ddel_other. intros ->. now rewrite String.eqb_refl in E. Qed.
  Lemma kwmin' : dget_default "mmin" (sm_mmin s1) kw = Fin mn.
  Proof. unfold dget_default. now rewrite Kn. Qed.
  Lemma ipl_pl' l : (forall m, In m l -> 0 < m) -> ipl_powerlaw bk (ddel "delta_m" kw) (map Fin l) = Ok (map Fin (map (plval (- alpha) mx mn) l)).
  Proof. intros H. apply ipl_pl; auto; rewrite dd by reflexivity; auto. Qed.
  Lemma pre_val : pre bk ds kw st = Ok ((map Fin fv, map Fin xv), map (fun m => Fin (plval (- alpha) mx mn m * w m)) ms).
  Proof.
    unfold pre, st. cbn [fst snd]. change (extract_spline_points (built s2 _ _) kw) with (extract_spline_points s2 kw). rewrite Ex. cbn [bind].
    rewrite (dlookup_ok _ _ _ Ds). cbn [bind]. rewrite ipl_pl' by auto. cbn [bind]. rewrite kwmin', Kd, Hi.
    rewrite bcast_into_same by now rewrite !map_length.
    assert (Wm : map (fun m => smoothing bk m (Fin mn) (Fin hi) (Fin d)) (map Fin ms) = map (fun m => Fin (w m)) ms).
    { rewrite map_map. apply map_ext. apply Win. }
    rewrite Wm.
    rewrite map_map, (zipWith_map2 fmul (fun m => Fin (plval (- alpha) mx mn m)) (fun m => Fin (w m)) ms). reflexivity.
  Qed.
  Lemma norm_val : ipl_norm_p_m1 bk spl st (Fin d) (map Fin fv) (ddel "delta_m" kw) = Ok (Fin NN).
  Proof.
    unfold ipl_norm_p_m1, st. cbn [fst snd]. rewrite G1, ipl_pl' by auto. cbn [bind].
    unfold dget_default at 1. rewrite dd by reflexivity. rewrite Kn, Hi.
    rewrite bcast_into_same by now rewrite !map_length. cbn [bind].
    assert (Wg : map (fun m => fpow (smoothing bk m (Fin mn) (Fin hi) (Fin d)) (of_bool (fgt (Fin d) (Fin 0)))) (map Fin grid) = map (fun m => Fin (w' m)) grid).
    { rewrite map_map. apply map_ext. intros m. rewrite Win, fgt_fin. apply Win'. }
    rewrite Wg.
    rewrite map_map, (zipWith_map2 fmul (fun m => Fin (plval (- alpha) mx mn m)) (fun m => Fin (w' m)) grid).
    change (in_norm (built s2 (map Fin x0) (data_of s2 (map Fin x0) (fun _ => map Fin ms0)))) with (Some (mk_spline s2 (map Fin x0) (in_xs s2))).
    cbv beta iota.
    assert (Sm : map fexp (spline_at spl (mk_spline s2 (map Fin x0) (in_xs s2)) (map Fin fv)) = map (fun m => Fin (exp (g m))) grid).
    { unfold spline_at, mk_spline. cbn [sp_kind sp_nodes sp_points]. rewrite G2. unfold node_scale at 2. rewrite Lg, !map_map.
      apply map_ext_in. intros m Hm. rewrite flog_fin by auto. now rewrite Spl by auto. }
    rewrite Sm, bcast_into_same by now rewrite !map_length. cbn [bind]. rewrite zipWith_map2.
    rewrite (map_ext (fun x => fmul (fmul (Fin (plval (- alpha) mx mn x)) (Fin (w' x))) (Fin (exp (g x)))) (fun m => Fin (nval alpha mn mx g w' m))) by reflexivity.
    now rewrite <- (map_map (nval alpha mn mx g w') Fin), trapezoid_fin.
  Qed.
  Lemma unnormed_val : p_x_unnormed bk spl ds "mass_1" (map Fin xv) (map Fin fv) (snd st) =
    (snd st, Ok (map (fun p => Fin (exp (g (fst p)) * msk xv (snd p))) (combine ms0 ms))).
  Proof.
    unfold st. cbn [snd]. rewrite unnormed_built by discriminate. f_equal. cbn [built set_splines in_data]. unfold data_of. rewrite Pa. cbn [map].
    unfold dlookup at 1. cbn [dget]. rewrite String.eqb_refl. cbn [bind]. rewrite (dlookup_ok _ _ _ Ds). cbn [bind]. rewrite ends_fin by auto. cbn [bind].
    assert (Sm : map fexp (spline_at spl (mk_spline s2 (map Fin x0) (map Fin ms0)) (map Fin fv)) = map (fun m => Fin (exp (g m))) ms0).
    { unfold spline_at, mk_spline. cbn [sp_kind sp_nodes sp_points]. unfold node_scale at 2. rewrite Lg, !map_map.
      apply map_ext_in. intros m Hm. rewrite flog_fin by auto. now rewrite Spl by auto. }
    rewrite Sm, bcast_into_same by (rewrite !map_length; auto). f_equal.
    rewrite (map_map Fin (in_range _)). rewrite (map_ext (fun x => in_range _ (Fin x)) (fun m => Fin (msk xv m))).
    - rewrite zipWith_mapp. apply map_ext. intros [a b]. reflexivity.
    - intros m. unfold in_range, msk. cbn [fst snd]. rewrite fge_fin, fle_fin. now destruct (_ && _).
  Qed.
  Lemma combine_swap {A B} (l : list A) (l' : list B) : combine l' l = map (fun p => (snd p, fst p)) (combine l l').
  Proof. revert l'; induction l as [|a l IH]; intros [|b l']; simpl; auto. now rewrite IH. Qed.
  Lemma ipl_built : ipl_p_m1 bk spl ds kw st =
    (st, Ok (map (fun p => Fin (plval (- alpha) mx mn (fst p) * w (fst p) * (exp (g (snd p)) * msk xv (fst p)) / NN)) (combine ms ms0))).
  Proof.
    rewrite ipl_p_m1_eq, pre_val. cbn [fst snd]. rewrite unnormed_val. fold st.
    replace (fst st, snd st) with st by (destruct st; reflexivity). change (s1, snd st) with st. f_equal. cbn [bind]. unfold post. rewrite Kd.
    rewrite bcast_into_same by (rewrite !map_length, combine_length; lia). cbn [bind]. rewrite norm_val. cbn [bind]. f_equal.
    rewrite (combine_swap ms ms0), map_map. cbn [fst snd].
    rewrite <- (map_map (fun m => plval (- alpha) mx mn m * w m) Fin). 
    assert (Z : forall (a : R -> R) (b : R * R -> R) l l', List.length l' = List.length l ->
       zipWith fmul (map Fin (map a l)) (map (fun p => Fin (b p)) (combine l l')) = map (fun p => Fin (a (fst p) * b p)) (combine l l')).
    { unfold zipWith. induction l as [|u l IH]; intros [|v l'] E; simpl in *; auto; try discriminate. f_equal. apply IH. lia. }
    rewrite (Z _ (fun p => exp (g (snd p)) * msk xv (fst p)) ms ms0) by auto. rewrite map_map. apply map_ext. intros p. rewrite fdiv_fin by auto. reflexivity.
  Qed.
End Val.
Lemma ipl_fresh bk spl s1 s2 ds kw m1 xv fv p : in_norm s2 = None -> in_params s2 = ["mass_1"%string] -> dget "mass_1" ds = Some m1 ->
  pre bk ds kw (s1, s2) = Ok ((fv, xv), p) ->
  ipl_p_m1 bk spl ds kw (s1, s2) = ipl_p_m1 bk spl ds kw (s1, built s2 xv (data_of s2 xv (fun _ => m1))).
Proof.
  intros H Pa E P. rewrite !ipl_p_m1_eq. change (pre bk ds kw (s1, built s2 xv (data_of s2 xv (fun _ => m1)))) with (pre bk ds kw (s1, s2)). rewrite P. cbn [fst snd].
  rewrite (unnormed_fresh bk spl s2 ds "mass_1" xv fv (fun _ => m1)); auto. rewrite Pa. intros q [<-|[]]. exact E.
Qed.
Lemma combine_self {A} (l : list A) : combine l l = map (fun a => (a, a)) l.
Proof. induction l; simpl; congruence. Qed.
Section Full.
  Context (bk : backend) (spl : string -> list xf -> list xf -> xf -> xf) (nodes : nat) (kind : string) (lo hi : R) (n nq : nat) (reg : bool)
    (s : ipl) (kw : dict xf) (f x : list R) (alpha mn mx d : R).
  Hypothesis Hnodes : (1 <= nodes)%nat.
  Hypothesis Hlo : 0 < lo < hi.
  Hypothesis Hs : ipl_init nodes kind lo hi (n, nq) reg = Ok s.
  Hypothesis Hk : forall kind nodes f t, List.length f = List.length nodes -> exists r, spl kind (map Fin nodes) (map Fin f) (Fin t) = Fin r.
  Hypothesis Ex : extract_spline_points (snd s) kw = Ok (map Fin f, map Fin x).
  Hypothesis Xp : Forall (fun t => 0 < t) x.
  Hypothesis Ka : dget "alpha" kw = Some (Fin alpha).
  Hypothesis Kn : dget "mmin" kw = Some (Fin mn).
  Hypothesis Kx : dget "mmax" kw = Some (Fin mx).
  Hypothesis Kd : dget_default "delta_m" (Fin 0) kw = Fin d.
  Hypothesis Lgl : 0 < mn < mx.
  Hypothesis Al : bk = Jax \/ alpha <> -1.
  Hypothesis Hd : 0 < d \/ bk <> Jax.
  Hypothesis Gm : exists m, In m (linspace lo hi n) /\ mn <= m <= mx.
  Definition gk (m : R) : R := toR (spl kind (map Fin (map ln x)) (map Fin f) (Fin (ln m))).
  Lemma ipl_full : exists w N, 0 < N /\ (forall m, 0 <= w m) /\ (forall m, mn <= m <= hi -> 0 < w m) /\
    N = Rtrap (map (nval alpha mn mx gk w) (linspace lo hi n)) (linspace lo hi n) /\
    forall ds ms ms0, dget "mass_1" ds = Some (map Fin ms) -> (forall m, In m ms -> 0 < m) -> (forall m, In m ms0 -> 0 < m) -> List.length ms0 = List.length ms ->
      let st := (fst s, built (snd s) (map Fin x) (data_of (snd s) (map Fin x) (fun _ => map Fin ms0))) in
      ipl_p_m1 bk spl ds kw st = (st, Ok (map (fun p => Fin (plval (- alpha) mx mn (fst p) * w (fst p) * (exp (gk (snd p)) * msk x (fst p)) / N)) (combine ms ms0))) /\
      (ms0 = ms -> ipl_p_m1 bk spl ds kw s = ipl_p_m1 bk spl ds kw st).
  Proof.
    destruct (ipl_init_fields _ _ _ _ _ _ _ _ Hs) as (I0 & I1 & I2 & I3 & I4 & I5 & I6 & I7 & I8 & I9).
    assert (L := extract_lengths _ _ _ _ Ex). destruct L as [L1 [L2 _]]. rewrite !map_length in *. rewrite I8 in L2. rewrite I9 in L1.
    assert (NS : node_scale (snd s) (map Fin x) = map Fin (map ln x)).
    { unfold node_scale. rewrite I5, !map_map. apply map_ext_in. intros t Ht. apply flog_fin. rewrite Forall_forall in Xp. auto. }
    destruct (window_cases bk mn hi d Hd) as [w [W1 [W2 [W3 W4]]]].
    assert (SP : forall m, 0 < m -> spl (in_kind (snd s)) (node_scale (snd s) (map Fin x)) (map Fin f) (Fin (ln m)) = Fin (gk m)).
    { intros m Hm. rewrite NS, I7. unfold gk. destruct (Hk kind (map ln x) f (ln m)) as [r Hr]; [rewrite map_length; congruence|]. rewrite Hr. reflexivity. }
    assert (GP : forall m, In m (linspace lo hi n) -> 0 < m) by (intros m Hm; apply linspace_bounds in Hm; lra).
    assert (Xn : x <> []) by (destruct x; [simpl in L2; lia|discriminate]).
    set (N := Rtrap (map (nval alpha mn mx gk w) (linspace lo hi n)) (linspace lo hi n)).
    assert (NP : 0 < N).
    { destruct Gm as [m0 [Hm0 Hb]]. apply Rtrap_pos_one; [now rewrite map_length|now rewrite linspace_length|apply linspace_incr; auto; lra| |].
      - apply Forall_map, Forall_forall. intros m _. unfold nval. assert (P := pl_nonneg alpha mn mx Lgl m). assert (E := exp_pos (gk m)).
        apply Rmult_le_pos; [apply Rmult_le_pos; auto|lra].
      - apply Exists_exists. exists (nval alpha mn mx gk w m0). split; [now apply in_map|].
        unfold nval, pl. assert (A := pl_pos alpha mn mx Lgl m0 Hb). assert (E := exp_pos (gk m0)).
        assert (B := linspace_bounds _ _ _ _ (Rlt_le _ _ (proj2 Hlo)) Hm0).
        assert (0 < w m0) by (apply W4; lra). apply Rmult_lt_0_compat; auto. apply Rmult_lt_0_compat; auto. }
    exists w, N. split; [exact NP|]. split; [exact W3|]. split; [exact W4|]. split; [reflexivity|].
    intros ds ms ms0 Ed Mp M0p ML st. destruct s as [s1 s2]. cbn [fst snd] in *. split.
    - apply (ipl_built bk spl s1 s2 ds kw (linspace lo hi n) f x x ms ms0 alpha mn mx d hi gk w w); auto. fold N. lra.
    - intros ->. eapply (ipl_fresh bk spl s1 s2 ds kw (map Fin ms) (map Fin x) (map Fin f)); auto.
      rewrite <- (pre_val bk s1 s2 ds kw f x x ms ms alpha mn mx d hi w); eauto.
  Qed.
End Full.
Lemma C31_spline_masses_refuted_pf :
  forall bk spl nodes kind lo hi n nq reg s kwargs (f x : list R) alpha mmin mmax delta_m a b at_a at_b,
  (1 <= nodes)%nat -> 0 < lo < hi -> ipl_init nodes kind lo hi (n, nq) reg = Ok s ->
  (forall kind nodes f t, List.length f = List.length nodes -> exists r, spl kind (map Fin nodes) (map Fin f) (Fin t) = Fin r) ->
  extract_spline_points (snd s) kwargs = Ok (map Fin f, map Fin x) -> Forall (fun t => 0 < t) x ->
  dget "alpha" kwargs = Some (Fin alpha) -> dget "mmin" kwargs = Some (Fin mmin) -> dget "mmax" kwargs = Some (Fin mmax) ->
  dget_default "delta_m" (Fin 0) kwargs = Fin delta_m -> 0 < mmin < mmax -> bk = Jax \/ alpha <> -1 ->
  (0 < delta_m \/ bk <> Jax) ->
  (exists m, In m (linspace lo hi n) /\ mmin <= m <= mmax) ->
  0 < a -> mmin <= b <= mmax -> b <= hi -> hd 0 x <= b <= last x 0 ->
  spl kind (map Fin (map ln x)) (map Fin f) (Fin (ln a)) = Fin at_a -> spl kind (map Fin (map ln x)) (map Fin f) (Fin (ln b)) = Fin at_b ->
  let density := fun m => ipl_p_m1 bk spl [("mass_1"%string, [Fin m])] kwargs in
  exists v, 0 < v /\ snd (density b s) = Ok [Fin v] /\ snd (density b (fst (density a s))) = Ok [Fin (v * exp (at_a - at_b))].
Proof.
  intros bk spl nodes kind lo hi n nq reg s kw f x alpha mn mx d a b ga gb Hn Hlo Hs Hk Ex Xp Ka Kn Kx Kd Lg Al Hd Gm A0 B Bh Bx Ea Eb density.
  destruct (ipl_full bk spl nodes kind lo hi n nq reg s kw f x alpha mn mx d Hn Hlo Hs Hk Ex Xp Ka Kn Kx Kd Lg Al Hd Gm) as [w [N [NP [W1 [W2 [NE H]]]]]].
  assert (P : forall t, 0 < t -> forall m, In m [t] -> 0 < m) by (intros t Ht m [<-|[]]; exact Ht).
  assert (GA : gk spl kind f x a = ga) by (unfold gk; now rewrite Ea). assert (GB : gk spl kind f x b = gb) by (unfold gk; now rewrite Eb).
  assert (Pb := P b ltac:(lra)). assert (Pa := P a A0).
  destruct (H [("mass_1"%string, [Fin a])] [a] [a] eq_refl Pa Pa eq_refl) as [HA HA'].
  destruct (H [("mass_1"%string, [Fin b])] [b] [b] eq_refl Pb Pb eq_refl) as [HB HB'].
  destruct (H [("mass_1"%string, [Fin b])] [b] [a] eq_refl Pb Pa eq_refl) as [HC _].
  specialize (HA' eq_refl). specialize (HB' eq_refl).
  exists (plval (- alpha) mx mn b * w b * (exp gb * 1) / N). split; [|split].
  - apply Rdiv_lt_0_compat; auto. assert (X := exp_pos gb). assert (Y := pl_pos alpha mn mx Lg b B). assert (Z : 0 < w b) by (apply W2; lra).
    apply Rmult_lt_0_compat; [now apply Rmult_lt_0_compat|lra].
  - unfold density. rewrite HB', HB. cbn [snd combine map fst]. unfold msk. rewrite GB, !Rleb_true by lra. reflexivity.
  - unfold density. rewrite HA', HA. cbn [fst]. rewrite HC. cbn [snd combine map fst]. unfold msk. rewrite GA, !Rleb_true by lra. cbn [andb].
    do 3 f_equal. replace (exp ga) with (exp gb * exp (ga - gb)) by (rewrite <- exp_plus; f_equal; ring). field. lra.
Qed.

Lemma C101_spline_joint_normalised_pf :
  forall bk spl interp nodes kind lo hi n nq reg s kwargs (f x : list R) alpha mmin mmax delta_m beta,
  (1 <= nodes)%nat -> 0 < lo < hi -> ipl_init nodes kind lo hi (n, nq) reg = Ok s -> exact_at_nodes interp ->
  (forall kind nodes f t, List.length f = List.length nodes -> exists r, spl kind (map Fin nodes) (map Fin f) (Fin t) = Fin r) ->
  dget "beta" kwargs = Some (Fin beta) ->
  extract_spline_points (snd s) (ddel "beta" kwargs) = Ok (map Fin f, map Fin x) -> Forall (fun t => 0 < t) x ->
  dget "alpha" kwargs = Some (Fin alpha) -> dget "mmin" kwargs = Some (Fin mmin) -> dget "mmax" kwargs = Some (Fin mmax) ->
  dget "delta_m" kwargs = Some (Fin delta_m) -> lo <= mmin < mmax -> mmax <= hi -> bk = Jax \/ alpha <> -1 -> 0 < delta_m ->
  (exists m, In m (linspace lo hi n) /\ mmin <= m <= mmax) -> ~ In (Fin mmin) (sm_m1s (fst s)) ->
  hd 0 x <= lo -> hi <= last x 0 ->
  exists rows, snd (ipl_call bk spl interp (grid_dataset (sm_m1s (fst s)) (sm_qs (fst s))) kwargs s) = Ok (List.concat rows) /\
    List.length rows = n /\ Forall (fun row => List.length row = nq) rows /\
    trapezoid (map (fun row => trapezoid row (sm_qs (fst s))) rows) (sm_m1s (fst s)) = Fin 1.
Proof.
  intros bk spl li nodes kind lo hi n nq reg s kw f x alpha mn mx d beta Hn Hlo Hs Hli Hk Kb Ex Xp Ka Kn Kx Kd Lg Mh Al Hd Gm Off X1 X2.
  assert (KD : forall k, (k =? "beta")%string = false -> dget k (ddel "beta" kw) = dget k kw) by (intros k E; apply dget_ddel_other; intros ->; now rewrite String.eqb_refl in E).
  destruct (ipl_full bk spl nodes kind lo hi n nq reg s (ddel "beta" kw) f x alpha mn mx d) as [w [N [NP [W1 [W2 [NE H]]]]]]; auto; try (rewrite KD by reflexivity; auto).
  { unfold dget_default. rewrite KD by reflexivity. now rewrite Kd. } { lra. }
  destruct (ipl_init_fields _ _ _ _ _ _ _ _ Hs) as (I0 & I1 & I2 & I3 & I4 & I5 & I6 & I7 & I8 & I9).
  assert (F : sm_masses (fst s) = None /\ sm_mmin (fst s) = Fin lo /\ sm_qs (fst s) = xlinspace (1 / 1000) 1 nq /\ (2 <= nq)%nat).
  { unfold ipl_init, smoothed_init in Hs. cbn [fst snd] in Hs. destruct (Nat.ltb n 2); [discriminate|]. destruct (Nat.ltb_spec nq 2); [discriminate|]. cbn [orb bind] in Hs.
    destruct (interp_init _ _ _ _ _ _ _ _); [|discriminate]. cbn [bind] in Hs. injection Hs as <-. now repeat split. }
  destruct F as [F1 [F2 [F3 F4]]].
  set (ms := linspace lo hi n) in *. set (qs := linspace (1 / 1000) 1 nq).
  change (xlinspace lo hi n) with (map Fin ms) in I1, I2. change (xlinspace (1 / 1000) 1 nq) with (map Fin qs) in F3. rewrite I1, F3 in *.
  assert (Q0 : forall q, In q qs -> 0 < q) by (intros q Hq; apply linspace_bounds in Hq; lra).
  assert (Qi : strictly_increasing qs) by (apply linspace_incr; auto; lra).
  assert (QL : (2 <= List.length qs)%nat) by (unfold qs; now rewrite linspace_length).
  assert (Q1 : In 1 qs) by now apply qgrid_one.
  assert (Mi : strictly_increasing ms) by (apply linspace_incr; auto; lra).
  assert (M0 : forall m, In m ms -> lo <= m <= hi) by (intros m Hm; apply linspace_bounds in Hm; lra).
  set (g := fun m => nval alpha mn mx (gk spl kind f x) w m / N).
  set (big := List.concat (map (fun m => map (fun _ => m) qs) ms)).
  assert (Bp : forall m, In m big -> In m ms).
  { intros m Hm. apply in_concat in Hm. destruct Hm as [l [Hl Hm]]. apply in_map_iff in Hl. destruct Hl as [m' [<- Hm']]. apply in_map_iff in Hm. now destruct Hm as [? [<- _]]. }
  assert (Bp0 : forall m, In m big -> 0 < m) by (intros m Hm; apply Bp, M0 in Hm; lra).
  assert (Ed : dget "mass_1" (grid_dataset (map Fin ms) (map Fin qs)) = Some (map Fin big)).
  { unfold grid_dataset, big. cbn. f_equal. rewrite map_map, map_concat_map. f_equal. apply map_ext. intros m. now rewrite !map_map. }
  destruct (H (grid_dataset (map Fin ms) (map Fin qs)) big big Ed Bp0 Bp0 eq_refl) as [H1 H2]. specialize (H2 eq_refl).
  assert (PQ := pq_grid bk li (fst s) beta mn d ms qs Hli F1 I1 F3 (NoDup_incr _ Mi)).
  exists (map (fun m => map (fmul (Fin (g m))) (qrow bk beta mn d qs m)) ms). split; [|split; [|split]].
  - rewrite ipl_call_eq, (dlookup_ok _ _ _ Kb). cbv zeta. unfold dget_default. rewrite !KD by reflexivity. rewrite Kn, Kx, Kd, F2, I6, flt_fin, fgt_fin, !Rltb_false, !andb_false_r by lra.
    rewrite H2, H1. cbn [fst snd].
    destruct (p_q bk li (grid_dataset (map Fin ms) (map Fin qs)) (Fin beta) (Fin mn) (Fin d) (fst s)) as [t r]. cbn [snd] in PQ. subst r. cbn [snd bind].
    rewrite combine_self, map_map. cbn [fst snd].
    rewrite (map_ext_in _ (fun m => Fin (g m))).
    2:{ intros m Hm. apply Bp, M0 in Hm. unfold g, nval, pl, msk. rewrite !Rleb_true by lra. cbn [andb]. f_equal. unfold Rdiv. ring. }
    unfold big. rewrite map_concat_map. rewrite (map_ext (fun a => map (fun m => Fin (g m)) (map (fun _ => a) qs)) (fun m => map (fun _ => Fin (g m)) qs)) by (intros; now rewrite map_map).
    unfold bcast, bcast2.
    set (A := List.concat (map (fun m => map (fun _ => Fin (g m)) qs) ms)). set (B := List.concat (map (qrow bk beta mn d qs) ms)).
    assert (LAB : List.length A = List.length B) by (unfold A, B; apply concat_len; intros; unfold qrow; now rewrite !map_length).
    rewrite LAB, Nat.eqb_refl. f_equal. unfold A, B. apply zip_concat. intros m _. unfold qrow. rewrite !map_length. split; auto.
    rewrite zip_map2, map_map. reflexivity.
  - rewrite map_length. apply linspace_length.
  - apply Forall_map, Forall_forall. intros m _. unfold qrow. rewrite !map_length. apply linspace_length.
  - rewrite map_map. rewrite (map_ext_in _ (fun m => Fin (g m))).
    + unfold g. rewrite <- (map_map (nval alpha mn mx (gk spl kind f x) w) (fun v => Fin (v / N))).
      rewrite (map_ext_in _ (fun v => Fin (/ N * v))) by (intros; f_equal; unfold Rdiv; ring).
      rewrite <- (map_map (Rmult (/ N)) Fin), trapezoid_fin, Rtrap_scale. rewrite <- NE. f_equal. field. lra.
    + intros m Hm. destruct (Rtotal_order m mn) as [HH|[HH|HH]].
      * assert (E : g m = 0). { unfold g, nval, pl. rewrite plval_out by lra. unfold Rdiv. ring. }
        rewrite E. apply row_zero.
      * exfalso. apply Off. subst m. now apply in_map.
      * apply row_trap; auto; lra.
Qed.

