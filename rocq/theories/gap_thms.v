(** Proofs of the property theorems stated in [Props_gap]. *)
From Coq Require Import Reals Lra Lia Psatz String Bool.
From Coquelicot Require Import Coquelicot.
From Coq Require Import List.
From Verif Require Import Xf Py St Xf_facts Py_facts Calc Spec Utils_model Powerlaw_facts Truncnorm_facts Trap_facts
  Np Np_facts Mass_model Mass_facts Smoothed_model Smoothed_facts SpecSmooth smoothed_thms SpecGap.
Import ListNotations.
Local Open Scope R_scope.

Lemma si_step (l : list R) i : strictly_increasing l -> (S i < List.length l)%nat -> nth i l 0 < nth (S i) l 0.
Proof.
  revert i. induction l as [|x0 [|x1 l] IH]; intros i H L; [simpl in L; lia|simpl in L; lia|].
  destruct H as [H0 H]. destruct i as [|i]; [exact H0|].
  change (nth i (x1 :: l) 0 < nth (S i) (x1 :: l) 0). apply IH; [exact H|simpl in L |- *; lia].
Qed.
Lemma chord_between x0 y0 x1 y1 m : x0 < x1 -> x0 <= m <= x1 -> Rmin y0 y1 <= chord x0 y0 x1 y1 m <= Rmax y0 y1.
Proof.
  intros H Hm. unfold chord.
  assert (T : 0 <= (m - x0) / (x1 - x0) <= 1).
  { split; [apply Rdiv_le_0_compat; lra|]. apply Rmult_le_reg_r with (x1 - x0); [lra|].
    replace ((m - x0) / (x1 - x0) * (x1 - x0)) with (m - x0) by (field; lra). lra. }
  replace ((y1 - y0) * (m - x0) / (x1 - x0)) with ((y1 - y0) * ((m - x0) / (x1 - x0))) by (field; lra).
  set (t := (m - x0) / (x1 - x0)) in *. clearbody t.
  unfold Rmin, Rmax. destruct (Rle_dec y0 y1); split; nra.
Qed.
Lemma chord_node0 x0 y0 x1 y1 : chord x0 y0 x1 y1 x0 = y0.
Proof. unfold chord, Rdiv. ring. Qed.
Lemma chord_node1 x0 y0 x1 y1 : x0 < x1 -> chord x0 y0 x1 y1 x1 = y1.
Proof. intros H. unfold chord. field. lra. Qed.

(** The mass-ratio density at one mass and all the grid ratios, once the interpolated norm is known. *)
Lemma pq_with_norm bk li s b mn d (qs : list R) m N I :
  sm_masses s = None -> sm_qs s = map Fin qs -> (2 <= List.length qs)%nat ->
  trapezoid (map (qd bk b mn (Fin d) m) (sm_qs s)) (sm_qs s) = Fin N ->
  li (sm_m1s s) (map (qnorm bk (sm_qs s) b mn (Fin d)) (sm_m1s s)) m = Fin I -> I <> 0 ->
  exists l, snd (p_q bk li [("mass_1"%string, map (fun _ => m) (sm_qs s)); ("mass_ratio"%string, sm_qs s)] b mn (Fin d) s) = Ok l /\
    trapezoid l (sm_qs s) = Fin (N / I).
Proof.
  intros Hn Eq Lq HT HI HI0.
  set (ds := [("mass_1"%string, map (fun _ : xf => m) (sm_qs s)); ("mass_ratio"%string, sm_qs s)]).
  set (m1 := map (fun _ : xf => m) (sm_qs s)).
  assert (ZW : forall qs0 : list xf, zipWith (qd bk b mn (Fin d)) (map (fun _ => m) qs0) qs0 = map (qd bk b mn (Fin d) m) qs0).
  { intros qs0. unfold zipWith. induction qs0; simpl; f_equal; auto. }
  assert (E3 : bcast2 (qd bk b mn (Fin d)) m1 (sm_qs s) = Some (map (qd bk b mn (Fin d) m) (sm_qs s))).
  { unfold bcast2, m1. rewrite map_length, Nat.eqb_refl. now rewrite ZW. }
  rewrite (p_q_cases bk li ds b mn (Fin d) s m1 (sm_qs s) _ eq_refl eq_refl E3), Hn.
  replace (if sm_cache s then None else None) with (@None (list xf)) by (destruct (sm_cache s); reflexivity).
  unfold fresh_pq.
  assert (EN : norms_at bk li s b mn (Fin d) m1 = map (fun _ => Fin I) (sm_qs s)).
  { unfold norms_at, m1. rewrite map_map. apply map_ext. intros _. exact HI. }
  rewrite EN.
  assert (BI : bcast_into bk fdiv (map (qd bk b mn (Fin d) m) (sm_qs s)) (map (fun _ => Fin I) (sm_qs s)) =
               Ok (map (fun q => fdiv (qd bk b mn (Fin d) m q) (Fin I)) (sm_qs s))).
  { unfold bcast_into, bcast, bcast2. rewrite !map_length, Nat.eqb_refl.
    assert (Z : zipWith fdiv (map (qd bk b mn (Fin d) m) (sm_qs s)) (map (fun _ => Fin I) (sm_qs s)) =
                map (fun q => fdiv (qd bk b mn (Fin d) m q) (Fin I)) (sm_qs s)).
    { unfold zipWith. generalize (sm_qs s) as q0. induction q0; simpl; f_equal; auto. }
    rewrite Z. destruct (is_jax bk); reflexivity. }
  rewrite BI. cbn [rmap snd]. eexists; split; [reflexivity|].
  rewrite Eq in HT |- *.
  destruct (trapezoid_fin_inv (map (qd bk b mn (Fin d) m) (map Fin qs)) qs N) as [ys [EY HR]]; [rewrite !map_length; auto|auto|exact HT|].
  rewrite map_map. rewrite <- (map_map (fun q => fdiv (qd bk b mn (Fin d) m q) (Fin I)) nan_to_num).
  rewrite <- (map_map (qd bk b mn (Fin d) m) (fun v => fdiv v (Fin I))). rewrite EY, !map_map.
  rewrite (map_ext _ (fun y => Fin (/ I * y))).
  - rewrite <- (map_map (Rmult (/ I)) Fin), trapezoid_fin, Rtrap_scale, HR. f_equal. field. exact HI0.
  - intros y. rewrite fdiv_fin by exact HI0. cbn. f_equal. field. exact HI0.
Qed.

Lemma li_norms bk li s b mn d (grid : list R) i m A B :
  linear_between li -> sm_m1s s = map Fin grid -> strictly_increasing grid -> (S i < List.length grid)%nat -> d <> 0 ->
  nth i grid 0 <= m <= nth (S i) grid 0 ->
  trapezoid (map (qd bk b mn (Fin d) (Fin (nth i grid 0))) (sm_qs s)) (sm_qs s) = Fin A ->
  trapezoid (map (qd bk b mn (Fin d) (Fin (nth (S i) grid 0))) (sm_qs s)) (sm_qs s) = Fin B ->
  li (sm_m1s s) (map (qnorm bk (sm_qs s) b mn (Fin d)) (sm_m1s s)) (Fin m) = Fin (chord (nth i grid 0) A (nth (S i) grid 0) B m).
Proof.
  intros Hl Eg Hg Hi Hd Hm HA HB. rewrite Eg.
  assert (K : forall j r, (j < List.length grid)%nat ->
    trapezoid (map (qd bk b mn (Fin d) (Fin (nth j grid 0))) (sm_qs s)) (sm_qs s) = Fin r ->
    nth j (map (qnorm bk (sm_qs s) b mn (Fin d)) (map Fin grid)) NaN = Fin r).
  { intros j r Hj Hr. rewrite map_map.
    rewrite (nth_indep _ NaN (qnorm bk (sm_qs s) b mn (Fin d) (Fin 0))) by now rewrite map_length.
    rewrite (map_nth (fun x => qnorm bk (sm_qs s) b mn (Fin d) (Fin x))). unfold qnorm. rewrite Hr. now apply norm_or_one_fin. }
  apply Hl; auto.
  - now rewrite !map_length.
  - apply K; auto. lia.
Qed.

Lemma qd_flat bk mn d m : 0 < mn -> 0 < d -> mn + d <= m ->
  qd bk (Fin 0) (Fin mn) (Fin d) (Fin m) (Fin 1) = Fin (/ (1 - mn / m) * wcst).
Proof.
  intros Hmn Hd H. unfold qd. rewrite fdiv_fin by lra.
  assert (L : 0 < mn / m < 1).
  { split; [apply Rdiv_lt_0_compat; lra|]. apply Rmult_lt_reg_r with m; [lra|]. replace (mn / m * m) with mn by (field; lra). lra. }
  rewrite powerlaw_body_in by lra. rewrite fmul_fin, smoothing_val by lra. rewrite fmul_fin. f_equal. f_equal.
  - unfold plpdf, plnorm. rewrite Reqb_false by lra. rewrite !Rplus_0_r. rewrite !Rpower_1 by lra.
    unfold Rpower at 1. rewrite ln_1, Rmult_0_l, exp_0. field. lra.
  - unfold sval. rewrite !Rleb_true by lra. cbn [andb].
    assert (1 <= (m * 1 - mn) / d).
    { apply Rmult_le_reg_r with d; [lra|]. replace ((m * 1 - mn) / d * d) with (m - mn) by (field; lra). lra. }
    rewrite clp_hi by lra. reflexivity.
Qed.
Lemma qd_off bk mn d m : 0 < mn -> 0 < d -> mn + d <= m -> m < 1000 * mn ->
  qd bk (Fin 0) (Fin mn) (Fin d) (Fin m) (Fin (1 / 1000)) = Fin 0.
Proof.
  intros Hmn Hd H H'. unfold qd. rewrite fdiv_fin by lra.
  assert (L : 1 / 1000 < mn / m < 1).
  { split; apply Rmult_lt_reg_r with m; try lra; replace (mn / m * m) with mn by (field; lra); lra. }
  rewrite powerlaw_body_out by lra. rewrite fmul_fin, smoothing_val by lra. rewrite fmul_fin. f_equal. ring.
Qed.
Lemma trap_two bk mn d m : 0 < mn -> 0 < d -> mn + d <= m -> m < 1000 * mn ->
  trapezoid (map (qd bk (Fin 0) (Fin mn) (Fin d) (Fin m)) [Fin (1 / 1000); Fin 1]) [Fin (1 / 1000); Fin 1] =
  Fin (999 / 2000 * wcst * (m / (m - mn))).
Proof.
  intros. cbn [map]. rewrite qd_flat, qd_off by lra.
  change (trapezoid [Fin 0; Fin (/ (1 - mn / m) * wcst)] [Fin (1 / 1000); Fin 1]) with
    (trapezoid (map Fin [0; / (1 - mn / m) * wcst]) (map Fin [1 / 1000; 1])).
  rewrite trapezoid_fin. f_equal. unfold Rtrap. field. lra.
Qed.
Lemma convex_norm k mn x0 x1 m : 0 < k -> 0 < mn -> mn < x0 -> x0 < m < x1 ->
  k * (m / (m - mn)) < chord x0 (k * (x0 / (x0 - mn))) x1 (k * (x1 / (x1 - mn))) m.
Proof.
  intros Hk Hmn H0 Hm. unfold chord.
  assert (E : k * (x0 / (x0 - mn)) + (k * (x1 / (x1 - mn)) - k * (x0 / (x0 - mn))) * (m - x0) / (x1 - x0) - k * (m / (m - mn)) =
    k * (mn * ((m - x0) * (x1 - m)) / ((x0 - mn) * (x1 - mn) * (m - mn)))) by (field; lra).
  assert (0 < k * (mn * ((m - x0) * (x1 - m)) / ((x0 - mn) * (x1 - mn) * (m - mn)))); [|lra].
  apply Rmult_lt_0_compat; [lra|]. apply Rdiv_lt_0_compat; repeat apply Rmult_lt_0_compat; lra.
Qed.

(** A kernel that satisfies the specification: look for the interval, then draw the chord. *)
Fixpoint seek (nodes vals : list xf) (x : xf) : xf :=
  match nodes, vals, x with
  | Fin x0 :: ((Fin x1 :: _) as nodes'), Fin y0 :: ((Fin y1 :: _) as vals'), Fin m =>
      if Rle_dec m x1 then Fin (chord x0 y0 x1 y1 m) else seek nodes' vals' x
  | _ :: nodes', _ :: vals', _ => seek nodes' vals' x
  | _, _, _ => NaN
  end.
Lemma seek_cons2 x0 x1 n v0 v1 vs m : seek (Fin x0 :: Fin x1 :: n) (v0 :: v1 :: vs) (Fin m) =
  match v0, v1 with
  | Fin y0, Fin y1 => if Rle_dec m x1 then Fin (chord x0 y0 x1 y1 m) else seek (Fin x1 :: n) (v1 :: vs) (Fin m)
  | _, _ => seek (Fin x1 :: n) (v1 :: vs) (Fin m)
  end.
Proof. destruct v0, v1; reflexivity. Qed.
Lemma nth_ge_head (l : list R) x i : strictly_increasing (x :: l) -> (i < List.length (x :: l))%nat -> x <= nth i (x :: l) 0.
Proof.
  revert x i. induction l as [|y l IH]; intros x i H L.
  - simpl in L. replace i with O by lia. simpl. lra.
  - destruct i as [|i]; [simpl; lra|]. destruct H as [H0 H].
    change (x <= nth i (y :: l) 0). assert (y <= nth i (y :: l) 0); [|lra]. apply IH; auto. simpl in L |- *. lia.
Qed.
Lemma seek_linear : linear_between seek.
Proof.
  intros nodes. induction nodes as [|x0 [|x1 n] IH]; intros vals i m y0 y1 Hs L Hi H0 H1 Hm; [simpl in Hi; lia|simpl in Hi; lia|].
  destruct vals as [|v0 [|v1 vs]]; [discriminate|discriminate|].
  change (map Fin (x0 :: x1 :: n)) with (Fin x0 :: Fin x1 :: map Fin n). rewrite seek_cons2.
  destruct i as [|i].
  - simpl in H0, H1, Hm. subst v0 v1. destruct (Rle_dec m x1); [reflexivity|simpl in Hm; lra].
  - pose proof (nth_ge_head n x1 i (proj2 Hs)) as HG. cbn [List.length] in Hi.
    specialize (HG ltac:(cbn [List.length]; lia)).
    assert (KEY : seek (Fin x1 :: map Fin n) (v1 :: vs) (Fin m) =
       Fin (chord (nth (S i) (x0 :: x1 :: n) 0) y0 (nth (S (S i)) (x0 :: x1 :: n) 0) y1 m)).
    { apply (IH (v1 :: vs) i m y0 y1); auto; [exact (proj2 Hs)|cbn [List.length]; lia]. }
    destruct v0 as [w0| | |], v1 as [w1| | |]; try exact KEY.
    destruct (Rle_dec m x1) as [Hle|_]; [|exact KEY].
    change (nth (S i) (x0 :: x1 :: n) 0) with (nth i (x1 :: n) 0) in *. assert (m = x1) by lra. subst m.
    assert (i = O).
    { destruct i as [|i]; [reflexivity|exfalso].
      assert (x1 < nth (S i) (x1 :: n) 0); [|lra].
      destruct n as [|x2 n]; [cbn [List.length] in Hi; lia|]. destruct Hs as [_ [Hs1 Hs2]].
      change (x1 < nth i (x2 :: n) 0). assert (x2 <= nth i (x2 :: n) 0); [|lra]. apply nth_ge_head; auto. cbn [List.length] in *. lia. }
    subst i. simpl in H0. injection H0 as ->. cbn [nth].
    f_equal. rewrite chord_node0. apply chord_node1. apply (proj1 Hs).
Qed.

Lemma C139_between_grid_masses_pf :
  forall bk interp s beta mmin delta_m (grid qs : list R) i m A B N,
  linear_between interp -> sm_masses s = None ->
  sm_m1s s = map Fin grid -> strictly_increasing grid -> sm_qs s = map Fin qs -> (2 <= List.length qs)%nat ->
  (S i < List.length grid)%nat -> nth i grid 0 <= m <= nth (S i) grid 0 -> delta_m <> 0 ->
  let T := fun y => trapezoid (map (fun q => fmul (powerlaw_body (Fin q) beta (Fin 1) (fdiv mmin (Fin y)))
                                         (smoothing bk (Fin (y * q)) mmin (Fin y) (Fin delta_m))) qs) (map Fin qs) in
  T (nth i grid 0) = Fin A -> T (nth (S i) grid 0) = Fin B -> T m = Fin N ->
  chord (nth i grid 0) A (nth (S i) grid 0) B m <> 0 ->
  exists l, snd (p_q bk interp [("mass_1"%string, map (fun _ => Fin m) (sm_qs s)); ("mass_ratio"%string, sm_qs s)]
                   beta mmin (Fin delta_m) s) = Ok l /\
    trapezoid l (sm_qs s) = Fin (N / chord (nth i grid 0) A (nth (S i) grid 0) B m).
Proof.
  intros bk li s b mn d grid qs i m A B N Hl Hn Eg Hg Eq Lq Hi Hm Hd T HA HB HN HC.
  assert (ET : forall y, T y = trapezoid (map (qd bk b mn (Fin d) (Fin y)) (sm_qs s)) (sm_qs s)).
  { intros y. unfold T. rewrite Eq, map_map. reflexivity. }
  rewrite ET in HA, HB, HN.
  apply (pq_with_norm bk li s b mn d qs (Fin m) N); auto.
  now apply li_norms.
Qed.

Lemma C139_normalised_up_to_one_step_pf :
  forall bk interp s beta mmin delta_m (grid qs : list R) i m lo hi,
  linear_between interp -> sm_masses s = None ->
  sm_m1s s = map Fin grid -> strictly_increasing grid -> sm_qs s = map Fin qs -> (2 <= List.length qs)%nat ->
  (S i < List.length grid)%nat -> nth i grid 0 <= m <= nth (S i) grid 0 -> delta_m <> 0 -> 0 < lo ->
  (forall y, y = nth i grid 0 \/ y = nth (S i) grid 0 \/ y = m -> exists v, lo <= v <= hi /\
     trapezoid (map (fun q => fmul (powerlaw_body (Fin q) beta (Fin 1) (fdiv mmin (Fin y)))
                                   (smoothing bk (Fin (y * q)) mmin (Fin y) (Fin delta_m))) qs) (map Fin qs) = Fin v) ->
  exists l r, snd (p_q bk interp [("mass_1"%string, map (fun _ => Fin m) (sm_qs s)); ("mass_ratio"%string, sm_qs s)]
                   beta mmin (Fin delta_m) s) = Ok l /\
    trapezoid l (sm_qs s) = Fin r /\ lo / hi <= r <= hi / lo /\
    (m = nth i grid 0 \/ m = nth (S i) grid 0 -> r = 1).
Proof.
  intros bk li s b mn d grid qs i m lo hi Hl Hn Eg Hg Eq Lq Hi Hm Hd Hlo HV.
  destruct (HV (nth i grid 0) (or_introl eq_refl)) as [A [RA HA]].
  destruct (HV (nth (S i) grid 0) (or_intror (or_introl eq_refl))) as [B [RB HB]].
  destruct (HV m (or_intror (or_intror eq_refl))) as [N [RN HN]].
  pose proof (si_step grid i Hg Hi) as Hx.
  pose proof (chord_between _ A _ B m Hx Hm) as HC.
  assert (HC' : lo <= chord (nth i grid 0) A (nth (S i) grid 0) B m <= hi).
  { revert HC. unfold Rmin, Rmax. destruct (Rle_dec A B); lra. }
  destruct (C139_between_grid_masses_pf bk li s b mn d grid qs i m A B N Hl Hn Eg Hg Eq Lq Hi Hm Hd HA HB HN) as [l [E1 E2]]; [lra|].
  exists l, (N / chord (nth i grid 0) A (nth (S i) grid 0) B m). split; [exact E1|]. split; [exact E2|]. split.
  - set (I := chord _ _ _ _ _) in *. split.
    + apply Rmult_le_reg_r with (hi * I); [nra|].
      replace (lo / hi * (hi * I)) with (lo * I) by (field; lra). replace (N / I * (hi * I)) with (N * hi) by (field; lra). nra.
    + apply Rmult_le_reg_r with (lo * I); [nra|].
      replace (hi / lo * (lo * I)) with (hi * I) by (field; lra). replace (N / I * (lo * I)) with (N * lo) by (field; lra). nra.
  - intros [->| ->].
    + rewrite chord_node0. rewrite HN in HA. injection HA as ->. field. lra.
    + rewrite chord_node1 by exact Hx. rewrite HN in HB. injection HB as ->. field. lra.
Qed.

Lemma C139_below_one_pf :
  forall bk interp s mmin delta_m (grid : list R) i m,
  linear_between interp -> sm_masses s = None ->
  sm_m1s s = map Fin grid -> strictly_increasing grid -> sm_qs s = [Fin (1 / 1000); Fin 1] ->
  (S i < List.length grid)%nat -> nth i grid 0 < m < nth (S i) grid 0 ->
  0 < mmin -> 0 < delta_m -> mmin + delta_m <= nth i grid 0 -> nth (S i) grid 0 < 1000 * mmin ->
  exists l r, snd (p_q bk interp [("mass_1"%string, [Fin m; Fin m]); ("mass_ratio"%string, sm_qs s)]
                   (Fin 0) (Fin mmin) (Fin delta_m) s) = Ok l /\
    trapezoid l (sm_qs s) = Fin r /\ 0 < r < 1.
Proof.
  intros bk li s mn d grid i m Hl Hn Eg Hg Eq Hi Hm Hmn Hd Ha Hb.
  pose proof wcst_pos as WP.
  assert (TT : forall y, mn + d <= y < 1000 * mn ->
     trapezoid (map (qd bk (Fin 0) (Fin mn) (Fin d) (Fin y)) (sm_qs s)) (sm_qs s) = Fin (999 / 2000 * wcst * (y / (y - mn)))).
  { intros y Hy. rewrite Eq. apply trap_two; lra. }
  pose proof (convex_norm (999 / 2000 * wcst) mn (nth i grid 0) (nth (S i) grid 0) m) as HC.
  specialize (HC ltac:(lra) Hmn ltac:(lra) Hm).
  set (N := 999 / 2000 * wcst * (m / (m - mn))) in *.
  assert (PN : 0 < N) by (unfold N; apply Rmult_lt_0_compat; [lra|apply Rdiv_lt_0_compat; lra]).
  destruct (pq_with_norm bk li s (Fin 0) (Fin mn) d [1 / 1000; 1] (Fin m) N
     (chord (nth i grid 0) (999 / 2000 * wcst * (nth i grid 0 / (nth i grid 0 - mn))) (nth (S i) grid 0)
        (999 / 2000 * wcst * (nth (S i) grid 0 / (nth (S i) grid 0 - mn))) m) Hn Eq ltac:(simpl; lia)) as [l [E1 E2]].
  - apply TT. lra.
  - apply li_norms; auto; try lra; apply TT; lra.
  - lra.
  - exists l. eexists. split; [rewrite <- E1, Eq; reflexivity|]. split; [exact E2|].
    set (I := chord _ _ _ _ _) in *. split; [apply Rdiv_lt_0_compat; lra|].
    apply Rmult_lt_reg_r with I; [lra|]. replace (N / I * I) with N by (field; lra). lra.
Qed.

