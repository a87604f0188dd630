(** Lemmas about the smoothing window and the smoothed mass models. *)
From Coq Require Import Reals Lra Lia Psatz String Bool.
From Coquelicot Require Import Coquelicot.
From Coq Require Import List.
From Verif Require Import Xf Py St Xf_facts Py_facts Calc Spec Utils_model Powerlaw_facts Trap_facts Np Np_facts
  Mass_model Smoothed_model.
Import ListNotations.
Local Open Scope R_scope.

(** ** The window *)
Definition clp (t : R) : R := if Rltb t (1 / 1000000) then 1 / 1000000 else if Rltb (1 - 1 / 1000000) t then 1 - 1 / 1000000 else t.
Definition swin (s : R) : R := / (1 + exp (/ s - / (1 - s))).
Definition sval (mn mx d m : R) : R := if Rleb mn m && Rleb m mx then swin (clp ((m - mn) / d)) else 0.

Lemma clp_bounds t : 1 / 1000000 <= clp t <= 1 - 1 / 1000000.
Proof. unfold clp. destruct (Rltb_spec t (1 / 1000000)), (Rltb_spec (1 - 1 / 1000000) t); lra. Qed.
Lemma clp_mono t u : t <= u -> clp t <= clp u.
Proof.
  intros H. unfold clp.
  destruct (Rltb_spec t (1 / 1000000)), (Rltb_spec (1 - 1 / 1000000) t), (Rltb_spec u (1 / 1000000)), (Rltb_spec (1 - 1 / 1000000) u); lra.
Qed.
Lemma clp_sym t : clp (1 - t) = 1 - clp t.
Proof.
  unfold clp.
  destruct (Rltb_spec t (1 / 1000000)), (Rltb_spec (1 - 1 / 1000000) t), (Rltb_spec (1 - t) (1 / 1000000)), (Rltb_spec (1 - 1 / 1000000) (1 - t)); lra.
Qed.
Lemma clp_hi t : 1 <= t -> clp t = 1 - 1 / 1000000.
Proof. intros H. unfold clp. rewrite Rltb_false, Rltb_true by lra. reflexivity. Qed.
Lemma swin_range s : 0 < swin s < 1.
Proof.
  unfold swin. assert (H := exp_pos (/ s - / (1 - s))). split.
  - apply Rinv_0_lt_compat; lra.
  - apply Rmult_lt_reg_r with (1 + exp (/ s - / (1 - s))); [lra|]. rewrite Rinv_l; lra.
Qed.
Lemma swin_mono s u : 0 < s -> s <= u -> u < 1 -> swin s <= swin u.
Proof.
  intros H0 H H1. unfold swin.
  assert (E : / u - / (1 - u) <= / s - / (1 - s)).
  { assert (/ u <= / s) by (apply Rinv_le_contravar; lra).
    assert (/ (1 - s) <= / (1 - u)) by (apply Rinv_le_contravar; lra). lra. }
  assert (P := exp_pos (/ u - / (1 - u))).
  apply Rinv_le_contravar; [lra|].
  destruct (Req_dec (/ u - / (1 - u)) (/ s - / (1 - s))) as [->|N]; [lra|].
  apply Rplus_le_compat_l. left. apply exp_increasing. lra.
Qed.
Lemma swin_sym s : swin s + swin (1 - s) = 1.
Proof.
  unfold swin. replace (/ (1 - s) - / (1 - (1 - s))) with (- (/ s - / (1 - s))) by (replace (1 - (1 - s)) with s by ring; ring).
  rewrite exp_Ropp. assert (P := exp_pos (/ s - / (1 - s))). field. lra.
Qed.
Lemma fclip_fin t : fclip (1 / 1000000) (1 - 1 / 1000000) (Fin t) = Fin (clp t).
Proof.
  unfold fclip, clp. destruct (Rltb t (1 / 1000000)); auto. destruct (Rltb (1 - 1 / 1000000) t); auto.
Qed.
Lemma window_body (s : R) : 0 < s < 1 ->
  fexpit (fopp (fsub (fdiv (Fin 1) (Fin s)) (fdiv (Fin 1) (fsub (Fin 1) (Fin s))))) = Fin (swin s).
Proof.
  intros H. rewrite fsub_fin, !fdiv_fin by lra. rewrite fsub_fin, fopp_fin, fexpit_fin. unfold swin.
  do 4 f_equal. field. lra.
Qed.
Lemma smoothing_val bk m mn mx d : 0 < d -> smoothing bk (Fin m) (Fin mn) (Fin mx) (Fin d) = Fin (sval mn mx d m).
Proof.
  intros H. unfold smoothing. rewrite fgt_fin, Rltb_true by auto. rewrite orb_true_r. cbv zeta.
  rewrite fsub_fin, fdiv_fin by lra. rewrite nan_to_num_Fin, fclip_fin.
  rewrite window_body by (destruct (clp_bounds ((m - mn) / d)); lra).
  rewrite fge_fin, fle_fin. unfold sval.
  destruct (Rleb mn m), (Rleb m mx); cbn [of_bool andb]; autorewrite with xf; f_equal; ring.
Qed.
(** Any mass, also infinite or NaN. *)
Lemma smoothing_range bk m mn mx d : exists r, smoothing bk m mn mx d = Fin r /\ 0 <= r <= 1.
Proof.
  unfold smoothing. destruct (is_jax bk || fgt d (Fin 0)); [|exists 1; split; [reflexivity|lra]]. cbv zeta.
  assert (H : exists t, nan_to_num (fdiv (fsub m mn) d) = Fin t) by (destruct (fdiv (fsub m mn) d); eexists; reflexivity).
  destruct H as [t ->]. rewrite fclip_fin, window_body by (destruct (clp_bounds t); lra).
  assert (W := swin_range (clp t)).
  destruct (fge m mn), (fle m mx); cbn [of_bool]; autorewrite with xf; eexists; (split; [reflexivity|lra]).
Qed.
Lemma smoothing_off bk m mn mx d : bk <> Jax -> d <= 0 -> smoothing bk m mn mx (Fin d) = Fin 1.
Proof.
  intros Hb H. unfold smoothing. rewrite fgt_fin, Rltb_false by auto. destruct bk; auto; congruence.
Qed.

(** ** Trapezoids *)
Lemma Rtrap_pos_one y x : length y = length x -> (2 <= length x)%nat -> strictly_increasing x ->
  Forall (fun v => 0 <= v) y -> Exists (fun v => 0 < v) y -> 0 < Rtrap y x.
Proof.
  revert x; induction y as [|y0 y IH]; intros [|x0 x] E L Hx H HE; simpl in E, L; try discriminate; [inversion HE|].
  destruct y as [|y1 y], x as [|x1 x]; simpl in E, L; try discriminate; try lia.
  inversion H as [|? ? Ha Hb]; subst. inversion Hb as [|? ? Hc Hd]; subst. destruct Hx as [H01 Hx].
  rewrite Rtrap_cons.
  assert (N : 0 <= Rtrap (y1 :: y) (x1 :: x)) by (apply Rtrap_nonneg; [simpl; lia|now apply si_increasing|auto]).
  assert (D : 0 < x1 - x0) by lra.
  inversion HE as [? ? Hp|? ? Hp]; subst.
  - assert (0 < (x1 - x0) * (y1 + y0)) by (apply Rmult_lt_0_compat; lra). lra.
  - destruct y as [|y2 y], x as [|x2 x]; simpl in E; try discriminate.
    + inversion Hp as [? ? Hq|? ? Hq]; subst; [|inversion Hq].
      assert (0 < (x1 - x0) * (y1 + y0)) by (apply Rmult_lt_0_compat; lra). lra.
    + assert (0 < Rtrap (y1 :: y2 :: y) (x1 :: x2 :: x)) by (apply IH; simpl; auto; lia).
      assert (0 <= (x1 - x0) * (y1 + y0)) by (apply Rmult_le_pos; lra). lra.
Qed.

Lemma mapM_ok_in {A B} (f : A -> result B) (g : A -> B) l :
  (forall a, In a l -> f a = Ok (g a)) -> mapM f l = Ok (map g l).
Proof.
  induction l as [|a l IH]; intros H; simpl; auto.
  rewrite H by now left. cbn [bind]. rewrite IH by (intros; apply H; now right). reflexivity.
Qed.

(** ** The mass ratio density *)
Definition qd (bk : backend) (beta mmin delta_m m q : xf) : xf :=
  fmul (powerlaw_body q beta (Fin 1) (fdiv mmin m)) (smoothing bk (fmul m q) mmin m delta_m).
Lemma q_density_ok bk beta mmin delta_m m q : q_density bk beta mmin delta_m m q = Ok (qd bk beta mmin delta_m m q).
Proof.
  unfold q_density. rewrite powerlaw_cases. change (kw_in "low" []) with false. change (kw_in "alpha" []) with false.
  cbn [andb]. destruct (is_jax bk); reflexivity.
Qed.
Definition qnorm (bk : backend) (qs : list xf) (beta mmin delta_m m : xf) : xf :=
  norm_or_one (trapezoid (map (qd bk beta mmin delta_m m) qs) qs) delta_m.
Lemma q_norms_ok bk s beta mmin delta_m :
  q_norms bk s beta mmin delta_m = Ok (map (qnorm bk (sm_qs s) beta mmin delta_m) (sm_m1s s)).
Proof.
  unfold q_norms. apply mapM_ok_in. intros m _. rewrite (mapM_ok_in _ (qd bk beta mmin delta_m m)).
  - reflexivity.
  - intros q _. apply q_density_ok.
Qed.
Lemma q_unnormalised_cases bk m1 q beta mmin delta_m :
  q_unnormalised bk m1 q beta mmin delta_m =
  match bcast2 (qd bk beta mmin delta_m) m1 q with Some l => Ok l | None => Err (shape_error bk) end.
Proof.
  unfold q_unnormalised, bcast, bcast2.
  assert (M : forall l, mapM (fun mq => q_density bk beta mmin delta_m (fst mq) (snd mq)) l
                = Ok (map (fun mq => qd bk beta mmin delta_m (fst mq) (snd mq)) l)).
  { intros l. apply mapM_ok_in. intros. apply q_density_ok. }
  destruct (Nat.eqb _ _); cbn [bind].
  - rewrite M. unfold zipWith. now rewrite map_map.
  - destruct m1 as [|m0 [|m1 ms]], q as [|q0 [|q1 q']]; cbn [bind]; rewrite ?M; auto;
      unfold zipWith; simpl; rewrite ?map_map; reflexivity.
Qed.

(** ** States that differ only in the cached masses *)
Definition set_masses (ms : option (list xf)) (s : smoothed) : smoothed :=
  {| sm_mmin := sm_mmin s; sm_mmax := sm_mmax s; sm_m1s := sm_m1s s; sm_qs := sm_qs s;
     sm_cache := sm_cache s; sm_masses := ms |}.
Lemma set_masses_same s : set_masses (sm_masses s) s = s.
Proof. now destruct s. Qed.
Lemma set_masses_twice a b s : set_masses a (set_masses b s) = set_masses a s.
Proof. reflexivity. Qed.

Section F.
  Context (bk : backend) (primary_model : dict xf -> xf -> result xf) (self_kwargs : xf -> dict xf)
          (linterp : list xf -> list xf -> xf -> xf).

  Lemma div_norm_masses pq beta mmin delta_m s ms :
    div_norm bk linterp pq beta mmin delta_m (set_masses (Some ms) s) =
    (set_masses (Some ms) s,
     bcast_into bk fdiv pq (map (linterp (sm_m1s s) (map (qnorm bk (sm_qs s) beta mmin delta_m) (sm_m1s s))) ms)).
  Proof.
    unfold div_norm, sbind, sget, slift, norm_p_q. rewrite q_norms_ok. reflexivity.
  Qed.
  Lemma div_norm_none pq beta mmin delta_m s :
    div_norm bk linterp pq beta mmin delta_m (set_masses None s) = (set_masses None s, Err AttributeError).
  Proof. unfold div_norm, sbind, sget, slift, norm_p_q. rewrite q_norms_ok. reflexivity. Qed.

  (** The norms at the masses [ms] (what the interpolant built for [ms] returns). *)
  Definition norms_at (s : smoothed) (beta mmin delta_m : xf) (ms : list xf) : list xf :=
    map (linterp (sm_m1s s) (map (qnorm bk (sm_qs s) beta mmin delta_m) (sm_m1s s))) ms.

  Lemma caught_shape : caught (shape_error bk) = true.
  Proof. unfold shape_error. destruct (is_jax bk); reflexivity. Qed.
  Lemma bcast_into_err {A B} (f : A -> B -> A) a b e : bcast_into bk f a b = Err e -> e = shape_error bk.
  Proof.
    unfold bcast_into, bcast. destruct (is_jax bk).
    - destruct (bcast2 f a b); congruence.
    - destruct (Nat.eqb _ _); [discriminate|]. destruct b as [|? [|? ?]]; congruence.
  Qed.

  (** [p_q] after the first two lookups succeed: which masses the norms are evaluated at, and the state left. *)
  Definition fresh_pq (s : smoothed) (pq : list xf) (beta mmin delta_m : xf) (m1 : list xf) : result (list xf) :=
    rmap (map nan_to_num) (bcast_into bk fdiv pq (norms_at s beta mmin delta_m m1)).
  Lemma p_q_cases ds beta mmin delta_m s m1 q pq :
    dget "mass_1" ds = Some m1 -> dget "mass_ratio" ds = Some q ->
    bcast2 (qd bk beta mmin delta_m) m1 q = Some pq ->
    p_q bk linterp ds beta mmin delta_m s =
    match (if sm_cache s then sm_masses s else None) with
    | Some ms => match bcast_into bk fdiv pq (norms_at s beta mmin delta_m ms) with
                 | Ok l => (s, Ok (map nan_to_num l))
                 | Err _ => (set_masses (Some m1) s, fresh_pq s pq beta mmin delta_m m1)
                 end
    | None => (set_masses (Some m1) s, fresh_pq s pq beta mmin delta_m m1)
    end.
  Proof.
    intros H1 H2 H3. unfold p_q, sbind at 1 2 3 4, slift, sget.
    rewrite (dlookup_ok _ _ _ H1), (dlookup_ok _ _ _ H2), q_unnormalised_cases, H3. cbn [bind].
    assert (C : forall s', (_ <~ cache_q_norms m1 ;; div_norm bk linterp pq beta mmin delta_m) s' =
              (set_masses (Some m1) s', bcast_into bk fdiv pq (norms_at s' beta mmin delta_m m1))).
    { intros s'. unfold sbind, cache_q_norms. change {| sm_mmin := _ |} with (set_masses (Some m1) s').
      apply div_norm_masses. }
    unfold sbind at 1. unfold fresh_pq. destruct (sm_cache s) eqn:Ec.
    - destruct (sm_masses s) as [ms|] eqn:Em.
      + rewrite <- (set_masses_same s), Em at 1. rewrite div_norm_masses.
        fold (norms_at s beta mmin delta_m ms).
        destruct (bcast_into bk fdiv pq (norms_at s beta mmin delta_m ms)) as [l|e] eqn:El.
        * rewrite <- Em, set_masses_same. reflexivity.
        * rewrite (bcast_into_err _ _ _ _ El), caught_shape, C.
          change (norms_at (set_masses (Some ms) s)) with (norms_at s). rewrite set_masses_twice.
          destruct (bcast_into bk fdiv pq (norms_at s beta mmin delta_m m1)); reflexivity.
      + rewrite <- (set_masses_same s), Em at 1. rewrite div_norm_none. cbn [caught]. rewrite C.
        change (norms_at (set_masses None s)) with (norms_at s). rewrite set_masses_twice.
        destruct (bcast_into bk fdiv pq (norms_at s beta mmin delta_m m1)); reflexivity.
    - rewrite C. destruct (bcast_into bk fdiv pq (norms_at s beta mmin delta_m m1)) as [l|e] eqn:El; [reflexivity|].
      rewrite (bcast_into_err _ _ _ _ El), caught_shape, C.
      change (norms_at (set_masses (Some m1) s)) with (norms_at s). rewrite set_masses_twice, El. now rewrite (bcast_into_err _ _ _ _ El).
  Qed.

  Lemma p_q_err ds beta mmin delta_m s :
    dget "mass_1" ds = None \/ dget "mass_ratio" ds = None \/
    (exists m1 q, dget "mass_1" ds = Some m1 /\ dget "mass_ratio" ds = Some q /\ bcast2 (qd bk beta mmin delta_m) m1 q = None) ->
    exists e, p_q bk linterp ds beta mmin delta_m s = (s, Err e) /\
      forall s', p_q bk linterp ds beta mmin delta_m s' = (s', Err e).
  Proof.
    intros H. unfold p_q, sbind at 1 2 3 4, slift, sget. unfold sbind at 3 4 5, sbind at 1.
    unfold dlookup. destruct (dget "mass_ratio" ds) as [q|] eqn:Eq; [|eexists; split; reflexivity].
    destruct (dget "mass_1" ds) as [m1|] eqn:Em; [|eexists; split; reflexivity].
    destruct H as [H|[H|[? [? [H1 [H2 H3]]]]]]; try discriminate.
    injection H1 as <-. injection H2 as <-. rewrite q_unnormalised_cases, H3. eexists; split; reflexivity.
  Qed.
End F.
