(** Proofs of the property theorems stated in [Props_indep]. *)
From Coq Require Import Reals Lra Lia Psatz String Bool.
From Coquelicot Require Import Coquelicot.
From Coq Require Import List.
From Verif Require Import Xf Py Xf_facts Py_facts Calc Special Spec Utils_model Powerlaw_facts Mass_model Mass_facts mass_thms.
Import ListNotations.
Local Open Scope R_scope.

Lemma is_derive_RInt_pos (g : R -> R) a x : 0 < a -> 0 < x -> (forall y, 0 < y -> continuous g y) ->
  is_derive (fun u => RInt g a u) x (g x).
Proof.
  intros Ha Hx Hc. apply (is_derive_RInt (V := R_NormedModule) g (fun u => RInt g a u) a x); [|apply Hc; auto].
  exists (mkposreal x Hx). intros y Hy. change (Rabs (y - x) < x) in Hy.
  assert (Hy0 : 0 < y) by (apply Rabs_def2 in Hy; lra).
  apply (RInt_correct (V := R_CompleteNormedModule)). apply (ex_RInt_continuous (V := R_CompleteNormedModule)).
  intros z Hz. apply Hc. assert (0 < Rmin a y) by (apply Rmin_pos; auto). lra.
Qed.
Lemma RInt_pos_is (g : R -> R) a x : 0 < a -> 0 < x -> (forall y, 0 < y -> continuous g y) -> is_RInt g a x (RInt g a x).
Proof.
  intros Ha Hx Hc. apply (RInt_correct (V := R_CompleteNormedModule)). apply (ex_RInt_continuous (V := R_CompleteNormedModule)).
  intros z Hz. apply Hc. assert (0 < Rmin a x) by (apply Rmin_pos; auto). lra.
Qed.

(** One crossing from above orders the distribution functions. *)
Lemma crossing (f g : R -> R) a b c : 0 < a < b ->
  (forall y, 0 < y -> continuous f y) -> (forall y, 0 < y -> continuous g y) ->
  is_RInt f a b 1 -> is_RInt g a b 1 ->
  (forall y, 0 < y -> y < c -> f y < g y) -> (forall y, 0 < y -> c < y -> g y < f y) ->
  forall x, a < x < b -> RInt f a x < RInt g a x.
Proof.
  intros Hab Cf Cg If Ig Hl Hh x Hx.
  assert (Xf : forall u v, 0 < u -> 0 < v -> ex_RInt f u v) by (intros u v; exists (RInt f u v); now apply RInt_pos_is).
  assert (Xg : forall u v, 0 < u -> 0 < v -> ex_RInt g u v) by (intros u v; exists (RInt g u v); now apply RInt_pos_is).
  destruct (Rle_dec x c).
  - apply RInt_lt; try lra.
    + intros y Hy. apply Cg; lra.
    + intros y Hy. apply Cf; lra.
    + intros y Hy. apply Hl; lra.
  - assert (L : RInt g x b < RInt f x b).
    { apply RInt_lt; try lra.
      - intros y Hy. apply Cf; lra.
      - intros y Hy. apply Cg; lra.
      - intros y Hy. apply Hh; lra. }
    assert (E1 : RInt f a x + RInt f x b = RInt f a b) by (apply (RInt_Chasles f a x b); apply Xf; lra).
    assert (E2 : RInt g a x + RInt g x b = RInt g a b) by (apply (RInt_Chasles g a x b); apply Xg; lra).
    rewrite (is_RInt_unique (V := R_CompleteNormedModule) _ _ _ _ If) in E1.
    rewrite (is_RInt_unique (V := R_CompleteNormedModule) _ _ _ _ Ig) in E2.
    lra.
Qed.

Lemma plpdf_crossing al be lo hi : 0 < lo < hi -> al < be ->
  exists c, (forall y, 0 < y -> y < c -> plpdf (- al) hi lo y < plpdf (- be) hi lo y) /\
            (forall y, 0 < y -> c < y -> plpdf (- be) hi lo y < plpdf (- al) hi lo y).
Proof.
  intros H Hab. set (n := plnorm (- al) hi lo). set (m := plnorm (- be) hi lo).
  assert (Hn : 0 < n) by now apply plnorm_pos. assert (Hm : 0 < m) by now apply plnorm_pos.
  assert (Hr : 0 < m / n) by (apply Rdiv_lt_0_compat; auto).
  exists (Rpower (m / n) (/ (be - al))).
  assert (EQ : Rpower (Rpower (m / n) (/ (be - al))) (be - al) = m / n).
  { rewrite Rpower_mult. replace (/ (be - al) * (be - al)) with 1 by (field; lra). now apply Rpower_1. }
  assert (EV : forall y, Rpower y (- al) = Rpower y (- be) * Rpower y (be - al)).
  { intros y. rewrite <- Rpower_plus. f_equal. ring. }
  split; intros y Hy Hc; unfold plpdf; fold n m; rewrite EV; assert (P := Rpower_pos y (- be)).
  - assert (Q := Rpower_strict_incr y _ (be - al) (conj Hy Hc) ltac:(lra)). rewrite EQ in Q.
    apply (Rmult_lt_compat_r n) in Q; auto. replace (m / n * n) with m in Q by (field; lra). nra.
  - assert (Q := Rpower_strict_incr _ y (be - al) (conj (Rpower_pos _ _) Hc) ltac:(lra)). rewrite EQ in Q.
    apply (Rmult_lt_compat_r n) in Q; auto. replace (m / n * n) with m in Q by (field; lra). nra.
Qed.

Lemma half_square (f : R -> R) a b : 0 < a < b -> (forall y, 0 < y -> continuous f y) -> is_RInt f a b 1 ->
  is_RInt (fun x => 2 * f x * RInt f a x) a b 1.
Proof.
  intros Hab Cf If. evar_last.
  - apply (is_RInt_FTC (fun x => RInt f a x * RInt f a x)).
    + intros x Hx. rewrite Rmin_left, Rmax_right in Hx by lra.
      evar_last; [apply (is_derive_mult (fun x => RInt f a x) (fun x => RInt f a x)); [| |intros; apply Rmult_comm];
        apply is_derive_RInt_pos; auto; lra|]. unfold plus, mult; simpl. eqR. ring.
    + intros x Hx. rewrite Rmin_left, Rmax_right in Hx by lra.
      apply (continuous_mult (fun x => 2 * f x) (fun x => RInt f a x)).
      * apply (continuous_mult (fun _ => 2) f); [apply continuous_const|apply Cf; lra].
      * apply (ex_derive_continuous (V := R_NormedModule)). exists (f x). apply is_derive_RInt_pos; auto; lra.
  - cbv beta. rewrite (is_RInt_unique (V := R_CompleteNormedModule) _ _ _ _ If), RInt_point. unfold zero; simpl. eqR. ring.
Qed.

Lemma indep_more al be lo hi : 0 < lo < hi -> al < be ->
  exists v, 1 < v /\ is_RInt (fun x => 2 * plpdf (- al) hi lo x * RInt (plpdf (- be) hi lo) lo x) lo hi v.
Proof.
  intros H Hab. set (f := plpdf (- al) hi lo). set (g := plpdf (- be) hi lo).
  assert (Cf : forall y, 0 < y -> continuous f y) by (intros; now apply plpdf_continuous).
  assert (Cg : forall y, 0 < y -> continuous g y) by (intros; now apply plpdf_continuous).
  assert (If : is_RInt f lo hi 1) by now apply plpdf_int.
  assert (Ig : is_RInt g lo hi 1) by now apply plpdf_int.
  destruct (plpdf_crossing al be lo hi H Hab) as [c [C1 C2]].
  assert (D : forall x, lo < x < hi -> RInt f lo x < RInt g lo x) by (apply (crossing f g lo hi c); auto).
  assert (C3 : forall h : R -> R, (forall y, 0 < y -> continuous h y) -> forall x, 0 < x -> continuous (fun x => 2 * f x * RInt h lo x) x).
  { intros h Ch x Hx. apply (continuous_mult (fun x => 2 * f x) (fun x => RInt h lo x)).
    - apply (continuous_mult (fun _ => 2) f); [apply continuous_const|apply Cf; lra].
    - apply (ex_derive_continuous (V := R_NormedModule)). exists (h x). apply is_derive_RInt_pos; auto; lra. }
  exists (RInt (fun x => 2 * f x * RInt g lo x) lo hi). split.
  - rewrite <- (is_RInt_unique (V := R_CompleteNormedModule) _ _ _ _ (half_square f lo hi H Cf If)).
    apply RInt_lt; try lra.
    + intros x Hx. apply C3; auto; lra.
    + intros x Hx. apply C3; auto; lra.
    + intros x Hx. assert (P := plpdf_pos (- al) hi lo x H). fold f in P. specialize (D x Hx). nra.
  - apply RInt_pos_is; try lra. intros; now apply C3.
Qed.

Lemma indep_call bk al be lo hi x y : 0 < lo < hi -> 0 < x -> 0 < y ->
  power_law_primary_secondary_independent bk (Fin x) (Fin y) (Fin al) (Fin be) (Fin lo) (Fin hi)
  = Ok (Fin (psval (plval (- al) hi lo) (plval (- be) hi lo) x y)).
Proof.
  intros H Hx Hy. unfold power_law_primary_secondary_independent.
  rewrite !fopp_fin, !powerlaw_val by (auto using alpha_ok_pos). cbn [bind].
  now rewrite (ps_general (plval (- al) hi lo) (plval (- be) hi lo)).
Qed.

Lemma indep_of bk al be lo hi v : 0 < lo < hi ->
  is_RInt (fun x => 2 * plpdf (- al) hi lo x * RInt (plpdf (- be) hi lo) lo x) lo hi v ->
  integrates2_to (fun m1 m2 => power_law_primary_secondary_independent bk (Fin m1) (Fin m2) (Fin al) (Fin be) (Fin lo) (Fin hi))
    lo hi (fun _ => lo) (fun m1 => m1) v.
Proof.
  intros H Hv. apply (ps_integral (plval (- al) hi lo) (plval (- be) hi lo) _ lo hi (fun x => RInt (plpdf (- be) hi lo) lo x)); try lra.
  - intros x y Hx Hy. apply indep_call; lra.
  - intros x Hx. apply (is_RInt_ext_le (plpdf (- be) hi lo)); [lra| |].
    + intros y Hy. symmetry. apply plval_in; lra.
    + apply RInt_pos_is; try lra. intros; now apply plpdf_continuous.
  - revert Hv. apply is_RInt_ext_le; [lra|]. intros x Hx. rewrite plval_in by lra. reflexivity.
Qed.

Lemma C25_independent_normalisation_pf :
  forall bk alpha beta mmin mmax, 0 < mmin < mmax ->
  exists v,
    integrates2_to (fun m1 m2 => power_law_primary_secondary_independent bk (Fin m1) (Fin m2) (Fin alpha) (Fin beta)
                                   (Fin mmin) (Fin mmax)) mmin mmax (fun _ => mmin) (fun m1 => m1) v /\
    (alpha = beta <-> v = 1) /\ (alpha < beta <-> 1 < v) /\ (beta < alpha <-> v < 1).
Proof.
  intros bk al be lo hi H.
  destruct (Rtotal_order al be) as [L|[->|L]].
  - destruct (indep_more al be lo hi H L) as [v [Hv I]]. exists v. split; [now apply indep_of|].
    repeat split; lra.
  - exists 1. split; [|repeat split; lra]. apply indep_of; auto.
    apply half_square; auto; [intros; now apply plpdf_continuous|now apply plpdf_int].
  - destruct (indep_more be al lo hi H ltac:(lra)) as [v [Hv I]]. exists (2 - v). split; [|repeat split; lra].
    apply (C25_independent_swap_partial_pf bk be al lo hi v H). now apply indep_of.
Qed.

