(** Mean and variance of the Beta density. *)
From Coq Require Import Reals Lra Lia Psatz String Bool.
From Coquelicot Require Import Coquelicot.
From Coq Require Import List.
From Verif Require Import Xf Py Xf_facts Calc Special Gauss_facts Utils_model Powerlaw_facts Beta_facts.
Local Open Scope R_scope.

Lemma gen_ext_open (f g : R -> R) s l : 0 < s -> (forall t, 0 < t < s -> f t = g t) ->
  is_RInt_gen f (at_right 0) (at_left s) l -> is_RInt_gen g (at_right 0) (at_left s) l.
Proof.
  intros Hs H. apply is_RInt_gen_ext.
  exists (fun x => 0 < x < s) (fun y => 0 < y < s).
  - exists (mkposreal s Hs). intros y Hy H0. change (Rabs (y - 0) < s) in Hy.
    rewrite Rabs_pos_eq in Hy; lra.
  - exists (mkposreal s Hs). intros y Hy H0. change (Rabs (y - s) < s) in Hy.
    rewrite Rabs_left in Hy; lra.
  - intros x y Hx Hy t Ht. simpl in Ht. apply H. split.
    + apply Rlt_trans with (Rmin x y); [apply Rmin_glb_lt; lra|lra].
    + apply Rlt_trans with (Rmax x y); [lra|apply Rmax_lub_lt; lra].
Qed.

Lemma gen_plus (f g : R -> R) s l m :
  is_RInt_gen f (at_right 0) (at_left s) l -> is_RInt_gen g (at_right 0) (at_left s) m ->
  is_RInt_gen (fun x => f x + g x) (at_right 0) (at_left s) (l + m).
Proof. intros H1 H2. exact (@is_RInt_gen_plus R_NormedModule (at_right 0) (at_left s) _ _ f g l m H1 H2). Qed.

Lemma Rpower_le1 t p : 0 < t < 1 -> 0 <= p -> Rpower t p <= 1.
Proof.
  intros Ht Hp. unfold Rpower. apply Rle_trans with (exp 0); [|rewrite exp_0; lra].
  apply exp_le_. assert (ln t < 0) by (rewrite <- ln_1; apply ln_increasing; lra). nra.
Qed.

Definition F (a b t : R) := Rpower t a * Rpower (1 - t) b.

Lemma F_small a b eps : 0 < a -> 0 < b -> 0 < eps ->
  exists d, 0 < d < 1 /\ forall t, 0 < t < d -> 0 < F a b t < eps.
Proof.
  intros Ha Hb He. set (e1 := Rmin eps (1/2)).
  assert (He1 : 0 < e1 <= 1/2 /\ e1 <= eps).
  { unfold e1. split; [split|]. apply Rmin_glb_lt; lra. apply Rmin_r. apply Rmin_l. }
  exists (Rpower e1 (/ a)). assert (Ia : 0 < / a) by now apply Rinv_0_lt_compat.
  split.
  { split; [apply Rpower_pos|]. unfold Rpower. apply Rlt_le_trans with (exp 0); [|rewrite exp_0; lra].
    apply exp_increasing. assert (ln e1 < 0) by (rewrite <- ln_1; apply ln_increasing; lra). nra. }
  intros t Ht. split; [apply Rmult_lt_0_compat; apply Rpower_pos|].
  assert (T1 : t < 1).
  { apply Rlt_trans with (Rpower e1 (/ a)); [lra|].
    unfold Rpower. apply Rlt_le_trans with (exp 0); [|rewrite exp_0; lra].
    apply exp_increasing. assert (ln e1 < 0) by (rewrite <- ln_1; apply ln_increasing; lra). nra. }
  assert (A : Rpower t a < e1).
  { replace e1 with (Rpower (Rpower e1 (/ a)) a).
    2:{ rewrite Rpower_mult, Rinv_l, Rpower_1 by lra. auto. }
    unfold Rpower at 1 2. apply exp_increasing. apply Rmult_lt_compat_l; auto. apply ln_increasing; lra. }
  assert (B : Rpower (1 - t) b <= 1) by (apply Rpower_le1; lra).
  assert (0 < Rpower t a) by apply Rpower_pos. unfold F.
  apply Rle_lt_trans with (Rpower t a * 1); [apply Rmult_le_compat_l; lra|]. lra.
Qed.

Lemma F_refl a b t : F a b (1 - t) = F b a t.
Proof. unfold F. replace (1 - (1 - t)) with t by ring. ring. Qed.

Lemma F_deriv a b t : 0 < t < 1 ->
  is_derive (F a b) t (a * Beta_integrand a (b + 1) t - b * Beta_integrand (a + 1) b t).
Proof.
  intros Ht. unfold F, Beta_integrand. evar_last.
  { apply (is_derive_mult (fun t => Rpower t a) (fun t => Rpower (1 - t) b)).
    - apply is_derive_Rpower. lra.
    - apply (is_derive_comp (fun u => Rpower u b) (fun t => 1 - t)).
      + apply is_derive_Rpower. lra.
      + auto_derive; auto.
    - intros; apply Rmult_comm. }
  unfold plus, mult, scal; simpl; unfold mult; simpl.
  replace (b + 1 - 1) with b by ring. replace (a + 1 - 1) with a by ring. eqR. ring.
Qed.

Lemma F_int a b : 0 < a -> 0 < b ->
  is_RInt_gen (fun t => a * Beta_integrand a (b + 1) t - b * Beta_integrand (a + 1) b t) (at_right 0) (at_left 1) 0.
Proof.
  intros Ha Hb P [eps HP].
  assert (He2 : 0 < eps / 2) by (destruct eps; simpl; lra).
  destruct (F_small a b _ Ha Hb He2) as [d1 [Hd1 H1]].
  destruct (F_small b a _ Hb Ha He2) as [d2 [Hd2 H2]].
  exists (fun x => 0 < x < d1) (fun y => 0 < 1 - y < d2).
  - exists (mkposreal d1 (proj1 Hd1)). intros y Hy H0. change (Rabs (y - 0) < d1) in Hy.
    rewrite Rabs_pos_eq in Hy; lra.
  - exists (mkposreal d2 (proj1 Hd2)). intros y Hy H0. change (Rabs (y - 1) < d2) in Hy.
    rewrite Rabs_left in Hy; lra.
  - intros x y Hx Hy. simpl. exists (F a b y - F a b x). split.
    + apply (is_RInt_derive (F a b) _ x y).
      * intros t Ht. apply F_deriv. 
        assert (0 < Rmin x y) by (apply Rmin_glb_lt; lra). assert (Rmax x y < 1) by (apply Rmax_lub_lt; lra). lra.
      * intros t Ht.
        assert (0 < Rmin x y) by (apply Rmin_glb_lt; lra). assert (Rmax x y < 1) by (apply Rmax_lub_lt; lra).
        apply (continuous_minus (fun t => a * Beta_integrand a (b + 1) t) (fun t => b * Beta_integrand (a + 1) b t)).
        -- apply (continuous_scal_r a (Beta_integrand a (b + 1))). apply Beta_integrand_cont; lra.
        -- apply (continuous_scal_r b (Beta_integrand (a + 1) b)). apply Beta_integrand_cont; lra.
    + apply HP. change (Rabs (F a b y - F a b x - 0) < eps). rewrite Rminus_0_r.
      specialize (H1 x Hx). specialize (H2 (1 - y) Hy). rewrite F_refl in H2.
      apply Rabs_def1; lra.
Qed.

Lemma Beta_rec a b : 0 < a -> 0 < b -> Beta_fun (a + 1) b = a / (a + b) * Beta_fun a b.
Proof.
  intros Ha Hb.
  destruct (Beta_exists a b Ha Hb) as [P0 I0].
  destruct (Beta_exists (a + 1) b) as [P1 I1]; try lra.
  destruct (Beta_exists a (b + 1)) as [P2 I2]; try lra.
  assert (S : Beta_fun (a + 1) b + Beta_fun a (b + 1) = Beta_fun a b).
  { assert (I := gen_plus _ _ _ _ _ I1 I2).
    apply (gen_ext_open _ (Beta_integrand a b)) in I; [|lra|].
    - rewrite <- (is_RInt_gen_unique _ _ I), <- (is_RInt_gen_unique _ _ I0). reflexivity.
    - intros t Ht. unfold Beta_integrand.
      replace (a + 1 - 1) with ((a - 1) + 1) by ring. replace (b + 1 - 1) with ((b - 1) + 1) by ring.
      rewrite !Rpower_plus, !Rpower_1 by lra. eqR. ring. }
  assert (D : a * Beta_fun a (b + 1) - b * Beta_fun (a + 1) b = 0).
  { assert (J := is_RInt_gen_scal_r _ _ _ a _ I2). assert (J' := is_RInt_gen_scal_r _ _ _ (- b) _ I1).
    assert (I := gen_plus _ _ _ _ _ J J'). assert (Z := F_int a b Ha Hb).
    apply (gen_ext_open _ (fun t => a * Beta_integrand a (b + 1) t - b * Beta_integrand (a + 1) b t)) in I; [|lra|intros; eqR; ring].
    rewrite <- (is_RInt_gen_unique _ _ Z). rewrite (is_RInt_gen_unique _ _ I). ring. }
  apply (Rmult_eq_reg_l (a + b)); [|lra]. replace ((a + b) * (a / (a + b) * Beta_fun a b)) with (a * Beta_fun a b) by (field; lra).
  rewrite <- S. lra.
Qed.

(** Moments of the model's density. *)
Lemma bpdf_shift a b s x : 0 < a -> 0 < b -> 0 < s -> 0 < x < s ->
  x * bpdf a b s x = bpdf (a + 1) b s x * (a / (a + b) * s).
Proof.
  intros Ha Hb Hs Hx. destruct (Beta_exists a b Ha Hb) as [P0 _].
  unfold bpdf. rewrite Beta_rec by auto.
  replace (a + 1 - 1) with ((a - 1) + 1) by ring. replace (a + 1 + b - 1) with ((a + b - 1) + 1) by ring.
  rewrite !Rpower_plus, !Rpower_1 by lra. field. repeat split; try lra; apply Rpower_neq0.
Qed.

Definition bmean (a b s : R) := a / (a + b) * s.
Definition bvar (a b s : R) := a * b / ((a + b) * (a + b) * (a + b + 1)) * (s * s).

Lemma bpdf_mean a b s : 0 < a -> 0 < b -> 0 < s ->
  is_RInt_gen (fun x => x * bpdf a b s x) (at_right 0) (at_left s) (bmean a b s).
Proof.
  intros Ha Hb Hs.
  assert (I : is_RInt_gen (bpdf (a + 1) b s) (at_right 0) (at_left s) 1) by (apply bpdf_int; lra).
  apply (is_RInt_gen_scal_r _ _ _ (a / (a + b) * s)) in I. rewrite Rmult_1_l in I.
  revert I. apply gen_ext_open; auto. intros t Ht. now rewrite bpdf_shift.
Qed.
Lemma bpdf_second a b s : 0 < a -> 0 < b -> 0 < s ->
  is_RInt_gen (fun x => x * x * bpdf a b s x) (at_right 0) (at_left s) (bmean (a + 1) b s * bmean a b s).
Proof.
  intros Ha Hb Hs.
  assert (I := bpdf_mean (a + 1) b s ltac:(lra) Hb Hs).
  apply (is_RInt_gen_scal_r _ _ _ (bmean a b s)) in I.
  revert I. apply gen_ext_open; auto. intros t Ht.
  rewrite (Rmult_assoc t t), (bpdf_shift a b s t) by auto. unfold bmean. ring.
Qed.
Lemma bpdf_var a b s : 0 < a -> 0 < b -> 0 < s ->
  is_RInt_gen (fun x => (x - bmean a b s) * (x - bmean a b s) * bpdf a b s x) (at_right 0) (at_left s) (bvar a b s).
Proof.
  intros Ha Hb Hs. set (m := bmean a b s).
  assert (I2 := bpdf_second a b s Ha Hb Hs). assert (I1 := bpdf_mean a b s Ha Hb Hs).
  assert (I0 := bpdf_int a b s Ha Hb Hs).
  apply (is_RInt_gen_scal_r _ _ _ (- 2 * m)) in I1. apply (is_RInt_gen_scal_r _ _ _ (m * m)) in I0.
  assert (I := gen_plus _ _ _ _ _ (gen_plus _ _ _ _ _ I2 I1) I0).
  apply (gen_ext_open _ (fun x => (x - m) * (x - m) * bpdf a b s x)) in I; auto.
  2:{ intros t _. eqR. ring. }
  evar_last. exact I. fold m. eqR. unfold m, bmean, bvar. field. lra.
Qed.
