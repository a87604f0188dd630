(** Proofs about [von_mises], [unnormalized_2d_gaussian] and [apply_conditions]. *)
From Coq Require Import Reals Lra Lia Psatz String Bool.
From Coquelicot Require Import Coquelicot.
From Coq Require Import List.
From Verif Require Import Xf Py Xf_facts Py_facts Calc Special Gauss_facts Spec SpecU Utils_model Powerlaw_facts Truncnorm_facts.
Import ListNotations.
Local Open Scope R_scope.

(** ** Periodic functions *)
Lemma periodic_RInt (f : R -> R) T a b : (forall x, continuous f x) -> (forall x, f (x + T) = f x) ->
  RInt f a (a + T) = RInt f b (b + T).
Proof.
  intros Hc Hp.
  set (F := fun a => RInt f 0 (a + T) - RInt f 0 a).
  assert (E : forall a, RInt f a (a + T) = F a).
  { intros c. unfold F. apply is_RInt_unique.
    replace (RInt f 0 (c + T) - RInt f 0 c) with (- RInt f 0 c + RInt f 0 (c + T)) by ring.
    apply (is_RInt_Chasles f c 0 (c + T)).
    - apply @is_RInt_swap, (RInt_correct f), ex_RInt_cont, Hc.
    - apply (RInt_correct f), ex_RInt_cont, Hc. }
  rewrite !E.
  assert (D : forall x, is_derive F x 0).
  { intros x. unfold F.
    assert (D1 : forall y, is_derive (fun y => RInt f 0 y) y (f y)).
    { intros y. apply (is_derive_RInt f (fun y => RInt f 0 y) 0 y); auto.
      exists (mkposreal 1 Rlt_0_1). intros z _. apply (RInt_correct f), ex_RInt_cont, Hc. }
    evar_last. apply @is_derive_minus; [|apply D1].
    apply (is_derive_comp (fun y => RInt f 0 y) (fun a => a + T)); [apply D1|].
    auto_derive; auto.
    unfold minus, plus, opp, scal; simpl; unfold mult; simpl. rewrite Hp. ring. }
  destruct (Rtotal_order a b) as [H|[-> |H]]; auto.
  - apply (eq_is_derive F); auto.
  - symmetry; apply (eq_is_derive F); auto.
Qed.

Lemma ecos_cont k x : continuous (fun t => exp (k * cos t)) x.
Proof. apply cont_of_deriv. auto_derive; auto. Qed.

Lemma I0_pos k : 0 < I0 k.
Proof.
  unfold I0. assert (P := PI_RGT_0). apply Rdiv_lt_0_compat; auto.
  apply RInt_gt_0; auto; intros; [apply exp_pos|apply ecos_cont].
Qed.

Lemma ecos_int k mu a : is_RInt (fun x => exp (k * cos (x - mu))) a (a + 2 * PI) (2 * PI * I0 k).
Proof.
  assert (P := PI_RGT_0).
  set (f := fun t => exp (k * cos t)).
  assert (S : is_RInt f (a - mu) (a - mu + 2 * PI) (2 * PI * I0 k)).
  { replace (2 * PI * I0 k) with (RInt f (a - mu) (a - mu + 2 * PI)).
    { apply (RInt_correct f), ex_RInt_cont. intros; apply ecos_cont. }
    rewrite (periodic_RInt f (2 * PI) (a - mu) (- PI)).
    2:{ intros; apply ecos_cont. }
    2:{ intros x. unfold f. f_equal. f_equal.
        replace (x + 2 * PI) with (x + 2 * INR 1 * PI) by (simpl; ring). apply cos_period. }
    replace (- PI + 2 * PI) with PI by ring.
    apply is_RInt_unique.
    assert (H0 : is_RInt f 0 PI (PI * I0 k)).
    { unfold I0. change (fun t => exp (k * cos t)) with f.
      assert (EE : PI * (RInt f 0 PI / PI) = RInt f 0 PI) by (field; lra). rewrite EE.
      apply (RInt_correct f), ex_RInt_cont. intros; apply ecos_cont. }
    replace (2 * PI * I0 k) with (PI * I0 k + PI * I0 k) by ring.
    apply (is_RInt_Chasles f (- PI) 0 PI); auto.
    apply (is_RInt_ext (fun t => opp (scal (-1) (f (-1 * t + 0))))).
    { intros t _. unfold opp, scal; simpl; unfold mult; simpl. unfold f.
      replace (-1 * t + 0) with (- t) by ring. rewrite cos_neg. ring. }
    rewrite <- (opp_opp (PI * I0 k)). apply @is_RInt_opp. apply (is_RInt_comp_lin f (-1) 0 (- PI) 0).
    replace (-1 * - PI + 0) with PI by ring. replace (-1 * 0 + 0) with 0 by ring.
    apply @is_RInt_swap; auto. }
  apply (is_RInt_ext (fun x => scal 1 (f (1 * x + - mu)))).
  { intros t _. unfold scal; simpl; unfold mult; simpl. rewrite !Rmult_1_l. reflexivity. }
  apply (is_RInt_comp_lin f 1 (- mu)).
  rewrite !Rmult_1_l. replace (a + 2 * PI + - mu) with (a - mu + 2 * PI) by ring. exact S.
Qed.

Definition vmpdf (mu k x : R) : R :=
  exp (k * (cos (x - mu) - 1)) / (2 * PI * (exp (- Rabs k) * I0 k)).

Lemma vm_den_pos k : 0 < 2 * PI * (exp (- Rabs k) * I0 k).
Proof.
  assert (P := PI_RGT_0). assert (H := I0_pos k). assert (E := exp_pos (- Rabs k)).
  apply Rmult_lt_0_compat; [lra|]. now apply Rmult_lt_0_compat.
Qed.

Lemma von_mises_val x mu k : von_mises (Fin x) (Fin mu) (Fin k) = Fin (vmpdf mu k x).
Proof.
  unfold von_mises, fi0e. autorewrite with xf. rewrite fdiv_fin; auto.
  apply Rgt_not_eq, vm_den_pos.
Qed.

Lemma vmpdf_int mu k a : is_RInt (vmpdf mu k) a (a + 2 * PI) (exp (- k) / exp (- Rabs k)).
Proof.
  assert (P := PI_RGT_0). assert (H := I0_pos k). assert (E := exp_pos (- Rabs k)).
  apply (is_RInt_ext (fun x => exp (k * cos (x - mu)) * (exp (- k) / (2 * PI * (exp (- Rabs k) * I0 k))))).
  - intros x _. unfold vmpdf. replace (k * (cos (x - mu) - 1)) with (k * cos (x - mu) + - k) by ring.
    rewrite exp_plus. eqR. unfold Rdiv; ring.
  - evar_last. apply is_RInt_scal_r. apply ecos_int. field. repeat split; lra.
Qed.

Lemma vmpdf_pos mu k x : 0 < vmpdf mu k x.
Proof. unfold vmpdf. apply Rdiv_lt_0_compat; [apply exp_pos|apply vm_den_pos]. Qed.
Lemma vmpdf_periodic mu k x : vmpdf mu k (x + 2 * PI) = vmpdf mu k x.
Proof.
  unfold vmpdf. replace (x + 2 * PI - mu) with (x - mu + 2 * INR 1 * PI) by (simpl; ring).
  now rewrite cos_period.
Qed.
Lemma vmpdf_sym mu k d : vmpdf mu k (mu - d) = vmpdf mu k (mu + d).
Proof.
  unfold vmpdf. replace (mu - d - mu) with (- d) by ring. replace (mu + d - mu) with d by ring.
  now rewrite cos_neg.
Qed.
Lemma vmpdf_max mu k x : 0 <= k -> vmpdf mu k x <= vmpdf mu k mu.
Proof.
  intros Hk. unfold vmpdf. apply Rmult_le_compat_r.
  - left. apply Rinv_0_lt_compat, vm_den_pos.
  - apply exp_le_. replace (mu - mu) with 0 by ring. rewrite cos_0.
    assert (H := COS_bound (x - mu)). nra.
Qed.

(** ** unnormalized_2d_gaussian *)
Definition g2exponent (x y mx my sx sy rho den : R) : R :=
  - (((x - mx) / sx) ^ 2 + ((y - my) / sy) ^ 2 - 2 * rho * ((x - mx) / sx) * ((y - my) / sy)) / 2 / den.

Lemma g2_val x y mx my sx sy rho : 0 < sx -> 0 < sy -> rho <> 1 ->
  unnormalized_2d_gaussian (Fin x) (Fin y) (Fin mx) (Fin my) (Fin sx) (Fin sy) (Fin rho)
  = Fin (exp (g2exponent x y mx my sx sy rho (1 - rho))).
Proof.
  intros Hx Hy Hr. unfold unnormalized_2d_gaussian. autorewrite with xf.
  rewrite fdiv_fin by lra.
  rewrite fdiv_fin. 2:{ apply Rmult_integral_contrapositive; split; [|lra].
    apply Rmult_integral_contrapositive; split; apply Rmult_integral_contrapositive; split; lra. }
  autorewrite with xf. f_equal. f_equal. unfold g2exponent. field. repeat split; lra.
Qed.

(** ** apply_conditions *)
Lemma check_one_spec c v : (check_one c v = Ok tt /\ ~ violates c v) \/ (check_one c v = Err ValueError /\ violates c v).
Proof.
  destruct c as [f|[op|] val]; simpl.
  - destruct (f v).
    + left; split; [reflexivity|discriminate].
    + right; split; reflexivity.
  - destruct (forallb (fun w => op w val) v) eqn:E.
    + left; split; auto. rewrite forallb_forall in E. intros [w [H1 H2]]. rewrite E in H2; auto; discriminate.
    + right; split; auto. rewrite <- not_true_iff_false, forallb_forall in E.
      apply Classical_Prop.NNPP. intros N. apply E. intros w Hw.
      destruct (op w val) eqn:E2; auto. exfalso; apply N; eauto.
  - right; auto.
Qed.

Lemma check_conditions_spec conds kwargs :
  (check_conditions conds kwargs = Ok tt /\
     forall k c v, In (k, c) conds -> dget k kwargs = Some v -> ~ violates c v) \/
  (check_conditions conds kwargs = Err ValueError /\
     exists k c v, In (k, c) conds /\ dget k kwargs = Some v /\ violates c v).
Proof.
  induction conds as [|[k c] conds IH]; simpl.
  - left; split; auto.
  - destruct (dget k kwargs) as [v|] eqn:E.
    + destruct (check_one_spec c v) as [[-> H]|[-> H]]; simpl.
      * destruct IH as [[-> H2]|[-> [k2 [c2 [v2 [H2 H3]]]]]]; simpl.
        -- left; split; auto. intros k2 c2 v2 [H3|H3] H4.
           ++ injection H3 as -> ->. congruence.
           ++ eauto.
        -- right; split; auto. exists k2, c2, v2; auto.
      * right; split; auto. exists k, c, v; auto.
    + destruct IH as [[-> H2]|[-> [k2 [c2 [v2 [H2 H3]]]]]].
      * left; split; auto. intros k2 c2 v2 [H3|H3] H4.
        -- injection H3 as -> ->. congruence.
        -- eauto.
      * right; split; auto. exists k2, c2, v2; auto.
Qed.

Lemma quad_form u v rho : -1 < rho < 1 ->
  0 <= u ^ 2 + v ^ 2 - 2 * rho * u * v /\
  (u ^ 2 + v ^ 2 - 2 * rho * u * v = 0 -> u = 0 /\ v = 0).
Proof.
  intros Hr. assert (RR : 0 < 1 - rho * rho) by nra.
  assert (Q1 := pow2_ge_0 (u - rho * v)). assert (Q3 := pow2_ge_0 v).
  assert (Q2 : 0 <= (1 - rho * rho) * v ^ 2) by (apply Rmult_le_pos; lra).
  assert (E : u ^ 2 + v ^ 2 - 2 * rho * u * v = (u - rho * v) ^ 2 + (1 - rho * rho) * v ^ 2) by ring.
  split; [lra|]. intros Z. rewrite E in Z.
  assert (V : (1 - rho * rho) * v ^ 2 = 0) by lra.
  apply Rmult_integral in V. destruct V as [V|V]; [lra|].
  assert (V0 : v = 0). { simpl in V. apply Rmult_integral in V. destruct V; lra. }
  split; auto. subst v.
  assert (U : (u - rho * 0) ^ 2 = 0) by lra.
  replace (u - rho * 0) with u in U by ring. simpl in U. apply Rmult_integral in U. destruct U; lra.
Qed.
