(** Proofs about [truncnorm]. *)
From Coq Require Import Reals Lra Lia Psatz String Bool.
From Coquelicot Require Import Coquelicot.
From Coq Require Import List.
From Verif Require Import Xf Py Xf_facts Py_facts Calc Special Gauss_facts Spec Utils_model Powerlaw_facts.
Import ListNotations.
Local Open Scope R_scope.

Lemma truncnorm_cases bk kw xx mu sigma high low :
  truncnorm bk kw xx mu sigma high low =
    if is_jax bk then Ok (truncnorm_body xx mu sigma high low)
    else if kw_in "sigma" kw && negb (fgt sigma (Fin 0)) then Err ValueError
    else Ok (truncnorm_body xx mu sigma high low).
Proof.
  unfold truncnorm, apply_conditions. destruct (is_jax bk); auto.
  unfold kwargs_of, truncnorm_conds. cbn [filter fst]. unfold kw_in.
  destruct (existsb (String.eqb "xx") kw), (existsb (String.eqb "mu") kw),
    (existsb (String.eqb "sigma") kw),
    (existsb (String.eqb "high") kw), (existsb (String.eqb "low") kw); simpl;
    destruct (fgt sigma (Fin 0)); reflexivity.
Qed.

Lemma truncnorm_ok bk kw xx mu sigma high low : 0 < sigma ->
  truncnorm bk kw xx mu (Fin sigma) high low = Ok (truncnorm_body xx mu (Fin sigma) high low).
Proof.
  intros Hs. rewrite truncnorm_cases. rewrite fgt_fin, Rltb_true by auto.
  rewrite andb_false_r. now destruct (is_jax bk).
Qed.

(** The documented value of the log normalisation. *)
Definition Zab (a b : R) : R := Phi b - Phi a.
Lemma Zab_pos a b : a < b -> 0 < Zab a b.
Proof. intros H; apply Phi_incr in H; unfold Zab; lra. Qed.

Lemma logsubexp_Phi a b : a < b ->
  logsubexp (flog_ndtr (Fin b)) (flog_ndtr (Fin a)) = Fin (ln (Zab a b)).
Proof.
  intros H. assert (Hz := Zab_pos _ _ H). unfold Zab in *.
  assert (Pa := Phi_gt_0 a). assert (Pb := Phi_gt_0 b).
  unfold logsubexp. unfold flog_ndtr. autorewrite with xf.
  assert (E : exp (ln (Phi a) - ln (Phi b)) = Phi a / Phi b).
  { unfold Rminus; rewrite exp_plus, exp_Ropp, !exp_ln by auto. reflexivity. }
  rewrite E.
  assert (0 < 1 - (Phi a / Phi b)).
  { apply (Rmult_lt_reg_r (Phi b)); auto. field_simplify; lra. }
  rewrite flog_fin by auto. autorewrite with xf. f_equal.
  rewrite <- ln_mult by auto. f_equal. field. lra.
Qed.

Lemma log_norm_eq a b : a < b -> truncnorm_log_norm (Fin a) (Fin b) = Fin (ln (Zab a b)).
Proof.
  intros H. unfold truncnorm_log_norm, fselect. rewrite fle_fin, !fgt_fin.
  destruct (Rleb_spec b 0).
  { now apply logsubexp_Phi. }
  destruct (Rltb_spec 0 a).
  { autorewrite with xf. rewrite logsubexp_Phi by lra. f_equal. f_equal. unfold Zab. rewrite !Phi_sym. ring. }
  rewrite Rltb_true by lra.
  unfold fndtr, flog1p. autorewrite with xf.
  assert (Hz := Zab_pos _ _ H). unfold Zab in *.
  replace (1 + (- Phi a - Phi (- b))) with (Phi b - Phi a) by (rewrite Phi_sym; ring).
  now rewrite flog_fin.
Qed.

Definition tnpdf (mu sigma high low x : R) : R :=
  gauss ((x - mu) / sigma) / sigma / Zab ((low - mu) / sigma) ((high - mu) / sigma).

Lemma div_lt a b s : 0 < s -> a < b -> a / s < b / s.
Proof. intros. unfold Rdiv. apply Rmult_lt_compat_r; auto. now apply Rinv_0_lt_compat. Qed.

Lemma tn_core mu sigma high low x : 0 < sigma -> low < high ->
  nan_to_num (fexp (fsub (fsub (fsub (fdiv (fopp (fsq (fdiv (fsub (Fin x) (Fin mu)) (Fin sigma)))) (Fin 2))
        (Fin (ln (2 * PI) / 2))) (flog (Fin sigma)))
     (truncnorm_log_norm (fdiv (fsub (Fin low) (Fin mu)) (Fin sigma)) (fdiv (fsub (Fin high) (Fin mu)) (Fin sigma)))))
  = Fin (tnpdf mu sigma high low x).
Proof.
  intros Hs Hlh. autorewrite with xf.
  rewrite !(fdiv_fin _ sigma) by lra. rewrite log_norm_eq by (apply div_lt; lra).
  assert (Hz := Zab_pos ((low - mu) / sigma) ((high - mu) / sigma) ltac:(apply div_lt; lra)).
  unfold tnpdf. set (Z := Zab _ _) in *.
  rewrite flog_fin by auto. autorewrite with xf. rewrite fdiv_fin by lra. autorewrite with xf. f_equal.
  unfold gauss, Rdiv, Rminus.
  set (zz := (x + - mu) * / sigma).
  assert (E : exp (- (zz * zz) * / 2 + - (ln (2 * PI) * / 2) + - ln sigma + - ln Z)
          = exp (- (zz * zz) * / 2) * (/ exp (ln (2 * PI) * / 2)) * / sigma * / Z).
  { rewrite !exp_plus, !exp_Ropp. rewrite !exp_ln by auto. ring. }
  rewrite E. f_equal. f_equal. f_equal. f_equal.
  replace (ln (2 * PI) * / 2) with (/ 2 * ln (2 * PI)) by ring.
  change (exp (/ 2 * ln (2 * PI))) with (Rpower (2 * PI) (/ 2)).
  apply Rpower_sqrt. assert (H := PI_RGT_0). lra.
Qed.

Lemma truncnorm_body_in mu sigma high low x : 0 < sigma -> low < high -> low <= x <= high ->
  truncnorm_body (Fin x) (Fin mu) (Fin sigma) (Fin high) (Fin low) = Fin (tnpdf mu sigma high low x).
Proof.
  intros Hs Hlh Hx. unfold truncnorm_body. rewrite tn_core by auto.
  rewrite fge_fin, fle_fin, !Rleb_true by lra. simpl. f_equal; ring.
Qed.

Lemma nan_to_num_fin x : exists r, nan_to_num x = Fin r.
Proof. destruct x; eexists; reflexivity. Qed.
Lemma nan_to_num_exp_fin x : exists r, nan_to_num (fexp x) = Fin r /\ 0 <= r.
Proof.
  destruct x; simpl; eexists; split; try reflexivity; try lra.
  - left; apply exp_pos.
  - left; apply MAXF_pos.
Qed.

Lemma truncnorm_body_out mu sigma high low x : x < low \/ high < x ->
  truncnorm_body (Fin x) mu sigma (Fin high) (Fin low) = Fin 0.
Proof.
  intros Ho. unfold truncnorm_body.
  destruct (nan_to_num_fin (fexp (fsub (fsub (fsub (fdiv (fopp (fsq (fdiv (fsub (Fin x) mu) sigma))) (Fin 2))
        (Fin (ln (2 * PI) / 2))) (flog sigma))
     (truncnorm_log_norm (fdiv (fsub (Fin low) mu) sigma) (fdiv (fsub (Fin high) mu) sigma))))) as [r ->].
  rewrite fge_fin, fle_fin.
  destruct Ho; [rewrite (Rleb_false low x) by lra | rewrite (Rleb_false x high) by lra].
  - destruct (Rleb x high); simpl; f_equal; ring.
  - destruct (Rleb low x); simpl; f_equal; ring.
Qed.

Lemma truncnorm_body_nonneg mu sigma high low x :
  exists r, truncnorm_body (Fin x) mu sigma high low = Fin r /\ 0 <= r.
Proof.
  unfold truncnorm_body.
  destruct (nan_to_num_exp_fin (fsub (fsub (fsub (fdiv (fopp (fsq (fdiv (fsub (Fin x) mu) sigma))) (Fin 2))
        (Fin (ln (2 * PI) / 2))) (flog sigma))
     (truncnorm_log_norm (fdiv (fsub low mu) sigma) (fdiv (fsub high mu) sigma)))) as [r [-> Hr]].
  destruct (fge (Fin x) low), (fle (Fin x) high); simpl; eexists; split; try reflexivity; nra.
Qed.

Lemma tnpdf_pos mu sigma high low x : 0 < sigma -> low < high -> 0 < tnpdf mu sigma high low x.
Proof.
  intros. unfold tnpdf. apply Rdiv_lt_0_compat; [apply Rdiv_lt_0_compat; auto; apply gauss_pos|].
  apply Zab_pos, div_lt; lra.
Qed.

Lemma tnpdf_int_gen mu sigma high low a b : 0 < sigma -> low < high ->
  is_RInt (tnpdf mu sigma high low) a b
    ((Phi ((b - mu) / sigma) - Phi ((a - mu) / sigma)) / Zab ((low - mu) / sigma) ((high - mu) / sigma)).
Proof.
  intros Hs Hlh. unfold tnpdf.
  assert (Hz := Zab_pos ((low - mu) / sigma) ((high - mu) / sigma) ltac:(apply div_lt; lra)).
  set (Z := Zab _ _) in *.
  apply (is_RInt_ext (fun x => (scal (/ sigma) (gauss (/ sigma * x + - mu / sigma))) * / Z)).
  { intros x _. unfold scal; simpl; unfold mult; simpl.
    replace (/ sigma * x + - mu / sigma) with ((x - mu) / sigma) by (field; lra). unfold Rdiv; ring. }
  apply is_RInt_scal_r.
  apply (is_RInt_comp_lin gauss).
  replace (/ sigma * a + - mu / sigma) with ((a - mu) / sigma) by (field; lra).
  replace (/ sigma * b + - mu / sigma) with ((b - mu) / sigma) by (field; lra).
  apply Phi_int.
Qed.

Lemma tnpdf_int mu sigma high low : 0 < sigma -> low < high ->
  is_RInt (tnpdf mu sigma high low) low high 1.
Proof.
  intros Hs Hlh. evar_last. apply tnpdf_int_gen; auto.
  assert (Hz := Zab_pos ((low - mu) / sigma) ((high - mu) / sigma) ltac:(apply div_lt; lra)).
  unfold Zab in *. field. lra.
Qed.

Lemma tnpdf_cont mu sigma high low x : 0 < sigma -> low < high -> continuous (tnpdf mu sigma high low) x.
Proof.
  intros Hs Hlh.
  assert (Hz := Zab_pos ((low - mu) / sigma) ((high - mu) / sigma) ltac:(apply div_lt; lra)).
  apply cont_of_deriv. unfold tnpdf, gauss. assert (H := s2pi_pos). set (Z := Zab _ _) in *.
  auto_derive. repeat split; lra.
Qed.

Lemma truncnorm_density bk kw mu sigma high low : 0 < sigma -> low < high ->
  let f := fun x => truncnorm bk kw (Fin x) (Fin mu) (Fin sigma) (Fin high) (Fin low) in
  positive_on f low high /\ integrates_to f low high 1 /\ zero_outside f (fun _ => True) low high.
Proof.
  intros Hs Hlh f. subst f; cbv beta. repeat split.
  - intros x Hx. exists (tnpdf mu sigma high low x); split; [|now apply tnpdf_pos].
    red. rewrite truncnorm_ok by auto. now rewrite truncnorm_body_in.
  - exists (tnpdf mu sigma high low); split; [|now apply tnpdf_int].
    intros x Hx. red. rewrite truncnorm_ok by auto. now rewrite truncnorm_body_in.
  - intros x Hx Ho. red. rewrite truncnorm_ok by auto. now rewrite truncnorm_body_out.
Qed.

(** Value everywhere, for [low < high]. *)
Definition tnval (mu sigma high low x : R) : R :=
  if Rleb low x && Rleb x high then tnpdf mu sigma high low x else 0.
Lemma truncnorm_body_val mu sigma high low x : 0 < sigma -> low < high ->
  truncnorm_body (Fin x) (Fin mu) (Fin sigma) (Fin high) (Fin low) = Fin (tnval mu sigma high low x).
Proof.
  intros Hs Hlh. unfold tnval. destruct (Rleb_spec low x), (Rleb_spec x high); simpl.
  - now apply truncnorm_body_in.
  - apply truncnorm_body_out; lra.
  - apply truncnorm_body_out; lra.
  - apply truncnorm_body_out; lra.
Qed.

Lemma truncnorm_shift bk kw c x mu sigma high low :
  truncnorm bk kw (Fin (x + c)) (Fin (mu + c)) (Fin sigma) (Fin (high + c)) (Fin (low + c))
  = truncnorm bk kw (Fin x) (Fin mu) (Fin sigma) (Fin high) (Fin low).
Proof.
  rewrite !truncnorm_cases.
  assert (E : truncnorm_body (Fin (x + c)) (Fin (mu + c)) (Fin sigma) (Fin (high + c)) (Fin (low + c))
     = truncnorm_body (Fin x) (Fin mu) (Fin sigma) (Fin high) (Fin low)); [|now rewrite E].
  unfold truncnorm_body. rewrite !fge_fin, !fle_fin.
  assert (F : forall y, fsub (Fin (y + c)) (Fin (mu + c)) = fsub (Fin y) (Fin mu)).
  { intros y. unfold fsub; simpl. f_equal; ring. }
  rewrite !F. f_equal. f_equal.
  - destruct (Rleb_spec (low + c) (x + c)), (Rleb_spec low x); auto; lra.
  - destruct (Rleb_spec (x + c) (high + c)), (Rleb_spec x high); auto; lra.
Qed.

Lemma tnpdf_scale s mu sigma high low x : 0 < s -> 0 < sigma -> low < high ->
  tnpdf (s * mu) (s * sigma) (s * high) (s * low) (s * x) = tnpdf mu sigma high low x / s.
Proof.
  intros Hs H H0. unfold tnpdf.
  assert (E : forall y, (s * y - s * mu) / (s * sigma) = (y - mu) / sigma) by (intros; field; lra).
  rewrite !E.
  assert (Hz := Zab_pos ((low - mu) / sigma) ((high - mu) / sigma) ltac:(apply div_lt; lra)).
  field. lra.
Qed.

Lemma tnpdf_reflect mu sigma high low x : 0 < sigma -> low < high ->
  tnpdf (- mu) sigma (- low) (- high) (- x) = tnpdf mu sigma high low x.
Proof.
  intros H H0. unfold tnpdf.
  assert (E : forall y, (- y - - mu) / sigma = - ((y - mu) / sigma)) by (intros; field; lra).
  rewrite !E, gauss_even. unfold Zab. rewrite !Phi_sym. f_equal. ring.
Qed.
