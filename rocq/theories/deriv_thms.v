(** Proofs of the property theorems stated in [Props_deriv]. *)
From Coq Require Import Reals Lra Lia Psatz String Bool.
From Coquelicot Require Import Coquelicot.
From Coq Require Import List.
From Verif Require Import Xf Py Xf_facts Py_facts Calc Spec Special Gauss_facts Utils_model Powerlaw_facts Truncnorm_facts Trap_facts Np Np_facts Utils_facts
  Vt_model vt_thms Hyperpe_model SpecHyper hypera_thms SpecInvar invar_thms SpecCont cont_thms contl_thms SpecDeriv.
Import ListNotations.
Local Open Scope R_scope.

Lemma c2_slice f x y : continuity_2d_pt f x y -> continuity_pt (f x) y.
Proof.
  intros H e He. destruct (H (mkposreal e He)) as [d Hd]. exists d. split; [apply cond_pos|].
  intros z [_ Hz]. unfold R_met, dist in *. simpl in *. unfold R_dist in *. apply Hd; [|exact Hz].
  replace (x - x) with 0 by ring. rewrite Rabs_R0. apply cond_pos.
Qed.
Lemma loc2 (D T : R -> Prop) x t : locally x D -> locally t T -> locally_2d (fun u v => D u /\ T v) x t.
Proof.
  intros [e He] [d Hd]. assert (P : 0 < Rmin e d) by (apply Rmin_pos; apply cond_pos).
  exists (mkposreal _ P). intros u v Hu Hv. simpl in *. split.
  - apply He. apply Rlt_le_trans with (1 := Hu). apply Rmin_l.
  - apply Hd. apply Rlt_le_trans with (1 := Hv). apply Rmin_r.
Qed.

Section Family.
  Variables (g dg : R -> R -> R) (lo hi : R) (D T : R -> Prop) (x0 : R).
  Hypothesis Hlh : lo < hi.
  Hypothesis HT : forall t, lo <= t <= hi -> locally t T.
  Hypothesis HD : locally x0 D.
  Hypothesis Hder : forall x t, D x -> T t -> is_derive (fun u => g u t) x (dg x t).
  Hypothesis Cg : forall x t, D x -> T t -> continuity_2d_pt g x t.
  Hypothesis Cdg : forall x t, D x -> T t -> continuity_2d_pt dg x t.

  Let f x t := exp (g x t).
  Lemma f_der x t : D x -> T t -> is_derive (fun u => f u t) x (dg x t * f x t).
  Proof. intros Dx Tt. unfold f. evar_last. apply is_derive_comp; [apply is_derive_exp|now apply Hder]. reflexivity. Qed.
  Lemma f_cont x t : D x -> T t -> continuous (f x) t.
  Proof.
    intros Dx Tt. unfold f. apply continuous_comp; [apply continuity_pt_filterlim, c2_slice; now apply Cg|].
    apply continuity_pt_filterlim, derivable_continuous_pt, derivable_pt_exp.
  Qed.
  Lemma T_in t : lo <= t <= hi -> T t.
  Proof. intros H. exact (locally_singleton t T (HT t H)). Qed.
  Lemma f_int x : D x -> ex_RInt (f x) lo hi.
  Proof.
    intros Dx. apply (ex_RInt_continuous (V := R_CompleteNormedModule)). intros t Ht. rewrite Rmin_left, Rmax_right in Ht by lra.
    apply f_cont; auto. now apply T_in.
  Qed.
  Let Z x := RInt (f x) lo hi.
  Lemma Z_pos x : D x -> 0 < Z x.
  Proof.
    intros Dx. apply RInt_gt_0; [exact Hlh|intros; apply exp_pos|]. intros t Ht. apply f_cont; auto. now apply T_in.
  Qed.
  Lemma Z_der : is_derive Z x0 (RInt (fun t => dg x0 t * f x0 t) lo hi).
  Proof.
    assert (D0 : D x0) by exact (locally_singleton x0 D HD).
    unfold Z. replace (RInt (fun t => dg x0 t * f x0 t) lo hi) with (RInt (fun t => Derive (fun u => f u t) x0) lo hi).
    - apply is_derive_RInt_param.
      + eapply filter_imp; [|exact HD]. intros x Dx t Ht. rewrite Rmin_left, Rmax_right in Ht by lra. eexists. apply f_der; auto. now apply T_in.
      + intros t Ht. rewrite Rmin_left, Rmax_right in Ht by lra. apply (continuity_2d_pt_ext_loc (fun u v => dg u v * f u v)).
        * destruct (loc2 D T x0 t HD (HT t Ht)) as [e He]. exists e. intros u v Hu Hv. destruct (He u v Hu Hv) as [A B]. symmetry. now apply is_derive_unique, f_der.
        * apply continuity_2d_pt_mult; [apply Cdg; auto; now apply T_in|].
          apply (continuity_1d_2d_pt_comp exp g); [apply derivable_continuous_pt, derivable_pt_exp|apply Cg; auto; now apply T_in].
      + eapply filter_imp; [|exact HD]. intros x Dx. now apply f_int.
    - apply RInt_ext. intros t Ht. rewrite Rmin_left, Rmax_right in Ht by lra. apply is_derive_unique, f_der; auto. apply T_in; lra.
  Qed.
  Lemma dgf_int : ex_RInt (fun t => dg x0 t * f x0 t) lo hi.
  Proof.
    assert (D0 : D x0) by exact (locally_singleton x0 D HD).
    apply (ex_RInt_continuous (V := R_CompleteNormedModule)). intros t Ht. rewrite Rmin_left, Rmax_right in Ht by lra.
    apply (continuous_mult (dg x0) (f x0)); [apply continuity_pt_filterlim, c2_slice, Cdg; auto; now apply T_in|apply f_cont; auto; now apply T_in].
  Qed.

  Lemma family_score (p : R -> R -> R) x : lo <= x <= hi ->
    (forall a, D a -> (exists c, forall y, lo <= y <= hi -> p a y = f a y * c) /\ is_RInt (p a) lo hi 1) ->
    exists m, is_RInt (fun y => dg x0 y * p x0 y) lo hi m /\ is_derive (fun a => p a x) x0 (p x0 x * (dg x0 x - m)).
  Proof.
    intros Hx Hp. assert (D0 : D x0) by exact (locally_singleton x0 D HD).
    assert (E : forall a y, D a -> lo <= y <= hi -> p a y = f a y / Z a).
    { intros a y Da Hy. destruct (Hp a Da) as [[c Hc] I]. rewrite Hc by auto.
      assert (J : is_RInt (p a) lo hi (Z a * c)).
      { apply (is_RInt_ext (fun t => f a t * c)); [intros t Ht; rewrite Rmin_left, Rmax_right in Ht by lra; symmetry; apply Hc; lra|].
        apply (is_RInt_ext (fun t => c * f a t)); [intros; apply Rmult_comm|]. evar_last. apply (is_RInt_scal (V := R_NormedModule) (f a) lo hi c). exact (RInt_correct (V := R_CompleteNormedModule) (f a) lo hi (f_int a Da)).
        unfold scal; simpl; unfold mult; simpl. fold (Z a). ring. }
      assert (K := is_RInt_unique _ _ _ _ I). rewrite (is_RInt_unique _ _ _ _ J) in K. assert (P := Z_pos a Da).
      replace c with (/ Z a); [reflexivity|]. apply (Rmult_eq_reg_l (Z a)); [|lra]. rewrite Rinv_r by lra. lra. }
    assert (P0 := Z_pos x0 D0).
    exists (RInt (fun t => dg x0 t * f x0 t) lo hi / Z x0). split.
    - apply (is_RInt_ext (fun t => / Z x0 * (dg x0 t * f x0 t))).
      { intros t Ht. rewrite Rmin_left, Rmax_right in Ht by lra. rewrite (E x0 t) by (auto; lra). unfold Rdiv. match goal with |- @eq _ ?a ?b => change (@eq R a b) end. ring. }
      evar_last. apply (is_RInt_scal (V := R_NormedModule) (fun t => dg x0 t * f x0 t) lo hi (/ Z x0)). exact (RInt_correct (V := R_CompleteNormedModule) _ lo hi dgf_int). unfold scal; simpl; unfold mult; simpl. unfold Rdiv. ring.
    - apply (is_derive_ext_loc (fun a => f a x / Z a)).
      { eapply filter_imp; [|exact HD]. intros a Da. symmetry. now apply E. }
      evar_last. apply is_derive_div; [apply f_der; auto; now apply T_in|exact Z_der|lra].
      rewrite (E x0 x) by auto. field. lra.
  Qed.
End Family.

Lemma c2_id1 x t : continuity_2d_pt (fun u _ => u) x t.
Proof. apply continuity_2d_pt_id1. Qed.
Lemma c2_of1 h x t : continuity_pt h t -> continuity_2d_pt (fun _ v => h v) x t.
Proof. intros H. apply (continuity_1d_2d_pt_comp h (fun _ v => v)); [exact H|apply continuity_2d_pt_id2]. Qed.
Lemma c2_of0 h x t : continuity_pt h x -> continuity_2d_pt (fun u _ => h u) x t.
Proof. intros H. apply (continuity_1d_2d_pt_comp h (fun u _ => u)); [exact H|apply continuity_2d_pt_id1]. Qed.
Lemma ex_cont (k : R -> R) u : ex_derive k u -> continuity_pt k u.
Proof. intros H. apply continuity_pt_filterlim. now apply (ex_derive_continuous (V := R_NormedModule)). Qed.
Lemma ln_cont t : 0 < t -> continuity_pt ln t.
Proof. intros H. apply derivable_continuous_pt. exists (/ t). now apply derivable_pt_lim_ln. Qed.
Lemma loc_pos t : 0 < t -> locally t (fun y => 0 < y).
Proof. intros H. apply open_gt, H. Qed.

Lemma C142_powerlaw_pf :
  forall bk kw alpha high low x, 0 < low < high -> low <= x <= high -> bk = Jax \/ ~ In "alpha"%string kw \/ alpha <> 1 ->
  let density := fun a y => powerlaw bk kw (Fin y) (Fin a) (Fin high) (Fin low) in
  exists p score, returns (density alpha x) p /\ centred_score (density alpha) ln low high x score /\ derivative_of_call (fun a => density a x) alpha (p * score).
Proof.
  intros bk kw al h l x Hl Hx Ha density.
  assert (Op : locally al (fun a => alpha_ok bk kw a)).
  { destruct Ha as [J|[J|J]]; [apply filter_forall; intros; now left|apply filter_forall; intros; now (right; left)|].
    eapply filter_imp; [intros a H; right; right; exact H|]. apply open_neq, J. }
  destruct (family_score (fun a t => a * ln t) (fun _ t => ln t) l h (fun _ => True) (fun t => 0 < t) al) with (p := fun a y => plpdf a h l y) (x := x) as (m & M1 & M2).
  - lra.
  - intros t Ht. apply loc_pos; lra.
  - apply filter_forall; auto.
  - intros a t _ _. auto_derive; auto. ring.
  - intros a t _ Ht. apply continuity_2d_pt_mult; [apply c2_id1|apply c2_of1, ln_cont, Ht].
  - intros a t _ Ht. apply c2_of1, ln_cont, Ht.
  - lra.
  - intros a _. split; [exists (plnorm a h l); intros y Hy; reflexivity|now apply plpdf_int].
  - exists (plpdf al h l x), (ln x - m). split; [|split].
    + unfold density, returns. rewrite powerlaw_ok by (try lra; exact (locally_singleton _ _ Op)). now rewrite powerlaw_body_in by lra.
    + exists (plpdf al h l), m. split; [|split; [exact M1|reflexivity]].
      intros y Hy. unfold density, returns. rewrite powerlaw_ok by (try lra; exact (locally_singleton _ _ Op)). now rewrite powerlaw_body_in by lra.
    + exists (fun a => plpdf a h l x). split; [|exact M2]. eapply filter_imp; [|exact Op]. intros a Oa. unfold density, returns.
      rewrite powerlaw_ok by (try lra; auto). now rewrite powerlaw_body_in by lra.
Qed.

Lemma tn_exp mu s h l : 0 < s -> l < h -> exists c, forall y, tnpdf mu s h l y = exp (- ((y - mu) * (y - mu)) / (2 * (s * s))) * c.
Proof.
  intros Hs Hl. exists (/ sqrt (2 * PI) / s / Zab ((l - mu) / s) ((h - mu) / s)). intros z. unfold tnpdf, gauss.
  replace (- ((z - mu) / s * ((z - mu) / s)) / 2) with (- ((z - mu) * (z - mu)) / (2 * (s * s))) by (field; lra). unfold Rdiv. ring.
Qed.
Lemma C142_truncnorm_mean_pf :
  forall bk kw mu sigma high low x, 0 < sigma -> low <= x <= high -> low < high ->
  let density := fun m y => truncnorm bk kw (Fin y) (Fin m) (Fin sigma) (Fin high) (Fin low) in
  exists p score, returns (density mu x) p /\ centred_score (density mu) (fun y => (y - mu) / (sigma * sigma)) low high x score /\
    derivative_of_call (fun m => density m x) mu (p * score).
Proof.
  intros bk kw mu s h l x Hs Hx Hl density.
  assert (V : forall m y, l <= y <= h -> returns (density m y) (tnpdf m s h l y)).
  { intros m y Hy. unfold density, returns. rewrite truncnorm_ok by auto. now rewrite truncnorm_body_in by lra. }
  destruct (family_score (fun m t => - ((t - m) * (t - m)) / (2 * (s * s))) (fun m t => (t - m) / (s * s)) l h (fun _ => True) (fun _ => True) mu) with (p := fun m y => tnpdf m s h l y) (x := x) as (m & M1 & M2).
  - lra.
  - intros; apply filter_forall; auto.
  - apply filter_forall; auto.
  - intros m t _ _. auto_derive; auto. field. lra.
  - intros m t _ _. apply (continuity_2d_pt_ext (fun u v => - / (2 * (s * s)) * ((v - u) * (v - u)))); [intros; field; lra|].
    apply continuity_2d_pt_mult; [apply c2_of0, continuity_pt_const; intros ? ?; reflexivity|].
    apply continuity_2d_pt_mult; apply continuity_2d_pt_minus; try apply continuity_2d_pt_id2; apply continuity_2d_pt_id1.
  - intros m t _ _. apply continuity_2d_pt_mult; [|apply c2_of0, continuity_pt_const; intros ? ?; reflexivity].
    apply continuity_2d_pt_minus; [apply continuity_2d_pt_id2|apply continuity_2d_pt_id1].
  - lra.
  - intros a _. split; [|now apply tnpdf_int]. destruct (tn_exp a s h l Hs Hl) as [c Hc]. exists c. intros; apply Hc.
  - exists (tnpdf mu s h l x), ((x - mu) / (s * s) - m). split; [now apply V|split].
    + exists (tnpdf mu s h l), m. split; [intros; now apply V|split; [exact M1|reflexivity]].
    + exists (fun m => tnpdf m s h l x). split; [|exact M2]. apply filter_forall. intros; now apply V.
Qed.

Lemma C142_truncnorm_width_pf :
  forall bk kw mu sigma high low x, 0 < sigma -> low <= x <= high -> low < high ->
  let density := fun s y => truncnorm bk kw (Fin y) (Fin mu) (Fin s) (Fin high) (Fin low) in
  exists p score, returns (density sigma x) p /\ centred_score (density sigma) (fun y => (y - mu) * (y - mu) / (sigma * sigma * sigma)) low high x score /\
    derivative_of_call (fun s => density s x) sigma (p * score).
Proof.
  intros bk kw mu s h l x Hs Hx Hl density.
  assert (V : forall s y, 0 < s -> l <= y <= h -> returns (density s y) (tnpdf mu s h l y)).
  { intros m y Hm Hy. unfold density, returns. rewrite truncnorm_ok by auto. now rewrite truncnorm_body_in by lra. }
  assert (Cc : forall (k : R -> R) u t, 0 < u -> ex_derive k u -> continuity_2d_pt (fun a _ => k a) u t).
  { intros k u t _ Hk. apply c2_of0. now apply ex_cont. }
  destruct (family_score (fun m t => - ((t - mu) * (t - mu)) / (2 * (m * m))) (fun m t => (t - mu) * (t - mu) / (m * m * m)) l h (fun u => 0 < u) (fun _ => True) s) with (p := fun m y => tnpdf mu m h l y) (x := x) as (m & M1 & M2).
  - lra.
  - intros; apply filter_forall; auto.
  - now apply loc_pos.
  - intros m t Hm _. assert (m <> 0) by lra. auto_derive; [repeat split; auto; nra|]. field. lra.
  - intros m t Hm _. apply (continuity_2d_pt_ext_loc (fun u v => - / (2 * (u * u)) * ((v - mu) * (v - mu)))).
    { destruct (loc_pos m Hm) as [e He]. exists e. intros u v Hu _. assert (0 < u) by now apply He. field. lra. }
    apply continuity_2d_pt_mult.
    + apply (Cc (fun u => - / (2 * (u * u)))); auto. auto_derive. nra.
    + apply (c2_of1 (fun v => (v - mu) * (v - mu))). apply ex_cont. auto_derive. auto.
  - intros m t Hm _. apply (continuity_2d_pt_ext_loc (fun u v => / (u * u * u) * ((v - mu) * (v - mu)))).
    { destruct (loc_pos m Hm) as [e He]. exists e. intros u v Hu _. assert (0 < u) by now apply He. field. lra. }
    apply continuity_2d_pt_mult.
    + apply (Cc (fun u => / (u * u * u))); auto. auto_derive. assert (0 < m * m) by nra. nra.
    + apply (c2_of1 (fun v => (v - mu) * (v - mu))). apply ex_cont. auto_derive. auto.
  - lra.
  - intros a Ha. split; [|now apply tnpdf_int]. destruct (tn_exp mu a h l Ha Hl) as [c Hc]. exists c. intros; apply Hc.
  - exists (tnpdf mu s h l x), ((x - mu) * (x - mu) / (s * s * s) - m). split; [now apply V|split].
    + exists (tnpdf mu s h l), m. split; [intros; now apply V|split; [exact M1|reflexivity]].
    + exists (fun m => tnpdf mu m h l x). split; [|exact M2]. eapply filter_imp; [|exact (loc_pos s Hs)]. intros; now apply V.
Qed.

Lemma F2_impl {A B} (P Q : A -> B -> Prop) l l' : (forall a b, P a b -> Q a b) -> Forall2 P l l' -> Forall2 Q l l'.
Proof. intros H. induction 1; constructor; auto. Qed.
Lemma Forall2_left {A B} (P : A -> Prop) (Q : A -> B -> Prop) l l' : (forall a b, Q a b -> P a) -> Forall2 Q l l' -> Forall P l.
Proof. intros H. induction 1; constructor; eauto. Qed.
Lemma der_cont (f : R -> R) t d : is_derive f t d -> continuous f t.
Proof. intros H. apply (ex_derive_continuous (V := R_NormedModule)). now exists d. Qed.
Lemma der_sum (F : list (R -> R)) (dF : list R) t : Forall2 (fun f d => is_derive f t d) F dF -> is_derive (fun u => Rsum (at_point F u)) t (Rsum dF).
Proof.
  induction 1 as [|f d F dF Hf HF IH]; [exact (is_derive_const (V := R_NormedModule) 0 t)|].
  apply (is_derive_plus (V := R_NormedModule) f (fun u => Rsum (at_point F u)) t d (Rsum dF) Hf IH).
Qed.
Lemma der_quot (P : list (R -> R)) dP q t : Forall2 (fun f d => is_derive f t d) P dP -> Forall (fun x => x <> 0) q ->
  exists G, Forall2 (fun f d => is_derive f t d) G (quotients dP q) /\ forall u, quotients (at_point P u) q = at_point G u.
Proof.
  intros H. revert q. induction H as [|f d P dP Hf HP IH]; intros q Hq; [exists []; split; [constructor|reflexivity]|].
  destruct q as [|x q]; [exists []; split; [constructor|reflexivity]|]. inversion Hq as [|? ? N1 N2]; subst.
  destruct (IH q N2) as (G & G1 & G2). exists ((fun u => f u / x) :: G). split.
  - unfold quotients. cbn [combine map fst snd]. constructor; [|exact G1].
    evar_last. apply (is_derive_scal_l (V := R_NormedModule) f t d (/ x) Hf). unfold scal; simpl; unfold mult; simpl. reflexivity.
  - intros u. specialize (G2 u). unfold quotients, at_point in *. cbn [map combine fst snd]. now rewrite G2.
Qed.
Lemma der_lnmeans (W : list (list (R -> R))) dW t : Forall (fun w => w <> []) W ->
  Forall2 (Forall2 (fun f d => is_derive f t d /\ 0 < f t)) W dW ->
  is_derive (fun u => Rsum (map (fun w => ln (mean w)) (rows_at W u))) t (gradient_of_events (rows_at W t) dW).
Proof.
  intros N H. induction H as [|w d W dW Hw HW IH]; [exact (is_derive_const (V := R_NormedModule) 0 t)|]. inversion N as [|? ? N1 N2]; subst.
  assert (Dw : Forall2 (fun f d => is_derive f t d) w d) by (eapply F2_impl; [|exact Hw]; cbv beta; tauto).
  assert (Pw : Forall (fun f => continuous f t /\ 0 < f t) w).
  { apply (Forall2_left _ _ w d) with (2 := Hw). intros f e [A B]. split; [now apply (der_cont f t e)|exact B]. }
  assert (M := mean_at_pos w t N1 Pw). assert (L : 0 < INR (List.length w)) by (apply lt_0_INR; destruct w; [elim N1; reflexivity|simpl; lia]).
  assert (S : 0 < Rsum (at_point w t)). { unfold mean in M. rewrite at_length in M. unfold Rdiv in M. apply (Rmult_lt_reg_r (/ INR (List.length w))); [now apply Rinv_0_lt_compat|]. rewrite Rmult_0_l. exact M. }
  assert (D : is_derive (fun u => ln (mean (at_point w u))) t (Rsum d / Rsum (at_point w t))).
  { apply (is_derive_ext (fun u => ln (Rsum (at_point w u) / INR (List.length w)))); [intros u; unfold mean; now rewrite at_length|].
    evar_last. apply (is_derive_comp ln (fun u => Rsum (at_point w u) / INR (List.length w))).
    - apply is_derive_ln. now apply Rdiv_lt_0_compat.
    - apply (is_derive_scal_l (V := R_NormedModule) (fun u => Rsum (at_point w u)) t (Rsum d) (/ INR (List.length w))). now apply der_sum.
    - unfold scal; simpl; unfold mult; simpl. field. split; apply Rgt_not_eq; assumption. }
  apply (is_derive_plus (V := R_NormedModule) (fun u => ln (mean (at_point w u))) (fun u => Rsum (map (fun w => ln (mean w)) (rows_at W u)))
    t (Rsum d / Rsum (at_point w t)) (gradient_of_events (rows_at W t) dW) D). now apply IH.
Qed.
Lemma likelihood_near (T : UniformSpace) bk prob inj conv L v (parameters converted : T -> dict xf) (W : list (list (T -> R))) (p : list (T -> R)) q N t :
  li_kind L = Hyper -> (0 < li_samples L)%nat -> Forall (fun w => List.length w = li_samples L) W ->
  locally t (fun u => conv (parameters u) = Ok (converted u) /\ weights_are prob L (converted u) (rows_at W u) /\ injections_are inj v (converted u) (at_point p u) q N) ->
  Forall (Forall (fun f => continuous f t /\ 0 < f t)) W -> Forall (fun f => continuous f t) p -> 0 < Rsum (quotients (at_point p t) q) ->
  rv_marginalize v = false -> rv_enforce v = false \/ (exists n, rv_n_events v = Fin n /\ selection_converged (quotients (at_point p t) q) N n) ->
  exists var : T -> R,
    locally t (fun u => ln_likelihood_and_variance bk prob (resampling_call bk inj v) conv L (parameters u) =
      Ok (Fin (Rsum (map (fun w => ln (mean w)) (rows_at W u)) - INR (li_n L) * ln (Rsum (quotients (at_point p u) q) / N)), Fin (var u))).
Proof.
  rename parameters into par. rename converted into cv. intros K HK HL Hloc HW Hp Hs M HE.
  destruct (locally_singleton t _ Hloc) as (_ & _ & HIt). assert (Hq : Forall (fun x => x <> 0) q) by apply HIt. assert (HN : 0 < N) by apply HIt.
  destruct (c_quot p q t Hp Hq) as (G & G1 & G2). destruct (c_squares G t G1) as (G' & G'1 & _ & G'3).
  set (mu := fun u => dmu (quotients (at_point p u) q) N). set (vr := fun u => dvar (quotients (at_point p u) q) N).
  assert (Cmu : continuous mu t). { apply (c_ext (fun u => Rsum (at_point G u) / N)); [intros u; unfold mu, dmu; now rewrite G2|]. apply c_div; [now apply c_sum|apply c_const|lra]. }
  assert (Cvr : continuous vr t). { apply (c_ext (fun u => Rsum (at_point G' u) / (N * N) - mu u * mu u / N)); [intros u; unfold vr, dvar, mu; now rewrite <- G'3, <- G2|].
    apply c_minus; [apply c_div; [now apply c_sum|apply c_const|]|apply c_div; [now apply c_mult|apply c_const|lra]]. apply Rmult_integral_contrapositive_currified; lra. }
  assert (Pmu : 0 < mu t) by (unfold mu, dmu; now apply Rdiv_lt_0_compat).
  assert (NE : Forall (fun w : list (T -> R) => w <> []) W). { eapply Forall_impl; [|exact HL]. intros w E ->. simpl in E. lia. }
  exists (fun u => Rsum (map (mc_variance (li_samples L)) (rows_at W u)) + INR (li_n L) ^ 2 * (vr u / mu u ^ 2)).
  - assert (Conv : locally t (fun u => rv_enforce v = false \/ exists n, rv_n_events v = Fin n /\ 4 * n * vr u < mu u * mu u)).
    { destruct HE as [E|(n & En & Hc)]; [apply filter_forall; intros u; now left|].
      eapply filter_imp; [|apply (near_lt (fun u => 4 * n * vr u) (fun u => mu u * mu u) t)]; [intros u X; right; exists n; split; [exact En|exact X]|apply c_mult; [apply c_const|exact Cvr]|now apply c_mult|exact Hc]. }
    eapply filter_imp; [|exact (filter_and _ _ (filter_and _ _ Hloc (near_rows_pos W t HW)) (filter_and _ _ (near_lt (fun _ => 0) mu t (c_const 0 t) Cmu Pmu) Conv))].
    intros u [[(C & HWu & HIu) Pos] [Pm Cu]]. cbv beta in Pm. pose proof (de_are bk inj v (cv u) (at_point p u) q N HIu) as D. fold (mu u) (vr u) in D.
    assert (HP : positive_weights L (rows_at W u)). { split; [exact HK|]. clear - Pos HL. induction HL as [|w W E HL IH]; [constructor|]. inversion Pos; subst. constructor; [split; [now rewrite at_length|assumption]|now apply IH]. }
    assert (RC : resampling_call bk inj v (cv u) = Ok (ValueAndVariance (Fin (mu u)) (Fin (vr u)))).
    { destruct Cu as [E|(n & En & Hc)].
      - unfold resampling_call. rewrite M, D, E. reflexivity.
      - rewrite (C52_call_pf bk inj v (cv u) (mu u) (vr u) n D En M). destruct (rv_enforce v); [|reflexivity]. destruct (Rlt_dec (4 * n * vr u) (mu u ^ 2)) as [_|X]; [reflexivity|]. exfalso. apply X. simpl. lra. }
    now rewrite (C58_formula_pf bk prob _ conv L (par u) (cv u) (rows_at W u) (mu u) (vr u) _ K C HWu HP Pm RC (or_introl eq_refl)).
Qed.
Lemma C142_log_likelihood_pf :
  forall bk prob inj conv L v (parameters converted : R -> dict xf) (W : list (list (R -> R))) dW (p : list (R -> R)) dp q N t,
  li_kind L = Hyper -> (0 < li_samples L)%nat -> Forall (fun w => List.length w = li_samples L) W ->
  locally t (fun u => conv (parameters u) = Ok (converted u) /\ weights_are prob L (converted u) (rows_at W u) /\ injections_are inj v (converted u) (at_point p u) q N) ->
  Forall2 (Forall2 (fun f d => is_derive f t d /\ 0 < f t)) W dW -> Forall2 (fun f d => is_derive f t d) p dp -> 0 < Rsum (quotients (at_point p t) q) ->
  rv_marginalize v = false -> rv_enforce v = false \/ (exists n, rv_n_events v = Fin n /\ selection_converged (quotients (at_point p t) q) N n) ->
  exists l var : R -> R,
    locally t (fun u => ln_likelihood_and_variance bk prob (resampling_call bk inj v) conv L (parameters u) = Ok (Fin (l u), Fin (var u))) /\
    is_derive l t (gradient_of_events (rows_at W t) dW - INR (li_n L) * (Rsum (quotients dp q) / Rsum (quotients (at_point p t) q))).
Proof.
  intros bk prob inj conv L v par cv W dW p dp q N t K HK HL Hloc HW Hp Hs M HE.
  assert (CW : Forall (Forall (fun f => continuous f t /\ 0 < f t)) W).
  { apply (Forall2_left _ _ W dW) with (2 := HW). intros w d Hw. apply (Forall2_left _ _ w d) with (2 := Hw). intros f e [A B]. split; [now apply (der_cont f t e)|exact B]. }
  assert (Cp : Forall (fun f => continuous f t) p).
  { apply (Forall2_left _ _ p dp) with (2 := Hp). intros f e A. now apply (der_cont f t e). }
  destruct (likelihood_near R_UniformSpace bk prob inj conv L v par cv W p q N t K HK HL Hloc CW Cp Hs M HE) as [var Hv].
  eexists. exists var. split; [exact Hv|].
  destruct (locally_singleton t _ Hloc) as (_ & _ & HIt). assert (Hq : Forall (fun x => x <> 0) q) by apply HIt. assert (HN : 0 < N) by apply HIt.
  destruct (der_quot p dp q t Hp Hq) as (G & G1 & G2).
  assert (NE : Forall (fun w : list (R -> R) => w <> []) W). { eapply Forall_impl; [|exact HL]. intros w E ->. simpl in E. lia. }
  apply (is_derive_minus (V := R_NormedModule)); [now apply der_lnmeans|].
  evar_last. apply (is_derive_scal (fun u => ln (Rsum (quotients (at_point p u) q) / N)) t (INR (li_n L))).
  - apply (is_derive_ext (fun u => ln (Rsum (at_point G u) / N))); [intros u; now rewrite G2|].
    apply (is_derive_comp ln (fun u => Rsum (at_point G u) / N)).
    + apply is_derive_ln. rewrite <- G2. now apply Rdiv_lt_0_compat.
    + apply (is_derive_scal_l (V := R_NormedModule) (fun u => Rsum (at_point G u)) t (Rsum (quotients dp q)) (/ N)). now apply der_sum.
  - change (@eq R (INR (li_n L) * (Rsum (quotients dp q) * / N * / (Rsum (at_point G t) / N))) (INR (li_n L) * (Rsum (quotients dp q) / Rsum (quotients (at_point p t) q)))).
    rewrite G2. rewrite G2 in Hs. field. split; apply Rgt_not_eq; assumption.
Qed.

