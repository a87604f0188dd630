(** Proofs of the property theorems stated in [Props_ad]. *)
From Coq Require Import Reals Lra Lia Psatz String Bool Arith.
From Coquelicot Require Import Coquelicot.
From Coq Require Import List.
From Verif Require Import Xf Py St Xf_facts Py_facts Calc Spec Special Gauss_facts Utils_model Powerlaw_facts Truncnorm_facts Trap_facts Np Np_facts Utils_facts Mass_facts
  Smoothed_model Smoothed_facts Cosmo_model Redshift_model redshift_thms cont_thms SpecDeriv deriv_thms Ad_model SpecAd.
Import ListNotations.
Local Open Scope R_scope.

Definition tangent_is (o : option xf) (d : R) : Prop := o = Some (Fin d) \/ o = None /\ d = 0.
Lemma t_add a b d e : tangent_is a d -> tangent_is b e -> tangent_is (tadd a b) (d + e).
Proof.
  intros [->|[-> ->]] [->|[-> ->]]; cbn.
  - now left.
  - left. do 2 f_equal. ring.
  - left. do 2 f_equal. ring.
  - right. split; [reflexivity|ring].
Qed.
Lemma t_map f h a d : tangent_is a d -> (forall g, f (Fin g) = Fin (h g)) -> h 0 = 0 -> tangent_is (tmap f a) (h d).
Proof. intros [->|[-> ->]] F Z; cbn; [left; now rewrite F|right; split; auto]. Qed.
Lemma t_inst a d : tangent_is a d -> instantiate a = Fin d.
Proof. now intros [->|[-> ->]]. Qed.
Lemma t_eq a d e : tangent_is a d -> d = e -> tangent_is a e.
Proof. now intros H <-. Qed.

Lemma value_ext env env' e : (forall i, env i = env' i) -> value_of env e = value_of env' e.
Proof. intros H. induction e; cbn; rewrite ?IHe, ?IHe1, ?IHe2, ?IHe3, ?IHe4; auto. Qed.
Lemma with_same env j x : env j = Fin x -> forall i, with_variable env j x i = env i.
Proof. intros H i. unfold with_variable. destruct (Nat.eqb_spec i j); subst; auto. Qed.

Lemma d_val F x d : derivative F x d -> exists r, F x = Fin r.
Proof. intros (g & H & _). exists (g x). exact (locally_singleton x _ H). Qed.
Lemma d_lift2 (op : xf -> xf -> xf) (f : R -> R -> R) (P : R -> R -> Prop) F G x d e r :
  derivative F x d -> derivative G x e ->
  (forall a b, P a b -> op (Fin a) (Fin b) = Fin (f a b)) ->
  (forall g h : R -> R, F x = Fin (g x) -> G x = Fin (h x) -> is_derive g x d -> is_derive h x e -> locally x (fun u => P (g u) (h u)) /\ is_derive (fun u => f (g u) (h u)) x r) ->
  derivative (fun u => op (F u) (G u)) x r.
Proof.
  intros (g & Hg & Dg) (h & Hh & Dh) HP HD.
  destruct (HD g h (locally_singleton x _ Hg) (locally_singleton x _ Hh) Dg Dh) as [L D].
  exists (fun u => f (g u) (h u)). split; [|exact D].
  eapply filter_imp; [|exact (filter_and _ _ (filter_and _ _ Hg Hh) L)]. intros u [[A B] C]. cbv beta. rewrite A, B. now apply HP.
Qed.
Lemma der_cont' (f : R -> R) t d : is_derive f t d -> continuous f t.
Proof. intros H. apply (ex_derive_continuous (V := R_NormedModule)). now exists d. Qed.
Lemma near_pos (h : R -> R) x e : is_derive h x e -> 0 < h x -> locally x (fun u => 0 < h u).
Proof. intros D P. apply (near_lt (fun _ => 0) h x); [apply continuous_const|now apply (der_cont' h x e)|exact P]. Qed.
Lemma near_nz (h : R -> R) x e : is_derive h x e -> h x <> 0 -> locally x (fun u => h u <> 0).
Proof.
  intros D N. destruct (Rdichotomy _ _ N) as [L|G].
  - eapply filter_imp; [|apply (near_lt h (fun _ => 0) x)]; [intros u H; cbv beta in *; lra|now apply (der_cont' h x e)|apply continuous_const|exact L].
  - eapply filter_imp; [|exact (near_pos h x e D G)]. intros u H; cbv beta in *; lra.
Qed.
Lemma tt_near x (P : R -> Prop) : (forall u, P u) -> locally x P.
Proof. intros H. now apply filter_forall. Qed.

Lemma d_add F G x d e : derivative F x d -> derivative G x e -> derivative (fun u => fadd (F u) (G u)) x (d + e).
Proof.
  intros HF HG. apply (d_lift2 fadd Rplus (fun _ _ => True) F G x d e); auto.
  intros g h _ _ Dg Dh. split; [now apply tt_near|]. apply (is_derive_plus (V := R_NormedModule) g h x d e Dg Dh).
Qed.
Lemma d_opp F x d : derivative F x d -> derivative (fun u => fopp (F u)) x (- d).
Proof.
  intros (g & Hg & Dg). exists (fun u => - g u). split; [|apply (is_derive_opp (V := R_NormedModule) g x d Dg)].
  eapply filter_imp; [|exact Hg]. intros u H. cbv beta in *. now rewrite H.
Qed.
Lemma d_mul F G x a b d e : F x = Fin a -> G x = Fin b -> derivative F x d -> derivative G x e -> derivative (fun u => fmul (F u) (G u)) x (d * b + a * e).
Proof.
  intros Ha Hb HF HG. apply (d_lift2 fmul Rmult (fun _ _ => True) F G x d e); auto.
  intros g h Eg Eh Dg Dh. split; [now apply tt_near|]. rewrite Ha in Eg. rewrite Hb in Eh. injection Eg as ->. injection Eh as ->.
  evar_last. apply (is_derive_mult (K := R_AbsRing) g h x d e Dg Dh). intros; apply Rmult_comm. reflexivity.
Qed.
Lemma d_div F G x a b d e : F x = Fin a -> G x = Fin b -> b <> 0 -> derivative F x d -> derivative G x e -> derivative (fun u => fdiv (F u) (G u)) x (d / b + - e * a * (1 / (b * b))).
Proof.
  intros Ha Hb Nb HF HG. apply (d_lift2 fdiv Rdiv (fun _ y => y <> 0) F G x d e); auto; [intros; now apply fdiv_fin|].
  intros g h Eg Eh Dg Dh. rewrite Ha in Eg. rewrite Hb in Eh. injection Eg as ->. injection Eh as ->. split; [now apply (near_nz h x e)|].
  evar_last. apply is_derive_div; [exact Dg|exact Dh|exact Nb]. field. exact Nb.
Qed.
Lemma d_pow F G x a b d e : F x = Fin a -> G x = Fin b -> 0 < a -> derivative F x d -> derivative G x e ->
  derivative (fun u => fpow (F u) (G u)) x (d * (b * Rpower a (b - 1)) + e * (ln a * Rpower a b)).
Proof.
  intros Ha Hb Pa HF HG. apply (d_lift2 fpow Rpower (fun y _ => 0 < y) F G x d e); auto; [intros; now apply fpow_fin|].
  intros g h Eg Eh Dg Dh. rewrite Ha in Eg. rewrite Hb in Eh. injection Eg as ->. injection Eh as ->. split; [now apply (near_pos g x d)|].
  unfold Rpower at 1. evar_last. apply (is_derive_comp exp (fun u => h u * ln (g u))).
  - apply is_derive_exp.
  - apply (is_derive_mult (K := R_AbsRing) h (fun u => ln (g u))); [exact Dh| |intros; apply Rmult_comm].
    apply (is_derive_comp ln g); [now apply is_derive_ln|exact Dg].
  - unfold scal, plus, mult; simpl; unfold mult; simpl.
    replace (Rpower (g x) (h x - 1)) with (Rpower (g x) (h x) / g x).
    + fold (Rpower (g x) (h x)). field. lra.
    + unfold Rminus. rewrite Rpower_plus, Rpower_Ropp, Rpower_1 by auto. reflexivity.
Qed.
Lemma d_log F x a d : F x = Fin a -> 0 < a -> derivative F x d -> derivative (fun u => flog (F u)) x (d / a).
Proof.
  intros Ha Pa (g & Hg & Dg). assert (Ea : F x = Fin (g x)) by exact (locally_singleton x _ Hg). rewrite Ha in Ea. injection Ea as ->.
  exists (fun u => ln (g u)). split.
  - eapply filter_imp; [|exact (filter_and _ _ Hg (near_pos g x d Dg Pa))]. intros u [A B]. cbv beta in *. rewrite A. now apply flog_fin.
  - evar_last. apply (is_derive_comp ln g); [now apply is_derive_ln|exact Dg]. unfold scal; simpl; unfold mult; simpl. reflexivity.
Qed.
Lemma d_const r x : derivative (fun _ => Fin r) x 0.
Proof. exists (fun _ => r). split; [now apply tt_near|apply (is_derive_const (V := R_NormedModule))]. Qed.
Lemma d_ext_loc F G x d : locally x (fun u => F u = G u) -> derivative F x d -> derivative G x d.
Proof.
  intros L (g & Hg & Dg). exists g. split; [|exact Dg]. eapply filter_imp; [|exact (filter_and _ _ L Hg)]. intros u [A B]. congruence.
Qed.
Lemma cmp_lt c a b : a < b -> compare_with c (Fin a) (Fin b) = match c with CLe => true | _ => false end.
Proof.
  intros H. destruct c; cbn [compare_with].
  - rewrite feq_fin. now rewrite Reqb_false by lra.
  - rewrite fle_fin. now rewrite Rleb_true by lra.
  - rewrite fge_fin. now rewrite Rleb_false by lra.
  - unfold fgt. cbn [flt]. now rewrite Rltb_false by lra.
Qed.
Lemma cmp_gt c a b : b < a -> compare_with c (Fin a) (Fin b) = match c with CGe | CGt => true | _ => false end.
Proof.
  intros H. destruct c; cbn [compare_with].
  - rewrite feq_fin. now rewrite Reqb_false by lra.
  - rewrite fle_fin. now rewrite Rleb_false by lra.
  - rewrite fge_fin. now rewrite Rleb_true by lra.
  - unfold fgt. cbn [flt]. now rewrite Rltb_true by lra.
Qed.
Lemma cmp_near c F G x d e : derivative F x d -> derivative G x e -> F x <> G x -> locally x (fun u => compare_with c (F u) (G u) = compare_with c (F x) (G x)).
Proof.
  intros (g & Hg & Dg) (h & Hh & Dh) N.
  assert (Eg : F x = Fin (g x)) by exact (locally_singleton x _ Hg). assert (Eh : G x = Fin (h x)) by exact (locally_singleton x _ Hh).
  assert (N' : g x <> h x) by (intros E; apply N; congruence). apply der_cont' in Dg, Dh. rewrite Eg, Eh.
  destruct (Rdichotomy _ _ N') as [L|L].
  - eapply filter_imp; [|exact (filter_and _ _ (filter_and _ _ Hg Hh) (near_lt g h x Dg Dh L))]. intros u [[A B] C]. cbv beta in *. rewrite A, B, !cmp_lt by auto. reflexivity.
  - eapply filter_imp; [|exact (filter_and _ _ (filter_and _ _ Hg Hh) (near_lt h g x Dh Dg L))]. intros u [[A B] C]. cbv beta in *. rewrite A, B, !cmp_gt by auto. reflexivity.
Qed.

Definition slope_at (p : primitive) (a : R) : R :=
  match p with
  | PExp => exp a | PSquare => 2 * a | PLog1p => / (a + 1) | PNdtr => gauss a | PLogNdtr => gauss a / Phi a
  | PExpit => / (1 + exp (- a)) * (1 - / (1 + exp (- a))) | PNanToNum => 1
  | PClip lo hi => if Rltb lo a && Rltb a hi then 1 else 0
  end.
Lemma log_ndtr_rule a : fexp (fsub (fsub (fdiv (fopp (fsq (Fin a))) (Fin 2)) (Fin (ln (2 * PI) / 2))) (flog_ndtr (Fin a))) = Fin (gauss a / Phi a).
Proof.
  unfold fsq. cbn [fmul fopp flog_ndtr]. rewrite fdiv_fin by lra. rewrite !fsub_fin. cbn [fexp]. f_equal. unfold gauss.
  assert (P := PI_RGT_0). assert (Q := Phi_gt_0 a). assert (S := s2pi_pos).
  unfold Rminus. rewrite !exp_plus, !exp_Ropp. rewrite exp_ln by exact Q.
  replace (ln (2 * PI) / 2) with (ln (sqrt (2 * PI))).
  - rewrite exp_ln by exact S. unfold Rdiv. reflexivity.
  - rewrite <- Rpower_sqrt by lra. unfold Rpower. rewrite ln_exp. field.
Qed.
Lemma prim_rule_at (p : primitive) a g :
  match p with PLog1p => a <> -1 | PClip lo hi => lo < hi /\ a <> lo /\ a <> hi | _ => True end ->
  prim_rule p (Fin a) (Fin g) = Fin (g * slope_at p a).
Proof.
  intros H. destruct p; cbn [prim_rule slope_at].
  - reflexivity.
  - reflexivity.
  - cbn [fadd]. rewrite fdiv_fin by lra. reflexivity.
  - reflexivity.
  - rewrite log_ndtr_rule. reflexivity.
  - cbn [fexpit]. rewrite fsub_fin, !fmul_fin. reflexivity.
  - cbn [is_fin]. f_equal. ring.
  - destruct H as (H1 & H2 & H3). unfold clip_mask. rewrite !feq_fin, !Reqb_false by auto. cbn [orb]. unfold fgt. cbn [flt].
    destruct (Rltb lo a), (Rltb a hi); cbn [andb of_bool fmul]; reflexivity.
Qed.
Lemma prim_zero p a : (p = PLog1p -> a <> -1) -> prim_rule p (Fin a) (Fin 0) = Fin 0.
Proof.
  intros H. destruct p; try (rewrite prim_rule_at by auto; f_equal; ring). cbn [prim_rule]. unfold clip_mask.
  destruct (_ || _); [cbn [fmul]; f_equal; ring|]. destruct (_ && _); cbn [of_bool fmul]; f_equal; ring.
Qed.
Lemma d_prim p F x a d : F x = Fin a -> derivative F x d ->
  match p with PLog1p => -1 < a | PClip lo hi => lo < hi /\ a <> lo /\ a <> hi | _ => True end ->
  derivative (fun u => prim_value p (F u)) x (d * slope_at p a).
Proof.
  intros Ha (g & Hg & Dg) HR. assert (Ea : F x = Fin (g x)) by exact (locally_singleton x _ Hg). rewrite Ha in Ea. injection Ea as ->.
  assert (K : forall (f : R -> R) (P : R -> Prop), locally x (fun u => P (g u)) -> (forall y, P y -> prim_value p (Fin y) = Fin (f y)) -> is_derive f (g x) (slope_at p (g x)) ->
              derivative (fun u => prim_value p (F u)) x (d * slope_at p (g x))).
  { intros f P LP E D. exists (fun u => f (g u)). split.
    - eapply filter_imp; [|exact (filter_and _ _ Hg LP)]. intros u [A B]. cbv beta in *. rewrite A. now apply E.
    - apply (is_derive_comp f g x); [exact D|exact Dg]. }
  assert (T : locally x (fun u => (fun _ : R => True) (g u))) by (now apply tt_near).
  assert (Cg := der_cont' g x d Dg).
  destruct p; cbn [slope_at prim_value] in *.
  - apply (K exp (fun _ => True)); [exact T|reflexivity|apply is_derive_exp].
  - apply (K (fun y => y * y) (fun _ => True)); [exact T|reflexivity|]. auto_derive; [exact I|]. ring.
  - apply (K (fun y => ln (1 + y)) (fun y => -1 < y)).
    + apply (near_lt (fun _ => -1) g x); [apply continuous_const|exact Cg|exact HR].
    + intros y Hy. unfold flog1p. cbn [fadd]. apply flog_fin. lra.
    + auto_derive; [lra|]. field. lra.
  - apply (K Phi (fun _ => True)); [exact T|reflexivity|apply Phi_derive].
  - apply (K (fun y => ln (Phi y)) (fun _ => True)); [exact T|reflexivity|]. assert (Q := Phi_gt_0 (g x)).
    evar_last. apply (is_derive_comp ln Phi); [now apply is_derive_ln|apply Phi_derive]. unfold scal; simpl; unfold mult; simpl. reflexivity.
  - apply (K (fun y => / (1 + exp (- y))) (fun _ => True)); [exact T|reflexivity|]. assert (Q := exp_pos (- g x)). auto_derive; [lra|]. field. lra.
  - apply (K (fun y => y) (fun _ => True)); [exact T|reflexivity|apply (is_derive_id (K := R_AbsRing))].
  - destruct HR as (R1 & R2 & R3). destruct (Rtotal_order (g x) lo) as [L|[E|L]]; [|contradiction|destruct (Rtotal_order (g x) hi) as [L'|[E|L']]; [|contradiction|]].
    + rewrite (Rltb_false lo (g x)) by lra. cbn [andb]. replace (d * 0) with (d * slope_at (PClip lo hi) (g x)) by (cbn [slope_at]; now rewrite (Rltb_false lo (g x)) by lra).
      apply (K (fun _ => lo) (fun y => y < lo)).
      * apply (near_lt g (fun _ => lo) x); [exact Cg|apply continuous_const|exact L].
      * intros y Hy. cbn [fclip]. now rewrite Rltb_true by lra.
      * cbn [slope_at]. rewrite (Rltb_false lo (g x)) by lra. cbn [andb]. apply (is_derive_const (V := R_NormedModule)).
    + rewrite (Rltb_true lo (g x)), (Rltb_true (g x) hi) by lra. cbn [andb]. replace (d * 1) with (d * slope_at (PClip lo hi) (g x)) by (cbn [slope_at]; now rewrite (Rltb_true lo (g x)), (Rltb_true (g x) hi) by lra).
      apply (K (fun y => y) (fun y => lo < y < hi)).
      * eapply filter_imp; [|exact (filter_and _ _ (near_lt (fun _ => lo) g x (continuous_const _ _) Cg L) (near_lt g (fun _ => hi) x Cg (continuous_const _ _) L'))]. intros u [A B]; cbv beta in *; lra.
      * intros y Hy. cbn [fclip]. now rewrite !Rltb_false by lra.
      * cbn [slope_at]. rewrite (Rltb_true lo (g x)), (Rltb_true (g x) hi) by lra. apply (is_derive_id (K := R_AbsRing)).
    + rewrite (Rltb_false (g x) hi) by lra. rewrite andb_false_r. replace (d * 0) with (d * slope_at (PClip lo hi) (g x)) by (cbn [slope_at]; now rewrite (Rltb_false (g x) hi), andb_false_r by lra).
      apply (K (fun _ => hi) (fun y => hi < y)).
      * apply (near_lt (fun _ => hi) g x); [apply continuous_const|exact Cg|exact L'].
      * intros y Hy. cbn [fclip]. now rewrite Rltb_false, Rltb_true by lra.
      * cbn [slope_at]. rewrite (Rltb_false (g x) hi) by lra. rewrite andb_false_r. apply (is_derive_const (V := R_NormedModule)).
Qed.
Lemma pow_base_at a b : 0 < a -> pow_base (Fin a) (Fin b) = Fin (b * Rpower a (b - 1)).
Proof. intros P. unfold pow_base. rewrite feq_fin. destruct (Reqb_spec b 0) as [->|N]; [f_equal; ring|]. rewrite fsub_fin, fpow_fin, fmul_fin by auto. reflexivity. Qed.
Lemma pow_exponent_at a b : 0 < a -> pow_exponent (Fin a) (Fin b) = Fin (ln a * Rpower a b).
Proof. intros P. unfold pow_exponent. rewrite feq_fin, Reqb_false by lra. rewrite flog_fin, fpow_fin, fmul_fin by auto. reflexivity. Qed.

Lemma harmless_zero env j : forall e, harmless env e -> tangent_is (reverse env j e (Fin 0)) 0.
Proof.
  assert (Z : forall r, 0 * r = 0) by (intros; ring). assert (Z' : forall r, r * 0 = 0) by (intros; ring).
  assert (T0 : forall a b, tangent_is a 0 -> tangent_is b 0 -> tangent_is (tadd a b) 0) by (intros a b A B; eapply t_eq; [exact (t_add _ _ _ _ A B)|ring]).
  induction e as [i|r|a IHa b IHb|a IHa b IHb|a IHa b IHb|a IHa b IHb|a IHa b IHb|a IHa|a IHa|p a IHa|c a IHa b IHb t IHt f IHf|c a IHa b IHb c' a' IHa' b' IHb'];
    cbn [harmless reverse]; intros H.
  - destruct (Nat.eqb i j); [now left|now right].
  - now right.
  - destruct H as [A B]. apply T0; auto.
  - destruct H as [A B]. cbn [fopp]. rewrite Ropp_0. apply T0; auto.
  - destruct H as (A & B & (x & ->) & (y & ->)). cbn [fmul]. rewrite Z, Z'. apply T0; auto.
  - destruct H as (A & B & (x & ->) & (y & E) & N). rewrite E in *. assert (Ny : y <> 0) by (intros ->; now apply N). unfold minus_square. cbn [fmul].
    assert (y * y <> 0) by (apply Rmult_integral_contrapositive_currified; auto). rewrite !fdiv_fin by auto. cbn [fmul fopp].
    replace (- (0 * (1 / (y * y)) * x)) with 0 by ring. replace (0 / y) with 0 by (field; auto). apply T0; auto.
  - destruct H as (A & B & (x & -> & P) & (y & ->)). rewrite pow_base_at, pow_exponent_at by exact P. cbn [fmul]. rewrite !Z. apply T0; auto.
  - destruct H as (A & (x & E) & N). rewrite E in *. rewrite fdiv_fin by (intros ->; now apply N). unfold Rdiv. rewrite Z. auto.
  - cbn [fopp]. rewrite Ropp_0. auto.
  - destruct H as (A & (x & E) & N). rewrite E in *. rewrite prim_zero; auto. intros Ep ->. now apply (N Ep).
  - destruct H as [A B]. destruct (compare_with _ _ _); apply T0; auto.
  - now right.
Qed.

Lemma ad_sound both env j x : env j = Fin x -> forall e, regular both env e ->
  exists d, tangent_is (forward env j e) d /\ derivative (fun u => value_of (with_variable env j u) e) x d /\
            (both = true -> forall ct, tangent_is (reverse env j e (Fin ct)) (ct * d)).
Proof.
  intros Hj. assert (V : forall e, value_of (with_variable env j x) e = value_of env e) by (intros e; apply value_ext, with_same, Hj).
  induction e as [i|r|a IHa b IHb|a IHa b IHb|a IHa b IHb|a IHa b IHb|a IHa b IHb|a IHa|a IHa|p a IHa|c a IHa b IHb t IHt f IHf|c a IHa b IHb c' a' IHa' b' IHb'];
    cbn [regular value_of forward reverse]; intros Hr.
  - destruct Hr as [y Hy]. unfold with_variable. destruct (Nat.eqb_spec i j) as [->|N].
    + exists 1. split; [now left|split].
      * exists (fun u => u). split; [now apply tt_near|apply (is_derive_id (K := R_AbsRing))].
      * intros _ ct. left. do 2 f_equal. ring.
    + exists 0. split; [now right|split].
      * rewrite Hy. apply d_const.
      * intros _ ct. right. split; [reflexivity|ring].
  - destruct Hr as [y ->]. exists 0. split; [now right|split; [apply d_const|]]. intros _ ct. right. split; [reflexivity|ring].
  - destruct Hr as [Ra Rb]. destruct (IHa Ra) as (d & A1 & A2 & A3), (IHb Rb) as (e & B1 & B2 & B3).
    exists (d + e). split; [now apply t_add|split; [now apply d_add|]]. intros E ct. eapply t_eq; [apply t_add; [now apply A3|now apply B3]|ring].
  - destruct Hr as [Ra Rb]. destruct (IHa Ra) as (d & A1 & A2 & A3), (IHb Rb) as (e & B1 & B2 & B3).
    exists (d + - e). split; [|split].
    + apply t_add; [exact A1|]. apply (t_map fopp Ropp); auto. ring.
    + unfold fsub. apply d_add; [exact A2|now apply d_opp].
    + intros E ct. cbn [fopp]. eapply t_eq; [apply t_add; [now apply A3|now apply B3]|ring].
  - destruct Hr as [Ra Rb]. destruct (IHa Ra) as (d & A1 & A2 & A3), (IHb Rb) as (e & B1 & B2 & B3).
    destruct (d_val _ _ _ A2) as [ya Ea], (d_val _ _ _ B2) as [yb Eb]. cbv beta in Ea, Eb. assert (Ea' := Ea). assert (Eb' := Eb). rewrite V in Ea', Eb'.
    exists (d * yb + ya * e). rewrite Ea', Eb'. split; [|split].
    + apply t_add; [apply (t_map (fun g => fmul g (Fin yb)) (fun g => g * yb)); auto; ring|apply (t_map (fun g => fmul (Fin ya) g) (fun g => ya * g)); auto; ring].
    + now apply d_mul.
    + intros E ct. cbn [fmul]. eapply t_eq; [apply t_add; [now apply A3|now apply B3]|ring].
  - destruct Hr as (Ra & Rb & Nb). destruct (IHa Ra) as (d & A1 & A2 & A3), (IHb Rb) as (e & B1 & B2 & B3).
    destruct (d_val _ _ _ A2) as [ya Ea], (d_val _ _ _ B2) as [yb Eb]. cbv beta in Ea, Eb. assert (Ea' := Ea). assert (Eb' := Eb). rewrite V in Ea', Eb'.
    assert (Nz : yb <> 0) by (intros ->; now apply Nb). assert (Nz2 : yb * yb <> 0) by (apply Rmult_integral_contrapositive_currified; auto).
    exists (d / yb + - e * ya * (1 / (yb * yb))). rewrite Ea', Eb'. unfold minus_square. cbn [fmul]. rewrite fdiv_fin by auto. split; [|split].
    + apply t_add; [apply (t_map (fun g => fdiv g (Fin yb)) (fun g => g / yb)); auto; [intros; now apply fdiv_fin|field; auto]|].
      apply (t_map (fun g => fmul (fmul (fopp g) (Fin ya)) (Fin (1 / (yb * yb)))) (fun g => - g * ya * (1 / (yb * yb)))); auto. ring.
    + now apply d_div.
    + intros E ct. cbn [fmul fopp]. rewrite fdiv_fin by auto. eapply t_eq; [apply t_add; [now apply A3|now apply B3]|field; auto].
  - destruct Hr as (Ra & Rb & (ya' & Ey & Pa)). destruct (IHa Ra) as (d & A1 & A2 & A3), (IHb Rb) as (e & B1 & B2 & B3).
    destruct (d_val _ _ _ A2) as [ya Ea], (d_val _ _ _ B2) as [yb Eb]. cbv beta in Ea, Eb. assert (Ea' := Ea). assert (Eb' := Eb). rewrite V in Ea', Eb'.
    rewrite Ey in Ea'. injection Ea' as ->. rewrite Ey, Eb'.
    rewrite pow_base_at, pow_exponent_at by exact Pa. exists (d * (yb * Rpower ya (yb - 1)) + e * (ln ya * Rpower ya yb)). split; [|split].
    + apply t_add; [apply (t_map (fun g => fmul g (Fin (yb * Rpower ya (yb - 1)))) (fun g => g * (yb * Rpower ya (yb - 1)))); auto; ring|].
      apply (t_map (fun g => fmul g (Fin (ln ya * Rpower ya yb))) (fun g => g * (ln ya * Rpower ya yb))); auto; ring.
    + now apply d_pow.
    + intros E ct. cbn [fmul]. eapply t_eq; [apply t_add; [now apply A3|now apply B3]|ring].
  - destruct Hr as (Ra & (ya' & Ey & Pa)). destruct (IHa Ra) as (d & A1 & A2 & A3).
    destruct (d_val _ _ _ A2) as [ya Ea]. cbv beta in Ea. assert (Ea' := Ea). rewrite V in Ea'. rewrite Ey in Ea'. injection Ea' as ->. rewrite Ey.
    exists (d / ya). split; [|split].
    + apply (t_map (fun g => fdiv g (Fin ya)) (fun g => g / ya)); auto; [intros; apply fdiv_fin; lra|field; lra].
    + now apply d_log.
    + intros E ct. rewrite fdiv_fin by lra. eapply t_eq; [now apply A3|field; lra].
  - destruct (IHa Hr) as (d & A1 & A2 & A3). exists (- d). split; [apply (t_map fopp Ropp); auto; ring|split; [now apply d_opp|]].
    intros E ct. cbn [fopp]. eapply t_eq; [now apply A3|ring].
  - destruct Hr as (Ra & Rp). destruct (IHa Ra) as (d & A1 & A2 & A3).
    destruct (d_val _ _ _ A2) as [ya Ea]. cbv beta in Ea. assert (Ea' := Ea). rewrite V in Ea'. rewrite Ea'.
    assert (Rp' : match p with PLog1p => -1 < ya | PClip lo hi => lo < hi /\ ya <> lo /\ ya <> hi | _ => True end).
    { rewrite Ea' in Rp. destruct p; auto; [destruct Rp as (r & E & P); injection E as ->; exact P|destruct Rp as (P & Q & S); repeat split; [exact P|intros ->; now apply Q|intros ->; now apply S]]. }
    assert (PR : forall g, prim_rule p (Fin ya) (Fin g) = Fin (g * slope_at p ya)).
    { intros g. apply prim_rule_at. destruct p; auto; lra. }
    exists (d * slope_at p ya). split; [|split].
    + apply (t_map (prim_rule p (Fin ya)) (fun g => g * slope_at p ya)); auto. ring.
    + now apply d_prim.
    + intros E ct. rewrite PR. eapply t_eq; [now apply A3|ring].
  - destruct Hr as (Ra & Rb & Nab & Rtf). destruct (IHa Ra) as (da & A1 & A2 & A3), (IHb Rb) as (db & B1 & B2 & B3).
    assert (L : locally x (fun u => compare_with c (value_of (with_variable env j u) a) (value_of (with_variable env j u) b) = compare_with c (value_of env a) (value_of env b))).
    { pose proof (cmp_near c _ _ x da db A2 B2) as H. cbv beta in H. rewrite !V in H. now apply H. }
    destruct (compare_with c (value_of env a) (value_of env b)).
    + destruct Rtf as [Rt Rf]. destruct (IHt Rt) as (d & T1 & T2 & T3). exists d. split; [|split].
      * destruct (forward env j t) eqn:Et, (forward env j f) eqn:Ef; try (left; f_equal; apply t_inst; exact T1). exact T1.
      * apply (d_ext_loc (fun u => value_of (with_variable env j u) t)); [|exact T2]. eapply filter_imp; [|exact L]. intros u Hu. cbv beta in *. now rewrite Hu.
      * intros E ct. eapply t_eq; [apply t_add; [now apply T3|apply harmless_zero; now apply Rf]|ring].
    + destruct Rtf as [Rf Rt]. destruct (IHf Rf) as (d & T1 & T2 & T3). exists d. split; [|split].
      * destruct (forward env j t) eqn:Et, (forward env j f) eqn:Ef; try (left; f_equal; apply t_inst; exact T1). exact T1.
      * apply (d_ext_loc (fun u => value_of (with_variable env j u) f)); [|exact T2]. eapply filter_imp; [|exact L]. intros u Hu. cbv beta in *. now rewrite Hu.
      * intros E ct. eapply t_eq; [apply t_add; [apply harmless_zero; now apply Rt|now apply T3]|ring].
  - destruct Hr as [(Ra & Rb & Nab) (Ra' & Rb' & Nab')].
    destruct (IHa Ra) as (da & _ & A2 & _), (IHb Rb) as (db & _ & B2 & _), (IHa' Ra') as (da' & _ & A2' & _), (IHb' Rb') as (db' & _ & B2' & _).
    exists 0. split; [now right|split; [|intros _ ct; right; split; [reflexivity|ring]]].
    apply (d_ext_loc (fun _ => of_bool (compare_with c (value_of env a) (value_of env b) && compare_with c' (value_of env a') (value_of env b')))).
    + pose proof (cmp_near c _ _ x da db A2 B2) as H. pose proof (cmp_near c' _ _ x da' db' A2' B2') as H'. cbv beta in H, H'. rewrite !V in H, H'.
      eapply filter_imp; [|exact (filter_and _ _ (H Nab) (H' Nab'))]. intros u [P Q]. cbv beta in *. now rewrite P, Q.
    + destruct (_ && _); apply d_const.
Qed.

Lemma C143_forward_pf :
  forall env j x e, env j = Fin x -> regular false env e ->
  exists d, derivative (fun u => value_of (with_variable env j u) e) x d /\ instantiate (forward env j e) = Fin d.
Proof.
  intros env j x e Hj Hr. destruct (ad_sound false env j x Hj e Hr) as (d & A & B & _). exists d. split; [exact B|now apply t_inst].
Qed.

Lemma C143_reverse_pf :
  forall env j x e, env j = Fin x -> regular true env e ->
  exists d, derivative (fun u => value_of (with_variable env j u) e) x d /\ instantiate (reverse env j e (Fin 1)) = Fin d.
Proof.
  intros env j x e Hj Hr. destruct (ad_sound true env j x Hj e Hr) as (d & A & B & C). exists d. split; [exact B|].
  rewrite (t_inst _ _ (C eq_refl 1)). f_equal. ring.
Qed.

Lemma pl_formula xx alpha high low : value_of (powerlaw_env xx alpha high low) powerlaw_formula = powerlaw_body xx alpha high low.
Proof. reflexivity. Qed.
Lemma pl_regular both xx alpha high low : 0 < low -> low < xx -> xx < high -> alpha <> -1 ->
  regular both (powerlaw_env (Fin xx) (Fin alpha) (Fin high) (Fin low)) powerlaw_formula.
Proof.
  intros Hl Hx Hh Ha. unfold powerlaw_formula, powerlaw_norm_formula. cbn [regular harmless value_of powerlaw_env compare_with]. unfold finite.
  assert (F : forall r, exists y, Fin r = Fin y) by (intros r; now exists r).
  assert (P : forall r, 0 < r -> exists y, Fin r = Fin y /\ 0 < y) by (intros r Hr; now exists r).
  assert (N : forall a b, a <> b -> Fin a <> Fin b) by (intros a b H E; apply H; congruence).
  rewrite feq_fin, Reqb_false by auto. rewrite fdiv_fin by lra. rewrite fadd_fin, !fpow_fin by lra. rewrite flog_fin by (apply Rdiv_lt_0_compat; lra). rewrite fsub_fin.
  assert (NZ : Rpower high (1 + alpha) - Rpower low (1 + alpha) <> 0).
  { destruct (Rlt_dec (-1) alpha).
    - assert (Rpower low (1+alpha) < Rpower high (1+alpha)) by (apply Rpower_strict_incr; lra). lra.
    - assert (Rpower high (1+alpha) < Rpower low (1+alpha)) by (apply Rpower_strict_decr; lra). lra. }
  assert (NL : ln (high / low) <> 0) by (apply Rgt_not_eq, ln_ratio_pos; lra).
  repeat split; auto; try (apply P; auto; try lra; apply Rdiv_lt_0_compat; lra); try (apply N; lra).
  apply N, Rgt_not_eq, Rdiv_lt_0_compat; lra.
Qed.

Lemma C143_powerlaw_pf :
  forall kw xx alpha high low j, 0 < low -> low < xx -> xx < high -> alpha <> -1 -> (j < 4)%nat ->
  let env := powerlaw_env (Fin xx) (Fin alpha) (Fin high) (Fin low) in
  let call := fun u => let e := with_variable env j u in powerlaw Jax kw (e 0%nat) (e 1%nat) (e 2%nat) (e 3%nat) in
  exists d, derivative_of_call call (toR (env j)) d /\
    instantiate (forward env j powerlaw_formula) = Fin d /\ instantiate (reverse env j powerlaw_formula (Fin 1)) = Fin d.
Proof.
  intros kw x a h l j Hl Hx Hh Ha Hj env call.
  assert (Ej : env j = Fin (toR (env j))) by (destruct j as [|[|[|[|j]]]]; try reflexivity; lia).
  destruct (ad_sound true env j (toR (env j)) Ej powerlaw_formula (pl_regular true x a h l Hl Hx Hh Ha)) as (d & A & (g & G1 & G2) & C).
  exists d. split; [|split].
  - exists g. split; [|exact G2]. eapply filter_imp; [|exact G1]. intros u Hu. cbv beta in Hu. unfold returns, call. rewrite powerlaw_cases. cbn [is_jax]. f_equal. exact Hu.
  - now apply t_inst.
  - rewrite (t_inst _ _ (C eq_refl 1)). f_equal. ring.
Qed.

Lemma log_mean h l : 0 < l < h -> is_RInt (fun y => ln y * plpdf (-1) h l y) l h ((ln h + ln l) / 2).
Proof.
  intros Hl. assert (Q := ln_ratio_pos _ _ Hl). assert (E : ln (h / l) = ln h - ln l) by (rewrite ln_div; lra).
  set (k := / ln (h / l)).
  apply (is_RInt_ext (fun y => k * (ln y * / y))).
  { intros y Hy. rewrite Rmin_left, Rmax_right in Hy by lra. unfold plpdf, plnorm. rewrite Reqb_refl. fold k.
    replace (Rpower y (-1)) with (/ y) by (replace (-1) with (- (1)) by ring; rewrite Rpower_Ropp, Rpower_1 by lra; reflexivity). match goal with |- @eq _ ?a ?b => change (@eq R a b) end. ring. }
  evar_last. apply (is_RInt_scal (V := R_NormedModule) (fun y => ln y * / y) l h k ((ln h * ln h / 2) - (ln l * ln l / 2))).
  - apply (is_RInt_derive (V := R_CompleteNormedModule) (fun y => ln y * ln y / 2)).
    + intros y Hy. rewrite Rmin_left, Rmax_right in Hy by lra. auto_derive; [lra|]. field. lra.
    + intros y Hy. rewrite Rmin_left, Rmax_right in Hy by lra. apply (ex_derive_continuous (V := R_NormedModule)). auto_derive. lra.
  - unfold scal; simpl; unfold mult; simpl. unfold k. rewrite E. field. lra.
Qed.
Lemma C143_minus_one_refuted_pf :
  forall kw xx high low, 0 < low -> low <= xx -> xx <= high -> low < high ->
  let env := powerlaw_env (Fin xx) (Fin (-1)) (Fin high) (Fin low) in
  exists p d, returns (powerlaw Jax kw (Fin xx) (Fin (-1)) (Fin high) (Fin low)) p /\ 0 < p /\
    derivative_of_call (fun a => powerlaw Jax kw (Fin xx) (Fin a) (Fin high) (Fin low)) (-1) d /\
    d = p * (ln xx - (ln high + ln low) / 2) /\
    forward env 1 powerlaw_formula = Some (Fin (p * ln xx)) /\ (high * low <> 1 -> p * ln xx <> d) /\
    reverse env 1 powerlaw_formula (Fin 1) = Some NaN.
Proof.
  intros kw x h l Hl Hx Hh Hlh env. assert (H : 0 < l < h) by lra.
  destruct (C142_powerlaw_pf Jax kw (-1) h l x H (conj Hx Hh) (or_introl eq_refl)) as (p & s & P1 & (q & m & Q1 & Q2 & ->) & D). cbv beta in *.
  assert (Ep : p = plpdf (-1) h l x).
  { unfold returns in P1. rewrite powerlaw_cases in P1. cbn [is_jax] in P1. rewrite powerlaw_body_in in P1 by lra. congruence. }
  assert (Em : m = (ln h + ln l) / 2).
  { assert (Q3 : is_RInt (fun y => ln y * plpdf (-1) h l y) l h m).
    { apply (is_RInt_ext (fun y => ln y * q y)); [|exact Q2]. intros y Hy. rewrite Rmin_left, Rmax_right in Hy by lra. f_equal.
      assert (R := Q1 y ltac:(lra)). unfold returns in R. rewrite powerlaw_cases in R. cbn [is_jax] in R. rewrite powerlaw_body_in in R by lra. congruence. }
    rewrite <- (is_RInt_unique _ _ _ _ Q3). apply is_RInt_unique, log_mean, H. }
  assert (Pp : 0 < p). { rewrite Ep. unfold plpdf. apply Rmult_lt_0_compat; [apply rpower_pos|now apply plnorm_pos]. }
  exists p, (p * (ln x - m)). split; [exact P1|split; [exact Pp|split; [exact D|split; [now rewrite Em|split; [|split]]]]].
  - unfold env, powerlaw_formula, powerlaw_norm_formula. cbn [forward value_of powerlaw_env Nat.eqb tadd tmap compare_with instantiate].
    rewrite !feq_fin, Reqb_refl. unfold pow_exponent. rewrite feq_fin, (Reqb_false x 0) by lra. rewrite flog_fin, !fpow_fin by lra.
    rewrite fdiv_fin by lra. rewrite flog_fin by (apply Rdiv_lt_0_compat; lra). rewrite fdiv_fin by (apply Rgt_not_eq, ln_ratio_pos; lra).
    rewrite fle_fin, fge_fin, !Rleb_true by lra. cbn [of_bool andb fmul fadd tadd tmap]. do 2 f_equal. rewrite Ep. unfold plpdf, plnorm. rewrite Reqb_refl. unfold Rdiv. ring.
  - intros N E. apply N. assert (Z : m = 0) by nra. assert (L0 : ln (h * l) = 0) by (rewrite ln_mult by lra; lra).
    rewrite <- (exp_ln (h * l)) by nra. rewrite L0. apply exp_0.
  - unfold env, powerlaw_formula, powerlaw_norm_formula. cbn [reverse value_of powerlaw_env Nat.eqb tadd compare_with].
    rewrite !feq_fin, Reqb_refl. rewrite fle_fin, fge_fin, !Rleb_true by lra. rewrite fadd_fin. replace (1 + -1) with 0 by ring.
    assert (Z : forall r, fpow r (Fin 0) = Fin 1) by (intros r; unfold fpow; rewrite feq_fin, Reqb_refl; reflexivity). rewrite !Z.
    rewrite fsub_fin. replace (1 - 1) with 0 by ring.
    assert (NN : fdiv (Fin 0) (Fin 0) = NaN). { cbn [fdiv]. rewrite Reqb_refl. unfold inf_of_sign. now rewrite !Rltb_false by lra. }
    rewrite NN. destruct (fmul (fmul (Fin 1) (of_bool (true && true))) _); cbn [tadd fadd]; f_equal; destruct (fmul _ _); reflexivity.
Qed.

Lemma tn_formula xx mu sigma high low : value_of (truncnorm_env xx mu sigma high low) truncnorm_formula = truncnorm_body xx mu sigma high low.
Proof.
  unfold truncnorm_formula, mask. cbn [value_of compare_with]. change (truncnorm_env xx mu sigma high low 0) with xx. change (truncnorm_env xx mu sigma high low 4) with low.
  change (truncnorm_env xx mu sigma high low 3) with high. rewrite (fle_fin 0 1), Rleb_true, !andb_true_r by lra. reflexivity.
Qed.
Lemma fin_fin r : finite (Fin r). Proof. now exists r. Qed.
Lemma pos_fin r : 0 < r -> exists y, Fin r = Fin y /\ 0 < y. Proof. intros H. now exists r. Qed.
Lemma fin_ne a b : a <> b -> Fin a <> Fin b. Proof. intros H E. apply H. congruence. Qed.
Lemma sub_exp_pos a b : a < b -> 0 < 1 - exp (ln (Phi a) - ln (Phi b)).
Proof.
  intros H. assert (A := Phi_gt_0 a). assert (B := Phi_gt_0 b). assert (I := Phi_incr a b H). assert (L : ln (Phi a) < ln (Phi b)) by (apply ln_increasing; lra).
  assert (E : exp (ln (Phi a) - ln (Phi b)) < exp 0) by (apply exp_increasing; lra). rewrite exp_0 in E. lra.
Qed.
Lemma lse_value env p q a b : value_of env p = Fin (ln (Phi b)) -> value_of env q = Fin (ln (Phi a)) -> a < b ->
  value_of env (logsubexp_formula p q) = Fin (ln (Phi b) + ln (1 - exp (ln (Phi a) - ln (Phi b)))).
Proof.
  intros P Q H. unfold logsubexp_formula. cbn [value_of]. rewrite P, Q. cbn [fopp fsub prim_value]. rewrite fsub_fin. cbn [fexp]. rewrite fsub_fin.
  rewrite flog_fin by now apply sub_exp_pos. reflexivity.
Qed.
Lemma lse_regular both env p q a b : regular both env p -> regular both env q -> value_of env p = Fin (ln (Phi b)) -> value_of env q = Fin (ln (Phi a)) -> a < b ->
  regular both env (logsubexp_formula p q).
Proof.
  intros RP RQ P Q H. unfold logsubexp_formula. cbn [regular value_of]. rewrite P, Q. cbn [prim_value]. rewrite fsub_fin. cbn [fexp]. rewrite fsub_fin.
  repeat split; auto; try apply fin_fin. now apply pos_fin, sub_exp_pos.
Qed.
Lemma lse_harmless env p q a b : harmless env p -> harmless env q -> value_of env p = Fin (ln (Phi b)) -> value_of env q = Fin (ln (Phi a)) -> a < b ->
  harmless env (logsubexp_formula p q).
Proof.
  intros RP RQ P Q H. unfold logsubexp_formula. cbn [harmless value_of]. rewrite P, Q. cbn [prim_value]. rewrite fsub_fin. cbn [fexp]. rewrite fsub_fin.
  assert (X := sub_exp_pos a b H). repeat split; auto; try apply fin_fin; try discriminate. apply fin_ne. lra.
Qed.
Lemma log_norm_regular both env aa bb a b : regular both env aa -> regular both env bb -> harmless env aa -> harmless env bb -> value_of env aa = Fin a -> value_of env bb = Fin b ->
  a < b -> a <> 0 -> b <> 0 -> regular both env (truncnorm_log_norm_formula aa bb).
Proof.
  intros RA RB HA HB VA VB L NA NB. unfold truncnorm_log_norm_formula.
  assert (SA := Phi_sym a). assert (SB := Phi_sym b). assert (PA := Phi_gt_0 a). assert (PB := Phi_lt_1 b). assert (PI' := Phi_incr a b L).
  assert (V1 : value_of env (EPrim PLogNdtr bb) = Fin (ln (Phi b))) by (cbn [value_of]; now rewrite VB).
  assert (V2 : value_of env (EPrim PLogNdtr aa) = Fin (ln (Phi a))) by (cbn [value_of]; now rewrite VA).
  assert (V3 : value_of env (EPrim PLogNdtr (ENeg aa)) = Fin (ln (Phi (- a)))) by (cbn [value_of]; now rewrite VA).
  assert (V4 : value_of env (EPrim PLogNdtr (ENeg bb)) = Fin (ln (Phi (- b)))) by (cbn [value_of]; now rewrite VB).
  assert (X1 : regular both env (EPrim PLogNdtr bb)) by (split; [exact RB|exact I]).
  assert (X2 : regular both env (EPrim PLogNdtr aa)) by (split; [exact RA|exact I]).
  assert (X3 : regular both env (EPrim PLogNdtr (ENeg aa))) by (split; [exact RA|exact I]).
  assert (X4 : regular both env (EPrim PLogNdtr (ENeg bb))) by (split; [exact RB|exact I]).
  assert (Y1 : harmless env (EPrim PLogNdtr bb)) by (cbn [harmless]; rewrite VB; repeat split; [exact HB|apply fin_fin|discriminate]).
  assert (Y2 : harmless env (EPrim PLogNdtr aa)) by (cbn [harmless]; rewrite VA; repeat split; [exact HA|apply fin_fin|discriminate]).
  assert (Y3 : harmless env (EPrim PLogNdtr (ENeg aa))) by (cbn [harmless value_of]; rewrite VA; repeat split; [exact HA|apply fin_fin|discriminate]).
  assert (Y4 : harmless env (EPrim PLogNdtr (ENeg bb))) by (cbn [harmless value_of]; rewrite VB; repeat split; [exact HB|apply fin_fin|discriminate]).
  assert (H1 : harmless env (logsubexp_formula (EPrim PLogNdtr bb) (EPrim PLogNdtr aa))) by (apply (lse_harmless env _ _ a b); auto).
  assert (H2 : harmless env (logsubexp_formula (EPrim PLogNdtr (ENeg aa)) (EPrim PLogNdtr (ENeg bb)))) by (apply (lse_harmless env _ _ (- b) (- a)); auto; lra).
  assert (V5 : value_of env (ESub (ENeg (EPrim PNdtr aa)) (EPrim PNdtr (ENeg bb))) = Fin (- Phi a - Phi (- b))) by (cbn [value_of]; rewrite VA, VB; cbn [prim_value fndtr fopp]; now rewrite fsub_fin).
  assert (H3 : harmless env (EPrim PLog1p (ESub (ENeg (EPrim PNdtr aa)) (EPrim PNdtr (ENeg bb))))).
  { cbn [harmless]. rewrite V5. cbn [value_of]. rewrite VA, VB. repeat split; auto; try apply fin_fin; try discriminate. intros _. apply fin_ne. lra. }
  cbn [regular]. rewrite VA, VB.
  assert (F0 : finite (Fin 0)) by apply fin_fin.
  repeat match goal with |- _ /\ _ => split end; auto; try (apply fin_ne; assumption).
  cbn [value_of]. rewrite VA, VB. cbn [compare_with]. rewrite fle_fin. destruct (Rleb b 0) eqn:LB.
  - split; [apply (lse_regular both env _ _ a b); auto|]. intros _. exact (conj H2 (conj H3 I)).
  - split; [|intros _; exact H1]. repeat match goal with |- _ /\ _ => split end; auto; try (apply fin_ne; assumption).
    unfold fgt. cbn [flt]. destruct (Rltb 0 a) eqn:LA.
    + split; [apply (lse_regular both env _ _ (- b) (- a)); auto; lra|]. intros _. exact (conj H3 I).
    + split; [|intros _; exact H2]. repeat match goal with |- _ /\ _ => split end; auto; try (apply fin_ne; assumption).
      assert (PB0 : Rltb 0 b = true) by (apply Rltb_true; destruct (Rleb_spec b 0); [discriminate|lra]). rewrite PB0.
      split; [|intros _; exact I]. split.
      * repeat split; auto.
      * exists (- Phi a - Phi (- b)). split; [cbn [value_of]; rewrite ?VA, ?VB; cbn [prim_value fndtr fopp]; now rewrite ?fsub_fin|lra].
Qed.
Lemma tn_regular both xx mu sigma high low : 0 < sigma -> low < xx -> xx < high -> mu <> low -> mu <> high ->
  regular both (truncnorm_env (Fin xx) (Fin mu) (Fin sigma) (Fin high) (Fin low)) truncnorm_formula.
Proof.
  intros Hs Hl Hh Nl Nh. set (env := truncnorm_env (Fin xx) (Fin mu) (Fin sigma) (Fin high) (Fin low)).
  assert (F : forall i, finite (env i)) by (intros [|[|[|[|i]]]]; apply fin_fin).
  assert (E : forall i r, env i = Fin r -> value_of env (standard i) = Fin ((r - mu) / sigma) /\ regular both env (standard i) /\ harmless env (standard i)).
  { intros i r Hi. unfold standard. cbn [value_of regular harmless]. rewrite Hi. change (env 1%nat) with (Fin mu). change (env 2%nat) with (Fin sigma). rewrite fsub_fin, fdiv_fin by lra.
    repeat split; auto; try apply fin_fin; apply fin_ne; lra. }
  destruct (E 0%nat xx eq_refl) as (V0 & R0 & _), (E 3%nat high eq_refl) as (V3 & R3 & H3), (E 4%nat low eq_refl) as (V4 & R4 & H4).
  assert (LN : regular both env (truncnorm_log_norm_formula (standard 4) (standard 3))).
  { apply (log_norm_regular both env _ _ ((low - mu) / sigma) ((high - mu) / sigma)); auto.
    - apply Rmult_lt_compat_r; [now apply Rinv_0_lt_compat|lra].
    - intros X. apply Nl. apply (Rmult_eq_compat_r sigma) in X. field_simplify in X; lra.
    - intros X. apply Nh. apply (Rmult_eq_compat_r sigma) in X. field_simplify in X; lra. }
  unfold truncnorm_formula, mask. cbn [regular]. repeat match goal with |- _ /\ _ => split end; auto; try apply fin_fin; try exact I; cbn [value_of]; try (apply fin_ne; lra).
  now apply pos_fin.
Qed.
Lemma C143_truncnorm_pf :
  forall kw xx mu sigma high low j, 0 < sigma -> low < xx -> xx < high -> mu <> low -> mu <> high -> (j < 5)%nat ->
  let env := truncnorm_env (Fin xx) (Fin mu) (Fin sigma) (Fin high) (Fin low) in
  let call := fun u => let e := with_variable env j u in truncnorm Jax kw (e 0%nat) (e 1%nat) (e 2%nat) (e 3%nat) (e 4%nat) in
  exists d, derivative_of_call call (toR (env j)) d /\
    instantiate (forward env j truncnorm_formula) = Fin d /\ instantiate (reverse env j truncnorm_formula (Fin 1)) = Fin d.
Proof.
  intros kw x m s h l j Hs Hl Hh Nl Nh Hj env call.
  assert (Ej : env j = Fin (toR (env j))) by (destruct j as [|[|[|[|[|j]]]]]; try reflexivity; lia).
  destruct (ad_sound true env j (toR (env j)) Ej truncnorm_formula (tn_regular true x m s h l Hs Hl Hh Nl Nh)) as (d & A & (g & G1 & G2) & C).
  exists d. split; [|split].
  - exists g. split; [|exact G2]. eapply filter_imp; [|exact G1]. intros u Hu. cbv beta in Hu. unfold returns, call. rewrite truncnorm_cases. cbn [is_jax]. f_equal.
    rewrite <- tn_formula. rewrite <- Hu. destruct j as [|[|[|[|[|j]]]]]; try lia; reflexivity.
  - now apply t_inst.
  - rewrite (t_inst _ _ (C eq_refl 1)). f_equal. ring.
Qed.

Lemma win_formula mass mmin mmax delta_m : value_of (window_env mass mmin mmax delta_m) window_formula = smoothing Jax mass mmin mmax delta_m.
Proof.
  unfold window_formula, mask, smoothing. cbn [value_of compare_with is_jax orb]. change (window_env mass mmin mmax delta_m 0) with mass. change (window_env mass mmin mmax delta_m 1) with mmin.
  change (window_env mass mmin mmax delta_m 2) with mmax. change (window_env mass mmin mmax delta_m 3) with delta_m. rewrite (fle_fin 0 1), Rleb_true, !andb_true_r by lra. reflexivity.
Qed.
Lemma clip_inside x : exists y, fclip (1 / 1000000) (1 - 1 / 1000000) (Fin x) = Fin y /\ 0 < y < 1.
Proof.
  cbn [fclip]. destruct (Rltb_spec x (1 / 1000000)); [eexists; split; [reflexivity|lra]|]. destruct (Rltb_spec (1 - 1 / 1000000) x); eexists; (split; [reflexivity|lra]).
Qed.
Lemma win_regular both m mn mx dm : dm <> 0 -> mn < m -> m < mx -> (m - mn) / dm <> 1 / 1000000 -> (m - mn) / dm <> 1 - 1 / 1000000 ->
  regular both (window_env (Fin m) (Fin mn) (Fin mx) (Fin dm)) window_formula.
Proof.
  intros Hd H1 H2 N1 N2. unfold window_formula, mask. cbn [regular value_of window_env prim_value]. rewrite fsub_fin, fdiv_fin by exact Hd. cbn [nan_to_num nan_to_num_nan].
  destruct (clip_inside ((m - mn) / dm)) as (y & -> & Y). rewrite fsub_fin.
  repeat match goal with |- _ /\ _ => split end; auto; try apply fin_fin; try exact I; try (apply fin_ne; first [assumption|lra]); lra.
Qed.
Lemma C143_window_pf :
  forall mass mmin mmax delta_m j, delta_m <> 0 -> mmin < mass -> mass < mmax ->
  (mass - mmin) / delta_m <> 1 / 1000000 -> (mass - mmin) / delta_m <> 1 - 1 / 1000000 -> (j < 4)%nat ->
  let env := window_env (Fin mass) (Fin mmin) (Fin mmax) (Fin delta_m) in
  exists d, derivative (fun u => let e := with_variable env j u in smoothing Jax (e 0%nat) (e 1%nat) (e 2%nat) (e 3%nat)) (toR (env j)) d /\
    instantiate (forward env j window_formula) = Fin d /\ instantiate (reverse env j window_formula (Fin 1)) = Fin d.
Proof.
  intros m mn mx dm j Hd H1 H2 N1 N2 Hj env.
  assert (Ej : env j = Fin (toR (env j))) by (destruct j as [|[|[|[|j]]]]; try reflexivity; lia).
  destruct (ad_sound true env j (toR (env j)) Ej window_formula (win_regular true m mn mx dm Hd H1 H2 N1 N2)) as (d & A & (g & G1 & G2) & C).
  exists d. split; [|split].
  - exists g. split; [|exact G2]. eapply filter_imp; [|exact G1]. intros u Hu. cbv beta in *. rewrite <- Hu. rewrite <- win_formula.
    destruct j as [|[|[|[|j]]]]; try lia; reflexivity.
  - now apply t_inst.
  - rewrite (t_inst _ _ (C eq_refl 1)). f_equal. ring.
Qed.

Lemma C143_no_window_refuted_pf :
  forall mass mmin mmax j, mmin < mass -> mass < mmax -> (j < 2)%nat ->
  let env := window_env (Fin mass) (Fin mmin) (Fin mmax) (Fin 0) in
  derivative (fun u => let e := with_variable env j u in smoothing Jax (e 0%nat) (e 1%nat) (e 2%nat) (e 3%nat)) (toR (env j)) 0 /\
  forward env j window_formula = Some (Fin 0) /\ reverse env j window_formula (Fin 1) = Some NaN.
Proof.
  intros m mn mx j H1 H2 Hj env.
  assert (MF := MAXF_ge_1).
  assert (ND : forall a, 0 < a -> nan_to_num (fdiv (Fin a) (Fin 0)) = Fin MAXF).
  { intros a Ha. cbn [fdiv]. rewrite Reqb_refl. unfold inf_of_sign. now rewrite Rltb_true by lra. }
  assert (CL : fclip (1 / 1000000) (1 - 1 / 1000000) (Fin MAXF) = Fin (1 - 1 / 1000000)).
  { cbn [fclip]. rewrite Rltb_false, Rltb_true by lra. reflexivity. }
  assert (SM : forall a b, b < a -> a < mx -> smoothing Jax (Fin a) (Fin b) (Fin mx) (Fin 0) = smoothing Jax (Fin m) (Fin mn) (Fin mx) (Fin 0)).
  { intros a b La Lb. unfold smoothing. cbn [is_jax orb]. rewrite !fsub_fin, !ND by lra. rewrite !fge_fin, !fle_fin, !Rleb_true by lra. reflexivity. }
  assert (SF : exists r, smoothing Jax (Fin m) (Fin mn) (Fin mx) (Fin 0) = Fin r).
  { unfold smoothing. cbn [is_jax orb]. rewrite fsub_fin, ND, CL by lra. rewrite fge_fin, fle_fin, !Rleb_true by lra. rewrite fsub_fin, !fdiv_fin by lra. rewrite fsub_fin.
    cbn [fopp fexpit of_bool fmul]. eexists. reflexivity. }
  destruct SF as [r SF]. split; [|split].
  - apply (d_ext_loc (fun _ => Fin r)); [|apply d_const]. destruct j as [|[|j]]; [| |lia]; cbv zeta.
    + eapply filter_imp; [|exact (filter_and _ _ (near_lt (fun _ => mn) (fun u => u) m (continuous_const _ _) (continuous_id _) H1) (near_lt (fun u => u) (fun _ => mx) m (continuous_id _) (continuous_const _ _) H2))].
      intros u [A B]. cbv beta in *. symmetry. transitivity (smoothing Jax (Fin u) (Fin mn) (Fin mx) (Fin 0)); [reflexivity|]. rewrite SM by assumption. exact SF.
    + eapply filter_imp; [|exact (near_lt (fun u => u) (fun _ => m) mn (continuous_id _) (continuous_const _ _) H1)].
      intros u A. cbv beta in *. symmetry. transitivity (smoothing Jax (Fin m) (Fin u) (Fin mx) (Fin 0)); [reflexivity|]. rewrite SM by assumption. exact SF.
  - unfold env, window_formula, mask. assert (CM : clip_mask (1 / 1000000) (1 - 1 / 1000000) (Fin MAXF) = Fin 0).
    { unfold clip_mask. rewrite !feq_fin, !Reqb_false by lra. unfold fgt. cbn [orb flt]. rewrite (Rltb_false MAXF) by lra. now rewrite andb_false_r. }
    assert (PI0 : fdiv (Fin (m - mn)) (Fin 0) = PInf) by (cbn [fdiv]; rewrite Reqb_refl; unfold inf_of_sign; now rewrite Rltb_true by lra).
    destruct j as [|[|j]]; [| |lia]; cbn [forward value_of window_env Nat.eqb tadd tmap prim_value prim_rule compare_with]; rewrite !fsub_fin, !ND, !CL, !CM by lra; rewrite PI0;
      cbn [is_fin]; rewrite !fsub_fin; rewrite !fge_fin, !fle_fin, !Rleb_true by lra; unfold minus_square; cbn [fmul fopp]; rewrite !fdiv_fin by (try apply Rmult_integral_contrapositive_currified; lra);
      cbn [fmul fopp tadd tmap fadd fsub fexpit of_bool andb]; do 2 f_equal; ring.
  - unfold env, window_formula, mask. assert (CM : clip_mask (1 / 1000000) (1 - 1 / 1000000) (Fin MAXF) = Fin 0).
    { unfold clip_mask. rewrite !feq_fin, !Reqb_false by lra. unfold fgt. cbn [orb flt]. rewrite (Rltb_false MAXF) by lra. now rewrite andb_false_r. }
    assert (PI0 : fdiv (Fin (m - mn)) (Fin 0) = PInf) by (cbn [fdiv]; rewrite Reqb_refl; unfold inf_of_sign; now rewrite Rltb_true by lra).
    assert (NN : fdiv (Fin 0) (Fin 0) = NaN) by (cbn [fdiv]; rewrite Reqb_refl; unfold inf_of_sign; now rewrite !Rltb_false by lra).
    destruct j as [|[|j]]; [| |lia]; cbn [reverse value_of window_env Nat.eqb tadd prim_value prim_rule compare_with]; rewrite !fsub_fin, !ND, !CL, !CM by lra; rewrite PI0;
      cbn [is_fin]; rewrite NN; cbn [fopp tadd fadd]; try reflexivity.
Qed.

Lemma C143_rates_pf :
  forall j z lamb gamma kappa z_peak, -1 < z -> -1 < z_peak ->
  (let env := madau_env (Fin z) (Fin lamb) (Fin kappa) (Fin z_peak) in
   (j < 2)%nat -> exists d, derivative (fun u => let e := with_variable env j u in match powerlaw_psi (e 0%nat) [("lamb"%string, e 1%nat)] with Ok v => v | Err _ => NaN end) (toR (env j)) d /\
     instantiate (forward env j powerlaw_rate_formula) = Fin d /\ instantiate (reverse env j powerlaw_rate_formula (Fin 1)) = Fin d) /\
  (let env := madau_env (Fin z) (Fin gamma) (Fin kappa) (Fin z_peak) in
   (j < 4)%nat -> exists d, derivative (fun u => let e := with_variable env j u in
       match madau_psi (e 0%nat) [("gamma", e 1%nat); ("kappa", e 2%nat); ("z_peak", e 3%nat)]%string with Ok v => v | Err _ => NaN end) (toR (env j)) d /\
     instantiate (forward env j madau_formula) = Fin d /\ instantiate (reverse env j madau_formula (Fin 1)) = Fin d).
Proof.
  intros j z lam gam kap zp Hz Hp.
  assert (F : forall r, exists y, Fin r = Fin y) by (intros r; now exists r).
  assert (P : forall r, 0 < r -> exists y, Fin r = Fin y /\ 0 < y) by (intros r Hr; now exists r).
  assert (N : forall a, 0 < a -> Fin a <> Fin 0) by (intros a H E; injection E as E; lra).
  split; intros env Hj.
  - assert (Ej : env j = Fin (toR (env j))) by (destruct j as [|[|j]]; try reflexivity; lia).
    assert (R : regular true env powerlaw_rate_formula) by (unfold powerlaw_rate_formula, env; cbn [regular value_of madau_env]; unfold finite; rewrite fadd_fin; repeat split; auto; apply P; lra).
    destruct (ad_sound true env j (toR (env j)) Ej powerlaw_rate_formula R) as (d & A & B & C).
    exists d. split; [exact B|split; [now apply t_inst|]]. rewrite (t_inst _ _ (C eq_refl 1)). f_equal. ring.
  - assert (Ej : env j = Fin (toR (env j))) by (destruct j as [|[|[|[|j]]]]; try reflexivity; lia).
    assert (R : regular true env madau_formula).
    { unfold madau_formula, env; cbn [regular value_of madau_env fopp]. unfold finite. rewrite !fadd_fin. rewrite fdiv_fin by lra. assert (D : 0 < (1 + z) / (1 + zp)) by (apply Rdiv_lt_0_compat; lra).
      rewrite !fpow_fin by lra. rewrite !fadd_fin. repeat split; auto; try (apply P; lra); try (apply N; try lra). assert (X := rpower_pos ((1 + z) / (1 + zp)) kap). lra. }
    destruct (ad_sound true env j (toR (env j)) Ej madau_formula R) as (d & A & B & C).
    exists d. split; [exact B|split; [now apply t_inst|]]. rewrite (t_inst _ _ (C eq_refl 1)). f_equal. ring.
Qed.

