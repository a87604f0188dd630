(** Proofs of the property theorems stated in [Props_cont]. *)
From Coq Require Import Reals Lra Lia Psatz String Bool.
From Coquelicot Require Import Coquelicot.
From Coq Require Import List.
From Verif Require Import Xf Py Xf_facts Py_facts Calc Special Gauss_facts Spec Utils_model Powerlaw_facts Truncnorm_facts Mass_model Spin_model Np Cosmo_model Redshift_model SpecCont.
Import ListNotations.
Local Open Scope R_scope.

Section C.
  Context {T : UniformSpace}.
  Implicit Types f g h : T -> R.
  Lemma c_const (c : R) (t : T) : continuous (fun _ : T => c) t.
  Proof. apply continuous_const. Qed.
  Lemma c_plus f g t : continuous f t -> continuous g t -> continuous (fun u => f u + g u) t.
  Proof. intros. now apply (continuous_plus (V := R_NormedModule) f g). Qed.
  Lemma c_minus f g t : continuous f t -> continuous g t -> continuous (fun u => f u - g u) t.
  Proof. intros. now apply (continuous_minus (V := R_NormedModule) f g). Qed.
  Lemma c_opp f t : continuous f t -> continuous (fun u => - f u) t.
  Proof. intros. now apply (continuous_opp (V := R_NormedModule) f). Qed.
  Lemma c_mult f g t : continuous f t -> continuous g t -> continuous (fun u => f u * g u) t.
  Proof. intros. now apply (continuous_mult (K := R_AbsRing) f g). Qed.
  Lemma c_comp f (k : R -> R) t : continuous f t -> continuous k (f t) -> continuous (fun u => k (f u)) t.
  Proof. intros. now apply (continuous_comp f k). Qed.
  Lemma c_div f g t : continuous f t -> continuous g t -> g t <> 0 -> continuous (fun u => f u / g u) t.
  Proof. intros A B N. apply c_mult; [exact A|]. apply (c_comp g Rinv); [exact B|]. apply cont_of_deriv. auto_derive. exact N. Qed.
  Lemma c_exp f t : continuous f t -> continuous (fun u => exp (f u)) t.
  Proof. intros A. apply (c_comp f exp t A). apply cont_of_deriv. auto_derive. exact I. Qed.
  Lemma c_ln f t : continuous f t -> 0 < f t -> continuous (fun u => ln (f u)) t.
  Proof. intros A P. apply (c_comp f ln t A). apply cont_of_deriv. auto_derive. exact P. Qed.
  Lemma c_Rpower f g t : continuous f t -> continuous g t -> 0 < f t -> continuous (fun u => Rpower (f u) (g u)) t.
  Proof. intros. unfold Rpower. apply c_exp, c_mult; [assumption|]. now apply c_ln. Qed.
  Lemma c_Phi f t : continuous f t -> continuous (fun u => Phi (f u)) t.
  Proof. intros A. apply (c_comp f Phi t A), Phi_cont. Qed.
  Lemma c_gauss f t : continuous f t -> continuous (fun u => gauss (f u)) t.
  Proof. intros A. apply (c_comp f gauss t A), gauss_cont. Qed.
  Lemma c_ext f g t : (forall u, f u = g u) -> continuous f t -> continuous g t.
  Proof. intros E. apply continuous_ext. exact E. Qed.
  Lemma c_local f g t : locally t (fun u => f u = g u) -> continuous f t -> continuous g t.
  Proof. intros E A. apply (continuous_ext_loc g f t); [exact E|exact A]. Qed.
  Lemma c_if (b : T -> bool) f g t : continuous f t -> continuous g t -> f t = g t -> continuous (fun u => if b u then f u else g u) t.
  Proof.
    intros A B E P HP. assert (HP1 : locally (f t) P) by (destruct (b t); [exact HP|rewrite E; exact HP]). assert (HP2 : locally (g t) P) by (rewrite <- E; exact HP1).
    specialize (A P HP1). specialize (B P HP2). unfold filtermap in *.
    eapply filter_imp; [|exact (filter_and _ _ A B)]. cbv beta. intros u [X Y]. now destruct (b u).
  Qed.
  Lemma near_lt f g t : continuous f t -> continuous g t -> f t < g t -> locally t (fun u => f u < g u).
  Proof.
    intros A B L. assert (D := c_minus g f t B A). unfold continuous in D. assert (P : 0 < g t - f t) by lra.
    specialize (D (fun y => 0 < y)). eapply filter_imp; [|apply D]; [intros u H; cbv beta in H; lra|].
    exists (mkposreal _ P). intros y Hy. change (Rabs (y - (g t - f t)) < g t - f t) in Hy. apply Rabs_def2 in Hy. lra.
  Qed.
  Lemma near_ne f c t : continuous f t -> f t <> c -> locally t (fun u => f u <> c).
  Proof.
    intros A N. destruct (Rtotal_order (f t) c) as [L|[L|L]]; [|contradiction|].
    - eapply filter_imp; [|exact (near_lt f (fun _ => c) t A (c_const c t) L)]. intros u H. cbv beta in H. lra.
    - eapply filter_imp; [|exact (near_lt (fun _ => c) f t (c_const c t) A L)]. intros u H. cbv beta in H. lra.
  Qed.
End C.
(** (exp y - 1) / y, continued to 1 at 0. *)
Definition expm1_over (y : R) : R := if Reqb y 0 then 1 else (exp y - 1) / y.
Lemma expm1_over_cont y : continuous expm1_over y.
Proof.
  destruct (Req_dec y 0) as [->|N].
  - apply continuity_pt_filterlim. intros eps He. pose proof (derivable_pt_lim_exp 0) as D. rewrite exp_0 in D. destruct (D eps He) as (d & Hd). exists d. split; [apply cond_pos|].
    intros z [[_ Hz] Hz2]. unfold R_met, R_dist in *. simpl in *. unfold R_dist in *. rewrite Rminus_0_r in Hz2. unfold expm1_over. rewrite (proj2 (Reqb_eq 0 0) eq_refl) || rewrite Reqb_refl.
    rewrite Reqb_false by congruence. specialize (Hd z ltac:(congruence) Hz2). now rewrite Rplus_0_l, exp_0 in Hd.
  - apply (c_local (fun u => (exp u - 1) / u)).
    + eapply filter_imp; [|exact (near_ne (fun u : R_UniformSpace => u) 0 y (continuous_id y) N)]. intros u Hu. unfold expm1_over. now rewrite Reqb_false.
    + apply cont_of_deriv. auto_derive. exact N.
Qed.
Lemma expm1_over_pos y : 0 < expm1_over y.
Proof.
  unfold expm1_over. destruct (Reqb_spec y 0) as [|N]; [lra|]. destruct (Rtotal_order y 0) as [L|[L|L]]; [|contradiction|].
  - assert (exp y < 1) by (rewrite <- exp_0; now apply exp_increasing). replace ((exp y - 1) / y) with ((1 - exp y) / - y) by (field; lra). apply Rdiv_lt_0_compat; lra.
  - assert (1 < exp y) by (rewrite <- exp_0; now apply exp_increasing). apply Rdiv_lt_0_compat; lra.
Qed.
Lemma plnorm_one_formula alpha high low : 0 < low < high -> plnorm alpha high low = / (Rpower low (1 + alpha) * (ln (high / low) * expm1_over ((1 + alpha) * ln (high / low)))).
Proof.
  intros H. assert (L := ln_ratio_pos low high H). unfold plnorm, expm1_over. destruct (Reqb_spec alpha (-1)) as [->|N].
  - replace (1 + -1) with 0 by ring. rewrite Rmult_0_l. rewrite (proj2 (Reqb_eq 0 0) eq_refl) || rewrite Reqb_refl. rewrite Rpower_O by lra. f_equal. ring.
  - assert (N' : (1 + alpha) * ln (high / low) <> 0) by (apply Rmult_integral_contrapositive_currified; lra). rewrite Reqb_false by exact N'.
    change (exp ((1 + alpha) * ln (high / low))) with (Rpower (high / low) (1 + alpha)).
    assert (E : Rpower high (1 + alpha) = Rpower low (1 + alpha) * Rpower (high / low) (1 + alpha)). { rewrite Rpower_mult_distr by (try apply Rdiv_lt_0_compat; lra). f_equal. field. lra. }
    rewrite E. set (A := Rpower low _). set (B := Rpower (high / low) _). assert (HA : 0 < A) by apply exp_pos.
    assert (HB : B <> 1). { unfold B, Rpower. intros X. apply N'. apply exp_inv. rewrite exp_0. exact X. }
    assert (HD : A * B - A <> 0) by (intros X; apply HB; apply Rmult_eq_reg_l with A; lra).
    field. repeat split; try lra.
Qed.
Section D.
  Context {T : UniformSpace}.
  Lemma c_plpdf (x alpha high low : T -> R) t : continuous x t -> continuous alpha t -> continuous high t -> continuous low t -> 0 < low t < high t -> 0 < x t ->
    continuous (fun u => plpdf (alpha u) (high u) (low u) (x u)) t.
  Proof.
    intros Cx Ca Ch Cl H Hx. assert (L := ln_ratio_pos _ _ H).
    apply (c_local (fun u => Rpower (x u) (alpha u) * (1 / (Rpower (low u) (1 + alpha u) * (ln (high u / low u) * expm1_over ((1 + alpha u) * ln (high u / low u))))))).
    { eapply filter_imp; [|exact (filter_and _ _ (near_lt (fun _ => 0) low t (c_const 0 t) Cl (proj1 H)) (near_lt low high t Cl Ch (proj2 H)))].
      intros u [A B]. unfold plpdf. rewrite plnorm_one_formula by (cbv beta in A, B; lra). unfold Rdiv. now rewrite Rmult_1_l. }
    assert (Cr : continuous (fun u => ln (high u / low u)) t) by (apply c_ln; [apply c_div; auto; lra|apply Rdiv_lt_0_compat; lra]).
    assert (C1 : continuous (fun u => 1 + alpha u) t) by (apply c_plus; [apply c_const|exact Ca]).
    apply c_mult; [now apply c_Rpower|]. apply c_div; [apply c_const| |].
    - apply c_mult; [apply c_Rpower; auto; lra|]. apply c_mult; [exact Cr|]. apply (c_comp (fun u => (1 + alpha u) * ln (high u / low u)) expm1_over); [now apply c_mult|apply expm1_over_cont].
    - apply Rgt_not_eq. apply Rmult_lt_0_compat; [apply exp_pos|]. apply Rmult_lt_0_compat; [exact L|apply expm1_over_pos].
  Qed.
  Lemma c_tnpdf (x mu sigma high low : T -> R) t : continuous x t -> continuous mu t -> continuous sigma t -> continuous high t -> continuous low t -> 0 < sigma t -> low t < high t ->
    continuous (fun u => tnpdf (mu u) (sigma u) (high u) (low u) (x u)) t.
  Proof.
    intros Cx Cm Cs Ch Cl Hs H. unfold tnpdf, Zab. assert (Q : forall f : T -> R, continuous f t -> continuous (fun u => (f u - mu u) / sigma u) t) by (intros f Cf; apply c_div; [now apply c_minus|exact Cs|lra]).
    apply c_div; [apply c_div; [|exact Cs|lra]|apply c_minus|].
    - apply (c_gauss (fun u => (x u - mu u) / sigma u)). now apply Q.
    - apply (c_Phi (fun u => (high u - mu u) / sigma u)). now apply Q.
    - apply (c_Phi (fun u => (low u - mu u) / sigma u)). now apply Q.
    - apply Rgt_not_eq, Zab_pos, div_lt; lra.
  Qed.
  Lemma near_slope bk kw (alpha : T -> R) t : continuous alpha t -> (bk = Jax \/ ~ In "alpha"%string kw \/ alpha t <> 1) -> locally t (fun u => alpha_ok bk kw (alpha u)).
  Proof.
    intros Ca [H|[H|H]]; [apply filter_forall; intros u; now left|apply filter_forall; intros u; right; now left|].
    eapply filter_imp; [|exact (near_ne alpha 1 t Ca H)]. intros u Hu. right. now right.
  Qed.
End D.

Lemma C129_powerlaw_pf :
  forall (T : UniformSpace) bk kw (x alpha high low : T -> R) t, continuous x t -> continuous alpha t -> continuous high t -> continuous low t ->
  0 < low t < x t -> x t < high t -> (bk = Jax \/ ~ In "alpha"%string kw \/ alpha t <> 1) ->
  continuous_call (fun u => powerlaw bk kw (Fin (x u)) (Fin (alpha u)) (Fin (high u)) (Fin (low u))) t.
Proof.
  intros T bk kw x alpha high low t Cx Ca Ch Cl [H1 H2] H3 HS. exists (fun u => plpdf (alpha u) (high u) (low u) (x u)). split; [|apply c_plpdf; auto; lra].
  eapply filter_imp; [|exact (filter_and _ _ (filter_and _ _ (near_lt (fun _ => 0) low t (c_const 0 t) Cl H1) (near_lt low x t Cl Cx H2)) (filter_and _ _ (near_lt x high t Cx Ch H3) (near_slope bk kw alpha t Ca HS)))].
  intros u [[A B] [C D]]. cbv beta in *. unfold returns. rewrite powerlaw_ok by (auto; lra). now rewrite powerlaw_body_in by lra.
Qed.

Lemma C129_truncnorm_pf :
  forall (T : UniformSpace) bk kw (x mu sigma high low : T -> R) t, continuous x t -> continuous mu t -> continuous sigma t -> continuous high t -> continuous low t ->
  0 < sigma t -> low t < x t < high t ->
  continuous_call (fun u => truncnorm bk kw (Fin (x u)) (Fin (mu u)) (Fin (sigma u)) (Fin (high u)) (Fin (low u))) t.
Proof.
  intros T bk kw x mu sigma high low t Cx Cm Cs Ch Cl H1 [H2 H3]. exists (fun u => tnpdf (mu u) (sigma u) (high u) (low u) (x u)). split; [|apply c_tnpdf; auto; lra].
  eapply filter_imp; [|exact (filter_and _ _ (near_lt (fun _ => 0) sigma t (c_const 0 t) Cs H1) (filter_and _ _ (near_lt low x t Cl Cx H2) (near_lt x high t Cx Ch H3)))].
  intros u [A [B C]]. cbv beta in *. unfold returns. rewrite truncnorm_ok by lra. now rewrite truncnorm_body_in by lra.
Qed.

Section B.
  Context {T : UniformSpace}.
  (** Binding and combining calls. *)
  Lemma call2 (f g : T -> result xf) (k : T -> xf -> xf -> xf) (K : T -> R -> R -> R) t : continuous_call f t -> continuous_call g t ->
    (forall u a b, k u (Fin a) (Fin b) = Fin (K u a b)) -> (forall a b : T -> R, continuous a t -> continuous b t -> continuous (fun u => K u (a u) (b u)) t) ->
    continuous_call (fun u => x <- f u ;; y <- g u ;; Ok (k u x y)) t.
  Proof.
    intros (a & A1 & A2) (b & B1 & B2) Hk HK. exists (fun u => K u (a u) (b u)). split; [|now apply HK].
    eapply filter_imp; [|exact (filter_and _ _ A1 B1)]. intros u [E1 E2]. unfold returns in *. rewrite E1. cbn [bind]. rewrite E2. cbn [bind]. now rewrite Hk.
  Qed.
  Lemma call_ext (f g : T -> result xf) t : (forall u, f u = g u) -> continuous_call f t -> continuous_call g t.
  Proof. intros E (a & A1 & A2). exists a. split; [|exact A2]. eapply filter_imp; [|exact A1]. intros u. unfold returns. now rewrite E. Qed.
End B.

Lemma C129_broken_power_law_pf :
  forall (T : UniformSpace) bk (mass alpha_1 alpha_2 mmin mmax break_fraction : T -> R) t,
  continuous mass t -> continuous alpha_1 t -> continuous alpha_2 t -> continuous mmin t -> continuous mmax t -> continuous break_fraction t ->
  0 < mmin t < mass t -> mass t < mmax t -> 0 < break_fraction t < 1 -> (bk = Jax \/ alpha_1 t <> -1) -> (bk = Jax \/ alpha_2 t <> -1) ->
  continuous_call (fun u => double_power_law_primary_mass bk (Fin (mass u)) (Fin (alpha_1 u)) (Fin (alpha_2 u)) (Fin (mmin u)) (Fin (mmax u)) (Fin (break_fraction u))) t.
Proof.
  intros T bk m a1 a2 lo hi bf t Cm C1 C2 Cl Ch Cb [H1 H2] H3 [H4 H5] S1 S2.
  set (mb := fun u => lo u + bf u * (hi u - lo u)). assert (Cmb : continuous mb t) by (apply c_plus; [exact Cl|]; apply c_mult; [exact Cb|]; now apply c_minus).
  assert (B1 : lo t < mb t) by (unfold mb; assert (0 < bf t * (hi t - lo t)) by (apply Rmult_lt_0_compat; lra); lra).
  assert (B2 : mb t < hi t) by (unfold mb; assert (0 < (1 - bf t) * (hi t - lo t)) by (apply Rmult_lt_0_compat; lra); lra).
  assert (Co1 : continuous (fun u => - a1 u) t) by now apply c_opp. assert (Co2 : continuous (fun u => - a2 u) t) by now apply c_opp.
  set (cn := fun u => plpdf (- a2 u) (hi u) (mb u) (mb u)). set (cd := fun u => plpdf (- a1 u) (mb u) (lo u) (mb u)).
  set (A := fun u => plpdf (- a1 u) (mb u) (lo u) (m u) * (cn u / cd u)). set (B := fun u => plpdf (- a2 u) (hi u) (mb u) (m u)).
  assert (Ccn : continuous cn t) by (apply (c_plpdf mb (fun u => - a2 u) hi mb); auto; lra). assert (Ccd : continuous cd t) by (apply (c_plpdf mb (fun u => - a1 u) mb lo); auto; lra).
  assert (Pn : 0 < cn t) by (apply plpdf_pos; lra). assert (Pd : 0 < cd t) by (apply plpdf_pos; lra).
  assert (Cq : continuous (fun u => cn u / cd u) t) by (apply c_div; auto; lra). assert (Pq : 0 < cn t / cd t) by now apply Rdiv_lt_0_compat.
  assert (CA : continuous A t) by (apply c_mult; [|exact Cq]; apply (c_plpdf m (fun u => - a1 u) mb lo); auto; lra).
  assert (CB : continuous B t) by (apply (c_plpdf m (fun u => - a2 u) hi mb); auto; lra).
  assert (S1' : bk = Jax \/ ~ In "alpha"%string pl_kw \/ - a1 t <> 1) by (destruct S1; [now left|right; right; lra]).
  assert (S2' : bk = Jax \/ ~ In "alpha"%string pl_kw \/ - a2 t <> 1) by (destruct S2; [now left|right; right; lra]).
  exists (fun u => (if Rltb (m u) (mb u) then A u else B u) / (1 + cn u / cd u)). split.
  - eapply filter_imp; [|exact (filter_and _ _ (filter_and _ _ (filter_and _ _ (near_lt (fun _ => 0) lo t (c_const 0 t) Cl H1) (near_lt lo mb t Cl Cmb B1)) (filter_and _ _ (near_lt mb hi t Cmb Ch B2) (filter_and _ _ (near_lt lo m t Cl Cm H2) (near_lt m hi t Cm Ch H3)))) (filter_and _ _ (near_slope bk pl_kw _ t Co1 S1') (near_slope bk pl_kw _ t Co2 S2')))].
    intros u [[[X1 X2] [X3 [X4 X5]]] [X6 X7]]. cbv beta in *. unfold returns, double_power_law_primary_mass. autorewrite with xf. fold (mb u).
    rewrite !powerlaw_ok by (auto; lra). cbn [bind]. rewrite (powerlaw_body_in (- a2 u) (hi u) (mb u) (mb u)), (powerlaw_body_in (- a1 u) (mb u) (lo u) (mb u)) by lra.
    fold (cn u) (cd u). assert (Y1 : 0 < cn u) by (apply plpdf_pos; lra). assert (Y2 : 0 < cd u) by (apply plpdf_pos; lra). rewrite (fdiv_fin (cn u)) by lra.
    assert (Y3 : 0 < cn u / cd u) by now apply Rdiv_lt_0_compat. rewrite flt_fin, fge_fin. f_equal. destruct (Rltb_spec (m u) (mb u)) as [L|L].
    + rewrite powerlaw_body_in by lra. rewrite powerlaw_body_out by lra. rewrite Rleb_false by lra. cbn [of_bool]. autorewrite with xf. rewrite fdiv_fin by lra. f_equal. f_equal. unfold A. ring.
    + rewrite (powerlaw_body_in (- a2 u)) by lra. rewrite Rleb_true by lra. destruct (Rle_lt_or_eq_dec (mb u) (m u)) as [E|E]; [lra| |].
      * rewrite powerlaw_body_out by lra. cbn [of_bool]. autorewrite with xf. rewrite fdiv_fin by lra. f_equal. f_equal. unfold B. ring.
      * rewrite powerlaw_body_in by lra. cbn [of_bool]. autorewrite with xf. rewrite fdiv_fin by lra. f_equal. f_equal. unfold B. ring.
  - apply c_div; [|apply c_plus; [apply c_const|exact Cq]|lra].
    destruct (Req_dec (m t) (mb t)) as [E|N].
    + apply c_if; auto. unfold A, B. rewrite E. fold (cn t) (cd t). field. lra.
    + destruct (Rtotal_order (m t) (mb t)) as [L|[L|L]]; [|contradiction|].
      * apply (c_local A); [|exact CA]. eapply filter_imp; [|exact (near_lt m mb t Cm Cmb L)]. intros u X. cbv beta in X. now rewrite Rltb_true.
      * apply (c_local B); [|exact CB]. eapply filter_imp; [|exact (near_lt mb m t Cmb Cm L)]. intros u X. cbv beta in X. rewrite Rltb_false by lra. reflexivity.
Qed.

Lemma C129_peak_models_pf :
  forall (T : UniformSpace) bk (mass alpha mmin mmax lam mpp sigpp gmax lam_1 mpp_2 sigpp_2 : T -> R) t,
  continuous mass t -> continuous alpha t -> continuous mmin t -> continuous mmax t -> continuous lam t -> continuous mpp t -> continuous sigpp t -> continuous gmax t ->
  continuous lam_1 t -> continuous mpp_2 t -> continuous sigpp_2 t ->
  0 < mmin t < mass t -> mass t < mmax t -> mass t < gmax t -> 0 < sigpp t -> 0 < sigpp_2 t -> (bk = Jax \/ alpha t <> -1) ->
  continuous_call (fun u => two_component_single bk (Fin (mass u)) (Fin (alpha u)) (Fin (mmin u)) (Fin (mmax u)) (Fin (lam u)) (Fin (mpp u)) (Fin (sigpp u)) (Fin (gmax u))) t /\
  continuous_call (fun u => three_component_single bk (Fin (mass u)) (Fin (alpha u)) (Fin (mmin u)) (Fin (mmax u)) (Fin (lam u)) (Fin (lam_1 u)) (Fin (mpp u)) (Fin (sigpp u)) (Fin (mpp_2 u)) (Fin (sigpp_2 u)) (Fin (gmax u))) t.
Proof.
  intros T bk m a lo hi lam mpp sp gm lam1 mpp2 sp2 t Cm Ca Cl Ch Clam Cmpp Csp Cg Cl1 Cmpp2 Csp2 [H1 H2] H3 H4 H5 H6 S.
  destruct (C129_powerlaw_pf T bk pl_kw m (fun u => - a u) hi lo t Cm (c_opp a t Ca) Ch Cl (conj H1 H2) H3) as (p & P1 & P2); [destruct S; [now left|right; right; lra]|].
  destruct (C129_truncnorm_pf T bk tn_kw m mpp sp gm lo t Cm Cmpp Csp Cg Cl H5 (conj H2 H4)) as (g & G1 & G2).
  destruct (C129_truncnorm_pf T bk tn_kw m mpp2 sp2 gm lo t Cm Cmpp2 Csp2 Cg Cl H6 (conj H2 H4)) as (g2 & G3 & G4).
  assert (O : continuous (fun u => 1 - lam u) t) by (apply c_minus; [apply c_const|exact Clam]). assert (O1 : continuous (fun u => 1 - lam1 u) t) by (apply c_minus; [apply c_const|exact Cl1]). split.
  - exists (fun u => (1 - lam u) * p u + lam u * g u). split; [|apply c_plus; now apply c_mult].
    eapply filter_imp; [|exact (filter_and _ _ P1 G1)]. intros u [E1 E2]. unfold returns, two_component_single in *. rewrite fopp_fin, E1. cbn [bind]. rewrite E2. cbn [bind]. now autorewrite with xf.
  - exists (fun u => (1 - lam u) * p u + lam u * lam1 u * g u + lam u * (1 - lam1 u) * g2 u). split.
    + eapply filter_imp; [|exact (filter_and _ _ P1 (filter_and _ _ G1 G3))]. intros u [E1 [E2 E3]]. unfold returns, three_component_single in *. rewrite fopp_fin, E1. cbn [bind]. rewrite E2. cbn [bind]. rewrite E3. cbn [bind]. now autorewrite with xf.
    + apply c_plus; [apply c_plus|]; apply c_mult; auto; now apply c_mult.
Qed.

Lemma C129_mass_ratio_pf :
  forall (T : UniformSpace) bk (m1 q alpha beta mmin mmax lam mpp sigpp gmax : T -> R) t,
  continuous m1 t -> continuous q t -> continuous alpha t -> continuous beta t -> continuous mmin t -> continuous mmax t -> continuous lam t -> continuous mpp t -> continuous sigpp t -> continuous gmax t ->
  0 < mmin t < m1 t -> m1 t < mmax t -> m1 t < gmax t -> 0 < sigpp t -> mmin t / m1 t < q t < 1 -> (bk = Jax \/ alpha t <> -1) ->
  continuous_call (fun u => two_component_primary_mass_ratio bk (Fin (m1 u)) (Fin (q u)) (Fin (alpha u)) (Fin (beta u)) (Fin (mmin u)) (Fin (mmax u)) (Fin (lam u)) (Fin (mpp u)) (Fin (sigpp u)) (Fin (gmax u))) t.
Proof.
  intros T bk m1 q a b lo hi lam mpp sp gm t Cm Cq Ca Cb Cl Ch Clam Cmpp Csp Cg [H1 H2] H3 H4 H5 [H6 H7] S.
  destruct (C129_peak_models_pf T bk m1 a lo hi lam mpp sp gm lam mpp sp t Cm Ca Cl Ch Clam Cmpp Csp Cg Clam Cmpp Csp (conj H1 H2) H3 H4 H5 H5 S) as [(p & P1 & P2) _].
  assert (Cr : continuous (fun u => lo u / m1 u) t) by (apply c_div; auto; lra). assert (Pr : 0 < lo t / m1 t) by (apply Rdiv_lt_0_compat; lra).
  destruct (C129_powerlaw_pf T bk [] q b (fun _ => 1) (fun u => lo u / m1 u) t Cq Cb (c_const 1 t) Cr (conj Pr H6) H7) as (g & G1 & G2); [right; left; intros []|].
  exists (fun u => p u * g u). split; [|now apply c_mult].
  eapply filter_imp; [|exact (filter_and _ _ (filter_and _ _ P1 G1) (near_ne m1 0 t Cm ltac:(lra)))]. intros u [[E1 E2] E3]. unfold returns, two_component_primary_mass_ratio in *. rewrite E1. cbn [bind]. unfold mass_ratio_factor. rewrite fdiv_fin by exact E3. rewrite E2. cbn [bind]. now autorewrite with xf.
Qed.

Lemma C129_spins_pf :
  forall (T : UniformSpace) bk (c_1 c_2 xi sigma_1 sigma_2 mu_1 mu_2 : T -> R) t,
  continuous c_1 t -> continuous c_2 t -> continuous xi t -> continuous sigma_1 t -> continuous sigma_2 t -> continuous mu_1 t -> continuous mu_2 t ->
  -1 < c_1 t < 1 -> -1 < c_2 t < 1 -> 0 < sigma_1 t -> 0 < sigma_2 t ->
  continuous_call (fun u => independent_spin_orientation_gaussian_isotropic bk (Fin (c_1 u)) (Fin (c_2 u)) (Fin (xi u)) (Fin (sigma_1 u)) (Fin (sigma_2 u)) (Fin (mu_1 u)) (Fin (mu_2 u))) t /\
  continuous_call (fun u => gaussian_chi_eff bk (Fin (c_1 u)) (Fin (mu_1 u)) (Fin (sigma_1 u))) t /\
  (0 < c_1 t -> continuous_call (fun u => gaussian_chi_p bk (Fin (c_1 u)) (Fin (mu_1 u)) (Fin (sigma_1 u))) t).
Proof.
  intros T bk c1 c2 xi s1 s2 m1 m2 t Cc1 Cc2 Cx Cs1 Cs2 Cm1 Cm2 H1 H2 H3 H4.
  destruct (C129_truncnorm_pf T bk [] c1 m1 s1 (fun _ => 1) (fun _ => -1) t Cc1 Cm1 Cs1 (c_const 1 t) (c_const (-1) t) H3 H1) as (p & P1 & P2).
  destruct (C129_truncnorm_pf T bk [] c2 m2 s2 (fun _ => 1) (fun _ => -1) t Cc2 Cm2 Cs2 (c_const 1 t) (c_const (-1) t) H4 H2) as (g & G1 & G2). split; [|split].
  - exists (fun u => (1 - xi u) / 4 + xi u * p u * g u). split.
    + eapply filter_imp; [|exact (filter_and _ _ P1 G1)]. intros u [E1 E2]. unfold returns, independent_spin_orientation_gaussian_isotropic in *. rewrite E1. cbn [bind]. rewrite E2. cbn [bind]. autorewrite with xf. rewrite fdiv_fin by lra. now autorewrite with xf.
    + apply c_plus; [apply c_div; [apply c_minus; [apply c_const|exact Cx]|apply c_const|lra]|]. apply c_mult; [now apply c_mult|exact G2].
  - apply (C129_truncnorm_pf T bk _ c1 m1 s1 (fun _ => 1) (fun _ => -1) t Cc1 Cm1 Cs1 (c_const 1 t) (c_const (-1) t) H3 H1).
  - intros H. apply (C129_truncnorm_pf T bk _ c1 m1 s1 (fun _ => 1) (fun _ => 0) t Cc1 Cm1 Cs1 (c_const 1 t) (c_const 0 t) H3). lra.
Qed.

