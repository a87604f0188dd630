(** Proofs of the property theorems stated in [Props_units]. *)
From Coq Require Import Reals Lra Lia Psatz String Bool.
From Coquelicot Require Import Coquelicot.
From Coq Require Import List.
From Verif Require Import Xf Py St Xf_facts Py_facts Calc Spec Utils_model Powerlaw_facts Truncnorm_facts Trap_facts Np Np_facts Mass_model Mass_facts Smoothed_model Smoothed_facts SpecClass SpecUnits.
Import ListNotations.
Local Open Scope R_scope.

(** Rescaling by a positive number, on all extended numbers. *)
Lemma sgn_scale c a : 0 < c -> inf_of_sign (c * a) = inf_of_sign a.
Proof.
  intros Hc. unfold inf_of_sign. destruct (Rlt_or_le 0 a).
  - rewrite !Rltb_true; auto. now apply Rmult_lt_0_compat.
  - rewrite (Rltb_false 0 a), (Rltb_false 0 (c * a)) by nra. destruct (Rlt_or_le a 0); [rewrite !Rltb_true by nra|rewrite !Rltb_false by nra]; reflexivity.
Qed.
Lemma Rltb_scale c a b : 0 < c -> Rltb (c * a) (c * b) = Rltb a b.
Proof. intros Hc. destruct (Rltb_spec a b); [apply Rltb_true; nra|apply Rltb_false; nra]. Qed.
Lemma Rleb_scale c a b : 0 < c -> Rleb (c * a) (c * b) = Rleb a b.
Proof. intros Hc. destruct (Rleb_spec a b); [apply Rleb_true; nra|apply Rleb_false; nra]. Qed.
Lemma Reqb_scale0 c a : 0 < c -> Reqb (c * a) 0 = Reqb a 0.
Proof.
  intros Hc. destruct (Reqb_spec a 0) as [->|N]; [rewrite Rmult_0_r; apply Reqb_refl|]. destruct (Reqb_spec (c * a) 0) as [E|_]; [|reflexivity].
  exfalso. apply N. apply Rmult_integral in E. destruct E; [lra|assumption].
Qed.
Lemma mul_PInf c : 0 < c -> fmul (Fin c) PInf = PInf.
Proof. intros Hc. simpl. unfold inf_of_sign. now rewrite Rltb_true. Qed.
Lemma mul_NInf c : 0 < c -> fmul (Fin c) NInf = NInf.
Proof. intros Hc. simpl. unfold inf_of_sign. now rewrite Rltb_true. Qed.
Ltac scl Hc := rewrite ?(mul_PInf _ Hc), ?(mul_NInf _ Hc), ?fmul_fin.
Lemma fsub_scale c a b : 0 < c -> fsub (fmul (Fin c) a) (fmul (Fin c) b) = fmul (Fin c) (fsub a b).
Proof.
  intros Hc. destruct a as [a| | |], b as [b| | |]; scl Hc; rewrite ?fsub_fin, ?fmul_fin; try (f_equal; ring); simpl; unfold inf_of_sign; rewrite ?Rltb_true by lra; reflexivity.
Qed.
Lemma fdiv_scale c a b : 0 < c -> fdiv (fmul (Fin c) a) (fmul (Fin c) b) = fdiv a b.
Proof.
  intros Hc. destruct a as [a| | |], b as [b| | |]; scl Hc; try reflexivity.
  - simpl. rewrite Reqb_scale0 by auto. destruct (Reqb_spec b 0); [now apply sgn_scale|]. f_equal. field. split; lra.
  - simpl. rewrite <- (Rmult_0_r c) at 1. now rewrite Rltb_scale.
  - simpl. rewrite <- (Rmult_0_r c) at 1. now rewrite Rltb_scale.
Qed.
Lemma fge_scale c a b : 0 < c -> fge (fmul (Fin c) a) (fmul (Fin c) b) = fge a b.
Proof. intros Hc. destruct a as [a| | |], b as [b| | |]; scl Hc; rewrite ?fge_fin, ?Rleb_scale; reflexivity || auto. Qed.
Lemma fle_scale c a b : 0 < c -> fle (fmul (Fin c) a) (fmul (Fin c) b) = fle a b.
Proof. intros Hc. destruct a as [a| | |], b as [b| | |]; scl Hc; rewrite ?fle_fin, ?Rleb_scale; reflexivity || auto. Qed.
Lemma flt_scale c a b : 0 < c -> flt (fmul (Fin c) a) (fmul (Fin c) b) = flt a b.
Proof. intros Hc. destruct a as [a| | |], b as [b| | |]; scl Hc; rewrite ?flt_fin, ?Rltb_scale; reflexivity || auto. Qed.
Lemma fgt_scale c a b : 0 < c -> fgt (fmul (Fin c) a) (fmul (Fin c) b) = fgt a b.
Proof. intros Hc. destruct a as [a| | |], b as [b| | |]; scl Hc; rewrite ?fgt_fin, ?Rltb_scale; reflexivity || auto. Qed.
Lemma feq0_scale c a : 0 < c -> feq (fmul (Fin c) a) (Fin 0) = feq a (Fin 0).
Proof. intros Hc. destruct a as [a| | |]; scl Hc; rewrite ?feq_fin, ?Reqb_scale0; reflexivity || auto. Qed.
Lemma fgt0_scale c a : 0 < c -> fgt (fmul (Fin c) a) (Fin 0) = fgt a (Fin 0).
Proof. intros Hc. rewrite <- (fgt_scale c a (Fin 0) Hc), fmul_fin, Rmult_0_r. reflexivity. Qed.
Lemma fne0_scale c a : 0 < c -> fne (fmul (Fin c) a) (Fin 0) = fne a (Fin 0).
Proof. intros Hc. unfold fne. now rewrite feq0_scale. Qed.
Lemma sgn_cases a : inf_of_sign a = PInf \/ inf_of_sign a = NInf \/ inf_of_sign a = NaN.
Proof. unfold inf_of_sign. destruct (Rltb 0 a); auto. destruct (Rltb a 0); auto. Qed.
Lemma fmul_assoc_scale c a b : 0 < c -> fmul (fmul (Fin c) a) b = fmul (Fin c) (fmul a b).
Proof.
  intros Hc. assert (S : forall r, fmul (Fin c) (inf_of_sign r) = inf_of_sign r) by (intros r; destruct (sgn_cases r) as [E|[E|E]]; rewrite E; [exact (mul_PInf c Hc)|exact (mul_NInf c Hc)|reflexivity]).
  assert (S' : forall r, fmul (Fin c) (fopp (inf_of_sign r)) = fopp (inf_of_sign r)) by (intros r; destruct (sgn_cases r) as [E|[E|E]]; rewrite E; cbn [fopp]; [exact (mul_NInf c Hc)|exact (mul_PInf c Hc)|reflexivity]).
  destruct a as [a| | |], b as [b| | |]; scl Hc; rewrite ?fmul_fin; try reflexivity; try (f_equal; ring); cbn [fmul]; rewrite ?sgn_scale by auto; rewrite ?S, ?S'; try reflexivity; unfold inf_of_sign; rewrite (Rltb_true 0 c Hc); reflexivity.
Qed.
Lemma smoothing_units bk c m mmin mmax delta : 0 < c -> smoothing bk (fmul (Fin c) m) (fmul (Fin c) mmin) (fmul (Fin c) mmax) (fmul (Fin c) delta) = smoothing bk m mmin mmax delta.
Proof. intros Hc. unfold smoothing. now rewrite fgt0_scale, fsub_scale, fdiv_scale, fge_scale, fle_scale by auto. Qed.

Lemma plnorm_scale c alpha high low : 0 < c -> 0 < low < high -> plnorm alpha (c * high) (c * low) = plnorm alpha high low / Rpower c (1 + alpha).
Proof.
  intros Hc Hl. unfold plnorm. destruct (Reqb_spec alpha (-1)) as [->|N].
  - replace (c * high / (c * low)) with (high / low) by (field; lra). replace (1 + -1) with 0 by ring. rewrite Rpower_O by auto. field. apply Rgt_not_eq. now apply ln_ratio_pos.
  - rewrite <- !Rpower_mult_distr by lra. pose proof (Rpower_pos c (1 + alpha)).
    assert (D : Rpower high (1 + alpha) - Rpower low (1 + alpha) <> 0). { pose proof (plnorm_pos alpha high low Hl) as P. unfold plnorm in P. destruct (Reqb_spec alpha (-1)); [contradiction|]. intros E. rewrite E in P. unfold Rdiv in P. rewrite Rinv_0 in P. lra. }
    rewrite <- Rmult_minus_distr_l. field. split; [exact D|lra].
Qed.
Lemma plpdf_scale c alpha high low x : 0 < c -> 0 < low < high -> 0 < x -> plpdf alpha (c * high) (c * low) (c * x) = plpdf alpha high low x / c.
Proof.
  intros Hc Hl Hx. unfold plpdf. rewrite plnorm_scale, <- Rpower_mult_distr, Rpower_plus, Rpower_1 by auto. pose proof (Rpower_pos c alpha). field. split; lra.
Qed.
Lemma plval_scale c alpha high low x : 0 < c -> 0 < low < high -> 0 < x -> plval alpha (c * high) (c * low) (c * x) = plval alpha high low x / c.
Proof. intros Hc Hl Hx. unfold plval. rewrite !Rleb_scale by auto. destruct (Rleb low x && Rleb x high); [now apply plpdf_scale|unfold Rdiv; ring]. Qed.
Lemma tnval_scale c mu sigma high low x : 0 < c -> 0 < sigma -> low < high -> tnval (c * mu) (c * sigma) (c * high) (c * low) (c * x) = tnval mu sigma high low x / c.
Proof. intros Hc Hs Hl. unfold tnval. rewrite !Rleb_scale by auto. destruct (Rleb low x && Rleb x high); [now apply tnpdf_scale|unfold Rdiv; ring]. Qed.
Lemma mbr_scale c mmin mmax bf : mbr (c * mmin) (c * mmax) bf = c * mbr mmin mmax bf.
Proof. unfold mbr. ring. Qed.
Lemma corr_scale c a1 a2 mmin mmax bf : 0 < c -> 0 < mmin < mmax -> 0 < bf < 1 -> corr a1 a2 (c * mmin) (c * mmax) bf = corr a1 a2 mmin mmax bf.
Proof.
  intros Hc Hm Hb. pose proof (mbr_in mmin mmax bf Hm Hb) as Hi. unfold corr, ph, pl. rewrite mbr_scale, !plpdf_scale by lra.
  pose proof (pl_pos a1 mmin mmax bf Hm Hb (mbr mmin mmax bf)) as P. unfold pl in P. field. split; lra.
Qed.
Lemma dplval_scale c a1 a2 mmin mmax bf x : 0 < c -> 0 < mmin < mmax -> 0 < bf < 1 -> 0 < x -> dplval a1 a2 (c * mmin) (c * mmax) bf (c * x) = dplval a1 a2 mmin mmax bf x / c.
Proof.
  intros Hc Hm Hb Hx. pose proof (mbr_in mmin mmax bf Hm Hb) as Hi. unfold dplval. rewrite corr_scale, mbr_scale, Rltb_scale by auto.
  pose proof (corr_pos a1 a2 mmin mmax bf Hm Hb) as P. destruct (Rltb x (mbr mmin mmax bf)); rewrite plval_scale by lra; field; lra.
Qed.
Lemma twoval_scale c alpha mmin mmax lam mpp sigpp gmax x : 0 < c -> 0 < mmin < mmax -> mmin < gmax -> 0 < sigpp -> 0 < x ->
  twoval alpha (c * mmin) (c * mmax) lam (c * mpp) (c * sigpp) (c * gmax) (c * x) = twoval alpha mmin mmax lam mpp sigpp gmax x / c.
Proof. intros. unfold twoval. rewrite plval_scale, tnval_scale by auto. field. lra. Qed.
Lemma threeval_scale c alpha mmin mmax lam lam_1 mpp_1 sigpp_1 mpp_2 sigpp_2 gmax x : 0 < c -> 0 < mmin < mmax -> mmin < gmax -> 0 < sigpp_1 -> 0 < sigpp_2 -> 0 < x ->
  threeval alpha (c * mmin) (c * mmax) lam lam_1 (c * mpp_1) (c * sigpp_1) (c * mpp_2) (c * sigpp_2) (c * gmax) (c * x) = threeval alpha mmin mmax lam lam_1 mpp_1 sigpp_1 mpp_2 sigpp_2 gmax x / c.
Proof. intros. unfold threeval. rewrite plval_scale, !tnval_scale by auto. field. lra. Qed.
Lemma dpeakval_scale c a1 a2 mmin mmax bf lam mpp sigpp gmax x : 0 < c -> 0 < mmin < mmax -> 0 < bf < 1 -> mmin < gmax -> 0 < sigpp -> 0 < x ->
  dpeakval a1 a2 (c * mmin) (c * mmax) bf lam (c * mpp) (c * sigpp) (c * gmax) (c * x) = dpeakval a1 a2 mmin mmax bf lam mpp sigpp gmax x / c.
Proof. intros. unfold dpeakval. rewrite dplval_scale, tnval_scale by auto. field. lra. Qed.
Ltac pos := repeat (try assumption; try lra; match goal with |- 0 < _ * _ => apply Rmult_lt_0_compat end).
Lemma scaled_range c a b : 0 < c -> 0 < a < b -> 0 < c * a < c * b.
Proof. intros. split; [apply Rmult_lt_0_compat; lra|apply Rmult_lt_compat_l; lra]. Qed.
Lemma scaled_lt c a b : 0 < c -> a < b -> c * a < c * b.
Proof. intros. apply Rmult_lt_compat_l; lra. Qed.
Hint Resolve scaled_range scaled_lt Rmult_lt_0_compat : units.

Lemma C126_primary_models_pf :
  forall bk c m mmin mmax gmax alpha alpha_1 alpha_2 lam lam_1 mpp sigpp mpp_2 sigpp_2 break_fraction,
  0 < c -> 0 < m -> 0 < mmin < mmax -> mmin < gmax -> 0 < sigpp -> 0 < sigpp_2 -> 0 < break_fraction < 1 -> slope_ok bk alpha -> slope_ok bk alpha_1 -> slope_ok bk alpha_2 ->
  rescaled c (power_law_mass bk (Fin m) (Fin alpha) (Fin mmin) (Fin mmax)) (power_law_mass bk (Fin (c * m)) (Fin alpha) (Fin (c * mmin)) (Fin (c * mmax))) /\
  rescaled c (double_power_law_primary_mass bk (Fin m) (Fin alpha_1) (Fin alpha_2) (Fin mmin) (Fin mmax) (Fin break_fraction))
             (double_power_law_primary_mass bk (Fin (c * m)) (Fin alpha_1) (Fin alpha_2) (Fin (c * mmin)) (Fin (c * mmax)) (Fin break_fraction)) /\
  rescaled c (two_component_single bk (Fin m) (Fin alpha) (Fin mmin) (Fin mmax) (Fin lam) (Fin mpp) (Fin sigpp) (Fin gmax))
             (two_component_single bk (Fin (c * m)) (Fin alpha) (Fin (c * mmin)) (Fin (c * mmax)) (Fin lam) (Fin (c * mpp)) (Fin (c * sigpp)) (Fin (c * gmax))) /\
  rescaled c (three_component_single bk (Fin m) (Fin alpha) (Fin mmin) (Fin mmax) (Fin lam) (Fin lam_1) (Fin mpp) (Fin sigpp) (Fin mpp_2) (Fin sigpp_2) (Fin gmax))
             (three_component_single bk (Fin (c * m)) (Fin alpha) (Fin (c * mmin)) (Fin (c * mmax)) (Fin lam) (Fin lam_1) (Fin (c * mpp)) (Fin (c * sigpp)) (Fin (c * mpp_2)) (Fin (c * sigpp_2)) (Fin (c * gmax))) /\
  rescaled c (double_power_law_peak_primary_mass bk (Fin m) (Fin alpha_1) (Fin alpha_2) (Fin mmin) (Fin mmax) (Fin break_fraction) (Fin lam) (Fin mpp) (Fin sigpp) (Fin gmax))
             (double_power_law_peak_primary_mass bk (Fin (c * m)) (Fin alpha_1) (Fin alpha_2) (Fin (c * mmin)) (Fin (c * mmax)) (Fin break_fraction) (Fin lam) (Fin (c * mpp)) (Fin (c * sigpp)) (Fin (c * gmax))).
Proof.
  intros bk c m mmin mmax gmax alpha a1 a2 lam lam_1 mpp sigpp mpp_2 sigpp_2 bf Hc Hm Hr Hg Hs Hs2 Hb S S1 S2.
  assert (S12 : bk = Jax \/ (a1 <> -1 /\ a2 <> -1)) by (destruct S1 as [->|]; [now left|]; destruct S2 as [->|]; [now left|right; now split]).
  assert (Hm' : 0 < c * m) by auto with units. assert (Hr' := scaled_range c mmin mmax Hc Hr). assert (Hg' := scaled_lt c _ _ Hc Hg).
  assert (Hs' : 0 < c * sigpp) by auto with units. assert (Hs2' : 0 < c * sigpp_2) by auto with units.
  split; [|split; [|split; [|split]]]; eexists; (split; [first [apply plm_val|apply dpl_val|apply two_val|apply three_val|apply dpeak_val]; assumption|]).
  - rewrite plm_val by assumption. now rewrite plval_scale.
  - rewrite dpl_val by assumption. now rewrite dplval_scale.
  - rewrite two_val by assumption. now rewrite twoval_scale.
  - rewrite three_val by assumption. now rewrite threeval_scale.
  - rewrite dpeak_val by assumption. now rewrite dpeakval_scale.
Qed.

Lemma q_factor bk m q beta mmin : 0 < mmin < m -> 0 < q -> mass_ratio_factor bk (Fin m) (Fin q) (Fin beta) (Fin mmin) = Ok (Fin (plval beta 1 (mmin / m) q)).
Proof.
  intros Hm Hq. unfold mass_ratio_factor. rewrite fdiv_fin by lra. apply powerlaw_val; auto using alpha_ok_pos.
  split; [apply Rdiv_lt_0_compat; lra|]. apply Rlt_div_l; lra.
Qed.

Lemma C126_mass_ratio_pf :
  forall bk kw c m q beta mmin, 0 < c -> 0 < mmin < m -> 0 < q -> (bk = Jax \/ ~ In "alpha"%string kw \/ beta <> 1) ->
  rescaled m (mass_ratio_factor bk (Fin m) (Fin q) (Fin beta) (Fin mmin)) (powerlaw bk kw (Fin (m * q)) (Fin beta) (Fin m) (Fin mmin)) /\
  mass_ratio_factor bk (Fin (c * m)) (Fin q) (Fin beta) (Fin (c * mmin)) = mass_ratio_factor bk (Fin m) (Fin q) (Fin beta) (Fin mmin).
Proof.
  intros bk kw c m q beta mmin Hc Hm Hq Ha. split.
  - exists (plval beta 1 (mmin / m) q). split; [now apply q_factor|]. rewrite powerlaw_val; [|lra|exact Ha|apply Rmult_lt_0_compat; lra].
    do 2 f_equal. rewrite <- (plval_scale m beta 1 (mmin / m) q); [|lra|split; [apply Rdiv_lt_0_compat; lra|apply Rlt_div_l; lra]|exact Hq]. f_equal; field; lra.
  - rewrite !q_factor by (try assumption; now apply scaled_range). do 3 f_equal. field. lra.
Qed.

Lemma rescaled_mul c k a a' b b' : 0 < c -> 0 < k -> rescaled c a a' -> rescaled k b b' -> rescaled (c * k) (x <- a ;; y <- b ;; Ok (fmul x y)) (x <- a' ;; y <- b' ;; Ok (fmul x y)).
Proof. intros Hc Hk (x & -> & ->) (y & -> & ->). cbn [bind]. exists (x * y). rewrite !fmul_fin. split; [reflexivity|]. do 2 f_equal. field. lra. Qed.
Lemma rescaled_psg c k m1 m2 a a' b b' : 0 < c -> 0 < k -> rescaled k a a' -> rescaled k b b' ->
  rescaled (k * k) (x <- a ;; y <- b ;; Ok (primary_secondary_general (Fin m1) (Fin m2) x y)) (x <- a' ;; y <- b' ;; Ok (primary_secondary_general (Fin (c * m1)) (Fin (c * m2)) x y)).
Proof.
  intros Hc Hk (x & -> & ->) (y & -> & ->). cbn [bind]. unfold primary_secondary_general. rewrite !fge_fin, Rleb_scale by auto.
  destruct (Rleb m2 m1); cbn [of_bool]; rewrite !fmul_fin; eexists; (split; [reflexivity|]); do 2 f_equal; field; lra.
Qed.

Lemma C126_joint_models_pf :
  forall bk c m q m1 m2 mmin mmax gmax alpha beta alpha_1 alpha_2 lam mpp sigpp break_fraction,
  0 < c -> 0 < mmin < mmax -> mmin < m -> 0 < q -> 0 < m1 -> 0 < m2 -> mmin < gmax -> mmin < 100 -> c * mmin < 100 -> 0 < sigpp -> 0 < break_fraction < 1 ->
  slope_ok bk alpha -> slope_ok bk beta -> slope_ok bk alpha_1 -> slope_ok bk alpha_2 ->
  rescaled c (power_law_primary_mass_ratio bk (Fin m) (Fin q) (Fin alpha) (Fin beta) (Fin mmin) (Fin mmax))
             (power_law_primary_mass_ratio bk (Fin (c * m)) (Fin q) (Fin alpha) (Fin beta) (Fin (c * mmin)) (Fin (c * mmax))) /\
  rescaled c (two_component_primary_mass_ratio bk (Fin m) (Fin q) (Fin alpha) (Fin beta) (Fin mmin) (Fin mmax) (Fin lam) (Fin mpp) (Fin sigpp) (Fin gmax))
             (two_component_primary_mass_ratio bk (Fin (c * m)) (Fin q) (Fin alpha) (Fin beta) (Fin (c * mmin)) (Fin (c * mmax)) (Fin lam) (Fin (c * mpp)) (Fin (c * sigpp)) (Fin (c * gmax))) /\
  rescaled c (double_power_law_primary_power_law_mass_ratio bk (Fin m) (Fin q) (Fin alpha_1) (Fin alpha_2) (Fin beta) (Fin mmin) (Fin mmax) (Fin break_fraction))
             (double_power_law_primary_power_law_mass_ratio bk (Fin (c * m)) (Fin q) (Fin alpha_1) (Fin alpha_2) (Fin beta) (Fin (c * mmin)) (Fin (c * mmax)) (Fin break_fraction)) /\
  rescaled (c * c) (power_law_primary_secondary_independent bk (Fin m1) (Fin m2) (Fin alpha) (Fin beta) (Fin mmin) (Fin mmax))
                   (power_law_primary_secondary_independent bk (Fin (c * m1)) (Fin (c * m2)) (Fin alpha) (Fin beta) (Fin (c * mmin)) (Fin (c * mmax))) /\
  rescaled (c * c) (two_component_primary_secondary_independent bk (Fin m1) (Fin m2) (Fin alpha) (Fin beta) (Fin mmin) (Fin mmax) (Fin lam) (Fin mpp) (Fin sigpp) (Fin gmax))
                   (two_component_primary_secondary_independent bk (Fin (c * m1)) (Fin (c * m2)) (Fin alpha) (Fin beta) (Fin (c * mmin)) (Fin (c * mmax)) (Fin lam) (Fin (c * mpp)) (Fin (c * sigpp)) (Fin (c * gmax))).
Proof.
  intros bk c m q m1 m2 mmin mmax gmax alpha beta a1 a2 lam mpp sigpp bf Hc Hr Hm Hq Hm1 Hm2 Hg H100 H100' Hs Hb Sa Sb S1 S2.
  assert (Hp : 0 < m) by lra.
  assert (T : forall mu al, 0 < mu -> slope_ok bk al -> rescaled c (two_component_single bk (Fin mu) (Fin al) (Fin mmin) (Fin mmax) (Fin lam) (Fin mpp) (Fin sigpp) (Fin gmax))
             (two_component_single bk (Fin (c * mu)) (Fin al) (Fin (c * mmin)) (Fin (c * mmax)) (Fin lam) (Fin (c * mpp)) (Fin (c * sigpp)) (Fin (c * gmax)))).
  { intros mu al Hmu Hal. now apply (C126_primary_models_pf bk c mu mmin mmax gmax al a1 a2 lam 0 mpp sigpp 0 sigpp bf). }
  assert (Q : rescaled 1 (mass_ratio_factor bk (Fin m) (Fin q) (Fin beta) (Fin mmin)) (mass_ratio_factor bk (Fin (c * m)) (Fin q) (Fin beta) (Fin (c * mmin)))).
  { exists (plval beta 1 (mmin / m) q). rewrite !q_factor by (try assumption; try lra; apply scaled_range; lra). split; [reflexivity|]. do 2 f_equal. transitivity (plval beta 1 (mmin / m) q); [|field]. f_equal. field. lra. }
  split; [|split; [|split; [|split]]].
  - replace c with (c * 1) at 1 by ring. unfold power_law_primary_mass_ratio, two_component_primary_mass_ratio. apply rescaled_mul; [lra|lra| |exact Q].
    exists (twoval alpha mmin mmax 0 35 1 100 m). rewrite !two_val by (try assumption; try lra; auto with units). split; [reflexivity|]. do 2 f_equal. unfold twoval. rewrite plval_scale by lra. field. lra.
  - replace c with (c * 1) at 1 by ring. unfold two_component_primary_mass_ratio. apply rescaled_mul; [lra|lra|now apply T|exact Q].
  - replace c with (c * 1) at 1 by ring. unfold double_power_law_primary_power_law_mass_ratio. apply rescaled_mul; [lra|lra| |exact Q].
    now apply (C126_primary_models_pf bk c m mmin mmax gmax a1 a1 a2 0 0 0 sigpp 0 sigpp bf).
  - unfold power_law_primary_secondary_independent. apply rescaled_psg; [lra|lra| |]; eexists; (split; [autorewrite with xf; apply powerlaw_val; auto using alpha_ok_pos|]);
      autorewrite with xf; (rewrite powerlaw_val; [|now apply scaled_range|apply alpha_ok_pos|now apply Rmult_lt_0_compat]); do 2 f_equal; now apply plval_scale.
  - unfold two_component_primary_secondary_independent. apply rescaled_psg; [lra|lra|now apply T|now apply T].
Qed.

Lemma linspace_scale c a b n : linspace (c * a) (c * b) n = map (Rmult c) (linspace a b n).
Proof. unfold linspace. rewrite map_map. apply map_ext. intros i. unfold Rdiv. ring. Qed.
Lemma init_units c lo hi shape cache s s' : smoothed_init lo hi shape cache = Ok s -> smoothed_init (c * lo) (c * hi) shape cache = Ok s' -> object_in_units c s s'.
Proof.
  unfold smoothed_init. destruct (_ || _)%bool; [discriminate|]. intros E E'. injection E as <-. injection E' as <-. unfold object_in_units. cbn [sm_mmin sm_mmax sm_m1s sm_qs sm_cache sm_masses option_map].
  rewrite !fmul_fin. unfold xlinspace. rewrite linspace_scale, !map_map. repeat split; auto.
Qed.
Lemma q_density_units bk c beta mmin delta m q : 0 < c -> q_density bk beta (fmul (Fin c) mmin) (fmul (Fin c) delta) (fmul (Fin c) m) q = q_density bk beta mmin delta m q.
Proof. intros Hc. unfold q_density. now rewrite fdiv_scale, fmul_assoc_scale, smoothing_units by auto. Qed.
Lemma norm_or_one_units c n d : 0 < c -> norm_or_one n (fmul (Fin c) d) = norm_or_one n d.
Proof. intros Hc. unfold norm_or_one. now rewrite feq0_scale, fne0_scale by auto. Qed.
Lemma mapM_map {A B C} (f : B -> result C) (g : A -> B) l : mapM f (map g l) = mapM (fun a => f (g a)) l.
Proof. induction l as [|a l IH]; simpl; [reflexivity|]. now rewrite IH. Qed.
Lemma mapM_ext {A B} (f g : A -> result B) l : (forall a, In a l -> f a = g a) -> mapM f l = mapM g l.
Proof. induction l as [|a l IH]; intros H; simpl; [reflexivity|]. rewrite (H a (or_introl eq_refl)), IH; [reflexivity|]. intros; apply H; now right. Qed.
Lemma q_norms_units bk c s s' beta mmin delta : 0 < c -> object_in_units c s s' -> q_norms bk s' beta (fmul (Fin c) mmin) (fmul (Fin c) delta) = q_norms bk s beta mmin delta.
Proof.
  intros Hc (E1 & E2 & E3 & E4 & E5 & E6). unfold q_norms. rewrite E3, E4, mapM_map. apply mapM_ext. intros m _.
  rewrite (mapM_ext (q_density bk beta (fmul (Fin c) mmin) (fmul (Fin c) delta) (fmul (Fin c) m)) (q_density bk beta mmin delta m)) by (intros; now apply q_density_units).
  destruct (mapM _ _); cbn [bind]; [now rewrite norm_or_one_units|reflexivity].
Qed.
Lemma norm_p_q_units bk interp c s s' beta mmin delta : 0 < c -> unit_free interp -> object_in_units c s s' ->
  norm_p_q bk interp s' beta (fmul (Fin c) mmin) (fmul (Fin c) delta) = norm_p_q bk interp s beta mmin delta.
Proof.
  intros Hc HU H. unfold norm_p_q. rewrite (q_norms_units bk c s s' beta mmin delta Hc H). destruct H as (E1 & E2 & E3 & E4 & E5 & E6). rewrite E3, E6.
  destruct (q_norms _ _ _ _ _) as [n|]; cbn [bind]; [|reflexivity]. destruct (sm_masses s) as [ms|]; cbn [option_map]; [|reflexivity]. f_equal. rewrite map_map. apply map_ext. intros x. now apply HU.
Qed.
Lemma q_unnorm_units bk c m1 q beta mmin delta : 0 < c -> q_unnormalised bk (map (fmul (Fin c)) m1) q beta (fmul (Fin c) mmin) (fmul (Fin c) delta) = q_unnormalised bk m1 q beta mmin delta.
Proof.
  intros Hc. unfold q_unnormalised. assert (B : bcast bk (fun m q => (m, q)) (map (fmul (Fin c)) m1) q = rmap (map (fun p => (fmul (Fin c) (fst p), snd p))) (bcast bk (fun m q => (m, q)) m1 q)).
  { unfold bcast, bcast2. rewrite map_length. destruct (Nat.eqb _ _).
    - cbn [rmap]. f_equal. unfold zipWith. rewrite map_map. revert q. induction m1 as [|m m1 IH]; intros [|y q]; simpl; try reflexivity. now rewrite IH.
    - destruct m1 as [|m [|m' m1]]; cbn [map]; try reflexivity.
      + destruct q as [|y [|y' q]]; reflexivity.
      + cbn [rmap]. f_equal. rewrite map_map. reflexivity.
      + destruct q as [|y [|y' q]]; cbn [rmap]; try reflexivity. f_equal. cbn [map fst snd]. rewrite !map_map. reflexivity. }
  rewrite B. destruct (bcast _ _ m1 q) as [ps|]; cbn [rmap bind]; [|reflexivity]. rewrite mapM_map. apply mapM_ext. intros [m y] _. cbn [fst snd]. now apply q_density_units.
Qed.
Lemma div_as_mul c x : 0 < c -> fdiv x (Fin c) = fmul (Fin (/ c)) x.
Proof.
  intros Hc. assert (0 < / c) by (now apply Rinv_0_lt_compat). destruct x as [x| | |].
  - rewrite fdiv_fin, fmul_fin by lra. f_equal. unfold Rdiv. ring.
  - rewrite mul_PInf by auto. simpl. now rewrite Rltb_false by lra.
  - rewrite mul_NInf by auto. simpl. now rewrite Rltb_false by lra.
  - reflexivity.
Qed.
Lemma mul_div_swap k a n : 0 < k -> fdiv (fmul (Fin k) a) n = fmul (Fin k) (fdiv a n).
Proof.
  intros Hk. assert (S : forall r, fmul (Fin k) (inf_of_sign r) = inf_of_sign r) by (intros r; destruct (sgn_cases r) as [E|[E|E]]; rewrite E; [exact (mul_PInf k Hk)|exact (mul_NInf k Hk)|reflexivity]).
  destruct a as [a| | |], n as [n| | |]; rewrite ?(mul_PInf _ Hk), ?(mul_NInf _ Hk), ?fmul_fin; try reflexivity.
  - cbn [fdiv]. destruct (Reqb_spec n 0); [now rewrite S, sgn_scale|]. rewrite fmul_fin. f_equal. unfold Rdiv. ring.
  - cbn [fdiv]. rewrite fmul_fin. f_equal. ring.
  - cbn [fdiv]. rewrite fmul_fin. f_equal. ring.
  - cbn [fdiv]. destruct (Rltb n 0); [now rewrite mul_NInf|now rewrite mul_PInf].
  - cbn [fdiv]. destruct (Rltb n 0); [now rewrite mul_PInf|now rewrite mul_NInf].
Qed.
Lemma bcast_scale bk (k : xf -> xf) a b : (forall x y, fmul (k x) y = k (fmul x y)) -> bcast bk fmul (map k a) b = rmap (map k) (bcast bk fmul a b).
Proof.
  intros Hk. unfold bcast, bcast2. rewrite map_length. destruct (Nat.eqb _ _).
  - cbn [rmap]. f_equal. unfold zipWith. rewrite map_map. revert b. induction a as [|x a IH]; intros [|y b]; simpl; try reflexivity. now rewrite IH, Hk.
  - destruct a as [|x [|x' a]]; cbn [map].
    + destruct b as [|y [|y' b]]; reflexivity.
    + cbn [rmap]. f_equal. rewrite map_map. apply map_ext. intros. apply Hk.
    + destruct b as [|y [|y' b]]; cbn [rmap map]; try reflexivity. f_equal. rewrite !Hk, !map_map. do 2 f_equal. apply map_ext. intros. apply Hk.
Qed.
Lemma Rtrap_units c y x : 0 < c -> Rtrap (map (fun v => v / c) y) (map (Rmult c) x) = Rtrap y x.
Proof.
  intros Hc. revert x. induction y as [|y0 y IH]; intros x; [destruct x; reflexivity|]. destruct x as [|x0 x]; [destruct y; reflexivity|]. destruct y as [|y1 y]; [destruct x; reflexivity|]. destruct x as [|x1 x]; [reflexivity|].
  change (Rtrap (map (fun v => v / c) (y0 :: y1 :: y)) (map (Rmult c) (x0 :: x1 :: x))) with ((c * x1 - c * x0) * (y1 / c + y0 / c) / 2 + Rtrap (map (fun v => v / c) (y1 :: y)) (map (Rmult c) (x1 :: x))).
  rewrite IH. change (Rtrap (y0 :: y1 :: y) (x0 :: x1 :: x)) with ((x1 - x0) * (y1 + y0) / 2 + Rtrap (y1 :: y) (x1 :: x)). field. lra.
Qed.
Lemma positive_list ms : positive_masses ms -> exists rs, ms = map Fin rs /\ Forall (fun r => 0 < r) rs.
Proof.
  induction ms as [|m ms IH]; intros H; [exists []; split; [reflexivity|constructor]|].
  destruct (H m (or_introl eq_refl)) as (r & -> & Hr). destruct IH as (rs & -> & Hrs); [intros x Hx; apply H; now right|]. exists (r :: rs). split; [reflexivity|now constructor].
Qed.
Lemma smoothed_primary_units bk prim c s s' kw kw' mmin delta rs : 0 < c -> object_in_units c s s' -> Forall (fun r => 0 < r) rs ->
  (forall m, 0 < m -> rescaled c (prim kw (Fin m)) (prim kw' (Fin (c * m)))) ->
  exists ys, smoothed_primary bk prim s kw mmin delta (map Fin rs) = Ok (map Fin ys) /\
             smoothed_primary bk prim s' kw' (fmul (Fin c) mmin) (fmul (Fin c) delta) (map Fin (map (Rmult c) rs)) = Ok (map Fin (map (fun v => v / c) ys)).
Proof.
  intros Hc (E1 & E2 & _) Hr HP. unfold smoothed_primary. induction rs as [|r rs IH]; [exists []; split; reflexivity|]. inversion Hr as [|? ? P Q]; subst.
  destruct (IH Q) as (ys & A & B). destruct (HP r P) as (x & X & X'). destruct (smoothing_range bk (Fin r) mmin (sm_mmax s) delta) as (w & W & _).
  exists (x * w :: ys). split.
  - cbn [map mapM]. rewrite X. cbn [bind]. rewrite W, A. cbn [bind]. rewrite fmul_fin. reflexivity.
  - cbn [map mapM]. rewrite X'. cbn [bind]. rewrite B. cbn [bind]. rewrite <- (fmul_fin c r), E2, smoothing_units, W, fmul_fin by auto. do 3 f_equal. field. lra.
Qed.
Lemma scaled_fins c rs : map (fmul (Fin c)) (map Fin rs) = map Fin (map (Rmult c) rs).
Proof. rewrite !map_map. apply map_ext. intros. now rewrite fmul_fin. Qed.
Lemma dlookup_units c ds : (dlookup "mass_1" (dataset_in_units c ds) = rmap (map (fmul (Fin c))) (dlookup "mass_1" ds) /\ dlookup "mass_ratio" (dataset_in_units c ds) = dlookup "mass_ratio" ds)%string.
Proof.
  unfold dlookup, dataset_in_units. induction ds as [|[k v] ds [IH1 IH2]]; [split; reflexivity|]. cbn [map dget fst snd]. split.
  - destruct (String.eqb_spec "mass_1" k) as [<-|N]; [reflexivity|]. exact IH1.
  - destruct (String.eqb_spec "mass_ratio" k) as [<-|N]; [reflexivity|]. exact IH2.
Qed.
Lemma p_m1_units bk prim c s s' ds kw kw' mmin delta : 0 < c -> object_in_units c s s' -> positive_masses (sm_m1s s) -> (forall ms, dget "mass_1" ds = Some ms -> positive_masses ms)%string ->
  (dget_default "mmin" (sm_mmin s) kw = mmin /\ dget_default "mmin" (sm_mmin s') kw' = fmul (Fin c) mmin /\
  dget_default "mmin" (sm_mmin s) (ddel "delta_m" kw) = mmin /\ dget_default "mmin" (sm_mmin s') (ddel "delta_m" kw') = fmul (Fin c) mmin /\
  dget_default "delta_m" (Fin 0) kw = delta /\ dget_default "delta_m" (Fin 0) kw' = fmul (Fin c) delta)%string ->
  (forall m, 0 < m -> rescaled c (prim (ddel "delta_m" kw) (Fin m)) (prim (ddel "delta_m" kw') (Fin (c * m))))%string ->
  p_m1 bk prim s' (dataset_in_units c ds) kw' = rmap (map (fun p => fdiv p (Fin c))) (p_m1 bk prim s ds kw).
Proof.
  intros Hc HO Hg Hds (K1 & K2 & K3 & K4 & K5 & K6) HP. unfold p_m1, norm_p_m1. rewrite K1, K2, K3, K4, K5, K6. destruct (dlookup_units c ds) as [D _]. rewrite D. unfold dlookup in *.
  destruct (dget "mass_1" ds) as [ms|] eqn:E; cbn [rmap bind]; [|reflexivity]. destruct (positive_list ms (Hds ms eq_refl)) as (rs & -> & Hrs). destruct (positive_list _ Hg) as (gs & G & Hgs).
  assert (G' : sm_m1s s' = map Fin (map (Rmult c) gs)) by (destruct HO as (_ & _ & E3 & _); rewrite E3, G; apply scaled_fins).
  rewrite scaled_fins. destruct (smoothed_primary_units bk prim c s s' _ _ mmin delta rs Hc HO Hrs HP) as (ys & A & B). rewrite A, B. cbn [bind].
  rewrite feq0_scale by auto. assert (F : forall n, map (fun p => fdiv p n) (map Fin (map (fun v => v / c) ys)) = map (fun p => fdiv p (Fin c)) (map (fun p => fdiv p n) (map Fin ys))).
  { intros n. rewrite !map_map. apply map_ext. intros y. rewrite (div_as_mul c) by auto. rewrite <- mul_div_swap by (now apply Rinv_0_lt_compat). rewrite fmul_fin. do 2 f_equal. unfold Rdiv. ring. }
  destruct (negb (is_jax bk) && feq delta (Fin 0)); cbn [bind rmap]; [now rewrite F|]. rewrite G, G'. destruct (smoothed_primary_units bk prim c s s' _ _ mmin delta gs Hc HO Hgs HP) as (zs & A' & B'). rewrite A', B'. cbn [bind rmap].
  rewrite !trapezoid_fin, Rtrap_units, norm_or_one_units by auto. now rewrite F.
Qed.
Lemma div_norm_units bk interp c s s' pq beta mmin delta : 0 < c -> unit_free interp -> object_in_units c s s' ->
  div_norm bk interp pq beta (fmul (Fin c) mmin) (fmul (Fin c) delta) s' = (s', snd (div_norm bk interp pq beta mmin delta s)) /\ fst (div_norm bk interp pq beta mmin delta s) = s.
Proof.
  intros Hc HU HO. unfold div_norm, sbind, sget, slift. rewrite (norm_p_q_units bk interp c s s') by assumption. destruct (norm_p_q _ _ _ _ _ _); split; reflexivity.
Qed.
Lemma set_units c s s' m : object_in_units c s s' -> object_in_units c (fst (cache_q_norms m s)) (fst (cache_q_norms (map (fmul (Fin c)) m) s')).
Proof. intros (E1 & E2 & E3 & E4 & E5 & E6). unfold cache_q_norms, object_in_units. cbn. repeat split; assumption. Qed.
Lemma set_div_units bk interp c s s' m pq beta mmin delta : 0 < c -> unit_free interp -> object_in_units c s s' ->
  let a := (_ <~ cache_q_norms m ;; div_norm bk interp pq beta mmin delta) s in
  let a' := (_ <~ cache_q_norms (map (fmul (Fin c)) m) ;; div_norm bk interp pq beta (fmul (Fin c) mmin) (fmul (Fin c) delta)) s' in
  object_in_units c (fst a) (fst a') /\ snd a' = snd a.
Proof.
  intros Hc HU HO a a'. subst a a'. pose proof (set_units c s s' m HO) as HO'. unfold sbind. destruct (cache_q_norms m s) as [s1 r1] eqn:E1. destruct (cache_q_norms (map (fmul (Fin c)) m) s') as [s2 r2] eqn:E2.
  unfold cache_q_norms in E1, E2. injection E1 as H1 <-. injection E2 as H2 <-. cbn [fst] in HO'. destruct (div_norm_units bk interp c s1 s2 pq beta mmin delta Hc HU HO') as [A B]. rewrite A, B. split; [exact HO'|reflexivity].
Qed.
Lemma p_q_units bk interp c s s' ds beta mmin delta : 0 < c -> unit_free interp -> object_in_units c s s' ->
  object_in_units c (fst (p_q bk interp ds beta mmin delta s)) (fst (p_q bk interp (dataset_in_units c ds) beta (fmul (Fin c) mmin) (fmul (Fin c) delta) s')) /\
  snd (p_q bk interp (dataset_in_units c ds) beta (fmul (Fin c) mmin) (fmul (Fin c) delta) s') = snd (p_q bk interp ds beta mmin delta s).
Proof.
  intros Hc HU HO. unfold p_q. destruct (dlookup_units c ds) as [D1 D2]. rewrite D1, D2. destruct (dlookup "mass_ratio" ds) as [q|]; [|split; [exact HO|reflexivity]].
  destruct (dlookup "mass_1" ds) as [m|]; cbn [rmap]; [|split; [exact HO|reflexivity]]. cbv beta iota delta [sbind slift sget]. rewrite (q_unnorm_units bk c m q) by auto.
  destruct (q_unnormalised _ _ _ _ _ _) as [pq|]; cbv beta iota; [|split; [exact HO|reflexivity]].
  match goal with |- context [match ?f s with (_, _) => _ end] => set (att := f) end. match goal with |- context [match ?f s' with (_, _) => _ end] => set (att' := f) end.
  assert (Q : object_in_units c (fst (att s)) (fst (att' s')) /\ snd (att' s') = snd (att s)).
  { subst att att'. replace (sm_cache s') with (sm_cache s) by (symmetry; apply HO). destruct (sm_cache s).
    - destruct (div_norm_units bk interp c s s' pq beta mmin delta Hc HU HO) as [A B]. rewrite A, B. split; [exact HO|reflexivity].
    - exact (set_div_units bk interp c s s' m pq beta mmin delta Hc HU HO). }
  destruct (att s) as [t r]. destruct (att' s') as [t' r']. cbn [fst snd] in Q. destruct Q as [O' ->]. destruct r as [l|e]; [split; [exact O'|reflexivity]|].
  destruct (caught e); [|split; [exact O'|reflexivity]]. pose proof (set_div_units bk interp c t t' m pq beta mmin delta Hc HU O') as [P Q].
  cbv beta iota delta [sbind cache_q_norms] in *. destruct (div_norm bk interp pq beta mmin delta _) as [u v]. destruct (div_norm bk interp pq beta (fmul (Fin c) mmin) _ _) as [u' v']. cbn [fst snd] in P, Q. subst v'. destruct v; (split; [exact P|reflexivity]).
Qed.
Lemma call_units bk prim sk interp c s s' ds K K' M M' beta mmin mmax delta : 0 < c -> unit_free interp -> object_in_units c s s' ->
  positive_masses (sm_m1s s) -> (forall ms, dget "mass_1" ds = Some ms -> positive_masses ms)%string ->
  (dlookup "beta" K = Ok beta /\ dlookup "beta" K' = Ok beta)%string ->
  (dget_default "mmin" (sm_mmin s) (ddel "beta" K) = mmin /\ dget_default "mmin" (sm_mmin s') (ddel "beta" K') = fmul (Fin c) mmin)%string ->
  (dget_default "mmax" (sm_mmax s) (ddel "beta" K) = mmax /\ dget_default "mmax" (sm_mmax s') (ddel "beta" K') = fmul (Fin c) mmax)%string ->
  (dget_default "delta_m" (Fin 0) (ddel "beta" K) = delta /\ dget_default "delta_m" (Fin 0) (ddel "beta" K') = fmul (Fin c) delta)%string ->
  (kw_merge (ddel "beta" K) (sk (sm_mmax s)) = Ok M /\ kw_merge (ddel "beta" K') (sk (sm_mmax s')) = Ok M')%string ->
  (dget_default "mmin" (sm_mmin s) M = mmin /\ dget_default "mmin" (sm_mmin s') M' = fmul (Fin c) mmin /\
  dget_default "mmin" (sm_mmin s) (ddel "delta_m" M) = mmin /\ dget_default "mmin" (sm_mmin s') (ddel "delta_m" M') = fmul (Fin c) mmin /\
  dget_default "delta_m" (Fin 0) M = delta /\ dget_default "delta_m" (Fin 0) M' = fmul (Fin c) delta)%string ->
  (forall m, 0 < m -> rescaled c (prim (ddel "delta_m" M) (Fin m)) (prim (ddel "delta_m" M') (Fin (c * m))))%string ->
  let a := smoothed_call bk prim sk interp ds K s in let a' := smoothed_call bk prim sk interp (dataset_in_units c ds) K' s' in
  object_in_units c (fst a) (fst a') /\ snd a' = rmap (map (fun p => fdiv p (Fin c))) (snd a).
Proof.
  intros Hc HU HO Hg Hds [B1 B2] [N1 N2] [X1 X2] [D1 D2] [M1 M2] HM HP. cbv zeta. unfold smoothed_call. rewrite B1, B2. cbv beta iota delta [sbind slift sget]. rewrite N1, N2, X1, X2, D1, D2, M1, M2.
  pose proof HO as (E1 & E2 & _). rewrite E1, E2, flt_scale, fgt_scale by auto. destruct (_ && flt _ _); [split; [exact HO|reflexivity]|]. destruct (_ && fgt _ _); [split; [exact HO|reflexivity]|].
  rewrite (p_m1_units bk prim c s s' ds M M' mmin delta) by assumption. destruct (p_m1 bk prim s ds M) as [pm|]; cbn [rmap]; [|split; [exact HO|reflexivity]].
  destruct (p_q_units bk interp c s s' ds beta mmin delta Hc HU HO) as [P Q]. destruct (p_q bk interp ds beta mmin delta s) as [t r]. destruct (p_q bk interp (dataset_in_units c ds) _ _ _ s') as [t' r']. cbn [fst snd] in P, Q. subst r'.
  destruct r as [pq|]; [|split; [exact P|reflexivity]]. cbn [fst snd]. split; [exact P|]. apply bcast_scale. intros x y. rewrite !(div_as_mul c) by auto. apply fmul_assoc_scale. now apply Rinv_0_lt_compat.
Qed.

Lemma C126_smoothed_pf :
  forall bk cls interp c s s' ds kw beta delta mmin mmax hi,
  0 < c -> unit_free interp -> object_in_units c s s' -> sm_mmax s = Fin hi -> positive_masses (sm_m1s s) ->
  (forall ms, dget "mass_1"%string ds = Some ms -> positive_masses ms) -> legal bk mmin mmax cls kw -> 0 < mmin < mmax -> mmin < hi ->
  let K := ("beta", beta)%string :: ("delta_m", delta)%string :: kw in
  let old := class_call cls bk interp ds K s in
  let new := class_call cls bk interp (dataset_in_units c ds) (in_units c K) s' in
  object_in_units c (fst old) (fst new) /\ snd new = rmap (map (fun p => fdiv p (Fin c))) (snd old).
Proof.
  intros bk cls interp c s s' ds kw beta delta mmin mmax hi Hc HU HO Hh Hg Hds HL Hr Hi K. subst K. unfold class_call.
  assert (Hh' : sm_mmax s' = Fin (c * hi)) by (destruct HO as (_ & E & _); now rewrite E, Hh, fmul_fin).
  assert (PM := fun al a1 a2 lam lam_1 mpp sigpp mpp_2 sigpp_2 bf m H1 H2 H3 H4 => C126_primary_models_pf bk c m mmin mmax hi al a1 a2 lam lam_1 mpp sigpp mpp_2 sigpp_2 bf Hc H1 Hr Hi H2 H3 H4).
  assert (HB : 0 < 1/2 < 1) by lra.
  destruct HL as [al lam mpp sg Sa Hl Hs|al lam lam_1 mpp_1 sg_1 mpp_2 sg_2 Sa Hl Hl1 Hs1 Hs2|a1 a2 b S1 S2 Hb|a1 a2 b lam mpp sg S1 S2 Hb Hl Hs];
    (eapply call_units with (beta := beta) (mmin := Fin mmin) (mmax := Fin mmax) (delta := delta);
     [exact Hc|exact HU|exact HO|exact Hg|exact Hds|split; reflexivity|split; reflexivity|split; reflexivity|split; reflexivity|split; reflexivity|repeat split; reflexivity|]); intros m Hm; rewrite ?Hh, ?Hh'.
  - exact (proj1 (proj2 (proj2 (PM al al al lam 0 mpp sg mpp sg (1/2) m Hm Hs Hs HB Sa Sa Sa)))).
  - exact (proj1 (proj2 (proj2 (proj2 (PM al al al lam lam_1 mpp_1 sg_1 mpp_2 sg_2 (1/2) m Hm Hs1 Hs2 HB Sa Sa Sa))))).
  - exact (proj1 (proj2 (PM a1 a1 a2 0 0 0 1 0 1 b m Hm Rlt_0_1 Rlt_0_1 Hb S1 S1 S2))).
  - exact (proj2 (proj2 (proj2 (proj2 (PM a1 a1 a2 lam 0 mpp sg mpp sg b m Hm Hs Hs Hb S1 S1 S2))))).
Qed.

Lemma C126_new_objects_pf :
  forall c lo hi shape cache s s', 0 < lo < hi -> smoothed_init lo hi shape cache = Ok s -> smoothed_init (c * lo) (c * hi) shape cache = Ok s' ->
  object_in_units c s s' /\ sm_mmax s = Fin hi /\ positive_masses (sm_m1s s).
Proof.
  intros c lo hi shape cache s s' Hl E E'. split; [exact (init_units c lo hi shape cache s s' E E')|]. unfold smoothed_init in E. destruct (_ || _)%bool eqn:B; [discriminate|]. injection E as <-. cbn [sm_mmax sm_m1s]. split; [reflexivity|].
  intros m Hm. unfold xlinspace in Hm. apply in_map_iff in Hm. destruct Hm as (r & <- & Hr). exists r. split; [reflexivity|]. unfold linspace in Hr. apply in_map_iff in Hr. destruct Hr as (i & <- & Hi).
  apply Bool.orb_false_iff in B. destruct B as [B _]. apply Nat.ltb_ge in B. assert (0 < INR (fst shape - 1)) by (apply lt_0_INR; lia). pose proof (pos_INR i).
  assert (0 <= INR i * ((hi - lo) / INR (fst shape - 1))); [|lra]. apply Rmult_le_pos; [assumption|]. apply Rlt_le, Rdiv_lt_0_compat; lra.
Qed.

(** Piecewise linear interpolation. *)
Fixpoint piecewise_linear (nodes vals : list xf) (x : xf) : xf :=
  match nodes, vals with
  | x0 :: ((x1 :: _) as nodes'), v0 :: ((v1 :: _) as vals') =>
      if fle x x1 then fadd v0 (fmul (fdiv (fsub x x0) (fsub x1 x0)) (fsub v1 v0)) else piecewise_linear nodes' vals' x
  | _, _ => NaN
  end.
Lemma piecewise_linear_unit_free : unit_free piecewise_linear.
Proof.
  intros c nodes vals x Hc. revert vals. induction nodes as [|x0 nodes IH]; intros vals; [reflexivity|]. destruct nodes as [|x1 nodes]; [reflexivity|]. destruct vals as [|v0 [|v1 vals]]; [reflexivity|reflexivity|].
  change (piecewise_linear (map (fmul (Fin c)) (x0 :: x1 :: nodes)) (v0 :: v1 :: vals) (fmul (Fin c) x)) with
    (if fle (fmul (Fin c) x) (fmul (Fin c) x1) then fadd v0 (fmul (fdiv (fsub (fmul (Fin c) x) (fmul (Fin c) x0)) (fsub (fmul (Fin c) x1) (fmul (Fin c) x0))) (fsub v1 v0)) else piecewise_linear (map (fmul (Fin c)) (x1 :: nodes)) (v1 :: vals) (fmul (Fin c) x)).
  now rewrite fle_scale, !fsub_scale, fdiv_scale, IH by auto.
Qed.

