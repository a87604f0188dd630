(** Lemmas about the analytic mass models. *)
From Coq Require Import Reals String Bool Lra.
From Coquelicot Require Import Coquelicot.
From Coq Require Import List.
From Verif Require Import Xf Py Xf_facts Py_facts Special Utils_model Calc Spec Gauss_facts
  Powerlaw_facts Truncnorm_facts Mass_model.
Import ListNotations.
Local Open Scope R_scope.

(** ** The power law as a real function of a positive argument *)
Definition plval (alpha high low x : R) : R :=
  if Rleb low x && Rleb x high then plpdf alpha high low x else 0.

Lemma plval_in alpha high low x : low <= x <= high -> plval alpha high low x = plpdf alpha high low x.
Proof. intros [? ?]; unfold plval. now rewrite !Rleb_true. Qed.
Lemma plval_out alpha high low x : x < low \/ high < x -> plval alpha high low x = 0.
Proof.
  intros [H|H]; unfold plval.
  - now rewrite (Rleb_false low x).
  - rewrite (Rleb_false x high), andb_false_r; auto.
Qed.
Lemma plval_nonneg alpha high low x : 0 < low < high -> 0 <= plval alpha high low x.
Proof.
  intros H. unfold plval. destruct (_ && _); [|lra]. left; now apply plpdf_pos.
Qed.
Lemma powerlaw_body_val alpha high low x : 0 < low < high -> 0 < x ->
  powerlaw_body (Fin x) (Fin alpha) (Fin high) (Fin low) = Fin (plval alpha high low x).
Proof.
  intros H Hx. destruct (Rle_dec low x); [destruct (Rle_dec x high)|].
  - rewrite plval_in by lra. apply powerlaw_body_in; lra.
  - rewrite plval_out by lra. apply powerlaw_body_out; lra.
  - rewrite plval_out by lra. apply powerlaw_body_out; lra.
Qed.
Lemma powerlaw_val bk kw alpha high low x : 0 < low < high -> alpha_ok bk kw alpha -> 0 < x ->
  powerlaw bk kw (Fin x) (Fin alpha) (Fin high) (Fin low) = Ok (Fin (plval alpha high low x)).
Proof.
  intros H Ha Hx. rewrite powerlaw_ok by (lra || auto). now rewrite powerlaw_body_val.
Qed.
Lemma plval_int alpha high low b : 0 < low < high -> high <= b ->
  is_RInt (plval alpha high low) low b 1.
Proof.
  intros H Hb. apply (is_RInt_extend (plpdf alpha high low) _ low high); try lra.
  - intros; apply plval_in; lra.
  - intros; now apply plval_out.
  - now apply plpdf_int.
Qed.

(** ** The truncated normal *)
Lemma tnval_in mu s high low x : low <= x <= high -> tnval mu s high low x = tnpdf mu s high low x.
Proof. intros [? ?]; unfold tnval. now rewrite !Rleb_true. Qed.
Lemma tnval_out mu s high low x : x < low \/ high < x -> tnval mu s high low x = 0.
Proof.
  intros [H|H]; unfold tnval.
  - now rewrite (Rleb_false low x).
  - rewrite (Rleb_false x high), andb_false_r; auto.
Qed.
Lemma tnval_nonneg mu s high low x : 0 < s -> low < high -> 0 <= tnval mu s high low x.
Proof. intros H ?. unfold tnval. destruct (_ && _); [|lra]. left; now apply tnpdf_pos. Qed.
Lemma tnval_int mu s high low b : 0 < s -> low < high -> high <= b ->
  is_RInt (tnval mu s high low) low b 1.
Proof.
  intros Hs H Hb. apply (is_RInt_extend (tnpdf mu s high low) _ low high); try lra.
  - intros; apply tnval_in; lra.
  - intros; now apply tnval_out.
  - now apply tnpdf_int.
Qed.
Lemma truncnorm_val bk kw mu s high low x : 0 < s -> low < high ->
  truncnorm bk kw (Fin x) (Fin mu) (Fin s) (Fin high) (Fin low) = Ok (Fin (tnval mu s high low x)).
Proof. intros Hs H. rewrite truncnorm_ok by auto. now rewrite truncnorm_body_val. Qed.

Lemma alpha_ok_kw bk a : bk = Jax \/ a <> -1 -> alpha_ok bk pl_kw (- a).
Proof. intros [->|H]; [now left|right; right; lra]. Qed.
Lemma alpha_ok_pos bk a : alpha_ok bk [] a.
Proof. right; left; simpl; tauto. Qed.

(** ** Double power law *)
Section DPL.
  Variables (bk : backend) (a1 a2 mmin mmax bf : R).
  Hypothesis Hm : 0 < mmin < mmax.
  Hypothesis Hb : 0 < bf < 1.
  Definition mbr : R := mmin + bf * (mmax - mmin).
  Lemma mbr_in : mmin < mbr < mmax.
  Proof. unfold mbr; split; nra. Qed.
  Definition ph (x : R) := plpdf (- a2) mmax mbr x.
  Definition pl (x : R) := plpdf (- a1) mbr mmin x.
  Definition corr : R := ph mbr / pl mbr.
  Lemma ph_pos x : 0 < ph x.
  Proof. assert (H := mbr_in). apply plpdf_pos; lra. Qed.
  Lemma pl_pos x : 0 < pl x.
  Proof. assert (H := mbr_in). apply plpdf_pos; lra. Qed.
  Lemma corr_pos : 0 < corr.
  Proof. unfold corr. apply Rdiv_lt_0_compat; [apply ph_pos|apply pl_pos]. Qed.
  Definition dplval (x : R) : R :=
    if Rltb x mbr then plval (- a1) mbr mmin x * corr / (1 + corr)
    else plval (- a2) mmax mbr x / (1 + corr).

  Hypothesis Ha : bk = Jax \/ (a1 <> -1 /\ a2 <> -1).
  Lemma dpl_val x : 0 < x ->
    double_power_law_primary_mass bk (Fin x) (Fin a1) (Fin a2) (Fin mmin) (Fin mmax) (Fin bf)
      = Ok (Fin (dplval x)).
  Proof.
    intros Hx. assert (H := mbr_in).
    assert (Hc := corr_pos).
    unfold double_power_law_primary_mass. autorewrite with xf.
    fold mbr.
    rewrite !powerlaw_val; try lra; try (apply alpha_ok_kw; tauto).
    cbn [bind]. cbv zeta. rewrite (plval_in _ _ _ mbr) by lra. rewrite (plval_in _ _ _ mbr) by lra.
    rewrite fdiv_fin by (assert (P := pl_pos mbr); unfold pl in P; lra).
    fold (ph mbr) (pl mbr). fold corr.
    unfold flt. rewrite fge_fin. unfold dplval.
    destruct (Rltb_spec x mbr).
    - rewrite (Rleb_false mbr x) by lra. cbn [of_bool]. rewrite !fmul_fin, !fadd_fin, fdiv_fin by lra. do 2 f_equal. field; lra.
    - rewrite (Rleb_true mbr x) by lra. cbn [of_bool]. rewrite !fmul_fin, !fadd_fin, fdiv_fin by lra. do 2 f_equal. field; lra.
  Qed.
  Lemma dplval_nonneg x : 0 <= dplval x.
  Proof.
    assert (H := mbr_in). assert (Hc := corr_pos). unfold dplval.
    assert (0 < / (1 + corr)) by (apply Rinv_0_lt_compat; lra).
    destruct (Rltb_spec x mbr); unfold Rdiv.
    - assert (0 <= plval (- a1) mbr mmin x) by (apply plval_nonneg; lra).
      apply Rmult_le_pos; [apply Rmult_le_pos|]; lra.
    - assert (0 <= plval (- a2) mmax mbr x) by (apply plval_nonneg; lra).
      apply Rmult_le_pos; lra.
  Qed.
  Lemma dplval_low x : mmin <= x <= mbr -> dplval x = pl x * corr / (1 + corr).
  Proof.
    intros Hx. assert (H := mbr_in). assert (Hc := corr_pos). unfold dplval.
    destruct (Rltb_spec x mbr).
    - rewrite plval_in by lra. reflexivity.
    - assert (x = mbr) by lra. subst x. rewrite plval_in by lra. fold (ph mbr).
      unfold corr. field. assert (P := pl_pos mbr). assert (Q := ph_pos mbr). lra.
  Qed.
  Lemma dplval_high x : mbr <= x <= mmax -> dplval x = ph x / (1 + corr).
  Proof.
    intros Hx. unfold dplval. destruct (Rltb_spec x mbr); [lra|].
    rewrite plval_in by lra. reflexivity.
  Qed.
  Lemma dplval_out x : x < mmin \/ mmax < x -> dplval x = 0.
  Proof.
    intros Hx. assert (H := mbr_in). assert (Hc := corr_pos). unfold dplval.
    destruct (Rltb_spec x mbr).
    - rewrite plval_out by lra. field; lra.
    - rewrite plval_out by lra. field; lra.
  Qed.
  Lemma dplval_pos x : mmin <= x <= mmax -> 0 < dplval x.
  Proof.
    intros Hx. assert (Hc := corr_pos). destruct (Rle_dec x mbr).
    - rewrite dplval_low by lra. apply Rdiv_lt_0_compat; [|lra].
      apply Rmult_lt_0_compat; [apply pl_pos|lra].
    - rewrite dplval_high by lra. apply Rdiv_lt_0_compat; [|lra]. apply ph_pos.
  Qed.
  Lemma dplval_int b : mmax <= b -> is_RInt dplval mmin b 1.
  Proof.
    intros Hbb. assert (H := mbr_in). assert (Hc := corr_pos).
    apply (is_RInt_extend dplval _ mmin mmax); try lra; auto.
    { intros; now apply dplval_out. }
    replace 1 with (plus (1 * (corr / (1 + corr))) (1 * (/ (1 + corr))))
      by (unfold plus; simpl; field; lra).
    apply (is_RInt_Chasles dplval mmin mbr mmax).
    - apply (is_RInt_ext_le (fun x => pl x * (corr / (1 + corr)))); [lra| |].
      + intros; rewrite dplval_low by lra. field; lra.
      + apply is_RInt_scal_r. apply plpdf_int; lra.
    - apply (is_RInt_ext_le (fun x => ph x * (/ (1 + corr)))); [lra| |].
      + intros; rewrite dplval_high by lra. field; lra.
      + apply is_RInt_scal_r. apply plpdf_int; lra.
  Qed.
End DPL.

(** ** Mixtures *)
Definition twoval (alpha mmin mmax lam mpp sigpp gmax x : R) : R :=
  (1 - lam) * plval (- alpha) mmax mmin x + lam * tnval mpp sigpp gmax mmin x.
Definition threeval (alpha mmin mmax lam lam_1 mpp_1 sigpp_1 mpp_2 sigpp_2 gmax x : R) : R :=
  (1 - lam) * plval (- alpha) mmax mmin x + lam * lam_1 * tnval mpp_1 sigpp_1 gmax mmin x
  + lam * (1 - lam_1) * tnval mpp_2 sigpp_2 gmax mmin x.
Definition dpeakval (a1 a2 mmin mmax bf lam mpp sigpp gmax x : R) : R :=
  (1 - lam) * dplval a1 a2 mmin mmax bf x + lam * tnval mpp sigpp gmax mmin x.

Lemma plm_val bk alpha mmin mmax x : 0 < mmin < mmax -> (bk = Jax \/ alpha <> -1) -> 0 < x ->
  power_law_mass bk (Fin x) (Fin alpha) (Fin mmin) (Fin mmax) = Ok (Fin (plval (- alpha) mmax mmin x)).
Proof. intros. unfold power_law_mass. autorewrite with xf. apply powerlaw_val; auto. now apply alpha_ok_kw. Qed.

Lemma two_val bk alpha mmin mmax lam mpp sigpp gmax x :
  0 < mmin < mmax -> mmin < gmax -> 0 < sigpp -> (bk = Jax \/ alpha <> -1) -> 0 < x ->
  two_component_single bk (Fin x) (Fin alpha) (Fin mmin) (Fin mmax) (Fin lam) (Fin mpp) (Fin sigpp) (Fin gmax)
    = Ok (Fin (twoval alpha mmin mmax lam mpp sigpp gmax x)).
Proof.
  intros. unfold two_component_single. autorewrite with xf.
  rewrite powerlaw_val, truncnorm_val; auto using alpha_ok_kw.
Qed.

Lemma three_val bk alpha mmin mmax lam lam_1 mpp_1 sigpp_1 mpp_2 sigpp_2 gmax x :
  0 < mmin < mmax -> mmin < gmax -> 0 < sigpp_1 -> 0 < sigpp_2 -> (bk = Jax \/ alpha <> -1) -> 0 < x ->
  three_component_single bk (Fin x) (Fin alpha) (Fin mmin) (Fin mmax) (Fin lam) (Fin lam_1)
     (Fin mpp_1) (Fin sigpp_1) (Fin mpp_2) (Fin sigpp_2) (Fin gmax)
    = Ok (Fin (threeval alpha mmin mmax lam lam_1 mpp_1 sigpp_1 mpp_2 sigpp_2 gmax x)).
Proof.
  intros. unfold three_component_single. autorewrite with xf.
  rewrite powerlaw_val, !truncnorm_val; auto using alpha_ok_kw.
Qed.

Lemma dpeak_val bk a1 a2 mmin mmax bf lam mpp sigpp gmax x :
  0 < mmin < mmax -> 0 < bf < 1 -> mmin < gmax -> 0 < sigpp -> (bk = Jax \/ (a1 <> -1 /\ a2 <> -1)) -> 0 < x ->
  double_power_law_peak_primary_mass bk (Fin x) (Fin a1) (Fin a2) (Fin mmin) (Fin mmax) (Fin bf)
     (Fin lam) (Fin mpp) (Fin sigpp) (Fin gmax)
    = Ok (Fin (dpeakval a1 a2 mmin mmax bf lam mpp sigpp gmax x)).
Proof.
  intros. unfold double_power_law_peak_primary_mass.
  rewrite dpl_val, truncnorm_val; auto.
Qed.

Lemma lin2_int (f g : R -> R) a b c d : is_RInt f a b 1 -> is_RInt g a b 1 ->
  is_RInt (fun x => c * f x + d * g x) a b (c + d).
Proof.
  intros Hf Hg. replace (c + d) with (1 * c + 1 * d) by ring.
  apply (is_RInt_ext (fun x => f x * c + g x * d)); [intros; eqR; ring|].
  apply is_RInt_plusR; now apply is_RInt_scal_r.
Qed.

Lemma twoval_int alpha mmin mmax lam mpp sigpp gmax b :
  0 < mmin < mmax -> mmin < gmax -> 0 < sigpp -> mmax <= b -> gmax <= b ->
  is_RInt (twoval alpha mmin mmax lam mpp sigpp gmax) mmin b 1.
Proof.
  intros. evar_last. apply lin2_int; [apply plval_int; lra|apply tnval_int; lra]. eqR; ring.
Qed.
Lemma dpeakval_int a1 a2 mmin mmax bf lam mpp sigpp gmax b :
  0 < mmin < mmax -> 0 < bf < 1 -> mmin < gmax -> 0 < sigpp -> mmax <= b -> gmax <= b ->
  is_RInt (dpeakval a1 a2 mmin mmax bf lam mpp sigpp gmax) mmin b 1.
Proof.
  intros. evar_last. apply lin2_int; [apply dplval_int; lra|apply tnval_int; lra]. eqR; ring.
Qed.
Lemma threeval_int alpha mmin mmax lam lam_1 mpp_1 sigpp_1 mpp_2 sigpp_2 gmax b :
  0 < mmin < mmax -> mmin < gmax -> 0 < sigpp_1 -> 0 < sigpp_2 -> mmax <= b -> gmax <= b ->
  is_RInt (threeval alpha mmin mmax lam lam_1 mpp_1 sigpp_1 mpp_2 sigpp_2 gmax) mmin b 1.
Proof.
  intros. evar_last. apply is_RInt_plusR.
  apply lin2_int; [apply plval_int; lra|apply tnval_int; lra].
  apply (is_RInt_ext (fun x => tnval mpp_2 sigpp_2 gmax mmin x * (lam * (1 - lam_1)))); [intros; eqR; ring|].
  apply is_RInt_scal_r, tnval_int; lra. eqR; ring.
Qed.

(** ** Piecewise continuous pairs and the triangle integral *)
Inductive pc2 (f g : R -> R) : R -> R -> Prop :=
  | pc2_one a b (hf hg : R -> R) : a <= b ->
      (forall x, a <= x <= b -> continuous hf x) -> (forall x, a <= x <= b -> continuous hg x) ->
      (forall x, a < x < b -> f x = hf x) -> (forall x, a < x < b -> g x = hg x) -> pc2 f g a b
  | pc2_cat a c b : pc2 f g a c -> pc2 f g c b -> pc2 f g a b.

Lemma pc2_le f g a b : pc2 f g a b -> a <= b.
Proof. induction 1; lra. Qed.

(** A continuous function on [a,b] extended by constants is continuous everywhere. *)
Definition clampR (a b x : R) : R := Rmax a (Rmin b x).
Lemma clampR_in a b x : a <= b -> a <= clampR a b x <= b.
Proof.
  intros; unfold clampR; split; [apply Rmax_l|]. apply Rmax_lub; auto. apply Rmin_l.
Qed.
Lemma clampR_id a b x : a <= x <= b -> clampR a b x = x.
Proof. intros; unfold clampR. rewrite Rmin_right, Rmax_right; lra. Qed.
Lemma clampR_cont a b x : a <= b -> continuous (clampR a b) x.
Proof.
  intros Hab. apply continuity_pt_filterlim. intros eps He. exists eps; split; auto.
  intros y [_ Hy]. simpl in *. unfold R_dist in *. unfold clampR.
  apply Rle_lt_trans with (2 := Hy).
  unfold Rmax, Rmin; repeat (destruct (Rle_dec _ _)); unfold Rabs; repeat destruct (Rcase_abs _); lra.
Qed.
Lemma clamp_ext_cont (h : R -> R) a b x : a <= b -> (forall x, a <= x <= b -> continuous h x) ->
  continuous (fun x => h (clampR a b x)) x.
Proof.
  intros Hab H. apply (continuous_comp (clampR a b) h).
  - now apply clampR_cont.
  - apply H. now apply clampR_in.
Qed.

(** Primitive of a continuous function. *)
Lemma prim (h : R -> R) a : (forall x, continuous h x) ->
  exists P : R -> R, (forall x, is_RInt h a x (P x)) /\ (forall x, is_derive P x (h x)).
Proof.
  intros Hc. exists (fun x => RInt h a x). split.
  - intros x. apply (RInt_correct h a x). apply ex_RInt_continuous. auto.
  - intros x. apply (is_derive_RInt h (fun x => RInt h a x) a x).
    + apply filter_forall. intros y. apply (RInt_correct h a y), ex_RInt_continuous. auto.
    + auto.
Qed.

Lemma RInt_pt0 (h : R -> R) a l : is_RInt h a a l -> l = 0.
Proof.
  intros H. assert (Q := is_RInt_unique (V := R_CompleteNormedModule) h a a l H).
  rewrite RInt_point in Q. rewrite <- Q. reflexivity.
Qed.

Lemma pc2_tri (f g : R -> R) a b : pc2 f g a b ->
  exists F G : R -> R,
    (forall x, a <= x <= b -> is_RInt f a x (F x)) /\
    (forall x, a <= x <= b -> is_RInt g a x (G x)) /\
    (forall kf kg, is_RInt (fun x => f x * (kg + G x) + g x * (kf + F x)) a b
        ((kf + F b) * (kg + G b) - kf * kg)).
Proof.
  induction 1 as [a b hf hg Hab Cf Cg Ef Eg | a c b H1 IH1 H2 IH2].
  - destruct (prim (fun x => hf (clampR a b x)) a) as [F [HF DF]].
    { intros; now apply clamp_ext_cont. }
    destruct (prim (fun x => hg (clampR a b x)) a) as [G [HG DG]].
    { intros; now apply clamp_ext_cont. }
    exists F, G. split; [|split].
    + intros x Hx. apply (is_RInt_ext_le (fun x => hf (clampR a b x))); [lra| |apply HF].
      intros y Hy. rewrite clampR_id by lra. symmetry; apply Ef; lra.
    + intros x Hx. apply (is_RInt_ext_le (fun x => hg (clampR a b x))); [lra| |apply HG].
      intros y Hy. rewrite clampR_id by lra. symmetry; apply Eg; lra.
    + intros kf kg.
      assert (F0 : F a = 0).
      { exact (RInt_pt0 _ _ _ (HF a)). }
      assert (G0 : G a = 0).
      { exact (RInt_pt0 _ _ _ (HG a)). }
      apply (is_RInt_ext_le (fun x => hf (clampR a b x) * (kg + G x) + hg (clampR a b x) * (kf + F x))); auto.
      { intros y Hy. rewrite clampR_id by lra. rewrite Ef, Eg; auto. }
      replace (kf * kg) with ((kf + F a) * (kg + G a)) by (rewrite F0, G0; ring).
      apply (is_RInt_FTC (fun x => (kf + F x) * (kg + G x))).
      * intros x _.
        evar_last.
        { apply (is_derive_mult (fun x => kf + F x) (fun x => kg + G x) x).
          - apply (is_derive_plus (fun _ => kf) F x 0). apply (is_derive_const kf x). apply DF.
          - apply (is_derive_plus (fun _ => kg) G x 0). apply (is_derive_const kg x). apply DG.
          - intros; apply Rmult_comm. }
        unfold plus, mult, zero; simpl. ring.
      * intros x _.
        assert (CF : continuous F x) by (apply (ex_derive_continuous F); eexists; apply DF).
        assert (CG : continuous G x) by (apply (ex_derive_continuous G); eexists; apply DG).
        apply (continuous_plus (fun x => hf (clampR a b x) * (kg + G x)) (fun x => hg (clampR a b x) * (kf + F x))).
        -- apply (continuous_mult (fun x => hf (clampR a b x)) (fun x => kg + G x)); [now apply clamp_ext_cont|].
           apply (continuous_plus (fun _ => kg) G); auto. apply continuous_const.
        -- apply (continuous_mult (fun x => hg (clampR a b x)) (fun x => kf + F x)); [now apply clamp_ext_cont|].
           apply (continuous_plus (fun _ => kf) F); auto. apply continuous_const.
  - destruct IH1 as [F1 [G1 [HF1 [HG1 T1]]]]. destruct IH2 as [F2 [G2 [HF2 [HG2 T2]]]].
    assert (L1 := pc2_le _ _ _ _ H1). assert (L2 := pc2_le _ _ _ _ H2).
    exists (fun x => if Rleb x c then F1 x else F1 c + F2 x), (fun x => if Rleb x c then G1 x else G1 c + G2 x).
    assert (F20 : F2 c = 0).
    { exact (RInt_pt0 _ _ _ (HF2 c ltac:(lra))). }
    assert (G20 : G2 c = 0).
    { exact (RInt_pt0 _ _ _ (HG2 c ltac:(lra))). }
    split; [|split].
    + intros x Hx. destruct (Rleb_spec x c).
      * apply HF1; lra.
      * apply (is_RInt_Chasles f a c x (F1 c) (F2 x)); [apply HF1; lra|apply HF2; lra].
    + intros x Hx. destruct (Rleb_spec x c).
      * apply HG1; lra.
      * apply (is_RInt_Chasles g a c x (G1 c) (G2 x)); [apply HG1; lra|apply HG2; lra].
    + intros kf kg.
      assert (E1 := T1 kf kg). assert (E2 := T2 (kf + F1 c) (kg + G1 c)).
      evar_last.
      { apply (is_RInt_Chasles _ a c b).
        - apply (is_RInt_ext_le (fun x => f x * (kg + G1 x) + g x * (kf + F1 x))); [lra| |exact E1].
          intros x Hx. rewrite Rleb_true by lra. reflexivity.
        - apply (is_RInt_ext_le (fun x => f x * (kg + G1 c + G2 x) + g x * (kf + F1 c + F2 x))); [lra| |exact E2].
          intros x Hx. rewrite Rleb_false by lra. eqR. ring. }
      eqR. unfold plus; simpl.
      destruct (Rleb_spec b c).
      * assert (b = c) by lra. subst b. rewrite F20, G20. ring.
      * ring.
Qed.

Lemma plval_pc2 a1 a2 mmin mmax : 0 < mmin < mmax ->
  pc2 (plval a1 mmax mmin) (plval a2 mmax mmin) mmin mmax.
Proof.
  intros H. apply (pc2_one _ _ _ _ (plpdf a1 mmax mmin) (plpdf a2 mmax mmin)); try lra.
  - intros; apply plpdf_continuous; lra.
  - intros; apply plpdf_continuous; lra.
  - intros; apply plval_in; lra.
  - intros; apply plval_in; lra.
Qed.

(** [twoval] on the pieces cut by [mmax] and [gmax]: [i]/[j] tell whether the power law /
    the Gaussian is switched on. *)
Definition twopiece (i j : bool) (alpha mmin mmax lam mpp sigpp gmax x : R) : R :=
  (1 - lam) * (if i then plpdf (- alpha) mmax mmin x else 0) + lam * (if j then tnpdf mpp sigpp gmax mmin x else 0).
Lemma twopiece_cont i j alpha mmin mmax lam mpp sigpp gmax x :
  0 < mmin < mmax -> mmin < gmax -> 0 < sigpp -> 0 < x ->
  continuous (twopiece i j alpha mmin mmax lam mpp sigpp gmax) x.
Proof.
  intros. unfold twopiece.
  apply (continuous_plus (fun x => (1 - lam) * (if i then plpdf (- alpha) mmax mmin x else 0))
           (fun x => lam * (if j then tnpdf mpp sigpp gmax mmin x else 0))).
  - apply (continuous_mult (fun _ : R => 1 - lam) (fun x => if i then plpdf (- alpha) mmax mmin x else 0)); [apply continuous_const|].
    destruct i; [now apply plpdf_continuous|apply continuous_const].
  - apply (continuous_mult (fun _ : R => lam) (fun x => if j then tnpdf mpp sigpp gmax mmin x else 0)); [apply continuous_const|].
    destruct j; [now apply tnpdf_cont|apply continuous_const].
Qed.
Lemma twoval_piece (i j : bool) alpha mmin mmax lam mpp sigpp gmax x :
  (if i then mmin <= x <= mmax else mmax < x) -> (if j then mmin <= x <= gmax else gmax < x) ->
  twoval alpha mmin mmax lam mpp sigpp gmax x = twopiece i j alpha mmin mmax lam mpp sigpp gmax x.
Proof.
  intros Hi Hj. unfold twoval, twopiece. f_equal; f_equal.
  - destruct i; [now apply plval_in|apply plval_out; auto].
  - destruct j; [now apply tnval_in|apply tnval_out; auto].
Qed.
Lemma twoval_pc2 a1 a2 mmin mmax lam mpp sigpp gmax b :
  0 < mmin < mmax -> mmin < gmax -> 0 < sigpp -> mmax <= b -> gmax <= b ->
  pc2 (twoval a1 mmin mmax lam mpp sigpp gmax) (twoval a2 mmin mmax lam mpp sigpp gmax) mmin b.
Proof.
  intros H Hg Hs Hb Hgb.
  assert (P : forall u v (i j : bool), mmin <= u -> u <= v ->
     (forall x, u < x < v -> if i then mmin <= x <= mmax else mmax < x) ->
     (forall x, u < x < v -> if j then mmin <= x <= gmax else gmax < x) ->
     pc2 (twoval a1 mmin mmax lam mpp sigpp gmax) (twoval a2 mmin mmax lam mpp sigpp gmax) u v).
  { intros u v i j Hu Huv Hi Hj.
    apply (pc2_one _ _ _ _ (twopiece i j a1 mmin mmax lam mpp sigpp gmax)
                           (twopiece i j a2 mmin mmax lam mpp sigpp gmax)); auto.
    - intros; apply twopiece_cont; lra.
    - intros; apply twopiece_cont; lra.
    - intros x Hx; apply twoval_piece; [apply Hi|apply Hj]; lra.
    - intros x Hx; apply twoval_piece; [apply Hi|apply Hj]; lra. }
  destruct (Rle_dec mmax gmax).
  - apply (pc2_cat _ _ mmin mmax b); [|apply (pc2_cat _ _ mmax gmax b)].
    + apply (P mmin mmax true true); intros; lra.
    + apply (P mmax gmax false true); intros; lra.
    + apply (P gmax b false false); intros; lra.
  - apply (pc2_cat _ _ mmin gmax b); [|apply (pc2_cat _ _ gmax mmax b)].
    + apply (P mmin gmax true true); intros; lra.
    + apply (P gmax mmax true false); intros; lra.
    + apply (P mmax b false false); intros; lra.
Qed.

(** ** Joint densities of the form [2 p(m1) p'(m2) [m1 >= m2]] *)
Definition psval (f g : R -> R) (x y : R) : R := f x * g y * (if Rleb y x then 1 else 0) * 2.
Lemma ps_general f g x y :
  primary_secondary_general (Fin x) (Fin y) (Fin (f x)) (Fin (g y)) = Fin (psval f g x y).
Proof.
  unfold primary_secondary_general, psval. autorewrite with xf. rewrite fge_fin.
  destruct (Rleb y x); cbn [of_bool]; autorewrite with xf; reflexivity.
Qed.
Lemma psval_ge f g x y : y <= x -> psval f g x y = g y * (2 * f x).
Proof. intros; unfold psval. rewrite Rleb_true by auto. ring. Qed.
Lemma psval_lt f g x y : x < y -> psval f g x y = 0.
Proof. intros; unfold psval. rewrite Rleb_false by auto. ring. Qed.

Lemma RInt_uniq (h : R -> R) a b (l l' : R) : is_RInt h a b l -> is_RInt h a b l' -> l = l'.
Proof.
  intros A B. rewrite <- (is_RInt_unique (V := R_CompleteNormedModule) h a b l A).
  exact (is_RInt_unique (V := R_CompleteNormedModule) h a b l' B).
Qed.

(** Value of the joint integral: there are [v] and [w] (the integrals for the two orders)
    with [v + w = 2 F(b) G(b)]. *)
Lemma ps_integral (f g : R -> R) (call : R -> R -> result xf) a b (F : R -> R) :
  a <= b ->
  (forall x y, a < x < b -> a <= y <= x -> call x y = Ok (Fin (psval f g x y))) ->
  (forall x, a <= x <= b -> is_RInt g a x (F x)) ->
  forall v, is_RInt (fun x => 2 * f x * F x) a b v ->
  integrates2_to call a b (fun _ => a) (fun x => x) v.
Proof.
  intros Hab Hc HF v Hv. exists (psval f g), (fun x => 2 * f x * F x). split; [|split; [|exact Hv]].
  - intros x y Hx Hy. apply Hc; auto.
  - intros x Hx.
    apply (is_RInt_ext_le (fun y => g y * (2 * f x))); [lra| |].
    + intros y Hy. symmetry; apply psval_ge; lra.
    + evar_last. apply is_RInt_scal_r, HF; lra. eqR; ring.
Qed.

Lemma ps_identical (f : R -> R) (call : R -> R -> result xf) a b :
  pc2 f f a b -> is_RInt f a b 1 ->
  (forall x y, a < x < b -> a <= y <= x -> call x y = Ok (Fin (psval f f x y))) ->
  integrates2_to call a b (fun _ => a) (fun x => x) 1.
Proof.
  intros Hp H1 Hc. assert (L := pc2_le _ _ _ _ Hp).
  destruct (pc2_tri _ _ _ _ Hp) as [F [G [HF [HG T]]]].
  assert (E : forall x, a <= x <= b -> F x = G x).
  { intros x Hx. exact (RInt_uniq _ _ _ _ _ (HF x Hx) (HG x Hx)). }
  assert (F1 : F b = 1).
  { exact (RInt_uniq _ _ _ _ _ (HF b ltac:(lra)) H1). }
  apply (ps_integral f f call a b F); auto.
  assert (T0 := T 0 0). rewrite <- (E b), F1 in T0 by lra.
  replace ((0 + 1) * (0 + 1) - 0 * 0) with 1 in T0 by ring.
  revert T0. apply is_RInt_ext_le; auto.
  intros x Hx. rewrite <- E by lra. eqR; ring.
Qed.

Lemma ps_swap (f g : R -> R) (call1 call2 : R -> R -> result xf) a b v :
  pc2 f g a b -> is_RInt f a b 1 -> is_RInt g a b 1 ->
  (forall x y, a < x < b -> a <= y <= x -> call1 x y = Ok (Fin (psval f g x y))) ->
  (forall x y, a < x < b -> a <= y <= x -> call2 x y = Ok (Fin (psval g f x y))) ->
  integrates2_to call1 a b (fun _ => a) (fun x => x) v ->
  integrates2_to call2 a b (fun _ => a) (fun x => x) (2 - v).
Proof.
  intros Hp Hf Hg Hc1 Hc2 [h [H [Hh [HH Hv]]]]. assert (L := pc2_le _ _ _ _ Hp).
  destruct (pc2_tri _ _ _ _ Hp) as [F [G [HF [HG T]]]].
  assert (F1 : F b = 1).
  { exact (RInt_uniq _ _ _ _ _ (HF b ltac:(lra)) Hf). }
  assert (G1 : G b = 1).
  { exact (RInt_uniq _ _ _ _ _ (HG b ltac:(lra)) Hg). }
  assert (EH : forall x, a < x < b -> H x = 2 * f x * G x).
  { intros x Hx.
    assert (A : is_RInt (h x) a x (G x * (2 * f x))).
    { apply (is_RInt_ext_le (fun y => g y * (2 * f x))); [lra| |].
      - intros y Hy. rewrite <- (psval_ge f g) by lra.
        assert (B := Hc1 x y ltac:(lra) ltac:(lra)).
        rewrite (Hh x y ltac:(lra) ltac:(lra)) in B. now injection B.
      - apply is_RInt_scal_r, HG; lra. }
    rewrite (RInt_uniq _ _ _ _ _ (HH x Hx) A). ring. }
  apply (ps_integral g f call2 a b F); auto.
  assert (T0 := T 0 0). rewrite F1, G1 in T0.
  assert (T1 := is_RInt_scal_r _ _ _ _ 2 T0).
  assert (T2 := is_RInt_scal_r _ _ _ _ (-1) Hv).
  assert (D := is_RInt_plusR _ _ _ _ _ _ T1 T2).
  replace (((0 + 1) * (0 + 1) - 0 * 0) * 2 + v * -1) with (2 - v) in D by ring.
  revert D. apply is_RInt_ext_le; auto.
  intros x Hx. rewrite EH by auto. ring.
Qed.
