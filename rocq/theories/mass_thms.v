(** Proofs of the property theorems stated in [Props_mass]. *)
From Coq Require Import Reals Lra Lia Psatz String Bool.
From Coquelicot Require Import Coquelicot.
From Coq Require Import List.
From Verif Require Import Xf Py Xf_facts Py_facts Calc Special Spec Utils_model Powerlaw_facts Truncnorm_facts
  Mass_model Mass_facts.
Import ListNotations.
Local Open Scope R_scope.

Lemma norm_fin2 alpha high low : 0 < low -> 0 < high -> low <> high ->
  exists r, powerlaw_norm (Fin alpha) (Fin high) (Fin low) = Fin r.
Proof.
  intros Hl Hh Hn. unfold powerlaw_norm. simpl feq. destruct (Reqb_spec alpha (-1)).
  - rewrite fdiv_fin by lra. rewrite flog_fin by (apply Rdiv_lt_0_compat; lra).
    eexists. apply fdiv_fin. intros E. apply Hn.
    rewrite ln_div in E by lra. apply ln_inv; lra.
  - autorewrite with xf. rewrite !fpow_fin by lra. autorewrite with xf.
    eexists. apply fdiv_fin. intros E. apply Hn.
    assert (E' : Rpower high (1 + alpha) = Rpower low (1 + alpha)) by lra.
    unfold Rpower in E'. apply exp_inv in E'. apply Rmult_eq_reg_l in E'; [|lra].
    symmetry; apply ln_inv; lra.
Qed.

Lemma ratio_fin bk m1 q beta mmin : 0 < mmin -> 0 < m1 -> m1 <> mmin -> 0 < q ->
  exists r, mass_ratio_factor bk (Fin m1) (Fin q) (Fin beta) (Fin mmin) = Ok (Fin r) /\
    (q * m1 < mmin \/ 1 < q -> r = 0) /\ (mmin < m1 -> r = plval beta 1 (mmin / m1) q) /\
    (0 <= r).
Proof.
  intros Hmm Hm Hn Hq. unfold mass_ratio_factor. rewrite fdiv_fin by lra.
  assert (Hl : 0 < mmin / m1) by (apply Rdiv_lt_0_compat; lra).
  rewrite powerlaw_ok by (lra || apply alpha_ok_pos).
  destruct (Rlt_dec mmin m1).
  - assert (mmin / m1 < 1) by (apply (Rmult_lt_reg_r m1); [lra|]; field_simplify; lra).
    rewrite powerlaw_body_val by lra. eexists; split; [reflexivity|]. split; [|split; auto].
    + intros Ho. apply plval_out. destruct Ho; [left|right; auto].
      apply (Rmult_lt_reg_r m1); [lra|]. replace (mmin / m1 * m1) with mmin by (field; lra). lra.
    + apply plval_nonneg; lra.
  - assert (1 < mmin / m1) by (apply (Rmult_lt_reg_r m1); [lra|]; field_simplify; lra).
    destruct (norm_fin2 beta 1 (mmin / m1)) as [r E]; try lra.
    unfold powerlaw_body. rewrite E. rewrite fpow_fin by lra. autorewrite with xf.
    rewrite fle_fin, fge_fin.
    assert (B : Rleb q 1 && Rleb (mmin / m1) q = false).
    { destruct (Rleb_spec q 1); simpl; auto. apply Rleb_false; lra. }
    rewrite B. cbn [of_bool]. autorewrite with xf. rewrite Rmult_0_r.
    exists 0. split; [reflexivity|]. split; [auto|split; [lra|lra]].
Qed.

Lemma ratio_at_mmin bk mmin q beta : 0 < mmin -> 0 < q ->
  mass_ratio_factor bk (Fin mmin) (Fin q) (Fin beta) (Fin mmin) =
    if Reqb q 1 then Ok (if Reqb beta (-1) then PInf else inf_of_sign (1 + beta)) else Ok NaN.
Proof.
  intros Hm Hq. unfold mass_ratio_factor. rewrite fdiv_fin by lra.
  replace (mmin / mmin) with 1 by (field; lra).
  rewrite powerlaw_ok by (lra || apply alpha_ok_pos).
  unfold powerlaw_body. rewrite powerlaw_norm_degenerate by lra.
  rewrite fpow_fin by lra. rewrite fle_fin, fge_fin.
  assert (P := Rpower_pos q beta).
  destruct (Reqb_spec q 1) as [->|Hn].
  - rewrite !Rleb_true by lra. cbn [andb of_bool].
    destruct (Reqb_spec beta (-1)).
    + simpl fmul. rewrite inf_of_sign_pos by auto. simpl. now rewrite inf_of_sign_pos by lra.
    + unfold inf_of_sign at 1. destruct (Rltb_spec 0 (1 + beta)).
      * simpl fmul. rewrite inf_of_sign_pos by auto. simpl. rewrite inf_of_sign_pos by lra.
        now rewrite inf_of_sign_pos by lra.
      * rewrite (Rltb_true (1 + beta) 0) by lra. simpl fmul. rewrite inf_of_sign_pos by auto. simpl.
        rewrite inf_of_sign_pos by lra. now rewrite (inf_of_sign_neg (1 + beta)) by lra.
  - assert (B : Rleb q 1 && Rleb 1 q = false).
    { destruct (Rleb_spec q 1); simpl; auto. apply Rleb_false; lra. }
    rewrite B. cbn [of_bool].
    destruct (Reqb_spec beta (-1)).
    + simpl fmul. rewrite inf_of_sign_pos by auto. simpl. now rewrite inf_of_sign_0.
    + unfold inf_of_sign at 1. destruct (Rltb_spec 0 (1 + beta)).
      * simpl fmul. rewrite inf_of_sign_pos by auto. simpl. now rewrite inf_of_sign_0.
      * rewrite (Rltb_true (1 + beta) 0) by lra. simpl fmul. rewrite inf_of_sign_pos by auto. simpl.
        now rewrite inf_of_sign_0.
Qed.

(** A joint density built as [p_m1 * p_q]. *)
Definition joint (p : result xf) (r : result xf) : result xf := a <- p ;; b <- r ;; Ok (fmul a b).
Lemma joint_int (p : R -> R) (call : R -> R -> result xf) bk beta mmin b :
  0 < mmin -> mmin < b -> is_RInt p mmin b 1 ->
  (forall m1 q, 0 < m1 -> call m1 q = joint (Ok (Fin (p m1))) (mass_ratio_factor bk (Fin m1) (Fin q) (Fin beta) (Fin mmin))) ->
  integrates2_to call mmin b (fun m1 => mmin / m1) (fun _ => 1) 1.
Proof.
  intros Hm Hb Hp Hc. exists (fun m1 q => plval beta 1 (mmin / m1) q * p m1), p. split; [|split; [|exact Hp]].
  - intros m1 q Hm1 Hq. assert (Hl : 0 < mmin / m1) by (apply Rdiv_lt_0_compat; lra).
    red. rewrite Hc by lra. destruct (ratio_fin bk m1 q beta mmin) as [r [E [_ [Hr _]]]]; try lra.
    rewrite E. simpl. rewrite Hr by lra. do 2 f_equal. ring.
  - intros m1 Hm1. assert (Hl : 0 < mmin / m1) by (apply Rdiv_lt_0_compat; lra).
    assert (mmin / m1 < 1) by (apply (Rmult_lt_reg_r m1); [lra|]; field_simplify; lra).
    evar_last. apply is_RInt_scal_r. apply plval_int; lra. eqR; ring.
Qed.
Lemma joint_vanish (p : R -> R) (call : R -> R -> result xf) bk beta mmin : 0 < mmin ->
  (forall m1 q, 0 < m1 -> call m1 q = joint (Ok (Fin (p m1))) (mass_ratio_factor bk (Fin m1) (Fin q) (Fin beta) (Fin mmin))) ->
  forall m1 q, 0 < m1 -> 0 < q -> m1 <> mmin -> (q * m1 < mmin \/ 1 < q) -> returns (call m1 q) 0.
Proof.
  intros Hm Hc m1 q H1 Hq Hn Ho. red. rewrite Hc by auto.
  destruct (ratio_fin bk m1 q beta mmin) as [r [E [H0 _]]]; auto. rewrite E. simpl.
  rewrite H0 by auto. do 2 f_equal. ring.
Qed.
Lemma joint_nan (p : R -> R) (call : R -> R -> result xf) bk beta mmin : 0 < mmin -> 0 < p mmin ->
  (forall m1 q, 0 < m1 -> call m1 q = joint (Ok (Fin (p m1))) (mass_ratio_factor bk (Fin m1) (Fin q) (Fin beta) (Fin mmin))) ->
  forall m1 q, 0 < m1 -> 0 < q ->
   exists v, call m1 q = Ok v /\ (v = NaN <-> (m1 = mmin /\ q <> 1)).
Proof.
  intros Hm Hp Hc m1 q H1 Hq. rewrite Hc by auto.
  destruct (Req_dec m1 mmin) as [->|Hn].
  - rewrite ratio_at_mmin by auto. destruct (Reqb_spec q 1) as [E|E].
    + eexists; split; [reflexivity|]. cbn [bind]. split; [|tauto]. intros N; exfalso. revert N.
      destruct (Reqb_spec beta (-1)).
      * simpl. rewrite inf_of_sign_pos by auto. discriminate.
      * unfold inf_of_sign at 1. destruct (Rltb_spec 0 (1 + beta)); [|rewrite (Rltb_true (1 + beta) 0) by lra];
          simpl; rewrite inf_of_sign_pos by auto; discriminate.
    + eexists; split; [reflexivity|]. simpl. tauto.
  - destruct (ratio_fin bk m1 q beta mmin) as [r [E _]]; auto. rewrite E.
    eexists; split; [reflexivity|]. simpl. split; [discriminate|tauto].
Qed.

Lemma plpr_joint bk m1 q alpha beta mmin mmax : 0 < mmin < mmax -> (bk = Jax \/ alpha <> -1) -> 0 < m1 ->
  power_law_primary_mass_ratio bk (Fin m1) (Fin q) (Fin alpha) (Fin beta) (Fin mmin) (Fin mmax)
  = joint (Ok (Fin (plval (- alpha) mmax mmin m1))) (mass_ratio_factor bk (Fin m1) (Fin q) (Fin beta) (Fin mmin)).
Proof.
  intros H Ha Hm. unfold power_law_primary_mass_ratio, two_component_primary_mass_ratio, two_component_single.
  rewrite fopp_fin. rewrite powerlaw_val by (auto using alpha_ok_kw). rewrite truncnorm_ok by lra.
  destruct (truncnorm_body_nonneg (Fin 35) (Fin 1) (Fin 100) (Fin mmin) m1) as [t [-> _]].
  cbn [bind]. autorewrite with xf. unfold joint; cbn [bind].
  replace ((1 - 0) * plval (- alpha) mmax mmin m1 + 0 * t) with (plval (- alpha) mmax mmin m1) by ring.
  reflexivity.
Qed.
Lemma tcpr_joint bk m1 q alpha beta mmin mmax lam mpp sigpp gmax :
  0 < mmin < mmax -> mmin < gmax -> 0 < sigpp -> (bk = Jax \/ alpha <> -1) -> 0 < m1 ->
  two_component_primary_mass_ratio bk (Fin m1) (Fin q) (Fin alpha) (Fin beta) (Fin mmin) (Fin mmax)
     (Fin lam) (Fin mpp) (Fin sigpp) (Fin gmax)
  = joint (Ok (Fin (twoval alpha mmin mmax lam mpp sigpp gmax m1))) (mass_ratio_factor bk (Fin m1) (Fin q) (Fin beta) (Fin mmin)).
Proof. intros. unfold two_component_primary_mass_ratio. rewrite two_val by auto. reflexivity. Qed.
Lemma dplr_joint bk m1 q a1 a2 beta mmin mmax bf :
  0 < mmin < mmax -> 0 < bf < 1 -> (bk = Jax \/ (a1 <> -1 /\ a2 <> -1)) -> 0 < m1 ->
  double_power_law_primary_power_law_mass_ratio bk (Fin m1) (Fin q) (Fin a1) (Fin a2) (Fin beta) (Fin mmin) (Fin mmax) (Fin bf)
  = joint (Ok (Fin (dplval a1 a2 mmin mmax bf m1))) (mass_ratio_factor bk (Fin m1) (Fin q) (Fin beta) (Fin mmin)).
Proof. intros. unfold double_power_law_primary_power_law_mass_ratio. rewrite dpl_val by auto. reflexivity. Qed.

Lemma twoval_nonneg alpha mmin mmax lam mpp sigpp gmax x :
  0 < mmin < mmax -> mmin < gmax -> 0 < sigpp -> 0 <= lam <= 1 ->
  0 <= twoval alpha mmin mmax lam mpp sigpp gmax x.
Proof.
  intros. assert (A := plval_nonneg (- alpha) mmax mmin x ltac:(auto)).
  assert (B := tnval_nonneg mpp sigpp gmax mmin x ltac:(auto) ltac:(auto)). unfold twoval.
  apply Rplus_le_le_0_compat; apply Rmult_le_pos; lra.
Qed.
Lemma twoval_mmin_pos alpha mmin mmax lam mpp sigpp gmax :
  0 < mmin < mmax -> mmin < gmax -> 0 < sigpp -> 0 <= lam <= 1 ->
  0 < twoval alpha mmin mmax lam mpp sigpp gmax mmin.
Proof.
  intros. unfold twoval. rewrite plval_in, tnval_in by lra.
  assert (A := plpdf_pos (- alpha) mmax mmin mmin ltac:(auto)).
  assert (B := tnpdf_pos mpp sigpp gmax mmin mmin ltac:(auto) ltac:(auto)).
  destruct (Req_dec lam 0) as [->|]; [lra|].
  assert (0 < lam * tnpdf mpp sigpp gmax mmin mmin) by (apply Rmult_lt_0_compat; lra).
  assert (0 <= (1 - lam) * plpdf (- alpha) mmax mmin mmin) by (apply Rmult_le_pos; lra). lra.
Qed.

Lemma C21_double_power_law_density_pf :
  forall bk a1 a2 mmin mmax bf, 0 < mmin < mmax -> 0 < bf < 1 ->
  (bk = Jax \/ (a1 <> -1 /\ a2 <> -1)) ->
  let f := fun m => double_power_law_primary_mass bk (Fin m) (Fin a1) (Fin a2) (Fin mmin) (Fin mmax) (Fin bf) in
  let m_break := mmin + bf * (mmax - mmin) in
  positive_on f mmin mmax /\ integrates_to f mmin mmax 1 /\ zero_outside f (fun m => 0 < m) mmin mmax /\
  exists k1 k2, 0 < k1 /\ 0 < k2 /\
    (forall m, mmin <= m <= m_break -> returns (f m) (k1 * Rpower m (- a1))) /\
    (forall m, m_break <= m <= mmax -> returns (f m) (k2 * Rpower m (- a2))).
Proof.
  intros bk a1 a2 mmin mmax bf Hm Hb Ha f mb.
  assert (Hbr := mbr_in mmin mmax bf Hm Hb). assert (Hc := corr_pos a1 a2 mmin mmax bf Hm Hb).
  change (mbr mmin mmax bf) with mb in Hbr.
  assert (V : forall x, 0 < x -> f x = Ok (Fin (dplval a1 a2 mmin mmax bf x))) by (intros; now apply dpl_val).
  split; [|split; [|split]].
  - intros x Hx. eexists; split; [apply V; lra|]. now apply dplval_pos.
  - exists (dplval a1 a2 mmin mmax bf). split; [intros; apply V; lra|]. apply dplval_int; lra.
  - intros x Hx Ho. red. rewrite V by auto. now rewrite dplval_out.
  - exists (plnorm (- a1) mb mmin * corr a1 a2 mmin mmax bf / (1 + corr a1 a2 mmin mmax bf)),
           (plnorm (- a2) mmax mb / (1 + corr a1 a2 mmin mmax bf)).
    assert (P1 := plnorm_pos (- a1) mb mmin ltac:(lra)). assert (P2 := plnorm_pos (- a2) mmax mb ltac:(lra)).
    split; [|split; [|split]].
    + apply Rdiv_lt_0_compat; [apply Rmult_lt_0_compat|]; lra.
    + apply Rdiv_lt_0_compat; lra.
    + intros m H. red. rewrite V by lra. rewrite dplval_low by auto. unfold pl, plpdf.
      change (mbr mmin mmax bf) with mb. do 2 f_equal. field; lra.
    + intros m H. red. rewrite V by lra. rewrite dplval_high by auto. unfold ph, plpdf.
      change (mbr mmin mmax bf) with mb. do 2 f_equal. field; lra.
Qed.

Lemma C22_power_law_mass_normalised_pf :
  forall bk alpha mmin mmax b, 0 < mmin < mmax -> (bk = Jax \/ alpha <> -1) -> mmax <= b ->
  let f := fun m => power_law_mass bk (Fin m) (Fin alpha) (Fin mmin) (Fin mmax) in
  density_on f mmin b /\ positive_on f mmin mmax /\ zero_outside f (fun m => 0 < m) mmin mmax.
Proof.
  intros bk alpha mmin mmax b Hm Ha Hb f.
  assert (V : forall x, 0 < x -> f x = Ok (Fin (plval (- alpha) mmax mmin x))) by (intros; now apply plm_val).
  split; [split|split].
  - intros x Hx. eexists; split; [apply V; lra|]. now apply plval_nonneg.
  - eexists; split; [intros; apply V; lra|]. apply plval_int; lra.
  - intros x Hx. eexists; split; [apply V; lra|]. rewrite plval_in by lra. now apply plpdf_pos.
  - intros x Hx Ho. red; rewrite V by auto. now rewrite plval_out.
Qed.

Lemma C22_two_component_normalised_pf :
  forall bk alpha mmin mmax lam mpp sigpp gmax b,
  0 < mmin < mmax -> mmin < gmax -> 0 < sigpp -> (bk = Jax \/ alpha <> -1) -> mmax <= b -> gmax <= b ->
  let f := fun m => two_component_single bk (Fin m) (Fin alpha) (Fin mmin) (Fin mmax)
                      (Fin lam) (Fin mpp) (Fin sigpp) (Fin gmax) in
  integrates_to f mmin b 1 /\
  (0 <= lam <= 1 -> forall m, 0 < m -> exists r, returns (f m) r /\ 0 <= r) /\
  (forall m, 0 < m -> m < mmin \/ b < m -> returns (f m) 0).
Proof.
  intros bk alpha mmin mmax lam mpp sigpp gmax b Hm Hg Hs Ha Hb Hgb f.
  assert (V : forall x, 0 < x -> f x = Ok (Fin (twoval alpha mmin mmax lam mpp sigpp gmax x)))
    by (intros; now apply two_val).
  split; [|split].
  - eexists; split; [intros; apply V; lra|]. now apply twoval_int.
  - intros Hl x Hx. eexists; split; [now apply V|]. now apply twoval_nonneg.
  - intros x Hx Ho. red; rewrite V by auto. unfold twoval. rewrite plval_out, tnval_out by lra. do 2 f_equal; ring.
Qed.

Lemma C22_three_component_normalised_pf :
  forall bk alpha mmin mmax lam lam_1 mpp_1 sigpp_1 mpp_2 sigpp_2 gmax b,
  0 < mmin < mmax -> mmin < gmax -> 0 < sigpp_1 -> 0 < sigpp_2 -> (bk = Jax \/ alpha <> -1) ->
  mmax <= b -> gmax <= b ->
  let f := fun m => three_component_single bk (Fin m) (Fin alpha) (Fin mmin) (Fin mmax)
             (Fin lam) (Fin lam_1) (Fin mpp_1) (Fin sigpp_1) (Fin mpp_2) (Fin sigpp_2) (Fin gmax) in
  integrates_to f mmin b 1 /\
  (0 <= lam <= 1 -> 0 <= lam_1 <= 1 -> forall m, 0 < m -> exists r, returns (f m) r /\ 0 <= r) /\
  (forall m, 0 < m -> m < mmin \/ b < m -> returns (f m) 0).
Proof.
  intros bk alpha mmin mmax lam lam_1 mpp_1 sigpp_1 mpp_2 sigpp_2 gmax b Hm Hg Hs1 Hs2 Ha Hb Hgb f.
  assert (V : forall x, 0 < x -> f x = Ok (Fin (threeval alpha mmin mmax lam lam_1 mpp_1 sigpp_1 mpp_2 sigpp_2 gmax x)))
    by (intros; now apply three_val).
  split; [|split].
  - eexists; split; [intros; apply V; lra|]. now apply threeval_int.
  - intros Hl Hl1 x Hx. eexists; split; [now apply V|]. unfold threeval.
    assert (A := plval_nonneg (- alpha) mmax mmin x ltac:(auto)).
    assert (B := tnval_nonneg mpp_1 sigpp_1 gmax mmin x ltac:(auto) ltac:(auto)).
    assert (C := tnval_nonneg mpp_2 sigpp_2 gmax mmin x ltac:(auto) ltac:(auto)).
    assert (0 <= lam * lam_1) by (apply Rmult_le_pos; lra).
    assert (0 <= lam * (1 - lam_1)) by (apply Rmult_le_pos; lra).
    apply Rplus_le_le_0_compat; [apply Rplus_le_le_0_compat|]; apply Rmult_le_pos; lra.
  - intros x Hx Ho. red; rewrite V by auto. unfold threeval. rewrite plval_out, !tnval_out by lra. do 2 f_equal; ring.
Qed.

Lemma C22_double_power_law_peak_normalised_pf :
  forall bk a1 a2 mmin mmax bf lam mpp sigpp gmax b,
  0 < mmin < mmax -> 0 < bf < 1 -> mmin < gmax -> 0 < sigpp -> (bk = Jax \/ (a1 <> -1 /\ a2 <> -1)) ->
  mmax <= b -> gmax <= b ->
  let f := fun m => double_power_law_peak_primary_mass bk (Fin m) (Fin a1) (Fin a2) (Fin mmin) (Fin mmax)
             (Fin bf) (Fin lam) (Fin mpp) (Fin sigpp) (Fin gmax) in
  integrates_to f mmin b 1 /\
  (0 <= lam <= 1 -> forall m, 0 < m -> exists r, returns (f m) r /\ 0 <= r) /\
  (forall m, 0 < m -> m < mmin \/ b < m -> returns (f m) 0).
Proof.
  intros bk a1 a2 mmin mmax bf lam mpp sigpp gmax b Hm Hbf Hg Hs Ha Hb Hgb f.
  assert (V : forall x, 0 < x -> f x = Ok (Fin (dpeakval a1 a2 mmin mmax bf lam mpp sigpp gmax x)))
    by (intros; now apply dpeak_val).
  split; [|split].
  - eexists; split; [intros; apply V; lra|]. now apply dpeakval_int.
  - intros Hl x Hx. eexists; split; [now apply V|]. unfold dpeakval.
    assert (A := dplval_nonneg a1 a2 mmin mmax bf ltac:(auto) ltac:(auto) x).
    assert (B := tnval_nonneg mpp sigpp gmax mmin x ltac:(auto) ltac:(auto)).
    apply Rplus_le_le_0_compat; apply Rmult_le_pos; lra.
  - intros x Hx Ho. red; rewrite V by auto. unfold dpeakval. rewrite dplval_out, tnval_out by lra. do 2 f_equal; ring.
Qed.

Lemma C22_mixture_reduces_pf :
  forall bk alpha mmin mmax mpp sigpp gmax m,
  0 < sigpp -> (bk = Jax \/ (alpha <> -1 /\ 0 <= mmin)) ->
  (two_component_single bk (Fin m) (Fin alpha) (Fin mmin) (Fin mmax) (Fin 0) (Fin mpp) (Fin sigpp) (Fin gmax)
     = power_law_mass bk (Fin m) (Fin alpha) (Fin mmin) (Fin mmax)) /\
  (forall lam_1 mpp_2 sigpp_2, 0 < sigpp_2 ->
     three_component_single bk (Fin m) (Fin alpha) (Fin mmin) (Fin mmax) (Fin 0) (Fin lam_1) (Fin mpp) (Fin sigpp)
         (Fin mpp_2) (Fin sigpp_2) (Fin gmax)
     = power_law_mass bk (Fin m) (Fin alpha) (Fin mmin) (Fin mmax)) /\
  (forall a1 a2 bf, double_power_law_peak_primary_mass bk (Fin m) (Fin a1) (Fin a2) (Fin mmin) (Fin mmax) (Fin bf)
         (Fin 0) (Fin mpp) (Fin sigpp) (Fin gmax)
     = double_power_law_primary_mass bk (Fin m) (Fin a1) (Fin a2) (Fin mmin) (Fin mmax) (Fin bf)) /\
  (0 < mmin < mmax -> 0 < m ->
     two_component_single bk (Fin m) (Fin alpha) (Fin mmin) (Fin mmax) (Fin 1) (Fin mpp) (Fin sigpp) (Fin gmax)
     = truncnorm bk ["mu"; "sigma"; "high"; "low"]%string (Fin m) (Fin mpp) (Fin sigpp) (Fin gmax) (Fin mmin) /\
     (forall lam lam_1, three_component_single bk (Fin m) (Fin alpha) (Fin mmin) (Fin mmax) (Fin lam) (Fin lam_1)
         (Fin mpp) (Fin sigpp) (Fin mpp) (Fin sigpp) (Fin gmax)
       = two_component_single bk (Fin m) (Fin alpha) (Fin mmin) (Fin mmax) (Fin lam) (Fin mpp) (Fin sigpp) (Fin gmax))).
Proof.
  intros bk alpha mmin mmax mpp sigpp gmax m Hs Ha.
  assert (Z : forall p : xf, fadd (fmul (Fin (1 - 0)) p) (Fin 0) = p).
  { intros [r| | |]; cbn [fmul fadd]; try rewrite inf_of_sign_pos by lra; auto. do 2 f_equal; ring. }
  assert (ZT : forall r : R, fmul (Fin 0) (Fin r) = Fin 0) by (intros; simpl; f_equal; ring).
  assert (POk : exists p, powerlaw bk pl_kw (Fin m) (fopp (Fin alpha)) (Fin mmax) (Fin mmin) = Ok p).
  { rewrite fopp_fin. destruct Ha as [->|[Ha Hm]].
    - rewrite powerlaw_cases. simpl. eauto.
    - rewrite powerlaw_ok; eauto. apply alpha_ok_kw; auto. }
  destruct (truncnorm_body_nonneg (Fin mpp) (Fin sigpp) (Fin gmax) (Fin mmin) m) as [t [Et _]].
  assert (T : forall kw, truncnorm bk kw (Fin m) (Fin mpp) (Fin sigpp) (Fin gmax) (Fin mmin) = Ok (Fin t)).
  { intros; rewrite truncnorm_ok by auto. now rewrite Et. }
  split; [|split; [|split]].
  - unfold two_component_single, power_law_mass. destruct POk as [p ->]. rewrite T. cbn [bind].
    rewrite fsub_fin, ZT, Z. reflexivity.
  - intros l1 mp2 sp2 Hs2. unfold three_component_single, power_law_mass. destruct POk as [p ->]. rewrite T.
    destruct (truncnorm_body_nonneg (Fin mp2) (Fin sp2) (Fin gmax) (Fin mmin) m) as [t2 [Et2 _]].
    rewrite truncnorm_ok, Et2 by auto. cbn [bind].
    rewrite !fsub_fin, !ZT, Z. replace (fadd p (Fin 0)) with p; auto.
    rewrite <- (Z p) at 1. destruct p; cbn [fmul fadd]; try rewrite inf_of_sign_pos by lra; auto. do 2 f_equal; ring.
  - intros a1 a2 bf. unfold double_power_law_peak_primary_mass.
    destruct (double_power_law_primary_mass _ _ _ _ _ _ _); cbn [bind]; auto. rewrite T; cbn [bind].
    rewrite fsub_fin, ZT, Z. reflexivity.
  - intros Hm Hx. unfold three_component_single, two_component_single. fold tn_kw. rewrite !T. rewrite fopp_fin.
    rewrite powerlaw_val; auto.
    + cbn [bind]. split; [|intros l l1]; autorewrite with xf; do 2 f_equal; ring.
    + apply alpha_ok_kw; tauto.
Qed.

Lemma C23_power_law_primary_mass_ratio_pf :
  forall bk alpha beta mmin mmax b, 0 < mmin < mmax -> (bk = Jax \/ alpha <> -1) -> mmax <= b ->
  let f := fun m1 q => power_law_primary_mass_ratio bk (Fin m1) (Fin q) (Fin alpha) (Fin beta) (Fin mmin) (Fin mmax) in
  integrates2_to f mmin b (fun m1 => mmin / m1) (fun _ => 1) 1 /\
  (forall m1 q, 0 < m1 -> 0 < q -> m1 <> mmin -> (q * m1 < mmin \/ 1 < q) -> returns (f m1 q) 0) /\
  (forall m1 q, 0 < m1 -> 0 < q -> m1 <> mmin -> exists r, returns (f m1 q) r /\ 0 <= r).
Proof.
  intros bk alpha beta mmin mmax b Hm Ha Hb f.
  assert (J := fun m1 q => plpr_joint bk m1 q alpha beta mmin mmax Hm Ha).
  split; [|split].
  - apply (joint_int (plval (- alpha) mmax mmin) f bk beta mmin b); try lra; auto. apply plval_int; lra.
  - apply (joint_vanish (plval (- alpha) mmax mmin) f bk beta mmin); try lra; auto.
  - intros m1 q H1 Hq Hn. unfold f. rewrite J by auto.
    destruct (ratio_fin bk m1 q beta mmin) as [r [E [_ [_ Hr]]]]; try lra. rewrite E.
    eexists; split; [reflexivity|]. apply Rmult_le_pos; auto. now apply plval_nonneg.
Qed.

Lemma C23_two_component_primary_mass_ratio_pf :
  forall bk alpha beta mmin mmax lam mpp sigpp gmax b,
  0 < mmin < mmax -> mmin < gmax -> 0 < sigpp -> (bk = Jax \/ alpha <> -1) -> mmax <= b -> gmax <= b ->
  let f := fun m1 q => two_component_primary_mass_ratio bk (Fin m1) (Fin q) (Fin alpha) (Fin beta) (Fin mmin) (Fin mmax)
             (Fin lam) (Fin mpp) (Fin sigpp) (Fin gmax) in
  integrates2_to f mmin b (fun m1 => mmin / m1) (fun _ => 1) 1 /\
  (forall m1 q, 0 < m1 -> 0 < q -> m1 <> mmin -> (q * m1 < mmin \/ 1 < q) -> returns (f m1 q) 0) /\
  (0 <= lam <= 1 -> forall m1 q, 0 < m1 -> 0 < q -> m1 <> mmin -> exists r, returns (f m1 q) r /\ 0 <= r).
Proof.
  intros bk alpha beta mmin mmax lam mpp sigpp gmax b Hm Hg Hs Ha Hb Hgb f.
  assert (J := fun m1 q => tcpr_joint bk m1 q alpha beta mmin mmax lam mpp sigpp gmax Hm Hg Hs Ha).
  split; [|split].
  - apply (joint_int (twoval alpha mmin mmax lam mpp sigpp gmax) f bk beta mmin b); try lra; auto. apply twoval_int; lra.
  - apply (joint_vanish (twoval alpha mmin mmax lam mpp sigpp gmax) f bk beta mmin); try lra; auto.
  - intros Hl m1 q H1 Hq Hn. unfold f. rewrite J by auto.
    destruct (ratio_fin bk m1 q beta mmin) as [r [E [_ [_ Hr]]]]; try lra. rewrite E.
    eexists; split; [reflexivity|]. apply Rmult_le_pos; auto. now apply twoval_nonneg.
Qed.

Lemma C23_double_power_law_mass_ratio_pf :
  forall bk a1 a2 beta mmin mmax bf b,
  0 < mmin < mmax -> 0 < bf < 1 -> (bk = Jax \/ (a1 <> -1 /\ a2 <> -1)) -> mmax <= b ->
  let f := fun m1 q => double_power_law_primary_power_law_mass_ratio bk (Fin m1) (Fin q) (Fin a1) (Fin a2) (Fin beta)
             (Fin mmin) (Fin mmax) (Fin bf) in
  integrates2_to f mmin b (fun m1 => mmin / m1) (fun _ => 1) 1 /\
  (forall m1 q, 0 < m1 -> 0 < q -> m1 <> mmin -> (q * m1 < mmin \/ 1 < q) -> returns (f m1 q) 0) /\
  (forall m1 q, 0 < m1 -> 0 < q -> m1 <> mmin -> exists r, returns (f m1 q) r /\ 0 <= r).
Proof.
  intros bk a1 a2 beta mmin mmax bf b Hm Hbf Ha Hb f.
  assert (J := fun m1 q => dplr_joint bk m1 q a1 a2 beta mmin mmax bf Hm Hbf Ha).
  split; [|split].
  - apply (joint_int (dplval a1 a2 mmin mmax bf) f bk beta mmin b); try lra; auto. apply dplval_int; lra.
  - apply (joint_vanish (dplval a1 a2 mmin mmax bf) f bk beta mmin); try lra; auto.
  - intros m1 q H1 Hq Hn. unfold f. rewrite J by auto.
    destruct (ratio_fin bk m1 q beta mmin) as [r [E [_ [_ Hr]]]]; try lra. rewrite E.
    eexists; split; [reflexivity|]. apply Rmult_le_pos; auto. now apply dplval_nonneg.
Qed.

Lemma C24_power_law_identical_pf :
  forall bk alpha mmin mmax, 0 < mmin < mmax ->
  let f := fun m1 m2 => power_law_primary_secondary_identical bk (Fin m1) (Fin m2) (Fin alpha) (Fin mmin) (Fin mmax) in
  integrates2_to f mmin mmax (fun _ => mmin) (fun m1 => m1) 1 /\
  (forall m1 m2, 0 < m1 < m2 -> returns (f m1 m2) 0) /\
  (forall m1 m2, 0 < m1 -> 0 < m2 -> m2 < mmin \/ mmax < m1 -> returns (f m1 m2) 0) /\
  (forall m1 m2, 0 < m1 -> 0 < m2 -> exists r, returns (f m1 m2) r /\ 0 <= r).
Proof.
  intros bk alpha mmin mmax Hm f.
  set (p := plval (- alpha) mmax mmin).
  assert (V : forall x y, 0 < x -> 0 < y -> f x y = Ok (Fin (psval p p x y))).
  { intros x y Hx Hy. unfold f, power_law_primary_secondary_identical, power_law_primary_secondary_independent.
    rewrite fopp_fin, !powerlaw_val by (auto using alpha_ok_pos). cbn [bind]. now rewrite (ps_general p p). }
  split; [|split; [|split]].
  - apply (ps_identical p); [now apply plval_pc2|apply plval_int; lra|]. intros; apply V; lra.
  - intros x y H. red. rewrite V by lra. now rewrite psval_lt by lra.
  - intros x y Hx Hy Ho. red. rewrite V by auto. unfold psval, p. do 2 f_equal.
    destruct Ho; [rewrite (plval_out _ _ _ y) by auto|rewrite (plval_out _ _ _ x) by auto]; ring.
  - intros x y Hx Hy. eexists; split; [apply V; auto|]. unfold psval.
    assert (A : 0 <= p x) by now apply plval_nonneg. assert (B : 0 <= p y) by now apply plval_nonneg.
    destruct (Rleb y x); repeat apply Rmult_le_pos; auto; lra.
Qed.

Lemma C24_two_component_identical_pf :
  forall bk alpha mmin mmax lam mpp sigpp gmax b,
  0 < mmin < mmax -> mmin < gmax -> 0 < sigpp -> (bk = Jax \/ alpha <> -1) -> mmax <= b -> gmax <= b ->
  let f := fun m1 m2 => two_component_primary_secondary_identical bk (Fin m1) (Fin m2) (Fin alpha) (Fin mmin) (Fin mmax)
             (Fin lam) (Fin mpp) (Fin sigpp) (Fin gmax) in
  integrates2_to f mmin b (fun _ => mmin) (fun m1 => m1) 1 /\
  (forall m1 m2, 0 < m1 < m2 -> returns (f m1 m2) 0) /\
  (forall m1 m2, 0 < m1 -> 0 < m2 -> m2 < mmin \/ b < m1 -> returns (f m1 m2) 0) /\
  (0 <= lam <= 1 -> forall m1 m2, 0 < m1 -> 0 < m2 -> exists r, returns (f m1 m2) r /\ 0 <= r).
Proof.
  intros bk alpha mmin mmax lam mpp sigpp gmax b Hm Hg Hs Ha Hb Hgb f.
  set (p := twoval alpha mmin mmax lam mpp sigpp gmax).
  assert (V : forall x y, 0 < x -> 0 < y -> f x y = Ok (Fin (psval p p x y))).
  { intros x y Hx Hy. unfold f, two_component_primary_secondary_identical, two_component_primary_secondary_independent.
    rewrite !two_val by auto. cbn [bind]. fold p. now rewrite (ps_general p p). }
  split; [|split; [|split]].
  - apply (ps_identical p); [now apply twoval_pc2|apply twoval_int; lra|]. intros; apply V; lra.
  - intros x y H. red. rewrite V by lra. now rewrite psval_lt by lra.
  - intros x y Hx Hy Ho. red. rewrite V by auto. unfold psval. do 2 f_equal.
    assert (O : forall z, z < mmin \/ b < z -> p z = 0).
    { intros z Hz. unfold p, twoval. rewrite plval_out, tnval_out by lra. ring. }
    destruct Ho; [rewrite (O y) by auto|rewrite (O x) by auto]; ring.
  - intros Hl x y Hx Hy. eexists; split; [apply V; auto|]. unfold psval.
    assert (A : 0 <= p x) by now apply twoval_nonneg. assert (B : 0 <= p y) by now apply twoval_nonneg.
    destruct (Rleb y x); repeat apply Rmult_le_pos; auto; lra.
Qed.

Lemma C25_independent_swap_partial_pf :
  forall bk alpha beta mmin mmax v, 0 < mmin < mmax ->
  let f := fun alpha beta m1 m2 => power_law_primary_secondary_independent bk (Fin m1) (Fin m2) (Fin alpha) (Fin beta)
                                     (Fin mmin) (Fin mmax) in
  integrates2_to (f alpha beta) mmin mmax (fun _ => mmin) (fun m1 => m1) v ->
  integrates2_to (f beta alpha) mmin mmax (fun _ => mmin) (fun m1 => m1) (2 - v).
Proof.
  intros bk alpha beta mmin mmax v Hm f.
  assert (V : forall a b x y, 0 < x -> 0 < y ->
     f a b x y = Ok (Fin (psval (plval (- a) mmax mmin) (plval (- b) mmax mmin) x y))).
  { intros a b x y Hx Hy. unfold f, power_law_primary_secondary_independent.
    rewrite !fopp_fin, !powerlaw_val by (auto using alpha_ok_pos). cbn [bind].
    now rewrite (ps_general (plval (- a) mmax mmin) (plval (- b) mmax mmin)). }
  apply (ps_swap (plval (- alpha) mmax mmin) (plval (- beta) mmax mmin)).
  - now apply plval_pc2.
  - apply plval_int; lra.
  - apply plval_int; lra.
  - intros; apply V; lra.
  - intros; apply V; lra.
Qed.

Lemma C25_two_component_independent_swap_partial_pf :
  forall bk alpha beta mmin mmax lam mpp sigpp gmax b v,
  0 < mmin < mmax -> mmin < gmax -> 0 < sigpp -> (bk = Jax \/ (alpha <> -1 /\ beta <> -1)) -> mmax <= b -> gmax <= b ->
  let f := fun alpha beta m1 m2 => two_component_primary_secondary_independent bk (Fin m1) (Fin m2) (Fin alpha) (Fin beta)
             (Fin mmin) (Fin mmax) (Fin lam) (Fin mpp) (Fin sigpp) (Fin gmax) in
  integrates2_to (f alpha beta) mmin b (fun _ => mmin) (fun m1 => m1) v ->
  integrates2_to (f beta alpha) mmin b (fun _ => mmin) (fun m1 => m1) (2 - v).
Proof.
  intros bk alpha beta mmin mmax lam mpp sigpp gmax b v Hm Hg Hs Ha Hb Hgb f.
  set (p := fun a => twoval a mmin mmax lam mpp sigpp gmax).
  assert (V : forall a b x y, 0 < x -> 0 < y -> (bk = Jax \/ a <> -1) -> (bk = Jax \/ b <> -1) ->
     f a b x y = Ok (Fin (psval (p a) (p b) x y))).
  { intros a b' x y Hx Hy H1 H2. unfold f, two_component_primary_secondary_independent.
    rewrite !two_val by auto. cbn [bind]. fold (p a) (p b'). now rewrite (ps_general (p a) (p b')). }
  apply (ps_swap (p alpha) (p beta)).
  - now apply twoval_pc2.
  - apply twoval_int; lra.
  - apply twoval_int; lra.
  - intros; apply V; try lra; tauto.
  - intros; apply V; try lra; tauto.
Qed.

Lemma C25_independent_refuted_pf :
  forall bk, integrates2_to
    (fun m1 m2 => power_law_primary_secondary_independent bk (Fin m1) (Fin m2) (Fin 0) (Fin (-1)) (Fin 1) (Fin 2))
    1 2 (fun _ => 1) (fun m1 => m1) (8 / 9).
Proof.
  intros bk.
  assert (N0 : forall x, 1 <= x <= 2 -> plval (- 0) 2 1 x = 1).
  { intros x Hx. rewrite plval_in by lra. unfold plpdf, plnorm.
    destruct (Reqb_spec (- 0) (-1)); [lra|]. replace (1 + - 0) with 1 by ring.
    replace (- 0) with 0 by ring.
    rewrite Rpower_O, !Rpower_1 by lra. field. }
  assert (N1 : forall x, 1 <= x <= 2 -> plval (- (-1)) 2 1 x = 2 / 3 * x).
  { intros x Hx. rewrite plval_in by lra. unfold plpdf, plnorm.
    destruct (Reqb_spec (- (-1)) (-1)); [lra|]. replace (1 + - (-1)) with (1 + 1) by ring.
    replace (- (-1)) with 1 by ring.
    rewrite !Rpower_plus, !Rpower_1 by lra. field. }
  apply (ps_integral (plval (- 0) 2 1) (plval (- (-1)) 2 1) _ 1 2 (fun x => (x * x - 1) / 3)); try lra.
  - intros x y Hx Hy. unfold power_law_primary_secondary_independent.
    rewrite !fopp_fin, !powerlaw_val by (try lra; auto using alpha_ok_pos). cbn [bind].
    now rewrite (ps_general (plval (- 0) 2 1) (plval (- (-1)) 2 1)).
  - intros x Hx. apply (is_RInt_ext_le (fun y => 2 / 3 * y)); [lra| |].
    + intros y Hy. symmetry; apply N1; lra.
    + evar_last. apply (is_RInt_FTC (fun y => y * y / 3)).
      * intros; auto_derive; auto. field.
      * intros; apply (continuous_mult (fun _ : R => 2 / 3) (fun y => y)); [apply continuous_const|apply continuous_id].
      * eqR; field.
  - apply (is_RInt_ext_le (fun x => 2 * ((x * x - 1) / 3))); [lra| |].
    + intros y Hy. rewrite N0 by lra. field.
    + evar_last. apply (is_RInt_FTC (fun y => 2 * (y * y * y / 3 - y) / 3)).
      * intros; auto_derive; auto. field.
      * intros; apply (ex_derive_continuous (fun x => 2 * ((x * x - 1) / 3))). auto_derive; auto.
      * eqR; field.
Qed.

Lemma C26_mass_ratio_nan_partial_pf :
  forall bk beta mmin mmax m1 q, 0 < mmin < mmax -> 0 < m1 -> 0 < q ->
  (forall alpha, (bk = Jax \/ alpha <> -1) ->
     exists v, power_law_primary_mass_ratio bk (Fin m1) (Fin q) (Fin alpha) (Fin beta) (Fin mmin) (Fin mmax) = Ok v /\
       (v = NaN <-> (m1 = mmin /\ q <> 1))) /\
  (forall alpha lam mpp sigpp gmax, (bk = Jax \/ alpha <> -1) -> mmin < gmax -> 0 < sigpp -> 0 <= lam <= 1 ->
     exists v, two_component_primary_mass_ratio bk (Fin m1) (Fin q) (Fin alpha) (Fin beta) (Fin mmin) (Fin mmax)
                 (Fin lam) (Fin mpp) (Fin sigpp) (Fin gmax) = Ok v /\
       (v = NaN <-> (m1 = mmin /\ q <> 1))) /\
  (forall a1 a2 bf, 0 < bf < 1 -> (bk = Jax \/ (a1 <> -1 /\ a2 <> -1)) ->
     exists v, double_power_law_primary_power_law_mass_ratio bk (Fin m1) (Fin q) (Fin a1) (Fin a2) (Fin beta)
                 (Fin mmin) (Fin mmax) (Fin bf) = Ok v /\
       (v = NaN <-> (m1 = mmin /\ q <> 1))).
Proof.
  intros bk beta mmin mmax m1 q Hm H1 Hq. split; [|split].
  - intros alpha Ha.
    apply (joint_nan (plval (- alpha) mmax mmin)
       (fun m1 q => power_law_primary_mass_ratio bk (Fin m1) (Fin q) (Fin alpha) (Fin beta) (Fin mmin) (Fin mmax)) bk beta mmin); auto; try lra.
    + rewrite plval_in by lra. now apply plpdf_pos.
    + intros; now apply plpr_joint.
  - intros alpha lam mpp sigpp gmax Ha Hg Hs Hl.
    apply (joint_nan (twoval alpha mmin mmax lam mpp sigpp gmax)
       (fun m1 q => two_component_primary_mass_ratio bk (Fin m1) (Fin q) (Fin alpha) (Fin beta) (Fin mmin) (Fin mmax)
                 (Fin lam) (Fin mpp) (Fin sigpp) (Fin gmax)) bk beta mmin); auto; try lra.
    + now apply twoval_mmin_pos.
    + intros; now apply tcpr_joint.
  - intros a1 a2 bf Hbf Ha.
    apply (joint_nan (dplval a1 a2 mmin mmax bf)
       (fun m1 q => double_power_law_primary_power_law_mass_ratio bk (Fin m1) (Fin q) (Fin a1) (Fin a2) (Fin beta)
                 (Fin mmin) (Fin mmax) (Fin bf)) bk beta mmin); auto; try lra.
    + apply dplval_pos; auto; lra.
    + intros; now apply dplr_joint.
Qed.

Lemma C26_mass_ratio_nan_refuted_pf :
  power_law_primary_mass_ratio Numpy (Fin 5) (Fin (8/10)) (Fin 2) (Fin 1) (Fin 5) (Fin 50) = Ok NaN.
Proof.
  rewrite plpr_joint by (lra || (right; lra)). rewrite ratio_at_mmin by lra.
  destruct (Reqb_spec (8/10) 1); [lra|]. reflexivity.
Qed.

Lemma C27_slopes_accepted_partial_pf :
  forall bk m alpha mmin mmax, 0 <= mmin ->
  let accepted (c : result xf) := exists v, c = Ok v in
  let rejected (c : result xf) := c = Err ValueError in
  let ok a := bk = Jax \/ a <> -1 in
  (ok alpha -> accepted (power_law_mass bk (Fin m) (Fin alpha) (Fin mmin) (Fin mmax))) /\
  (~ ok alpha -> rejected (power_law_mass bk (Fin m) (Fin alpha) (Fin mmin) (Fin mmax))) /\
  (forall lam mpp sigpp gmax, 0 < sigpp ->
     let c := two_component_single bk (Fin m) (Fin alpha) (Fin mmin) (Fin mmax) (Fin lam) (Fin mpp) (Fin sigpp) (Fin gmax) in
     (ok alpha -> accepted c) /\ (~ ok alpha -> rejected c)) /\
  (forall lam lam_1 mpp sigpp mpp_2 sigpp_2 gmax, 0 < sigpp -> 0 < sigpp_2 ->
     let c := three_component_single bk (Fin m) (Fin alpha) (Fin mmin) (Fin mmax) (Fin lam) (Fin lam_1) (Fin mpp) (Fin sigpp)
                (Fin mpp_2) (Fin sigpp_2) (Fin gmax) in
     (ok alpha -> accepted c) /\ (~ ok alpha -> rejected c)) /\
  (forall alpha_2 bf, 0 < mmin < mmax -> 0 < bf < 1 ->
     let c := double_power_law_primary_mass bk (Fin m) (Fin alpha) (Fin alpha_2) (Fin mmin) (Fin mmax) (Fin bf) in
     (ok alpha -> ok alpha_2 -> accepted c) /\ (~ (ok alpha /\ ok alpha_2) -> rejected c)).
Proof.
  intros bk m alpha mmin mmax Hmin accepted rejected ok.
  assert (A : forall low high a, 0 <= low -> ok a -> exists v, powerlaw bk pl_kw (Fin m) (fopp (Fin a)) (Fin high) (Fin low) = Ok v).
  { intros low high a Hl Ha. rewrite fopp_fin. rewrite powerlaw_ok; eauto. now apply alpha_ok_kw. }
  assert (B : forall x low high a, 0 <= low -> ~ ok a -> powerlaw bk pl_kw x (fopp (Fin a)) high (Fin low) = Err ValueError).
  { intros x low high a Hl Ha. unfold ok in Ha. rewrite fopp_fin. rewrite powerlaw_cases.
    destruct bk; try (exfalso; apply Ha; now left); simpl is_jax; cbn iota;
      change (kw_in "low" pl_kw) with true; change (kw_in "alpha" pl_kw) with true;
      rewrite fge_fin, Rleb_true by auto; cbn [negb andb feq];
      rewrite Reqb_true; auto; destruct (Req_dec a (-1)); try lra; exfalso; apply Ha; now right. }
  split; [|split; [|split; [|split]]].
  - intros; now apply A.
  - intros; now apply B.
  - intros lam mpp sigpp gmax Hs c. split; intros Ha.
    + destruct (A mmin mmax alpha Hmin Ha) as [v E]. unfold c, two_component_single. rewrite E, truncnorm_ok by auto.
      eexists; reflexivity.
    + unfold c, two_component_single. rewrite B by auto. reflexivity.
  - intros lam lam_1 mpp sigpp mpp_2 sigpp_2 gmax Hs Hs2 c. split; intros Ha.
    + destruct (A mmin mmax alpha Hmin Ha) as [v E]. unfold c, three_component_single. rewrite E, !truncnorm_ok by auto.
      eexists; reflexivity.
    + unfold c, three_component_single. rewrite B by auto. reflexivity.
  - intros alpha_2 bf Hm Hbf c. assert (Hb := mbr_in mmin mmax bf Hm Hbf). split.
    + intros H1 H2. unfold c, double_power_law_primary_mass. autorewrite with xf. fold (mbr mmin mmax bf).
      rewrite !powerlaw_ok by (lra || (apply alpha_ok_kw; auto)). eexists; reflexivity.
    + intros H. unfold c, double_power_law_primary_mass. rewrite fsub_fin, fmul_fin, fadd_fin. fold (mbr mmin mmax bf).
      destruct (Classical_Prop.classic (ok alpha_2)) as [H2|H2].
      * rewrite (fopp_fin alpha_2), powerlaw_ok by (lra || (apply alpha_ok_kw; auto)). cbn [bind].
        rewrite B by (lra || tauto). reflexivity.
      * rewrite B by (lra || tauto). reflexivity.
Qed.

Lemma C27_slope_minus_one_refuted_pf :
  forall m, power_law_mass Numpy (Fin m) (Fin (-1)) (Fin 5) (Fin 50) = Err ValueError /\
  density_on (fun m => power_law_mass Jax (Fin m) (Fin (-1)) (Fin 5) (Fin 50)) 5 50.
Proof.
  intros m. split.
  - destruct (C27_slopes_accepted_partial_pf Numpy m (-1) 5 50 ltac:(lra)) as [_ [H _]].
    apply H. intros [X|X]; [discriminate|lra].
  - apply (C22_power_law_mass_normalised_pf Jax (-1) 5 50 50); [lra|now left|lra].
Qed.

