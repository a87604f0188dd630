(** Proofs of the property theorems stated in [Props_cond]. *)
From Coq Require Import Reals Lra Lia Psatz String Bool.
From Coquelicot Require Import Coquelicot.
From Coq Require Import List.
From Verif Require Import Xf Py Xf_facts Py_facts Calc Special Gauss_facts Spec Utils_model Powerlaw_facts Truncnorm_facts Mass_model Mass_facts mass_thms SpecCond.
Import ListNotations.
Local Open Scope R_scope.
(** Proportional on the interval, and the narrow one integrates to one there. *)
Lemma prop_conditioned (wide narrow : R -> result xf) (g h : R -> R) c a b : 0 < c -> (forall x, a <= x <= b -> returns (wide x) (g x) /\ returns (narrow x) (h x)) ->
  (forall x, a <= x <= b -> h x = c * g x) -> a <= b -> is_RInt h a b 1 -> conditioned wide narrow a b.
Proof.
  intros C V E AB I. assert (J : is_RInt (fun x => h x * / c) a b (1 * / c)) by now apply is_RInt_scal_r.
  exists g, (/ c). split; [now apply Rinv_0_lt_compat|]. split.
  - apply (is_RInt_ext (fun x => h x * / c)); [|rewrite Rmult_1_l in J; exact J]. intros x X. rewrite Rmin_left, Rmax_right in X by lra. rewrite (E x) by lra. eqR; field. lra.
  - intros x X. destruct (V x X) as [W N]. split; [exact W|]. unfold returns in *. rewrite N. rewrite (E x X). do 2 f_equal. field. lra.
Qed.
Lemma plpdf_prop alpha high low b a x : 0 < low < high -> 0 < a < b -> plpdf alpha b a x = plnorm alpha b a / plnorm alpha high low * plpdf alpha high low x.
Proof. intros H H'. assert (P := plnorm_pos alpha _ _ H). unfold plpdf. field. lra. Qed.
Lemma C118_powerlaw_pf :
  forall bk kw alpha low high a b, 0 < low -> low <= a -> a < b -> b <= high -> (bk = Jax \/ ~ In "alpha"%string kw \/ alpha <> 1) ->
  conditioned (fun x => powerlaw bk kw (Fin x) (Fin alpha) (Fin high) (Fin low)) (fun x => powerlaw bk kw (Fin x) (Fin alpha) (Fin b) (Fin a)) a b.
Proof.
  intros bk kw alpha low high a b L A AB B K. assert (Q : alpha_ok bk kw alpha) by exact K.
  apply (prop_conditioned _ _ (plpdf alpha high low) (plpdf alpha b a) (plnorm alpha b a / plnorm alpha high low)).
  - apply Rdiv_lt_0_compat; apply plnorm_pos; lra.
  - intros x X. split; unfold returns; rewrite powerlaw_val by (auto; lra); rewrite plval_in by lra; reflexivity.
  - intros x X. apply plpdf_prop; lra.
  - lra.
  - apply plpdf_int; lra.
Qed.

Lemma C118_truncnorm_pf :
  forall bk kw mu sigma low high a b, 0 < sigma -> low <= a -> a < b -> b <= high ->
  conditioned (fun x => truncnorm bk kw (Fin x) (Fin mu) (Fin sigma) (Fin high) (Fin low)) (fun x => truncnorm bk kw (Fin x) (Fin mu) (Fin sigma) (Fin b) (Fin a)) a b.
Proof.
  intros bk kw mu sigma low high a b S A AB B.
  assert (Z1 := Zab_pos _ _ (div_lt (low - mu) (high - mu) sigma S ltac:(lra))). assert (Z2 := Zab_pos _ _ (div_lt (a - mu) (b - mu) sigma S ltac:(lra))).
  apply (prop_conditioned _ _ (tnpdf mu sigma high low) (tnpdf mu sigma b a) (Zab ((low - mu) / sigma) ((high - mu) / sigma) / Zab ((a - mu) / sigma) ((b - mu) / sigma))).
  - now apply Rdiv_lt_0_compat.
  - intros x X. split; unfold returns; rewrite truncnorm_val by (auto; lra); rewrite tnval_in by lra; reflexivity.
  - intros x X. unfold tnpdf. field. repeat split; lra.
  - lra.
  - apply tnpdf_int; lra.
Qed.

Lemma C118_power_law_mass_pf :
  forall bk alpha mmin mmax mmin' mmax', 0 < mmin -> mmin <= mmin' -> mmin' < mmax' -> mmax' <= mmax -> (bk = Jax \/ alpha <> -1) ->
  conditioned (fun m => power_law_mass bk (Fin m) (Fin alpha) (Fin mmin) (Fin mmax)) (fun m => power_law_mass bk (Fin m) (Fin alpha) (Fin mmin') (Fin mmax')) mmin' mmax'.
Proof.
  intros bk alpha mmin mmax a b L A AB B K.
  apply (prop_conditioned _ _ (plpdf (- alpha) mmax mmin) (plpdf (- alpha) b a) (plnorm (- alpha) b a / plnorm (- alpha) mmax mmin)).
  - apply Rdiv_lt_0_compat; apply plnorm_pos; lra.
  - intros x X. split; unfold returns; rewrite plm_val by (auto; lra); rewrite plval_in by lra; reflexivity.
  - intros x X. apply plpdf_prop; lra.
  - lra.
  - apply plpdf_int; lra.
Qed.

Lemma C118_broken_power_law_pf :
  forall bk a1 a2 mmin mmax bf mmin' mmax' bf', 0 < mmin -> mmin <= mmin' -> mmin' < mmax' -> mmax' <= mmax -> 0 < bf < 1 -> 0 < bf' < 1 ->
  mmin + bf * (mmax - mmin) = mmin' + bf' * (mmax' - mmin') -> (bk = Jax \/ (a1 <> -1 /\ a2 <> -1)) ->
  conditioned (fun m => double_power_law_primary_mass bk (Fin m) (Fin a1) (Fin a2) (Fin mmin) (Fin mmax) (Fin bf))
    (fun m => double_power_law_primary_mass bk (Fin m) (Fin a1) (Fin a2) (Fin mmin') (Fin mmax') (Fin bf')) mmin' mmax'.
Proof.
  intros bk a1 a2 mmin mmax bf a b bf' L A AB B F F' Br K.
  destruct (C21_double_power_law_density_pf bk a1 a2 mmin mmax bf ltac:(lra) F K) as (_ & _ & _ & k1 & k2 & P1 & P2 & V1 & V2).
  destruct (C21_double_power_law_density_pf bk a1 a2 a b bf' ltac:(lra) F' K) as (_ & (h & H & I) & _ & k1' & k2' & P1' & P2' & V1' & V2'). cbv zeta in *.
  set (mb := mmin + bf * (mmax - mmin)) in *. rewrite <- Br in V1', V2'.
  assert (Mb : a < mb < b) by (split; rewrite Br; nra).
  set (g := fun x => if Rle_dec x mb then k1 * Rpower x (- a1) else k2 * Rpower x (- a2)).
  assert (inj : forall r (x y : R), returns r x -> returns r y -> x = y) by (unfold returns; intros r x y X Y; rewrite X in Y; now inversion Y).
  assert (J : k1 * Rpower mb (- a1) = k2 * Rpower mb (- a2)) by (eapply inj; [apply V1; nra|apply V2; nra]).
  assert (J' : k1' * Rpower mb (- a1) = k2' * Rpower mb (- a2)) by (eapply inj; [apply V1'; lra|apply V2'; lra]).
  assert (Q1 := Rpower_pos mb (- a1)). assert (Q2 := Rpower_pos mb (- a2)).
  assert (C : k2' * k1 = k1' * k2).
  { apply (Rmult_eq_reg_r (Rpower mb (- a1) * Rpower mb (- a2))); [|nra]. transitivity ((k2' * Rpower mb (- a2)) * (k1 * Rpower mb (- a1))); [ring|]. rewrite J, <- J'. ring. }
  apply (prop_conditioned _ _ g h (k1' / k1)).
  - apply Rdiv_lt_0_compat; lra.
  - intros x X. split; [|now apply H]. unfold g. destruct (Rle_dec x mb); [apply V1|apply V2]; lra.
  - intros x X. unfold g. destruct (Rle_dec x mb).
    + rewrite (inj _ _ _ (H x X) (V1' x ltac:(lra))). field. lra.
    + rewrite (inj _ _ _ (H x X) (V2' x ltac:(lra))). replace k2' with (k1' * k2 / k1) by (rewrite <- C; field; lra). field. lra.
  - lra.
  - exact I.
Qed.

Lemma C118_mixture_refuted_pf :
  forall bk alpha mmin mmax mmax' lam mpp sigpp gmax, 0 < mmin -> mmin < gmax -> gmax < mmax' -> mmax' < mmax -> 0 < sigpp -> 0 < lam < 1 -> (bk = Jax \/ alpha <> -1) ->
  ~ conditioned (fun m => two_component_single bk (Fin m) (Fin alpha) (Fin mmin) (Fin mmax) (Fin lam) (Fin mpp) (Fin sigpp) (Fin gmax))
      (fun m => two_component_single bk (Fin m) (Fin alpha) (Fin mmin) (Fin mmax') (Fin lam) (Fin mpp) (Fin sigpp) (Fin gmax)) mmin mmax'.
Proof.
  intros bk alpha mmin mmax b lam mpp sigpp gmax L G1 G2 B S Lam K (g & P & PP & I & V).
  assert (inj : forall r (x y : R), returns r x -> returns r y -> x = y) by (unfold returns; intros r x y X Y; rewrite X in Y; now inversion Y).
  assert (W : forall x, mmin <= x <= b -> g x = twoval alpha mmin mmax lam mpp sigpp gmax x).
  { intros x X. eapply inj; [apply V; exact X|]. unfold returns. apply two_val; auto; lra. }
  assert (N : g b / P = twoval alpha mmin b lam mpp sigpp gmax b). { eapply inj; [apply V; lra|]. unfold returns. apply two_val; auto; lra. }
  rewrite W in N by lra. unfold twoval in N. rewrite (tnval_out mpp sigpp gmax mmin b), !plval_in in N by lra.
  set (c := plnorm (- alpha) b mmin / plnorm (- alpha) mmax mmin).
  assert (P1 := plnorm_pos (- alpha) mmax mmin ltac:(lra)). assert (P2 := plnorm_pos (- alpha) b mmin ltac:(lra)).
  assert (C0 : 0 < c) by now apply Rdiv_lt_0_compat.
  assert (E : forall x, plpdf (- alpha) b mmin x = c * plpdf (- alpha) mmax mmin x) by (intros x; unfold c; apply plpdf_prop; lra).
  assert (Pb := plpdf_pos (- alpha) mmax mmin b ltac:(lra)).
  (* the probability of the power law part *)
  assert (I1 : is_RInt (plpdf (- alpha) mmax mmin) mmin b (/ c)).
  { assert (J : is_RInt (fun x => plpdf (- alpha) b mmin x * / c) mmin b (1 * / c)) by (apply is_RInt_scal_r, plpdf_int; lra). rewrite Rmult_1_l in J.
    apply (is_RInt_ext (fun x => plpdf (- alpha) b mmin x * / c)); [|exact J]. intros x _. rewrite E. eqR; field. lra. }
  assert (I2 : is_RInt (plpdf (- alpha) mmax mmin) b mmax (1 - / c)).
  { assert (X : ex_RInt (plpdf (- alpha) mmax mmin) b mmax) by (apply (ex_RInt_continuous (V := R_CompleteNormedModule)); intros z Z; rewrite Rmin_left, Rmax_right in Z by lra; apply plpdf_continuous; lra).
    destruct X as [v X]. assert (Y := is_RInt_Chasles _ _ _ _ _ _ I1 X). assert (Q := RInt_uniq _ _ _ _ _ Y (plpdf_int (- alpha) mmax mmin ltac:(lra))).
    change (plus (/ c) v) with (/ c + v) in Q. replace (1 - / c) with v by lra. exact X. }
  assert (C1 : / c < 1).
  { assert (0 < 1 - / c); [|lra]. rewrite <- (is_RInt_unique (V := R_CompleteNormedModule) _ _ _ _ I2). apply RInt_gt_0; [lra| |]; intros x X; [apply plpdf_pos; lra|apply plpdf_continuous; lra]. }
  (* the probability of the interval *)
  assert (IW : is_RInt (twoval alpha mmin mmax lam mpp sigpp gmax) mmin b ((1 - lam) * / c + lam)).
  { assert (JT := tnval_int mpp sigpp gmax mmin b S G1 ltac:(lra)).
    apply (is_RInt_ext (fun x => plpdf (- alpha) mmax mmin x * (1 - lam) + tnval mpp sigpp gmax mmin x * lam)).
    - intros x X. rewrite Rmin_left, Rmax_right in X by lra. unfold twoval. rewrite plval_in by lra. eqR; ring.
    - replace ((1 - lam) * / c + lam) with (/ c * (1 - lam) + 1 * lam) by ring. apply is_RInt_plusR; now apply is_RInt_scal_r. }
  assert (EP : P = (1 - lam) * / c + lam).
  { apply (RInt_uniq g mmin b); [exact I|]. apply (is_RInt_ext (twoval alpha mmin mmax lam mpp sigpp gmax)); [|exact IW]. intros x X. rewrite Rmin_left, Rmax_right in X by lra. now rewrite W by lra. }
  rewrite E in N. rewrite !Rmult_0_r, !Rplus_0_r in N. apply (f_equal (fun r => r * P)) in N. unfold Rdiv in N. rewrite Rmult_assoc, Rinv_l, Rmult_1_r in N by lra.
  assert (M : 1 = c * P). { apply (Rmult_eq_reg_l ((1 - lam) * plpdf (- alpha) mmax mmin b)); [|apply Rmult_integral_contrapositive_currified; lra]. rewrite Rmult_1_r. rewrite N at 1. ring. }
  rewrite EP in M. replace (c * ((1 - lam) * / c + lam)) with (1 - lam + lam * c) in M by (field; lra).
  assert (1 < c). { apply (Rmult_lt_compat_l c) in C1; [|auto]. rewrite Rinv_r in C1 by lra. lra. } nra.
Qed.

