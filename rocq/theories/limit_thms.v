(** Proofs of the property theorems stated in [Props_limit]. *)
From Coq Require Import Reals Lra Lia Psatz String Bool.
From Coquelicot Require Import Coquelicot.
From Coq Require Import List.
From Verif Require Import Xf Py St Xf_facts Py_facts Calc Spec Utils_model Powerlaw_facts Truncnorm_facts Trap_facts Np Np_facts
  Mass_model Mass_facts Smoothed_model Smoothed_facts smoothed_thms.
Import ListNotations.
Local Open Scope R_scope.
Lemma gap (mn : R) (l : list R) : ~ In mn l -> exists d, 0 < d /\ forall x, In x l -> x < mn \/ mn + d <= x.
Proof.
  induction l as [|a l IH]; intros N.
  - exists 1. split; [lra|]. intros x [].
  - destruct IH as [d [D H]]. { intros I. apply N. now right. }
    assert (A : a <> mn) by (intros E; apply N; now left).
    destruct (Rlt_dec a mn) as [L|L].
    + exists d. split; [lra|]. intros x [<-|I]; auto.
    + exists (Rmin d (a - mn)). split; [apply Rmin_glb_lt; lra|].
      intros x [<-|I]; [right; assert (W := Rmin_r d (a - mn)); lra|]. destruct (H x I); [now left|right; assert (W := Rmin_l d (a - mn)); lra].
Qed.
Definition sat : R := swin (1 - 1 / 1000000).
Lemma sat_pos : 0 < sat.
Proof. unfold sat, swin. apply Rinv_0_lt_compat. assert (P := exp_pos (/ (1 - 1 / 1000000) - / (1 - (1 - 1 / 1000000)))). lra. Qed.
Lemma sval_small mn mx d x : 0 < d -> x < mn \/ mn + d <= x -> sval mn mx d x = sat * (if Rleb mn x && Rleb x mx then 1 else 0).
Proof.
  intros D H. unfold sval. destruct (Rleb_spec mn x) as [A|A]; cbn [andb]; [|lra]. destruct (Rleb_spec x mx) as [B|B]; [|lra].
  replace (clp ((x - mn) / d)) with (1 - 1 / 1000000); [unfold sat; lra|].
  assert (Q : 1 <= (x - mn) / d). { apply Rmult_le_reg_r with d; auto. unfold Rdiv. rewrite Rmult_assoc, Rinv_l; lra. }
  unfold clp. rewrite Rltb_false by lra. now rewrite Rltb_true by lra.
Qed.
Lemma Rtrap_sat c (g : R -> R) x grid : Rtrap (map (fun m => c * g m) x) grid = c * Rtrap (map g x) grid.
Proof. rewrite <- Rtrap_scale, map_map. reflexivity. Qed.
Lemma C119_small_smoothing_pf :
  forall bk primary s (kw : R -> dict xf) kw0 mmin mmax grid (f : R -> R) m, sm_m1s s = map Fin grid -> sm_mmax s = Fin mmax ->
  (forall d, dget "delta_m" (kw d) = Some (Fin d) /\ ddel "delta_m" (kw d) = kw0 /\ dget_default "mmin" (sm_mmin s) (kw d) = Fin mmin) ->
  dget_default "mmin" (sm_mmin s) kw0 = Fin mmin ->
  (forall x, In x (m :: grid) -> primary kw0 (Fin x) = Ok (Fin (f x))) ->
  ~ In mmin grid -> mmin < m <= mmax ->
  let total := Rtrap (map (fun x => if Rleb mmin x && Rleb x mmax then f x else 0) grid) grid in total <> 0 ->
  exists small, 0 < small /\ forall delta, 0 < delta < small ->
    p_m1 bk primary s [("mass_1"%string, [Fin m])] (kw delta) = Ok [Fin (f m / total)].
Proof.
  intros bk prim s kw kw0 mn mx grid f m Eg Ex K K0 F N M total T.
  destruct (gap mn (m :: grid)) as [d0 [D0 G]]. { intros [E|I]; [lra|auto]. }
  exists d0. split; [exact D0|]. intros d D. destruct (K d) as [K1 [K2 K3]].
  assert (W : forall x, In x (m :: grid) -> sval mn mx d x = sat * (if Rleb mn x && Rleb x mx then 1 else 0)).
  { intros x I. apply sval_small; [lra|]. destruct (G x I); [now left|right; lra]. }
  assert (P := sat_pos).
  assert (E : m1norm f mn mx d grid = sat * total).
  { unfold m1norm, total. rewrite <- Rtrap_sat. f_equal. apply map_ext_in. intros x I. rewrite W by now right.
    destruct (Rleb mn x && Rleb x mx); lra. }
  rewrite (p_m1_fin bk prim s (kw d) mn mx d f grid [m]); auto; try lra.
  - cbn [map]. do 3 f_equal. rewrite E, W by now left. rewrite !Rleb_true by lra. cbn [andb]. field. lra.
  - now rewrite K2.
  - intros x I. rewrite K2. apply F. destruct I as [I|[<-|[]]]; [now right|now left].
  - rewrite E. apply Rmult_integral_contrapositive_currified; lra.
Qed.

Lemma C119_jump_refuted_pf :
  forall bk primary s (kw : R -> dict xf) kw0 mmin mmax grid (f : R -> R) m, bk <> Jax -> sm_m1s s = map Fin grid -> sm_mmax s = Fin mmax ->
  (forall d, dget "delta_m" (kw d) = Some (Fin d) /\ ddel "delta_m" (kw d) = kw0 /\ dget_default "mmin" (sm_mmin s) (kw d) = Fin mmin) ->
  dget_default "mmin" (sm_mmin s) kw0 = Fin mmin ->
  (forall x, In x (m :: grid) -> primary kw0 (Fin x) = Ok (Fin (f x))) ->
  ~ In mmin grid -> mmin < m <= mmax ->
  let total := Rtrap (map (fun x => if Rleb mmin x && Rleb x mmax then f x else 0) grid) grid in total <> 0 -> total <> 1 -> f m <> 0 ->
  exists small v0 v, 0 < small /\ v0 <> v /\ p_m1 bk primary s [("mass_1"%string, [Fin m])] (kw 0) = Ok [Fin v0] /\
    forall delta, 0 < delta < small -> p_m1 bk primary s [("mass_1"%string, [Fin m])] (kw delta) = Ok [Fin v].
Proof.
  intros bk prim s kw kw0 mn mx grid f m B Eg Ex K K0 F N M total T T1 Fm.
  destruct (C119_small_smoothing_pf bk prim s kw kw0 mn mx grid f m Eg Ex K K0 F N M T) as [d0 [D0 H]].
  exists d0, (f m), (f m / total). repeat split; auto.
  - intros E. apply T1. apply (Rmult_eq_reg_l (f m)); [|exact Fm]. transitivity (f m / total * total); [now rewrite <- E|field; exact T].
  - destruct (K 0) as [K1 [K2 K3]].
    rewrite (C29_no_smoothing_no_renormalisation_pf bk prim s (kw 0) [Fin m] (fun _ => Fin (f m))); auto.
    + unfold dget_default. now rewrite K1.
    + intros x [<-|[]]. rewrite K2. apply F. now left.
Qed.

Lemma C119_single_peak_refuted_pf :
  forall bk cache s, bk <> Jax -> smoothed_init 2 4 (3%nat, 2%nat) cache = Ok s ->
  let density := fun delta => p_m1 bk (class_primary SinglePeak bk) s [("mass_1"%string, [Fin 3])]
                   (single_peak_kw 0 (9/4) 4 0 3 1 delta ++ class_kwargs SinglePeak (sm_mmax s))%list in
  density 0 = Ok [Fin (4/7)] /\ exists small, 0 < small /\ forall delta, 0 < delta < small -> density delta = Ok [Fin (2/3)].
Proof.
  intros bk ca s B Hs density. unfold smoothed_init in Hs. cbn [fst snd Nat.ltb Nat.leb orb] in Hs. injection Hs as <-.
  set (s := Build_smoothed _ _ _ _ _ _) in *.
  assert (V : forall x, 0 < x -> class_primary SinglePeak bk (ddel "delta_m" (single_peak_kw 0 (9/4) 4 0 3 1 0 ++ class_kwargs SinglePeak (sm_mmax s))%list) (Fin x)
     = Ok (Fin (twoval 0 (9/4) 4 0 3 1 4 x))) by (intros x X; apply sp_gmax; auto; try lra; right; lra).
  assert (U : forall x, 9/4 <= x <= 4 -> twoval 0 (9/4) 4 0 3 1 4 x = 4/7).
  { intros x X. unfold twoval. rewrite plval_in by lra. unfold plpdf, plnorm. rewrite Reqb_false by lra.
    replace (1 + - 0) with 1 by lra. rewrite Ropp_0, Rpower_O, !Rpower_1 by lra. field. }
  assert (G : sm_m1s s = map Fin [2; 3; 4]).
  { unfold s. cbn [sm_m1s]. unfold xlinspace, linspace. cbn. repeat f_equal; lra. }
  split.
  - unfold density. rewrite (C29_no_smoothing_no_renormalisation_pf bk _ s _ [Fin 3] (fun _ => Fin (4/7))); auto.
    intros x [<-|[]]. rewrite V, U by lra. reflexivity.
  - destruct (C119_small_smoothing_pf bk (class_primary SinglePeak bk) s
      (fun d => (single_peak_kw 0 (9/4) 4 0 3 1 d ++ class_kwargs SinglePeak (sm_mmax s))%list)
      (ddel "delta_m" (single_peak_kw 0 (9/4) 4 0 3 1 0 ++ class_kwargs SinglePeak (sm_mmax s))%list) (9/4) 4 [2;3;4] (twoval 0 (9/4) 4 0 3 1 4) 3) as [d0 [D0 H]]; auto.
    + intros x [<-|[<-|[<-|[<-|[]]]]]; apply V; lra.
    + intros [E|[E|[E|[]]]]; lra.
    + lra.
    + cbn [map]. rewrite (Rleb_false (9/4) 2), !Rleb_true by lra. cbn [andb]. rewrite !U by lra. cbn [Rtrap]. lra.
    + exists d0. split; auto. intros d D. unfold density. rewrite H by auto. do 3 f_equal.
      cbn [map]. rewrite (Rleb_false (9/4) 2), !Rleb_true by lra. cbn [andb]. rewrite !U by lra. cbn [Rtrap]. field.
Qed.

