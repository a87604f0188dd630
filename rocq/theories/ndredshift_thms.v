(** Proofs of the property theorems stated in [Props_ndredshift]. *)
From Coq Require Import Reals Lra String.
From Coq Require Import List Bool Arith Lia.
From Verif Require Import Xf Py Np Special Utils_model Cosmo_model Redshift_model Xf_facts Nd_model SpecNd nd_thms NdModels_model SpecNdModels ndmodels_thms NdRedshift_model.
Import ListNotations.
Lemma pow_cs bk s a g b x : col s a g -> nd_py a = false -> sc b x -> nd_int a && nd_int b = false \/ flt x (Fin 0) = false ->
  exists r, npow bk a b = Ok r /\ nd_py r = false /\ col s r (fun i => fpow (g i) x).
Proof.
  intros Ca P Cb H. unfold npow. rewrite P. cbn [andb]. unfold npower.
  edestruct (fun py int => map2_cs bk py int fpow s _ _ _ _ Ca Cb) as (r & -> & Pr & _ & Cr). cbn [bind]. exists r. split; [|auto].
  destruct H as [->|H]; [reflexivity|]. replace (existsb _ _) with false; [now rewrite andb_false_r|]. symmetry. apply not_true_is_false. intros E.
  apply existsb_exists in E as (i & _ & E). destruct Cb as [Sb Vb]. rewrite Sb in E. cbn [bidx] in E. rewrite Vb, H in E. discriminate.
Qed.
Lemma pow_ss bk a x b y : sc a x -> sc b y -> (nd_py a = true -> x <> Fin 0) -> nd_int a && nd_int b = false \/ nd_py a && nd_py b = true ->
  exists r, npow bk a b = Ok r /\ sc r (fpow x y).
Proof.
  intros Ca Cb Z H. unfold npow. destruct (nd_py a && nd_py b) eqn:P.
  - apply andb_true_iff in P as [P _]. specialize (Z P). rewrite (proj2 Ca). replace (feq x (Fin 0)) with false.
    + cbn [andb]. edestruct (fun py int => map2_ss bk py int fpow _ _ _ _ Ca Cb) as (r & -> & _ & _ & Cr). eauto.
    + symmetry. destruct x as [x| | |]; try reflexivity. cbn. unfold Reqb. destruct (Req_EM_T x 0) as [->|]; [now destruct Z|reflexivity].
  - destruct H as [H|H]; [|discriminate]. unfold npower. rewrite H.
    edestruct (fun py int => map2_ss bk py int fpow _ _ _ _ Ca Cb) as (r & -> & _ & _ & Cr). cbn. eauto.
Qed.
Lemma iop_shape {B} bk int (f : xf -> B -> xf) s a b : nd_int a = false -> nd_shape a = s -> nd_shape b = s \/ nd_shape b = [] -> iop bk int f a b = nmap2 bk false false f a b.
Proof.
  intros J Sa Sb. unfold iop. rewrite J. cbn [andb]. destruct (rebinds bk a); [reflexivity|].
  assert (E : exists t, nmap2 bk false false f a b = Ok t /\ nd_shape t = s).
  { unfold nmap2. destruct Sb as [Sb|Sb]; rewrite Sa, Sb; [rewrite bcast_same|rewrite bcast_nil_r]; eauto. }
  destruct E as (t & -> & S). cbn [bind]. destruct (list_eq_dec Nat.eq_dec (nd_shape t) (nd_shape a)) as [_|N]; [reflexivity|]. destruct N. congruence.
Qed.
Lemma dget_plain k ps : dget k (plain ps) = option_map (fun p => value p) (dget k ps).
Proof. induction ps as [|[k' p] ps IH]; [reflexivity|]. cbn. destruct (String.eqb k k') eqn:E; [reflexivity|exact IH]. Qed.
Lemma dlookup_plain k ps : dlookup k (plain ps) = bind (dlookup k ps) (fun p => Ok (value p)).
Proof. unfold dlookup. rewrite dget_plain. destruct (dget k ps); reflexivity. Qed.
Lemma dget_in {V} k (ps : dict V) p : dget k ps = Some p -> In (k, p) ps.
Proof. induction ps as [|[k' q] ps IH]; [discriminate|]. cbn. destruct (String.eqb_spec k k') as [->|N]; [intros E; injection E as ->; now left|]. intros E. right. auto. Qed.
Lemma agree_lookup s k ps (K : nd xf -> result (nd xf)) h : (forall p, dget k ps = Some p -> agree s (K p) (fun i => h i (value p))) ->
  agree s (bind (dlookup k ps) K) (fun i => bind (dlookup k (plain ps)) (h i)).
Proof.
  intros H. rewrite dlookup_plain. unfold dlookup. destruct (dget k ps) as [p|]; cbn; [now apply H|]. right. eexists. split; reflexivity.
Qed.
(** The slopes that the rate models accept with a column of redshifts. *)
Definition slope_ok (z p : nd xf) : Prop := not_both_integers z p \/ flt (value p) (Fin 0) = false.
Lemma slope_flag z p : slope_ok z p -> nd_int z && nd_int p = false \/ flt (value p) (Fin 0) = false.
Proof. intros [[->| ->]|H]; auto. left. apply andb_false_r. Qed.
Lemma powerlaw_psi_agree bk s z ps : column s z -> (forall k p, In (k, p) ps -> parameter p) -> (forall p, dget "lamb" ps = Some p -> slope_ok z p) ->
  agree s (powerlaw_psi_nd bk z ps) (fun i => powerlaw_psi (nd_at z i) (plain ps)).
Proof.
  intros Cz Fp H. unfold powerlaw_psi_nd, powerlaw_psi, nop. assert (C := column_col s z Cz). destruct Cz as [_ Pz].
  edestruct (fun py int => map2_sc bk py int fadd s _ _ _ _ (py_sc (Fin 1)) C) as (o & -> & Po & Io & Co). cbn [bind].
  apply (agree_lookup s "lamb" ps _ (fun i l => Ok (fpow (fadd (Fin 1) (nd_at z i)) l))). intros p G.
  destruct (pow_cs bk s o _ p (value p) Co) as (r & -> & Pr & Cr).
  - rewrite Po, Pz. reflexivity.
  - apply parameter_sc, (Fp "lamb"%string), dget_in, G.
  - rewrite Io. cbn [nd_int py_int andb]. apply slope_flag, H, G.
  - now apply (agree_ok s r _ _ Cr Pr).
Qed.
Lemma madau_psi_agree bk s z ps : column s z -> (forall k p, In (k, p) ps -> parameter p) -> (forall p, dget "gamma" ps = Some p -> slope_ok z p) ->
  (forall p, dget "z_peak" ps = Some p -> nd_py p = true -> flt (Fin (-1)) (value p) = true) ->
  agree s (madau_psi_nd bk z ps) (fun i => madau_psi (nd_at z i) (plain ps)).
Proof.
  intros Cz Fp HG HP. unfold madau_psi_nd, madau_psi. assert (C := column_col s z Cz). destruct Cz as [_ Pz].
  apply (agree_lookup s "gamma" ps _ (fun i g => _)). intros ga Gg. apply (agree_lookup s "kappa" ps _ (fun i g => _)). intros ka Gk.
  apply (agree_lookup s "z_peak" ps _ (fun i g => _)). intros pe Gp. cbv beta zeta.
  assert (Cg := parameter_sc ga (Fp _ _ (dget_in _ _ _ Gg))). assert (Ck := parameter_sc ka (Fp _ _ (dget_in _ _ _ Gk))). assert (Cp := parameter_sc pe (Fp _ _ (dget_in _ _ _ Gp))).
  assert (Fk := parameter_flag ka (Fp _ _ (dget_in _ _ _ Gk))). assert (Fe := parameter_flag pe (Fp _ _ (dget_in _ _ _ Gp))).
  unfold nop. edestruct (fun py int => map2_sc bk py int fadd s _ _ _ _ (py_sc (Fin 1)) C) as (o & -> & Po & Io & Co). cbn [bind]. rewrite Pz in Po. cbn in Po, Io.
  destruct (pow_cs bk s o _ ga (value ga) Co Po Cg) as (ri & -> & Pri & Cri); [rewrite Io; apply slope_flag, HG, Gg|]. cbn [bind].
  edestruct (fun py int => map2_ss bk py int fadd _ _ _ _ (py_sc (Fin 1)) Cp) as (op & -> & Pop & Iop & Cop). cbn [bind]. cbn in Pop, Iop.
  rewrite divide_lib by auto. edestruct (fun py int => map2_cs bk py int fdiv s _ _ _ _ Co Cop) as (ra & -> & Pra & Ira & Cra). cbn [bind].
  destruct (pow_cs bk s ra _ ka (value ka) Cra Pra Ck) as (fa & -> & Pfa & Cfa); [rewrite Ira; now left|]. cbn [bind].
  edestruct (fun py int => map2_sc bk py int fadd s _ _ _ _ (py_sc (Fin 1)) Cfa) as (be & -> & Pbe & _ & Cbe). cbn [bind].
  rewrite divide_lib by auto. edestruct (fun py int => map2_cc bk py int fdiv s _ _ _ _ Cri Cbe) as (ps' & -> & Pps & Ips & Cps). cbn [bind].
  destruct (pow_ss bk op _ (nneg ka) _ Cop (neg_sc _ _ Ck)) as (az & -> & Caz).
  { rewrite Pop. intros Q. specialize (HP pe Gp Q). destruct (value pe) as [v| | |]; try discriminate. cbn in HP |- *. unfold flt, Rltb in HP. destruct (Rlt_dec (-1) v); [|discriminate].
    intros E. injection E. lra. }
  { rewrite Iop, Pop. cbn. destruct Fe as [Fe|Fe]; [|left; now rewrite Fe]. destruct Fk as [Fk|Fk]; [right; now rewrite Fe, Fk|left; rewrite Fk; apply andb_false_r]. }
  cbn [bind]. edestruct (fun py int => map2_ss bk py int fadd _ _ _ _ (py_sc (Fin 1)) Caz) as (fc & -> & _ & _ & Cfc). cbn [bind].
  rewrite (iop_shape bk _ fmul s); [|exact Ips|apply Cps|right; apply Cfc].
  edestruct (fun py int => map2_cs bk py int fmul s _ _ _ _ Cps Cfc) as (re & -> & Pre & _ & Cre). now apply (agree_ok s re _ _ Cre Pre).
Qed.
Section Volume.
  Variable bk : backend.
  Variable r : redshift.
  Variable ps : dict (nd xf).
  Variable psi_nd : nd xf -> dict (nd xf) -> result (nd xf).
  Lemma volume_agree s z bounds : column s z -> agree s (psi_nd z ps) (fun i => ra_psi (rs_rate r) (nd_at z i) (plain ps)) ->
    agree s (differential_spacetime_volume_nd bk psi_nd r z bounds ps) (fun i => differential_spacetime_volume_at r bounds (plain ps) (nd_at z i)).
  Proof.
    intros Cz H. unfold differential_spacetime_volume_nd, differential_spacetime_volume_at. assert (C := column_col s z Cz). destruct Cz as [_ Pz].
    apply (agree_bind s _ _ _ (fun i p => _) H). intros psi g Cpsi Ppsi. unfold nop.
    edestruct (fun py int => map2_sc bk py int fadd s _ _ _ _ (py_sc (Fin 1)) C) as (o & -> & Po & Io & Co). cbn [bind].
    rewrite divide_lib by auto. edestruct (fun py int => map2_cc bk py int fdiv s _ _ _ _ Cpsi Co) as (dv & -> & Pdv & Idv & Cdv). cbn [bind].
    unfold dvc_dz_nd, dvc_dz. destruct (cosmology_of (rs_mixin r) (plain ps)) as [c|e]; cbn [bind]; [|right; exists e; split; reflexivity].
    set (v := nmap _ z). assert (Cv : col s v (fun i => fmul (Fin (4 * PI)%R) (co_dvc c (nd_at z i)))). { destruct C as [Sz Vz]. split; [exact Sz|]. intros i I. reflexivity. }
    rewrite (iop_shape bk _ fmul s); [|exact Idv|apply Cdv|left; apply Cv].
    edestruct (fun py int => map2_cc bk py int fmul s _ _ _ _ Cdv Cv) as (dv' & -> & Pdv' & Idv' & Cdv'). cbn [bind].
    destruct bounds; [|now apply (agree_ok s dv' _ _ Cdv' Pdv')].
    assert (Cm : sc (py_float (Fin (rs_zmax r))) (Fin (rs_zmax r))) by (split; reflexivity).
    edestruct (fun py int => map2_cs bk py int fle s _ _ _ _ C Cm) as (le & -> & _ & _ & Cle). cbn [bind].
    rewrite (iop_shape bk _ _ s); [|exact Idv'|apply Cdv'|left; apply Cle].
    edestruct (fun py int => map2_cc bk py int (fun x (c : bool) => fmul x (of_bool c)) s _ _ _ _ Cdv' Cle) as (w & -> & Pw & _ & Cw). now apply (agree_ok s w _ _ Cw Pw).
  Qed.
End Volume.
Lemma inside_one n j : j < n -> inside [n] [j].
Proof. intros L. constructor; [exact L|constructor]. Qed.
Lemma mapM_nth {A B} (f : A -> result B) l d g : (forall j, j < List.length l -> f (nth j l d) = Ok (g j)) -> mapM f l = Ok (map g (seq 0 (List.length l))).
Proof.
  revert g. induction l as [|x l IH]; intros g H; [reflexivity|]. cbn [mapM List.length seq map]. assert (H0 := H 0 (Nat.lt_0_succ _)). cbn [nth] in H0. rewrite H0. cbn [bind].
  rewrite (IH (fun j => g (S j))); [cbn [bind]; rewrite <- seq_shift, map_map; reflexivity|]. intros j J. apply (H (S j)). cbn. lia.
Qed.
Lemma elements_one (y : nd xf) n : nd_shape y = [n] -> elements y = map (fun j => nd_at y [j]) (seq 0 n).
Proof.
  intros S. unfold elements. rewrite S. cbn [indices]. induction (seq 0 n) as [|j l IH]; [reflexivity|]. cbn. f_equal. exact IH.
Qed.
Lemma probability_agree bk r ps psi_nd s z : rs_zs r <> [] ->
  (forall s z, column s z -> nd_int z = false -> agree s (psi_nd z ps) (fun i => ra_psi (rs_rate r) (nd_at z i) (plain ps))) ->
  column s z -> agree s (psi_nd z ps) (fun i => ra_psi (rs_rate r) (nd_at z i) (plain ps)) ->
  agree s (probability_nd bk psi_nd r z ps) (fun i => bind (probability r [("redshift"%string, [nd_at z i])] (plain ps)) (fun l => Ok (hd NaN l))).
Proof.
  intros NE HF Cz H. unfold probability_nd, normalisation_nd.
  assert (CG : column [List.length (rs_zs r)] (lib_array (rs_zs r))) by (split; reflexivity).
  assert (G := volume_agree bk r ps psi_nd _ _ true CG (HF _ _ CG eq_refl)).
  assert (P : forall x, probability r [("redshift"%string, [x])] (plain ps) =
    bind (normalisation r (plain ps)) (fun n => bind (differential_spacetime_volume_at r true (plain ps) x) (fun v => Ok [fdiv v n]))).
  { intros x. unfold probability. destruct (normalisation r (plain ps)); [|reflexivity]. cbn [bind]. unfold differential_spacetime_volume. cbn -[differential_spacetime_volume_at].
    destruct (differential_spacetime_volume_at r true (plain ps) x); reflexivity. }
  apply (agree_ext s _ (fun i => bind (normalisation r (plain ps)) (fun n => bind (differential_spacetime_volume_at r true (plain ps) (nd_at z i)) (fun v => Ok (fdiv v n))))).
  { intros i I. rewrite P. destruct (normalisation r (plain ps)); [|reflexivity]. cbn [bind]. destruct (differential_spacetime_volume_at r true (plain ps) (nd_at z i)); reflexivity. }
  assert (NO : normalisation r (plain ps) = bind (mapM (differential_spacetime_volume_at r true (plain ps)) (rs_zs r)) (fun d => Ok (trapezoid d (rs_zs r)))) by reflexivity.
  rewrite NO. destruct G as [(y & -> & Sy & _ & V)|(e & -> & V)]; cbn [bind].
  - rewrite (mapM_nth _ (rs_zs r) NaN (fun j => nd_at y [j])).
    2:{ intros j J. apply (V [j]). now apply inside_one. }
    rewrite (elements_one y _ Sy). cbn [bind]. set (n := trapezoid _ _).
    apply (agree_bind s _ _ _ (fun i v => Ok (fdiv v n)) (volume_agree bk r ps psi_nd s z true Cz H)). intros d g Cd Pd. rewrite divide_lib by auto.
    assert (Cn : sc (lib_scalar n) n) by (split; reflexivity). edestruct (fun py int => map2_cs bk py int fdiv s _ _ _ _ Cd Cn) as (w & -> & Pw & _ & Cw).
    now apply (agree_ok s w _ _ Cw Pw).
  - right. exists e. split; [reflexivity|]. intros i _. destruct (rs_zs r) as [|x l] eqn:L; [now destruct NE|].
    cbn [mapM]. assert (V0 := V [0] (inside_one _ 0 (Nat.lt_0_succ _))). cbn -[differential_spacetime_volume_at] in V0. rewrite V0. reflexivity.
Qed.
Lemma C149_redshift_partial_pf :
  forall bk r s z parameters, column s z -> (forall name p, In (name, p) parameters -> parameter p) -> rs_zs r <> [] ->
  (forall p, dget "lamb" parameters = Some p -> not_both_integers z p \/ flt (value p) (Fin 0) = false) ->
  (forall p, dget "gamma" parameters = Some p -> not_both_integers z p \/ flt (value p) (Fin 0) = false) ->
  (forall p, dget "z_peak" parameters = Some p -> nd_py p = true -> flt (Fin (-1)) (value p) = true) ->
  let numbers := map (fun p => (fst p, value (snd p))) parameters in
  forall psi_nd, (psi_nd = powerlaw_psi_nd bk /\ rs_rate r = powerlaw_rate) \/ (psi_nd = madau_psi_nd bk /\ rs_rate r = madau_rate) ->
  elementwise (psi_nd z parameters) s (fun i => ra_psi (rs_rate r) (nd_at z i) numbers) /\
  (forall bounds, elementwise (differential_spacetime_volume_nd bk psi_nd r z bounds parameters) s
     (fun i => differential_spacetime_volume_at r bounds numbers (nd_at z i))) /\
  elementwise (probability_nd bk psi_nd r z parameters) s
    (fun i => bind (probability r [("redshift"%string, [nd_at z i])] numbers) (fun l => Ok (hd NaN l))).
Proof.
  intros bk r s z ps Cz Fp NE HL HG HP numbers psi_nd HR.
  assert (A : forall s z, column s z -> (forall p, dget "lamb" ps = Some p -> slope_ok z p) -> (forall p, dget "gamma" ps = Some p -> slope_ok z p) ->
    agree s (psi_nd z ps) (fun i => ra_psi (rs_rate r) (nd_at z i) (plain ps))).
  { intros s' z' C' L' G'. destruct HR as [[-> ->]|[-> ->]]; [now apply powerlaw_psi_agree|now apply madau_psi_agree]. }
  assert (AF : forall s z, column s z -> nd_int z = false -> agree s (psi_nd z ps) (fun i => ra_psi (rs_rate r) (nd_at z i) (plain ps))).
  { intros s' z' C' I'. apply A; [exact C'| |]; intros p _; left; now left. }
  split; [|split].
  - apply agree_elementwise. now apply A.
  - intros bounds. apply agree_elementwise. apply volume_agree; [exact Cz|now apply A].
  - apply agree_elementwise. apply probability_agree; auto.
Qed.

Lemma C149_integers_refuted_pf :
  forall r s z lamb, column s z -> (exists i, inside s i) -> nd_int z = true -> nd_py lamb = true -> nd_int lamb = true -> nd_shape lamb = [] ->
  flt (value lamb) (Fin 0) = true -> forall bounds,
  differential_spacetime_volume_nd Numpy (powerlaw_psi_nd Numpy) r z bounds [("lamb"%string, lamb)] = Err ValueError.
Proof.
  intros r s z lamb Cz (i & I) Iz Pl Il Sl Neg bounds. unfold differential_spacetime_volume_nd, powerlaw_psi_nd, nop. assert (C := column_col s z Cz). destruct Cz as [_ Pz].
  edestruct (fun py int => map2_sc Numpy py int fadd s _ _ _ _ (py_sc (Fin 1)) C) as (o & -> & Po & Io & Co). cbn [bind]. rewrite Pz in Po. rewrite Iz in Io. cbn in Po, Io.
  change (dlookup "lamb" [("lamb"%string, lamb)]) with (@Ok (nd xf) lamb). cbn [bind]. unfold npow. rewrite Po. cbn [andb]. unfold npower.
  assert (Cl : sc lamb (value lamb)) by (split; [exact Sl|reflexivity]).
  edestruct (fun py int => map2_cs Numpy py int fpow s _ _ _ _ Co Cl) as (w & -> & _ & _ & Cw). cbn [bind]. rewrite Io, Il. cbn [andb].
  replace (existsb _ _) with true; [reflexivity|]. symmetry. apply existsb_exists. exists i. split; [rewrite (proj1 Cw); now apply in_indices|].
  rewrite Sl. exact Neg.
Qed.

