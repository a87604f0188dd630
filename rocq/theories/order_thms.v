(** Proofs of the property theorems stated in [Props_order]. *)
From Coq Require Import Reals Lra Lia Psatz String Bool ZArith.
From Coquelicot Require Import Coquelicot.
From Coq Require Import List.
From Verif Require Import Xf Py Np Xf_facts Py_facts Np_facts Calc Special Gauss_facts Spec SpecU Utils_model Mass_model Spin_model Cosmo_model Redshift_model
  Powerlaw_facts Truncnorm_facts Beta_facts Trap_facts Utils_facts Mass_facts redshift_thms ipl_thms SpecCosmo SpecOrder.
Import ListNotations.
Local Open Scope R_scope.
Local Opaque linspace xlinspace.
(** ** Two densities whose ratio increases *)
Lemma crossing (f g : R -> R) a x b : a < x < b -> (forall t, a <= t <= b -> continuous f t) -> (forall t, a <= t <= b -> continuous g t) ->
  (forall t, a <= t <= b -> 0 < f t) -> (forall s t, a <= s -> s < t -> t <= b -> g s * f t < g t * f s) -> is_RInt f a b 1 -> is_RInt g a b 1 ->
  exists p q, is_RInt f a x p /\ is_RInt g a x q /\ q < p.
Proof.
  intros X Cf Cg Pf M If Ig. set (r := g x / f x). assert (fx := Pf x ltac:(lra)).
  assert (EX : forall (h : R -> R) c d, a <= c -> c <= d -> d <= b -> (forall t, a <= t <= b -> continuous h t) -> ex_RInt h c d).
  { intros h c d H1 H2 H3 C. apply (ex_RInt_continuous h). intros z Z. rewrite Rmin_left, Rmax_right in Z by lra. apply C; lra. }
  assert (Fl := RInt_correct f a x (EX f a x ltac:(lra) ltac:(lra) ltac:(lra) Cf)). assert (Gl := RInt_correct g a x (EX g a x ltac:(lra) ltac:(lra) ltac:(lra) Cg)).
  assert (Fr := RInt_correct f x b (EX f x b ltac:(lra) ltac:(lra) ltac:(lra) Cf)). assert (Gr := RInt_correct g x b (EX g x b ltac:(lra) ltac:(lra) ltac:(lra) Cg)).
  set (p := RInt f a x) in *. set (q := RInt g a x) in *. set (p' := RInt f x b) in *. set (q' := RInt g x b) in *.
  exists p, q. split; [exact Fl|]. split; [exact Gl|].
  assert (E1 : p + p' = 1). { assert (H : is_RInt f a b (p + p')) by exact (is_RInt_Chasles f a x b p p' Fl Fr). assert (U1 := is_RInt_unique f a b (p + p') H). assert (U2 := is_RInt_unique f a b 1 If). lra. }
  assert (E2 : q + q' = 1). { assert (H : is_RInt g a b (q + q')) by exact (is_RInt_Chasles g a x b q q' Gl Gr). assert (U1 := is_RInt_unique g a b (q + q') H). assert (U2 := is_RInt_unique g a b 1 Ig). lra. }
  assert (CM : forall (u v : R -> R) k t, continuous u t -> continuous v t -> continuous (fun t => k * u t - v t) t).
  { intros u v k t U V. apply (continuous_minus (fun t => k * u t) v); [apply (continuous_mult (fun _ => k) u); [apply continuous_const|exact U]|exact V]. }
  assert (L : 0 < r * p - q).
  { assert (H : is_RInt (fun t => r * f t - g t) a x (r * p - q)) by (apply (is_RInt_minus (fun t => r * f t) g a x (r * p) q); [apply (is_RInt_scal f a x r p Fl)|exact Gl]).
    rewrite <- (is_RInt_unique _ _ _ _ H). apply RInt_gt_0; [lra| |].
    - intros t T. assert (MM := M t x ltac:(lra) ltac:(lra) ltac:(lra)). unfold r. apply (Rmult_lt_reg_r (f x)); [exact fx|]. rewrite Rmult_0_l. replace ((g x / f x * f t - g t) * f x) with (g x * f t - g t * f x) by (field; lra). lra.
    - intros t T. apply CM; [apply Cf|apply Cg]; lra. }
  assert (U : 0 < q' - r * p').
  { assert (H : is_RInt (fun t => 1 * g t - r * f t) x b (1 * q' - r * p')) by (apply (is_RInt_minus (fun t => 1 * g t) (fun t => r * f t) x b (1 * q') (r * p')); [apply (is_RInt_scal g x b 1 q' Gr)|apply (is_RInt_scal f x b r p' Fr)]).
    rewrite Rmult_1_l in H. rewrite <- (is_RInt_unique _ _ _ _ H). apply RInt_gt_0; [lra| |].
    - intros t T. assert (MM := M x t ltac:(lra) ltac:(lra) ltac:(lra)). unfold r. apply (Rmult_lt_reg_r (f x)); [exact fx|]. rewrite Rmult_0_l. replace ((1 * g t - g x / f x * f t) * f x) with (g t * f x - g x * f t) by (field; lra). lra.
    - intros t T. apply (CM g (fun t => r * f t) 1); [apply Cg; lra|]. apply (continuous_mult (fun _ => r) f); [apply continuous_const|apply Cf; lra]. }
  assert (pp : 0 < p) by (apply RInt_gt_0; [lra|intros; apply Pf; lra|intros; apply Cf; lra]). assert (pp' : 0 < p') by (apply RInt_gt_0; [lra|intros; apply Pf; lra|intros; apply Cf; lra]).
  destruct (Rle_dec r 1); nra.
Qed.

Lemma pw_ratio s t a1 a2 : 0 < s -> s < t -> a1 < a2 -> Rpower s a2 * Rpower t a1 < Rpower t a2 * Rpower s a1.
Proof.
  intros S T A. unfold Rpower. rewrite <- !exp_plus. apply exp_increasing. assert (ln s < ln t) by (apply ln_increasing; lra). nra.
Qed.

Lemma C113_powerlaw_pf :
  forall bk kw alpha alpha' high low x, 0 < low -> low < x < high -> alpha < alpha' ->
  (bk = Jax \/ ~ In "alpha"%string kw \/ (alpha <> 1 /\ alpha' <> 1)) ->
  shifted_up (fun x => powerlaw bk kw (Fin x) (Fin alpha) (Fin high) (Fin low)) (fun x => powerlaw bk kw (Fin x) (Fin alpha') (Fin high) (Fin low)) low x.
Proof.
  intros bk kw a a' high low x L X A G. assert (LH : 0 < low < high) by lra.
  assert (OK : forall al, al = a \/ al = a' -> alpha_ok bk kw al). { intros al E. destruct G as [G|[G|[G1 G2]]]; [now left|right; now left|right; right; destruct E; subst; assumption]. }
  assert (V : forall al, al = a \/ al = a' -> forall t, low <= t <= x -> returns (powerlaw bk kw (Fin t) (Fin al) (Fin high) (Fin low)) (plpdf al high low t)).
  { intros al E t T. unfold returns. rewrite powerlaw_ok by (try lra; now apply OK). f_equal. apply powerlaw_body_in; lra. }
  destruct (crossing (plpdf a high low) (plpdf a' high low) low x high) as (p & q & P & Q & H).
  - exact X. - intros; apply plpdf_continuous; lra. - intros; apply plpdf_continuous; lra. - intros; now apply plpdf_pos.
  - intros s t S1 S2 S3. unfold plpdf. assert (R1 := pw_ratio s t a a' ltac:(lra) S2 A). assert (N1 := plnorm_pos a _ _ LH). assert (N2 := plnorm_pos a' _ _ LH).
    replace (Rpower s a' * plnorm a' high low * (Rpower t a * plnorm a high low)) with ((Rpower s a' * Rpower t a) * (plnorm a' high low * plnorm a high low)) by ring.
    replace (Rpower t a' * plnorm a' high low * (Rpower s a * plnorm a high low)) with ((Rpower t a' * Rpower s a) * (plnorm a' high low * plnorm a high low)) by ring.
    apply Rmult_lt_compat_r; [now apply Rmult_lt_0_compat|exact R1].
  - now apply plpdf_int. - now apply plpdf_int.
  - exists p, q. split; [exists (plpdf a high low); split; [apply V; now left|exact P]|]. split; [exists (plpdf a' high low); split; [apply V; now right|exact Q]|exact H].
Qed.

Lemma C113_truncnorm_pf :
  forall bk kw mu mu' sigma high low x, 0 < sigma -> low < x < high -> mu < mu' ->
  shifted_up (fun x => truncnorm bk kw (Fin x) (Fin mu) (Fin sigma) (Fin high) (Fin low)) (fun x => truncnorm bk kw (Fin x) (Fin mu') (Fin sigma) (Fin high) (Fin low)) low x.
Proof.
  intros bk kw m m' s high low x S0 X A. assert (LH : low < high) by lra.
  assert (V : forall mu t, low <= t <= x -> returns (truncnorm bk kw (Fin t) (Fin mu) (Fin s) (Fin high) (Fin low)) (tnpdf mu s high low t)).
  { intros mu t T. unfold returns. rewrite truncnorm_ok by exact S0. f_equal. apply truncnorm_body_in; lra. }
  destruct (crossing (tnpdf m s high low) (tnpdf m' s high low) low x high) as (p & q & P & Q & H).
  - exact X. - intros; now apply tnpdf_cont. - intros; now apply tnpdf_cont. - intros; now apply tnpdf_pos.
  - intros u t U1 U2 U3. unfold tnpdf. assert (Z1 := Zab_pos ((low - m) / s) ((high - m) / s) ltac:(apply div_lt; lra)). assert (Z2 := Zab_pos ((low - m') / s) ((high - m') / s) ltac:(apply div_lt; lra)).
    set (z1 := Zab _ _) in *. set (z2 := Zab ((low - m') / s) _) in *.
    assert (G : gauss ((u - m') / s) * gauss ((t - m) / s) < gauss ((t - m') / s) * gauss ((u - m) / s)).
    { unfold gauss. assert (W := s2pi_pos). unfold Rdiv. replace (exp (- ((u - m') * / s * ((u - m') * / s)) * / 2) * / sqrt (2 * PI) * (exp (- ((t - m) * / s * ((t - m) * / s)) * / 2) * / sqrt (2 * PI)))
        with (exp (- ((u - m') * / s * ((u - m') * / s)) * / 2) * exp (- ((t - m) * / s * ((t - m) * / s)) * / 2) * (/ sqrt (2 * PI) * / sqrt (2 * PI))) by ring.
      replace (exp (- ((t - m') * / s * ((t - m') * / s)) * / 2) * / sqrt (2 * PI) * (exp (- ((u - m) * / s * ((u - m) * / s)) * / 2) * / sqrt (2 * PI)))
        with (exp (- ((t - m') * / s * ((t - m') * / s)) * / 2) * exp (- ((u - m) * / s * ((u - m) * / s)) * / 2) * (/ sqrt (2 * PI) * / sqrt (2 * PI))) by ring.
      apply Rmult_lt_compat_r; [apply Rmult_lt_0_compat; now apply Rinv_0_lt_compat|]. rewrite <- !exp_plus. apply exp_increasing. assert (i0 := Rinv_0_lt_compat s S0). set (i := / s) in *. assert (0 < i * i) by nra.
      apply Rminus_gt_0_lt. match goal with |- 0 < ?e => replace e with ((i * i) * ((t - u) * (m' - m))) by field end. apply Rmult_lt_0_compat; [exact H|]. apply Rmult_lt_0_compat; lra. }
    unfold Rdiv at 1 2 4 5 7 8 10 11. assert (i0 := Rinv_0_lt_compat s S0). assert (i1 := Rinv_0_lt_compat z1 Z1). assert (i2 := Rinv_0_lt_compat z2 Z2).
    replace (gauss ((u - m') / s) * / s * / z2 * (gauss ((t - m) / s) * / s * / z1)) with (gauss ((u - m') / s) * gauss ((t - m) / s) * (/ s * / s * / z1 * / z2)) by ring.
    replace (gauss ((t - m') / s) * / s * / z2 * (gauss ((u - m) / s) * / s * / z1)) with (gauss ((t - m') / s) * gauss ((u - m) / s) * (/ s * / s * / z1 * / z2)) by ring.
    apply Rmult_lt_compat_r; [repeat apply Rmult_lt_0_compat; assumption|exact G].
  - now apply tnpdf_int. - now apply tnpdf_int.
  - exists p, q. split; [exists (tnpdf m s high low); split; [apply V|exact P]|]. split; [exists (tnpdf m' s high low); split; [apply V|exact Q]|exact H].
Qed.

Lemma C113_power_law_mass_pf :
  forall bk alpha alpha' mmin mmax m, 0 < mmin -> mmin < m < mmax -> alpha < alpha' -> (bk = Jax \/ (alpha <> -1 /\ alpha' <> -1)) ->
  shifted_up (fun m => power_law_mass bk (Fin m) (Fin alpha') (Fin mmin) (Fin mmax)) (fun m => power_law_mass bk (Fin m) (Fin alpha) (Fin mmin) (Fin mmax)) mmin m.
Proof.
  intros bk a a' mn mx m H1 H2 H3 G. unfold power_law_mass. rewrite !fopp_fin. apply C113_powerlaw_pf; try lra.
  destruct G as [G|[G1 G2]]; [now left|right; right; split; lra].
Qed.

Lemma C113_mass_ratio_pf :
  forall bk m1 beta beta' mmin q, 0 < mmin -> mmin < m1 -> mmin / m1 < q < 1 -> beta < beta' ->
  shifted_up (fun q => mass_ratio_factor bk (Fin m1) (Fin q) (Fin beta) (Fin mmin)) (fun q => mass_ratio_factor bk (Fin m1) (Fin q) (Fin beta') (Fin mmin)) (mmin / m1) q.
Proof.
  intros bk m1 b b' mn q H1 H2 H3 H4. unfold mass_ratio_factor. rewrite !fdiv_fin by lra. apply C113_powerlaw_pf; auto.
  apply Rdiv_lt_0_compat; lra.
Qed.

Lemma C113_chi_pf :
  forall bk mu mu' sigma x, 0 < sigma -> mu < mu' ->
  (-1 < x < 1 -> shifted_up (fun x => gaussian_chi_eff bk (Fin x) (Fin mu) (Fin sigma)) (fun x => gaussian_chi_eff bk (Fin x) (Fin mu') (Fin sigma)) (-1) x) /\
  (0 < x < 1 -> shifted_up (fun x => gaussian_chi_p bk (Fin x) (Fin mu) (Fin sigma)) (fun x => gaussian_chi_p bk (Fin x) (Fin mu') (Fin sigma)) 0 x).
Proof.
  intros bk m m' s x S0 M. split; intros X; unfold gaussian_chi_eff, gaussian_chi_p; now apply C113_truncnorm_pf.
Qed.

(** ** Densities that may diverge at the ends *)
Lemma isu (f : R -> R) a b (l : R) : is_RInt f a b l -> RInt f a b = l.
Proof. apply (is_RInt_unique f a b l). Qed.
Lemma gen_window (h : R -> R) a b l eps lo hi : a < lo -> hi < b -> a < b -> 0 < eps -> is_RInt_gen h (at_right a) (at_left b) l ->
  exists v d, hi < v < b /\ a < v /\ 0 < d /\ forall u, a < u < a + d -> u < lo /\ exists w, is_RInt h u v w /\ Rabs (w - l) < eps.
Proof.
  intros Lo Hi AB E H. destruct (H (fun w => Rabs (w - l) < eps)) as [Q T HQ HT HQT]. { exists (mkposreal _ E). intros y Y. exact Y. }
  destruct HQ as [d Hd], HT as [d' Hd']. set (v := (Rmax (Rmax hi a) (b - d') + b) / 2).
  assert (M1 := Rmax_l (Rmax hi a) (b - d')). assert (M2 := Rmax_r (Rmax hi a) (b - d')). assert (M3 := Rmax_l hi a). assert (M4 := Rmax_r hi a).
  assert (D' := cond_pos d'). assert (D := cond_pos d). assert (M5 : Rmax (Rmax hi a) (b - d') < b) by (apply Rmax_lub_lt; [now apply Rmax_lub_lt|lra]).
  assert (V : T v). { apply Hd'; [|unfold v; lra]. change (Rabs (v - b) < d'). rewrite Rabs_left; unfold v; lra. }
  exists v, (Rmin d (lo - a)). assert (N1 := Rmin_l d (lo - a)). assert (N2 := Rmin_r d (lo - a)). split; [unfold v; lra|]. split; [unfold v; lra|]. split; [apply Rmin_glb_lt; lra|].
  intros u U. split; [lra|]. assert (QU : Q u). { apply Hd; [|lra]. change (Rabs (u - a) < d). rewrite Rabs_pos_eq; lra. }
  destruct (HQT u v QU V) as [w [W1 W2]]. exists w. auto.
Qed.

Section Open.
  Variables (a b x : R).
  Hypothesis X : a < x < b.
  Lemma ex_in (h : R -> R) c d : a < c -> c <= d -> d < b -> (forall t, a < t < b -> continuous h t) -> ex_RInt h c d.
  Proof. intros H1 H2 H3 C. apply (ex_RInt_continuous h). intros z Z. rewrite Rmin_left, Rmax_right in Z by lra. apply C; lra. Qed.
  Lemma left_part (f : R -> R) l : (forall t, a < t < b -> continuous f t) -> (forall t, a < t < b -> 0 < f t) -> is_RInt_gen f (at_right a) (at_left b) l ->
    exists p, is_RInt_gen f (at_right a) (at_point x) p /\ filterlim (fun u => RInt f u x) (at_right a) (locally p) /\ (forall u, a < u -> u <= x -> RInt f u x <= p).
  Proof.
    intros C P I. destruct (gen_window f a b l 1 x x) as (v & d & V & V' & D & W); try lra; auto.
    assert (NN : forall c e, a < c -> c <= e -> e < b -> 0 <= RInt f c e). { intros c e H1 H2 H3. apply RInt_ge_0; [lra|now apply ex_in|]. intros t T. left. apply P. lra. }
    assert (CH : forall c e g, a < c -> c <= e -> e <= g -> g < b -> RInt f c g = RInt f c e + RInt f e g).
    { intros c e g H1 H2 H3 H4. symmetry. apply (RInt_Chasles f c e g); apply ex_in; auto; lra. }
    destruct (monotone_lim_right (fun u => RInt f u x) a x (l + 1)) as [p [P1 P2]]; [lra| | |].
    - intros c e H1 H2 H3. rewrite (CH c e x) by lra. assert (Q := NN c e ltac:(lra) ltac:(lra) ltac:(lra)). lra.
    - intros c H1 H2. set (u := Rmin c (a + d / 2)). assert (U1 := Rmin_l c (a + d / 2)). assert (U2 := Rmin_r c (a + d / 2)). fold u in U1, U2. assert (U3 : a < u) by (apply Rmin_glb_lt; lra).
      destruct (W u ltac:(lra)) as [_ [w [W1 W2]]]. apply isu in W1. rewrite (CH u x v) in W1 by lra. assert (Q := CH u c x ltac:(lra) ltac:(lra) ltac:(lra) ltac:(lra)).
      assert (Q1 := NN x v ltac:(lra) ltac:(lra) ltac:(lra)). assert (Q2 := NN u c ltac:(lra) ltac:(lra) ltac:(lra)). apply Rabs_def2 in W2. lra.
    - exists p. split; [|now split]. apply is_RInt_gen_left; [lra| |exact P1]. intros y Y1 Y2. apply ex_in; auto; lra.
  Qed.
  Lemma crossing_open (f g : R -> R) : (forall t, a < t < b -> continuous f t) -> (forall t, a < t < b -> continuous g t) ->
    (forall t, a < t < b -> 0 < f t) -> (forall t, a < t < b -> 0 < g t) -> (forall s t, a < s -> s < t -> t < b -> g s * f t < g t * f s) ->
    is_RInt_gen f (at_right a) (at_left b) 1 -> is_RInt_gen g (at_right a) (at_left b) 1 ->
    exists p q, is_RInt_gen f (at_right a) (at_point x) p /\ is_RInt_gen g (at_right a) (at_point x) q /\ q < p.
  Proof.
    intros Cf Cg Pf Pg M If Ig. destruct (left_part f 1 Cf Pf If) as (p & P1 & P2 & P3). destruct (left_part g 1 Cg Pg Ig) as (q & Q1 & Q2 & Q3).
    exists p, q. split; [exact P1|]. split; [exact Q1|].
    set (r := g x / f x). assert (fx := Pf x X). assert (gx := Pg x X). assert (r0 : 0 < r) by (now apply Rdiv_lt_0_compat).
    set (h := fun t => r * f t - g t). set (k := fun t => g t - r * f t).
    assert (CS : forall t, a < t < b -> continuous (fun t => r * f t) t) by (intros t T; apply (continuous_mult (fun _ => r) f); [apply continuous_const|now apply Cf]).
    assert (Ch : forall t, a < t < b -> continuous h t) by (intros t T; apply (continuous_minus (fun t => r * f t) g); [now apply CS|now apply Cg]).
    assert (Ck : forall t, a < t < b -> continuous k t) by (intros t T; apply (continuous_minus g (fun t => r * f t)); [now apply Cg|now apply CS]).
    assert (Ph : forall t, a < t < x -> 0 < h t). { intros t T. assert (MM := M t x ltac:(lra) ltac:(lra) ltac:(lra)). unfold h, r. apply (Rmult_lt_reg_r (f x)); [exact fx|]. rewrite Rmult_0_l. replace ((g x / f x * f t - g t) * f x) with (g x * f t - g t * f x) by (field; lra). lra. }
    assert (Pk : forall t, x < t < b -> 0 < k t). { intros t T. assert (MM := M x t ltac:(lra) ltac:(lra) ltac:(lra)). unfold k, r. apply (Rmult_lt_reg_r (f x)); [exact fx|]. rewrite Rmult_0_l. replace ((g t - g x / f x * f t) * f x) with (g t * f x - g x * f t) by (field; lra). lra. }
    assert (Eh : forall c e, a < c -> c <= e -> e < b -> RInt h c e = r * RInt f c e - RInt g c e).
    { intros c e H1 H2 H3. apply isu. apply (is_RInt_minus (fun t => r * f t) g c e (r * RInt f c e) (RInt g c e)); [apply (is_RInt_scal f c e r)|]; apply (RInt_correct (V := R_CompleteNormedModule)); now apply ex_in. }
    assert (Ek : forall c e, a < c -> c <= e -> e < b -> RInt k c e = RInt g c e - r * RInt f c e).
    { intros c e H1 H2 H3. apply isu. apply (is_RInt_minus g (fun t => r * f t) c e (RInt g c e) (r * RInt f c e)); [|apply (is_RInt_scal f c e r)]; apply (RInt_correct (V := R_CompleteNormedModule)); now apply ex_in. }
    assert (CH : forall (f : R -> R) c e g, (forall t, a < t < b -> continuous f t) -> a < c -> c <= e -> e <= g -> g < b -> RInt f c g = RInt f c e + RInt f e g).
    { intros F c e G CF H1 H2 H3 H4. symmetry. apply (RInt_Chasles F c e G); apply ex_in; auto; lra. }
    assert (NN : forall (f : R -> R) c e, (forall t, a < t < b -> continuous f t) -> (forall t, c < t < e -> 0 < f t) -> a < c -> c <= e -> e < b -> 0 <= RInt f c e). { intros F c e CF PF H1 H2 H3. apply RInt_ge_0; [lra|now apply ex_in|]. intros t T. left. now apply PF. }
    assert (GAP : exists c d, 0 < c /\ 0 < d /\ forall u, a < u < a + d -> u < x /\ c <= RInt f u x - RInt g u x).
    { destruct (Rle_dec r 1) as [r1|r1].
      - set (y := (a + x) / 2). exists (RInt h y x), (y - a). assert (Y : a < y < x) by (unfold y; lra). split; [apply RInt_gt_0; [lra|intros; apply Ph; lra|intros; apply Ch; lra]|]. split; [lra|].
        intros u U. split; [lra|]. assert (N1 := NN f u x Cf ltac:(intros; apply Pf; lra) ltac:(lra) ltac:(lra) ltac:(lra)).
        assert (N2 := NN h u y Ch ltac:(intros; apply Ph; lra) ltac:(lra) ltac:(lra) ltac:(lra)). assert (N3 := CH h u y x Ch ltac:(lra) ltac:(lra) ltac:(lra) ltac:(lra)). rewrite (Eh u x) in N3 by lra. nra.
      - set (y := (x + b) / 2). assert (Y : x < y < b) by (unfold y; lra). set (c := RInt k x y). assert (c0 : 0 < c) by (apply RInt_gt_0; [lra|intros; apply Pk; lra|intros; apply Ck; lra]).
        destruct (gen_window (fun t => f t - g t) a b 0 (c / 2) x y) as (v & d & V & V' & D & W); try lra.
        { replace 0 with (1 - 1) by ring. exact (is_RInt_gen_minus f g 1 1 If Ig). }
        exists (c / 2), d. split; [lra|]. split; [exact D|]. intros u U. destruct (W u U) as [U1 [w [W1 W2]]]. split; [exact U1|].
        assert (EW : w = RInt f u v - RInt g u v). { apply isu in W1. rewrite <- W1. apply isu. apply (is_RInt_minus f g u v); apply (RInt_correct (V := R_CompleteNormedModule)); apply ex_in; auto; lra. }
        rewrite (CH f u x v Cf), (CH g u x v Cg) in EW by lra. assert (N1 := NN f x v Cf ltac:(intros; apply Pf; lra) ltac:(lra) ltac:(lra) ltac:(lra)).
        assert (N2 := NN k y v Ck ltac:(intros; apply Pk; lra) ltac:(lra) ltac:(lra) ltac:(lra)). assert (N3 := CH k x y v Ck ltac:(lra) ltac:(lra) ltac:(lra) ltac:(lra)). rewrite (Ek x v) in N3 by lra. fold c in N3.
        rewrite Rminus_0_r in W2. apply Rabs_def2 in W2. nra. }
    destruct GAP as (c & d & c0 & d0 & G).
    assert (FL : at_right a (fun u => Rabs (RInt g u x - q) < c / 2 /\ a < u < a + d)).
    { apply filter_and.
      - assert (E : 0 < c / 2) by lra. apply (Q2 (fun w => Rabs (w - q) < c / 2)). exists (mkposreal _ E). intros y Y. exact Y.
      - exists (mkposreal _ d0). intros y Y Z. change (Rabs (y - a) < d) in Y. rewrite Rabs_pos_eq in Y by lra. lra. }
    destruct (filter_ex _ FL) as [u [U1 U2]]. destruct (G u U2) as [U3 U4]. assert (U5 := P3 u ltac:(lra) ltac:(lra)). apply Rabs_def2 in U1. lra.
  Qed.
End Open.

Lemma bpdf_cont a b s t : 0 < t < s -> continuous (bpdf a b s) t.
Proof.
  intros T. unfold bpdf, Rdiv. apply (continuous_mult (fun t => Rpower t (a - 1) * Rpower (s - t) (b - 1)) (fun _ => / (Beta_fun a b * Rpower s (a + b - 1)))); [|apply continuous_const].
  apply (continuous_mult (fun t => Rpower t (a - 1)) (fun t => Rpower (s - t) (b - 1))).
  - apply (ex_derive_continuous (fun t => Rpower t (a - 1))). unfold Rpower. auto_derive. lra.
  - apply (ex_derive_continuous (fun t => Rpower (s - t) (b - 1))). unfold Rpower. auto_derive. lra.
Qed.
Lemma C113_beta_pf :
  forall bk kw alpha beta alpha' beta' scale x, 0 < alpha -> 0 < beta -> 0 < scale -> 0 < x < scale ->
  (alpha < alpha' -> shifted_up_open (fun x => beta_dist bk kw (Fin x) (Fin alpha) (Fin beta) (Fin scale)) (fun x => beta_dist bk kw (Fin x) (Fin alpha') (Fin beta) (Fin scale)) 0 x) /\
  (beta < beta' -> shifted_up_open (fun x => beta_dist bk kw (Fin x) (Fin alpha) (Fin beta') (Fin scale)) (fun x => beta_dist bk kw (Fin x) (Fin alpha) (Fin beta) (Fin scale)) 0 x).
Proof.
  intros bk kw a b a' b' s x A B S0 X.
  assert (V : forall a b t, 0 < a -> 0 < b -> 0 < t <= x -> returns (beta_dist bk kw (Fin t) (Fin a) (Fin b) (Fin s)) (bpdf a b s t)).
  { intros a0 b0 t A0 B0 T. unfold returns. rewrite beta_dist_ok by auto. f_equal. apply beta_dist_body_in; auto; lra. }
  assert (K : forall a b, 0 < a -> 0 < b -> 0 < / (Beta_fun a b * Rpower s (a + b - 1))). { intros a0 b0 A0 B0. destruct (Beta_exists a0 b0 A0 B0) as [HB _]. apply Rinv_0_lt_compat, Rmult_lt_0_compat; [exact HB|apply exp_pos]. }
  split; intros L.
  - assert (A' : 0 < a') by lra. destruct (crossing_open 0 s x X (bpdf a b s) (bpdf a' b s)) as (p & q & P & Q & H).
    + intros; now apply bpdf_cont. + intros; now apply bpdf_cont. + intros; now apply bpdf_pos. + intros; now apply bpdf_pos.
    + intros u t U1 U2 U3. unfold bpdf, Rdiv. assert (R1 := pw_ratio u t (a - 1) (a' - 1) ltac:(lra) U2 ltac:(lra)). assert (k1 := K a b A B). assert (k2 := K a' b A' B).
      assert (w1 : 0 < Rpower (s - u) (b - 1)) by apply exp_pos. assert (w2 : 0 < Rpower (s - t) (b - 1)) by apply exp_pos.
      set (c1 := / (Beta_fun a b * Rpower s (a + b - 1))) in *. set (c2 := / (Beta_fun a' b * Rpower s (a' + b - 1))) in *.
      replace (Rpower u (a' - 1) * Rpower (s - u) (b - 1) * c2 * (Rpower t (a - 1) * Rpower (s - t) (b - 1) * c1)) with ((Rpower u (a' - 1) * Rpower t (a - 1)) * (Rpower (s - u) (b - 1) * Rpower (s - t) (b - 1) * c1 * c2)) by ring.
      replace (Rpower t (a' - 1) * Rpower (s - t) (b - 1) * c2 * (Rpower u (a - 1) * Rpower (s - u) (b - 1) * c1)) with ((Rpower t (a' - 1) * Rpower u (a - 1)) * (Rpower (s - u) (b - 1) * Rpower (s - t) (b - 1) * c1 * c2)) by ring.
      apply Rmult_lt_compat_r; [repeat apply Rmult_lt_0_compat; assumption|exact R1].
    + now apply bpdf_int. + now apply bpdf_int.
    + exists (bpdf a b s), (bpdf a' b s), p, q. repeat split; auto.
  - assert (B' : 0 < b') by lra. destruct (crossing_open 0 s x X (bpdf a b' s) (bpdf a b s)) as (p & q & P & Q & H).
    + intros; now apply bpdf_cont. + intros; now apply bpdf_cont. + intros; now apply bpdf_pos. + intros; now apply bpdf_pos.
    + intros u t U1 U2 U3. unfold bpdf, Rdiv. assert (R1 := pw_ratio (s - t) (s - u) (b - 1) (b' - 1) ltac:(lra) ltac:(lra) ltac:(lra)). assert (k1 := K a b A B). assert (k2 := K a b' A B').
      assert (w1 : 0 < Rpower u (a - 1)) by apply exp_pos. assert (w2 : 0 < Rpower t (a - 1)) by apply exp_pos.
      set (c1 := / (Beta_fun a b * Rpower s (a + b - 1))) in *. set (c2 := / (Beta_fun a b' * Rpower s (a + b' - 1))) in *.
      replace (Rpower u (a - 1) * Rpower (s - u) (b - 1) * c1 * (Rpower t (a - 1) * Rpower (s - t) (b' - 1) * c2)) with ((Rpower (s - t) (b' - 1) * Rpower (s - u) (b - 1)) * (Rpower u (a - 1) * Rpower t (a - 1) * c1 * c2)) by ring.
      replace (Rpower t (a - 1) * Rpower (s - t) (b - 1) * c1 * (Rpower u (a - 1) * Rpower (s - u) (b' - 1) * c2)) with ((Rpower (s - u) (b' - 1) * Rpower (s - t) (b - 1)) * (Rpower u (a - 1) * Rpower t (a - 1) * c1 * c2)) by ring.
      apply Rmult_lt_compat_r; [repeat apply Rmult_lt_0_compat; assumption|exact R1].
    + now apply bpdf_int. + now apply bpdf_int.
    + exists (bpdf a b' s), (bpdf a b s), p, q. repeat split; auto.
Qed.

(** ** Partial sums of the trapezoid rule *)
Lemma si_app l m l' : strictly_increasing (l ++ m :: l') ->
  strictly_increasing (l ++ [m]) /\ strictly_increasing (m :: l') /\ (forall t, In t l -> t < m) /\ (forall t, In t l' -> m < t).
Proof.
  induction l as [|a l IH].
  - intros H. split; [exact I|]. split; [exact H|]. split; [intros t []|]. revert m H. induction l' as [|b l' IH]; intros m H t; [intros []|]. destruct H as [H1 H2]. intros [<-|T]; [exact H1|]. specialize (IH b H2 t T). lra.
  - intros H. destruct l as [|b l].
    + destruct H as [H1 H2]. destruct (IH H2) as (_ & A & _ & C). split; [split; [exact H1|exact I]|]. split; [exact A|]. split; [intros t [<-|[]]; exact H1|exact C].
    + destruct H as [H1 H2]. destruct (IH H2) as (A & B & C & D). split; [split; [exact H1|exact A]|]. split; [exact B|]. split; [|exact D].
      intros t [<-|T]; [|now apply C]. specialize (C b (or_introl eq_refl)). lra.
Qed.
Lemma crossing_trap (f g : R -> R) l m l' : strictly_increasing (l ++ m :: l') -> l <> [] -> l' <> [] ->
  (forall t, In t (l ++ m :: l') -> 0 < f t) -> (forall t, In t (l ++ m :: l') -> 0 < g t) ->
  (forall s t, In s (l ++ m :: l') -> In t (l ++ m :: l') -> s < t -> g s * f t < g t * f s) ->
  Rtrap (map g (l ++ [m])) (l ++ [m]) * Rtrap (map f (l ++ m :: l')) (l ++ m :: l') < Rtrap (map f (l ++ [m])) (l ++ [m]) * Rtrap (map g (l ++ m :: l')) (l ++ m :: l').
Proof.
  intros SI L L' Pf Pg M. destruct (si_app l m l' SI) as (S1 & S2 & S3 & S4). assert (Im : In m (l ++ m :: l')) by (apply in_or_app; right; now left).
  assert (Il : forall t, In t l -> In t (l ++ m :: l')) by (intros; apply in_or_app; now left). assert (Ir : forall t, In t l' -> In t (l ++ m :: l')) by (intros; apply in_or_app; right; now right).
  assert (fm := Pf m Im). assert (gm := Pg m Im). set (r := g m / f m). assert (rm : r * f m = g m) by (unfold r; field; lra).
  assert (len : (2 <= List.length (l ++ [m]))%nat) by (rewrite app_length; destruct l; [congruence|simpl; lia]). assert (len' : (2 <= List.length (m :: l'))%nat) by (destruct l'; [congruence|simpl; lia]).
  assert (Hl : forall t, In t l -> g t < r * f t). { intros t T. assert (MM := M t m (Il t T) Im (S3 t T)). apply (Rmult_lt_reg_r (f m)); [exact fm|]. replace (r * f t * f m) with (g m * f t) by (rewrite <- rm; ring). exact MM. }
  assert (Hr : forall t, In t l' -> r * f t < g t). { intros t T. assert (MM := M m t Im (Ir t T) (S4 t T)). apply (Rmult_lt_reg_r (f m)); [exact fm|]. replace (r * f t * f m) with (g m * f t) by (rewrite <- rm; ring). exact MM. }
  rewrite !map_app, !map_cons. rewrite (Rtrap_concat (map f l) (f m) (map f l') l m l'), (Rtrap_concat (map g l) (g m) (map g l') l m l') by apply map_length. cbn [map].
  assert (A : Rtrap (map g (l ++ [m])) (l ++ [m]) < r * Rtrap (map f (l ++ [m])) (l ++ [m])).
  { rewrite <- Rtrap_scale, map_map. apply Rtrap_strict_map; auto.
    - intros t T. apply in_app_or in T as [T|[<-|[]]]; [left; now apply Hl|lra].
    - destruct l as [|t l]; [congruence|]. exists t. split; [now left|]. apply Hl. now left. }
  assert (B : r * Rtrap (map f (m :: l')) (m :: l') < Rtrap (map g (m :: l')) (m :: l')).
  { rewrite <- Rtrap_scale, map_map. apply Rtrap_strict_map; auto.
    - intros t [<-|T]; [lra|left; now apply Hr].
    - destruct l' as [|t l']; [congruence|]. exists t. split; [right; now left|]. apply Hr. now left. }
  assert (C : 0 < Rtrap (map f (l ++ [m])) (l ++ [m])). { apply Rtrap_pos; auto; [now rewrite map_length|]. apply Forall_map, Forall_forall. intros t T. apply Pf. apply in_app_or in T as [T|[<-|[]]]; auto. }
  assert (D : 0 < Rtrap (map f (m :: l')) (m :: l')). { apply Rtrap_pos; auto; [now rewrite map_length|]. apply Forall_map, Forall_forall. intros t [<-|T]; auto. }
  rewrite (map_app f), (map_app g) in A. rewrite map_app in C. cbn [map] in A, B, C, D.
  set (Lg := Rtrap (map g l ++ [g m]) (l ++ [m])) in *. set (Lf := Rtrap (map f l ++ [f m]) (l ++ [m])) in *. set (Rg := Rtrap (g m :: map g l') (m :: l')) in *. set (Rf := Rtrap (f m :: map f l') (m :: l')) in *.
  assert (Lg * Rf < r * Lf * Rf) by (apply Rmult_lt_compat_r; assumption). assert (Lf * (r * Rf) < Lf * Rg) by (apply Rmult_lt_compat_l; assumption). lra.
Qed.
Lemma firstn_mid {A} (l : list A) m l' : firstn (S (List.length l)) (l ++ m :: l') = l ++ [m].
Proof. rewrite firstn_app, (firstn_all2 l) by lia. replace (S (List.length l) - List.length l)%nat with 1%nat by lia. reflexivity. Qed.
Lemma prob_grid available ra z_max cosmo_model r parameters c (psi dvc : R -> R) : 1/1000000 < z_max ->
  redshift_init available ra z_max cosmo_model = Ok r -> cosmology_of (rs_mixin r) parameters = Ok c ->
  (forall z, 0 < z <= z_max -> ra_psi ra (Fin z) parameters = Ok (Fin (psi z)) /\ co_dvc c (Fin z) = Fin (dvc z) /\ 0 < psi z /\ 0 < dvc z) ->
  let f := fun z => psi z / (1 + z) * (4 * PI * dvc z) in let zs := linspace (1/1000000) z_max 2500 in
  0 < Rtrap (map f zs) zs /\ probability r [("redshift"%string, rs_zs r)] parameters = Ok (map Fin (map (fun z => / Rtrap (map f zs) zs * f z) zs)).
Proof.
  intros Hz Hi Hc H f zs. destruct (C44_norm_positive_pf _ _ _ _ _ _ _ _ _ Hz Hi Hc H) as (N & N1 & N2 & N3). destruct (init_rs _ _ _ _ _ Hi) as (I1 & I2 & I3 & _).
  rewrite I1 in N3. fold f in N3. fold zs in N3. rewrite <- (map_map f Fin), trapezoid_fin in N3. injection N3 as N3. rewrite <- N3. split; [exact N2|].
  rewrite (prob_col _ _ _ _ N1), I1. fold zs. assert (B : forall z, In z zs -> 0 < z <= z_max) by (intros z Hin; apply linspace_bounds in Hin; lra).
  rewrite (dsv_grid r parameters c psi dvc) by (auto; intros z Hin; destruct (B z Hin); rewrite I3; destruct (H z (B z Hin)) as (P1 & P2 & _); repeat split; auto; lra).
  cbn [bind]. f_equal. rewrite !map_map. apply map_ext_in. intros z Hin. rewrite I2. destruct (Rle_dec z z_max) as [_|n]; [|destruct (B z Hin); lra].
  rewrite fdiv_fin by lra. f_equal. unfold f. destruct (B z Hin). field. split; lra.
Qed.
Lemma C113_redshift_pf :
  forall available ra z_max cosmo_model r parameters parameters' c (psi psi' dvc : R -> R) k, 1/1000000 < z_max ->
  redshift_init available ra z_max cosmo_model = Ok r -> cosmology_of (rs_mixin r) parameters = Ok c -> cosmology_of (rs_mixin r) parameters' = Ok c ->
  (forall z, 0 < z <= z_max -> ra_psi ra (Fin z) parameters = Ok (Fin (psi z)) /\ ra_psi ra (Fin z) parameters' = Ok (Fin (psi' z)) /\ co_dvc c (Fin z) = Fin (dvc z) /\
     0 < psi z /\ 0 < psi' z /\ 0 < dvc z) ->
  (forall s t, 0 < s -> s < t -> t <= z_max -> psi' s * psi t < psi' t * psi s) -> (0 < k < 2499)%nat ->
  grid_shifted_up (probability r [("redshift"%string, rs_zs r)] parameters) (probability r [("redshift"%string, rs_zs r)] parameters') (rs_zs r) k.
Proof.
  intros av ra zm name r p p' c psi psi' dvc k Hz Hi Hc Hc' H M K. set (zs := linspace (1/1000000) zm 2500).
  destruct (init_rs _ _ _ _ _ Hi) as (I1 & I2 & I3 & _). fold zs in I1.
  destruct (prob_grid av ra zm name r p c psi dvc Hz Hi Hc) as [N P]. { intros z Z. destruct (H z Z) as (A & _ & B & C & _ & D). auto. }
  destruct (prob_grid av ra zm name r p' c psi' dvc Hz Hi Hc') as [N' P']. { intros z Z. destruct (H z Z) as (_ & A & B & _ & C & D). auto. }
  fold zs in N, P, N', P'. set (f := fun z => psi z / (1 + z) * (4 * PI * dvc z)) in *. set (g := fun z => psi' z / (1 + z) * (4 * PI * dvc z)) in *.
  destruct (nth_split zs 0 (n := k)) as (l & l' & E & Ek). { unfold zs. rewrite zs_len. lia. }
  set (m := nth k zs 0) in *. assert (SI : strictly_increasing zs) by (apply linspace_incr; [lra|apply big]). assert (LE : List.length zs = 2500%nat) by apply zs_len.
  assert (B : forall z, In z zs -> 0 < z <= zm) by (intros z Hin; apply linspace_bounds in Hin; lra).
  assert (X : Rtrap (map g (l ++ [m])) (l ++ [m]) * Rtrap (map f zs) zs < Rtrap (map f (l ++ [m])) (l ++ [m]) * Rtrap (map g zs) zs).
  { assert (PI0 := PI_RGT_0). rewrite E in SI, B. rewrite E. apply crossing_trap.
    - exact SI. - destruct l; [simpl in Ek; lia|congruence]. - intros ->. rewrite E, app_length in LE. simpl in LE. lia.
    - intros t T. destruct (B t T). destruct (H t (B t T)) as (_ & _ & _ & C1 & C2 & C3). unfold f. apply Rmult_lt_0_compat; [apply Rdiv_lt_0_compat; lra|nra].
    - intros t T. destruct (B t T). destruct (H t (B t T)) as (_ & _ & _ & C1 & C2 & C3). unfold g. apply Rmult_lt_0_compat; [apply Rdiv_lt_0_compat; lra|nra].
    - intros s t S1 T ST. destruct (B s S1), (B t T). destruct (H s (B s S1)) as (_ & _ & _ & _ & _ & D1). destruct (H t (B t T)) as (_ & _ & _ & _ & _ & D2). unfold f, g.
      replace (psi' s / (1 + s) * (4 * PI * dvc s) * (psi t / (1 + t) * (4 * PI * dvc t))) with (psi' s * psi t * (/ (1 + s) * / (1 + t) * ((4 * PI) * dvc s) * ((4 * PI) * dvc t))) by (field; lra).
      replace (psi' t / (1 + t) * (4 * PI * dvc t) * (psi s / (1 + s) * (4 * PI * dvc s))) with (psi' t * psi s * (/ (1 + s) * / (1 + t) * ((4 * PI) * dvc s) * ((4 * PI) * dvc t))) by (field; lra).
      apply Rmult_lt_compat_r; [|apply M; lra]. assert (0 < 4 * PI) by lra. assert (0 < / (1 + s)) by (apply Rinv_0_lt_compat; lra). assert (0 < / (1 + t)) by (apply Rinv_0_lt_compat; lra). assert (P4 : forall x, 0 < x -> 0 < 4 * PI * x) by (intros y Y; apply Rmult_lt_0_compat; lra). apply Rmult_lt_0_compat; [apply Rmult_lt_0_compat; [apply Rmult_lt_0_compat|]|]; auto. }
  assert (F0 : firstn (S k) zs = l ++ [m]) by (rewrite E, <- Ek; apply firstn_mid).
  exists (map Fin (map (fun z => / Rtrap (map f zs) zs * f z) zs)), (map Fin (map (fun z => / Rtrap (map g zs) zs * g z) zs)), (/ Rtrap (map f zs) zs * Rtrap (map f (l ++ [m])) (l ++ [m])), (/ Rtrap (map g zs) zs * Rtrap (map g (l ++ [m])) (l ++ [m])).
  split; [exact P|]. split; [exact P'|]. rewrite I1, !firstn_map, F0, !trapezoid_fin.
  split; [rewrite <- Rtrap_scale, map_map; reflexivity|]. split; [rewrite <- Rtrap_scale, map_map; reflexivity|].
  apply (Rmult_lt_reg_r (Rtrap (map f zs) zs * Rtrap (map g zs) zs)); [now apply Rmult_lt_0_compat|].
  replace (/ Rtrap (map g zs) zs * Rtrap (map g (l ++ [m])) (l ++ [m]) * (Rtrap (map f zs) zs * Rtrap (map g zs) zs)) with (Rtrap (map g (l ++ [m])) (l ++ [m]) * Rtrap (map f zs) zs) by (field; lra).
  replace (/ Rtrap (map f zs) zs * Rtrap (map f (l ++ [m])) (l ++ [m]) * (Rtrap (map f zs) zs * Rtrap (map g zs) zs)) with (Rtrap (map f (l ++ [m])) (l ++ [m]) * Rtrap (map g zs) zs) by (field; lra).
  exact X.
Qed.

Lemma md_ratio_gamma g g' k zp s t : g < g' -> -1 < s -> s < t -> -1 < zp -> md g' k zp s * md g k zp t < md g' k zp t * md g k zp s.
Proof.
  intros G S1 ST Z. unfold md, Rdiv. assert (R1 := pw_ratio (1 + s) (1 + t) g g' ltac:(lra) ltac:(lra) G).
  assert (a1 : 0 < / (1 + Rpower ((1 + s) * / (1 + zp)) k)) by (apply Rinv_0_lt_compat; assert (Q := rpower_pos ((1 + s) * / (1 + zp)) k); lra).
  assert (a2 : 0 < / (1 + Rpower ((1 + t) * / (1 + zp)) k)) by (apply Rinv_0_lt_compat; assert (Q := rpower_pos ((1 + t) * / (1 + zp)) k); lra).
  assert (a3 : 0 < 1 + Rpower (1 + zp) (- k)) by (assert (Q := rpower_pos (1 + zp) (- k)); lra).
  set (u := / (1 + Rpower ((1 + s) * / (1 + zp)) k)) in *. set (v := / (1 + Rpower ((1 + t) * / (1 + zp)) k)) in *. set (w := 1 + Rpower (1 + zp) (- k)) in *.
  replace (Rpower (1 + s) g' * u * w * (Rpower (1 + t) g * v * w)) with (Rpower (1 + s) g' * Rpower (1 + t) g * (u * v * w * w)) by ring.
  replace (Rpower (1 + t) g' * v * w * (Rpower (1 + s) g * u * w)) with (Rpower (1 + t) g' * Rpower (1 + s) g * (u * v * w * w)) by ring.
  apply Rmult_lt_compat_r; [repeat apply Rmult_lt_0_compat; assumption|exact R1].
Qed.
Lemma md_ratio_peak g k zp zp' s t : 0 < k -> -1 < s -> s < t -> -1 < zp -> zp < zp' -> md g k zp' s * md g k zp t < md g k zp' t * md g k zp s.
Proof.
  intros K S1 ST Z Z'. unfold md, Rdiv.
  assert (C : forall y z, -1 < y -> -1 < z -> Rpower ((1 + y) * / (1 + z)) k = Rpower (1 + y) k * Rpower (/ (1 + z)) k). { intros y z Y Y'. rewrite Rpower_mult_distr; [reflexivity|lra|]. apply Rinv_0_lt_compat. lra. }
  rewrite !C by lra. set (S' := Rpower (1 + s) k). set (T := Rpower (1 + t) k). set (p := Rpower (/ (1 + zp)) k). set (p' := Rpower (/ (1 + zp')) k).
  assert (ST' : S' < T). { unfold S', T, Rpower. apply exp_increasing. apply Rmult_lt_compat_l; [exact K|]. apply ln_increasing; lra. }
  assert (PP : p' < p). { unfold p, p', Rpower. apply exp_increasing. apply Rmult_lt_compat_l; [exact K|]. apply ln_increasing; [apply Rinv_0_lt_compat; lra|]. apply Rinv_lt_contravar; [apply Rmult_lt_0_compat; lra|lra]. }
  assert (s0 : 0 < S') by apply exp_pos. assert (p0 : 0 < p') by apply exp_pos. assert (t0 : 0 < T) by lra. assert (p1 : 0 < p) by lra.
  assert (g1 := rpower_pos (1 + s) g). assert (g2 := rpower_pos (1 + t) g). assert (w := rpower_pos (1 + zp) (- k)). assert (w' := rpower_pos (1 + zp') (- k)).
  set (G1 := Rpower (1 + s) g) in *. set (G2 := Rpower (1 + t) g) in *. set (W := 1 + Rpower (1 + zp) (- k)). set (W' := 1 + Rpower (1 + zp') (- k)). assert (W0 : 0 < W) by (unfold W; lra). assert (W0' : 0 < W') by (unfold W'; lra).
  replace (G1 * / (1 + S' * p') * W' * (G2 * / (1 + T * p) * W)) with (/ ((1 + S' * p') * (1 + T * p)) * (G1 * G2 * W * W')) by (field; nra).
  replace (G2 * / (1 + T * p') * W' * (G1 * / (1 + S' * p) * W)) with (/ ((1 + T * p') * (1 + S' * p)) * (G1 * G2 * W * W')) by (field; nra).
  apply Rmult_lt_compat_r; [repeat apply Rmult_lt_0_compat; assumption|].
  assert (0 < S' * p') by (apply Rmult_lt_0_compat; assumption). assert (0 < T * p) by (apply Rmult_lt_0_compat; assumption). assert (0 < T * p') by (apply Rmult_lt_0_compat; assumption). assert (0 < S' * p) by (apply Rmult_lt_0_compat; assumption).
  apply Rinv_lt_contravar; [repeat apply Rmult_lt_0_compat; lra|]. assert (0 < (T - S') * (p - p')) by (apply Rmult_lt_0_compat; lra). nra.
Qed.
Lemma C113_redshift_library_pf :
  forall available ra z_max cosmo_model r parameters parameters' c (dvc : R -> R) k, 1/1000000 < z_max ->
  redshift_init available ra z_max cosmo_model = Ok r -> cosmology_of (rs_mixin r) parameters = Ok c -> cosmology_of (rs_mixin r) parameters' = Ok c ->
  (forall z, 0 < z <= z_max -> co_dvc c (Fin z) = Fin (dvc z) /\ 0 < dvc z) ->
  (ra = powerlaw_rate /\ (exists lamb lamb', dget "lamb" parameters = Some (Fin lamb) /\ dget "lamb" parameters' = Some (Fin lamb') /\ lamb < lamb') \/
   ra = madau_rate /\ (exists gamma kappa z_peak gamma' z_peak', dget "gamma" parameters = Some (Fin gamma) /\ dget "kappa" parameters = Some (Fin kappa) /\ dget "z_peak" parameters = Some (Fin z_peak) /\
      dget "gamma" parameters' = Some (Fin gamma') /\ dget "kappa" parameters' = Some (Fin kappa) /\ dget "z_peak" parameters' = Some (Fin z_peak') /\ -1 < z_peak /\ -1 < z_peak' /\
      (gamma < gamma' /\ z_peak = z_peak' \/ gamma = gamma' /\ z_peak < z_peak' /\ 0 < kappa))) ->
  (0 < k < 2499)%nat ->
  grid_shifted_up (probability r [("redshift"%string, rs_zs r)] parameters) (probability r [("redshift"%string, rs_zs r)] parameters') (rs_zs r) k.
Proof.
  intros av ra zm name r p p' c dvc k Hz Hi Hc Hc' Hd Hr K.
  destruct Hr as [[-> (l & l' & L & L' & LL)]|[-> (g & ka & zp & g' & zp' & G & Ka & Zp & G' & Ka' & Zp' & Z1 & Z2 & C)]].
  - apply (C113_redshift_pf av powerlaw_rate zm name r p p' c (fun z => Rpower (1 + z) l) (fun z => Rpower (1 + z) l') dvc); auto.
    + intros z Z. cbn [powerlaw_rate ra_psi]. rewrite (plaw_val l), (plaw_val l') by (auto; lra). destruct (Hd z Z). repeat split; auto; apply rpower_pos.
    + intros s t S1 ST T. apply pw_ratio; lra.
  - apply (C113_redshift_pf av madau_rate zm name r p p' c (md g ka zp) (md g' ka zp') dvc); auto.
    + intros z Z. cbn [madau_rate ra_psi]. rewrite (madau_val g ka zp), (madau_val g' ka zp') by (auto; lra). destruct (Hd z Z). repeat split; auto; apply md_pos.
    + intros s t S1 ST T. destruct C as [[C1 <-]|(<- & C1 & C2)]; [apply md_ratio_gamma|apply md_ratio_peak]; lra.
Qed.

