(** Proofs of the property theorems stated in [Props_contl]. *)
From Coq Require Import Reals Lra Lia Psatz String Bool.
From Coquelicot Require Import Coquelicot.
From Coq Require Import List.
From Verif Require Import Xf Py Xf_facts Py_facts Calc Spec Utils_model Trap_facts Np Np_facts Cosmo_model Redshift_model Vt_model vt_thms Hyperpe_model SpecHyper hypera_thms SpecInvar invar_thms redshift_thms SpecCont Gauss_facts cont_thms.
Import ListNotations.
Local Open Scope R_scope.
Local Opaque linspace xlinspace.

Section L.
  Context {T : UniformSpace}.
  Lemma c_sum (F : list (T -> R)) t : Forall (fun f => continuous f t) F -> continuous (fun u => Rsum (at_point F u)) t.
  Proof. induction 1 as [|f F Hf HF IH]; [apply c_const|]. apply (c_plus f (fun u => Rsum (at_point F u)) t Hf IH). Qed.
  Lemma at_length (F : list (T -> R)) u : List.length (at_point F u) = List.length F.
  Proof. apply map_length. Qed.
  Lemma c_mean (F : list (T -> R)) t : Forall (fun f => continuous f t) F -> F <> [] -> continuous (fun u => mean (at_point F u)) t.
  Proof.
    intros H N. apply (c_ext (fun u => Rsum (at_point F u) / INR (List.length F))); [intros u; unfold mean; now rewrite at_length|].
    apply c_div; [now apply c_sum|apply c_const|]. apply not_0_INR. destruct F; [congruence|discriminate].
  Qed.
  Lemma c_squares (F : list (T -> R)) t : Forall (fun f => continuous f t) F -> exists G, Forall (fun f => continuous f t) G /\ List.length G = List.length F /\ forall u, squares (at_point F u) = at_point G u.
  Proof.
    intros H. exists (map (fun f u => f u * f u) F). split; [|split; [apply map_length|]].
    - apply Forall_forall. intros g Hg. apply in_map_iff in Hg. destruct Hg as (f & <- & Hf). rewrite Forall_forall in H. apply c_mult; now apply H.
    - intros u. unfold squares, at_point. now rewrite !map_map.
  Qed.
  Lemma c_quot (P : list (T -> R)) q t : Forall (fun f => continuous f t) P -> Forall (fun x => x <> 0) q -> exists G, Forall (fun f => continuous f t) G /\ forall u, quotients (at_point P u) q = at_point G u.
  Proof.
    intros H. revert q. induction H as [|f P Hf HP IH]; intros q Hq; [exists []; split; [constructor|reflexivity]|]. destruct q as [|x q]; [exists []; split; [constructor|reflexivity]|]. inversion Hq as [|? ? N1 N2]; subst.
    destruct (IH q N2) as (G & G1 & G2). exists ((fun u => f u / x) :: G). split.
    - constructor; [|exact G1]. apply c_div; [exact Hf|apply c_const|exact N1].
    - intros u. specialize (G2 u). unfold quotients, at_point in *. cbn [map combine fst snd]. now rewrite G2.
  Qed.
  Lemma near_all_pos (F : list (T -> R)) t : Forall (fun f => continuous f t /\ 0 < f t) F -> locally t (fun u => Forall (fun x => 0 < x) (at_point F u)).
  Proof.
    induction 1 as [|f F [C P] HF IH]; [apply filter_forall; constructor|].
    eapply filter_imp; [|exact (filter_and _ _ (near_lt (fun _ => 0) f t (c_const 0 t) C P) IH)]. intros u [A B]. now constructor.
  Qed.
  Lemma near_rows_pos (W : list (list (T -> R))) t : Forall (Forall (fun f => continuous f t /\ 0 < f t)) W -> locally t (fun u => Forall (Forall (fun x => 0 < x)) (rows_at W u)).
  Proof.
    induction 1 as [|f W HfH HW IH]; [apply filter_forall; constructor|].
    eapply filter_imp; [|exact (filter_and _ _ (near_all_pos f t HfH) IH)]. intros u [A B]. now constructor.
  Qed.
  Lemma mean_at_pos (w : list (T -> R)) t : w <> [] -> Forall (fun f => continuous f t /\ 0 < f t) w -> 0 < mean (at_point w t).
  Proof.
    intros N H. unfold mean. apply Rdiv_lt_0_compat.
    - apply Rsum_pos; [destruct w; [elim N; reflexivity|discriminate]|]. clear N. induction H as [|f w [_ P] _ IH]; constructor; assumption.
    - rewrite at_length. apply lt_0_INR. destruct w; [elim N; reflexivity|simpl; lia].
  Qed.
  Lemma c_lnmeans (W : list (list (T -> R))) t : Forall (fun w => w <> []) W -> Forall (Forall (fun f => continuous f t /\ 0 < f t)) W -> continuous (fun u => Rsum (map (fun w => ln (mean w)) (rows_at W u))) t.
  Proof.
    intros N H. induction H as [|w W Hw HW IH]; [apply c_const|]. inversion N as [|? ? N1 N2]; subst.
    assert (Cw : Forall (fun f => continuous f t) w) by (eapply Forall_impl; [|exact Hw]; cbv beta; tauto).
    apply (c_plus (fun u => ln (mean (at_point w u))) (fun u => Rsum (map (fun w => ln (mean w)) (rows_at W u)))); [|now apply IH].
    apply c_ln; [now apply c_mean|now apply mean_at_pos].
  Qed.
  Lemma c_mc K (w : list (T -> R)) t : (0 < K)%nat -> w <> [] -> Forall (fun f => continuous f t /\ 0 < f t) w -> continuous (fun u => mc_variance K (at_point w u)) t.
  Proof.
    intros HK N Hw. assert (Cw : Forall (fun f => continuous f t) w) by (eapply Forall_impl; [|exact Hw]; cbv beta; tauto).
    destruct (c_squares w t Cw) as (G & G1 & G2 & G3). assert (NG : G <> []) by (intros ->; destruct w; [now apply N|discriminate G2]).
    assert (Cm := c_mean w t Cw N). assert (P := mean_at_pos w t N Hw).
    assert (PK : 0 < INR K) by now apply lt_0_INR. unfold mc_variance. apply c_div.
    - apply c_minus; [|now apply c_mult]. apply (c_ext (fun u => mean (at_point G u))); [intros u; now rewrite G3|]. now apply c_mean.
    - apply c_mult; [apply c_const|now apply c_mult].
    - apply Rgt_not_eq. apply Rmult_lt_0_compat; [exact PK|now apply Rmult_lt_0_compat].
  Qed.
  Lemma c_mcs K (W : list (list (T -> R))) t : (0 < K)%nat -> Forall (fun w => w <> []) W -> Forall (Forall (fun f => continuous f t /\ 0 < f t)) W -> continuous (fun u => Rsum (map (mc_variance K) (rows_at W u))) t.
  Proof.
    intros HK N H. induction H as [|w W Hw HW IH]; [apply c_const|]. inversion N as [|? ? N1 N2]; subst.
    apply (c_plus (fun u => mc_variance K (at_point w u)) (fun u => Rsum (map (mc_variance K) (rows_at W u)))); [now apply c_mc|now apply IH].
  Qed.
End L.

Lemma C130_likelihood_pf :
  forall (T : UniformSpace) bk prob inj conv L v (parameters converted : T -> dict xf) (W : list (list (T -> R))) (p : list (T -> R)) q N t,
  li_kind L = Hyper -> (0 < li_samples L)%nat -> Forall (fun w => List.length w = li_samples L) W ->
  locally t (fun u => conv (parameters u) = Ok (converted u) /\ weights_are prob L (converted u) (rows_at W u) /\ injections_are inj v (converted u) (at_point p u) q N) ->
  Forall (Forall (fun f => continuous f t /\ 0 < f t)) W -> Forall (fun f => continuous f t) p -> 0 < Rsum (quotients (at_point p t) q) ->
  rv_marginalize v = false -> rv_enforce v = false \/ (exists n, rv_n_events v = Fin n /\ selection_converged (quotients (at_point p t) q) N n) ->
  exists l var : T -> R, continuous l t /\ continuous var t /\
    locally t (fun u => ln_likelihood_and_variance bk prob (resampling_call bk inj v) conv L (parameters u) = Ok (Fin (l u), Fin (var u))).
Proof.
  intros T bk prob inj conv L v par cv W p q N t K HK HL Hloc HW Hp Hs M HE.
  destruct (locally_singleton t _ Hloc) as (_ & _ & HIt). assert (Hq : Forall (fun x => x <> 0) q) by apply HIt. assert (HN : 0 < N) by apply HIt.
  destruct (c_quot p q t Hp Hq) as (G & G1 & G2). destruct (c_squares G t G1) as (G' & G'1 & _ & G'3).
  set (mu := fun u => dmu (quotients (at_point p u) q) N). set (vr := fun u => dvar (quotients (at_point p u) q) N).
  assert (Cmu : continuous mu t). { apply (c_ext (fun u => Rsum (at_point G u) / N)); [intros u; unfold mu, dmu; now rewrite G2|]. apply c_div; [now apply c_sum|apply c_const|lra]. }
  assert (Cvr : continuous vr t). { apply (c_ext (fun u => Rsum (at_point G' u) / (N * N) - mu u * mu u / N)); [intros u; unfold vr, dvar, mu; now rewrite <- G'3, <- G2|].
    apply c_minus; [apply c_div; [now apply c_sum|apply c_const|]|apply c_div; [now apply c_mult|apply c_const|lra]]. apply Rmult_integral_contrapositive_currified; lra. }
  assert (Pmu : 0 < mu t) by (unfold mu, dmu; now apply Rdiv_lt_0_compat).
  assert (NE : Forall (fun w : list (T -> R) => w <> []) W). { eapply Forall_impl; [|exact HL]. intros w E ->. simpl in E. lia. }
  exists (fun u => Rsum (map (fun w => ln (mean w)) (rows_at W u)) - INR (li_n L) * ln (mu u)), (fun u => Rsum (map (mc_variance (li_samples L)) (rows_at W u)) + INR (li_n L) ^ 2 * (vr u / mu u ^ 2)).
  split; [|split].
  - apply c_minus; [now apply c_lnmeans|]. apply c_mult; [apply c_const|now apply c_ln].
  - apply c_plus; [now apply c_mcs|]. apply c_mult; [apply c_const|]. apply c_div; [exact Cvr| |apply Rgt_not_eq; now apply pow_lt].
    apply (c_ext (fun u => mu u * mu u)); [intros u; ring|now apply c_mult].
  - assert (Conv : locally t (fun u => rv_enforce v = false \/ exists n, rv_n_events v = Fin n /\ 4 * n * vr u < mu u * mu u)).
    { destruct HE as [E|(n & En & Hc)]; [apply filter_forall; intros u; now left|].
      eapply filter_imp; [|apply (near_lt (fun u => 4 * n * vr u) (fun u => mu u * mu u) t)]; [intros u X; right; exists n; split; [exact En|exact X]|apply c_mult; [apply c_const|exact Cvr]|now apply c_mult|exact Hc]. }
    eapply filter_imp; [|exact (filter_and _ _ (filter_and _ _ Hloc (near_rows_pos W t HW)) (filter_and _ _ (near_lt (fun _ => 0) mu t (c_const 0 t) Cmu Pmu) Conv))].
    intros u [[(C & HWu & HIu) Pos] [Pm Cu]]. cbv beta in Pm. pose proof (de_are bk inj v (cv u) (at_point p u) q N HIu) as D. fold (mu u) (vr u) in D.
    assert (HP : positive_weights L (rows_at W u)). { split; [exact HK|]. clear - Pos HL. induction HL as [|w W E HL IH]; [constructor|]. inversion Pos; subst. constructor; [split; [now rewrite at_length|assumption]|now apply IH]. }
    assert (RC : resampling_call bk inj v (cv u) = Ok (ValueAndVariance (Fin (mu u)) (Fin (vr u)))).
    { destruct Cu as [E|(n & En & Hc)].
      - unfold resampling_call. rewrite M, D, E. reflexivity.
      - rewrite (C52_call_pf bk inj v (cv u) (mu u) (vr u) n D En M). destruct (rv_enforce v); [|reflexivity]. destruct (Rlt_dec (4 * n * vr u) (mu u ^ 2)) as [_|X]; [reflexivity|]. exfalso. apply X. simpl. lra. }
    now rewrite (C58_formula_pf bk prob _ conv L (par u) (cv u) (rows_at W u) (mu u) (vr u) _ K C HWu HP Pm RC (or_introl eq_refl)).
Qed.

Lemma c_trap {T : UniformSpace} (F : T -> R -> R) zs t : (forall z, In z zs -> continuous (fun u => F u z) t) -> continuous (fun u => Rtrap (map (F u) zs) zs) t.
Proof.
  induction zs as [|z0 zs IH]; intros H; [apply c_const|]. destruct zs as [|z1 zs]; [apply c_const|].
  apply (c_ext (fun u => (z1 - z0) * (F u z1 + F u z0) / 2 + Rtrap (map (F u) (z1 :: zs)) (z1 :: zs))); [intros u; cbn [map]; now rewrite Rtrap_cons|].
  apply c_plus; [|apply IH; intros; apply H; now right]. apply c_div; [|apply c_const|lra]. apply c_mult; [apply c_const|]. apply c_plus; apply H; [right; now left|now left].
Qed.

Lemma C129_redshift_pf :
  forall (T : UniformSpace) available ra z_max cosmo_model r (parameters : T -> dict xf) (c : T -> cosmology) (psi dvc : T -> R -> R) (z : T -> R) t, 1/1000000 < z_max ->
  redshift_init available ra z_max cosmo_model = Ok r ->
  (forall u, cosmology_of (rs_mixin r) (parameters u) = Ok (c u)) ->
  (forall u y, 0 < y <= z_max -> ra_psi ra (Fin y) (parameters u) = Ok (Fin (psi u y)) /\ co_dvc (c u) (Fin y) = Fin (dvc u y) /\ 0 < psi u y /\ 0 < dvc u y) ->
  (forall y, 0 < y <= z_max -> continuous (fun u => psi u y) t /\ continuous (fun u => dvc u y) t) ->
  continuous z t -> 0 < z t < z_max -> continuous (fun u => psi u (z u)) t -> continuous (fun u => dvc u (z u)) t ->
  exists g : T -> R, continuous g t /\ locally t (fun u => probability r [("redshift"%string, [Fin (z u)])] (parameters u) = Ok [Fin (g u)]).
Proof.
  intros T av ra zm cm r par c psi dvc z t Hz HI HC HV Hcont Cz [Z1 Z2] Cp Cv.
  set (F := fun u y => psi u y / (1 + y) * (4 * PI * dvc u y)). set (zs := linspace (1/1000000) zm 2500). set (N := fun u => Rtrap (map (F u) zs) zs).
  assert (HN : forall u, normalisation r (par u) = Ok (Fin (N u)) /\ 0 < N u).
  { intros u. destruct (C44_norm_positive_pf av ra zm cm r (par u) (c u) (psi u) (dvc u) Hz HI (HC u) (HV u)) as (n & E & P & Q).
    assert (EZ : rs_zs r = map Fin zs). { unfold redshift_init in HI. destruct (mixin_init av cm); [|discriminate]. cbn [bind] in HI. injection HI as <-. reflexivity. }
    rewrite EZ in Q. replace (map (fun z0 => Fin (psi u z0 / (1 + z0) * (4 * PI * dvc u z0))) (linspace (1 / 1000000) zm 2500)) with (map Fin (map (F u) zs)) in Q by (rewrite map_map; reflexivity).
    rewrite trapezoid_fin in Q. injection Q as Q. unfold N. rewrite <- Q. split; assumption. }
  assert (CF : forall y : T -> R, continuous y t -> 0 < y t -> continuous (fun u => psi u (y u)) t -> continuous (fun u => dvc u (y u)) t -> continuous (fun u => F u (y u)) t).
  { intros y Cy Py A B. unfold F. apply c_mult; [apply c_div; [exact A|apply c_plus; [apply c_const|exact Cy]|lra]|]. apply c_mult; [apply c_const|exact B]. }
  assert (CN : continuous N t).
  { apply c_trap. intros y Hy. destruct (linspace_bounds (1/1000000) zm 2500 y) as [A B]; [lra|exact Hy|]. destruct (Hcont y ltac:(lra)) as [C1 C2]. apply (CF (fun _ => y)); auto; [apply c_const|lra]. }
  exists (fun u => F u (z u) / N u). split.
  - apply c_div; [now apply CF|exact CN|]. apply Rgt_not_eq, HN.
  - eapply filter_imp; [|exact (filter_and _ _ (near_lt (fun _ => 0) z t (c_const 0 t) Cz Z1) (near_lt z (fun _ => zm) t Cz (c_const zm t) Z2))]. intros u [A B]. cbv beta in *.
    destruct (HV u (z u) ltac:(lra)) as (E1 & E2 & _ & _). destruct (HN u) as [E3 P].
    destruct (C44_value_pf av ra zm cm r (par u) (c u) (N u) (z u) (psi u (z u)) (dvc u (z u)) HI (HC u) E3 ltac:(lra) ltac:(lra) E1 E2) as [V _]. now rewrite (proj1 (V ltac:(lra))).
Qed.

Lemma C129_rates_pf :
  forall (T : UniformSpace) (parameters : T -> dict xf) (lamb gamma kappa z_peak z : T -> R) t,
  continuous lamb t -> continuous gamma t -> continuous kappa t -> continuous z_peak t -> continuous z t -> -1 < z t -> -1 < z_peak t ->
  ((forall u, dget "lamb"%string (parameters u) = Some (Fin (lamb u))) -> continuous_call (fun u => powerlaw_psi (Fin (z u)) (parameters u)) t) /\
  ((forall u, dget "gamma"%string (parameters u) = Some (Fin (gamma u)) /\ dget "kappa"%string (parameters u) = Some (Fin (kappa u)) /\ dget "z_peak"%string (parameters u) = Some (Fin (z_peak u))) ->
   continuous_call (fun u => madau_psi (Fin (z u)) (parameters u)) t).
Proof.
  intros T par la ga ka zp z t C1 C2 C3 C4 C5 H1 H2. assert (Cz : continuous (fun u => 1 + z u) t) by (apply c_plus; [apply c_const|exact C5]). assert (Cp : continuous (fun u => 1 + zp u) t) by (apply c_plus; [apply c_const|exact C4]).
  assert (N1 := near_lt (fun _ => -1) z t (c_const (-1) t) C5 H1). assert (N2 := near_lt (fun _ => -1) zp t (c_const (-1) t) C4 H2). split.
  - intros E. exists (fun u => Rpower (1 + z u) (la u)). split; [|apply c_Rpower; auto; lra]. eapply filter_imp; [|exact N1]. intros u X. cbv beta in X. unfold returns, powerlaw_psi. rewrite (dlookup_ok _ _ _ (E u)). cbn [bind]. rewrite fadd_fin, fpow_fin by lra. reflexivity.
  - intros E. exists (fun u => Rpower (1 + z u) (ga u) / (1 + Rpower ((1 + z u) / (1 + zp u)) (ka u)) * (1 + Rpower (1 + zp u) (- ka u))). split.
    + eapply filter_imp; [|exact (filter_and _ _ N1 N2)]. intros u [X Y]. cbv beta in *. destruct (E u) as (E1 & E2 & E3). unfold returns, madau_psi. rewrite (dlookup_ok _ _ _ E1). cbn [bind]. rewrite (dlookup_ok _ _ _ E2). cbn [bind]. rewrite (dlookup_ok _ _ _ E3). cbn [bind].
      assert (0 < (1 + z u) / (1 + zp u)) by (apply Rdiv_lt_0_compat; lra).
      assert (0 < Rpower ((1 + z u) / (1 + zp u)) (ka u)) by apply exp_pos.
      rewrite !fadd_fin, fopp_fin, (fdiv_fin (1 + z u)) by lra. rewrite !fpow_fin by lra. rewrite !fadd_fin, fdiv_fin by lra. now rewrite fmul_fin.
    + assert (0 < (1 + z t) / (1 + zp t)) by (apply Rdiv_lt_0_compat; lra). assert (0 < Rpower ((1 + z t) / (1 + zp t)) (ka t)) by apply exp_pos.
      apply c_mult; [apply c_div; [apply c_Rpower; auto; lra|apply c_plus; [apply c_const|apply c_Rpower; auto; apply c_div; auto; lra]|lra]|]. apply c_plus; [apply c_const|]. apply c_Rpower; auto; [now apply c_opp|lra].
Qed.

