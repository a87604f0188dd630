(** Proofs of the property theorems stated in [Props_opt]. *)
From Coq Require Import Reals Lra Lia Psatz String Bool.
From Coquelicot Require Import Coquelicot.
From Coq Require Import List.
From Verif Require Import Xf Py St Xf_facts Py_facts Calc Spec Utils_model Np Np_facts
  Mass_model Mass_facts Spin_model Smoothed_model Smoothed_facts smoothed_thms SpecClass Cosmo_model Redshift_model Priors_model Example_model.
Import ListNotations.
Local Open Scope string_scope.
Local Open Scope R_scope.

Lemma get_app {V} k (a b : dict V) : dget k (a ++ b)%list = match dget k a with Some v => Some v | None => dget k b end.
Proof. induction a as [|[k' v] a IH]; [reflexivity|]. cbn. destruct (String.eqb k k'); auto. Qed.
Lemma mem_app {V} k (a b : dict V) : dmem k (a ++ b)%list = dmem k a || dmem k b.
Proof. unfold dmem. rewrite get_app. now destruct (dget k a). Qed.
Lemma del_app {V} k (a b : dict V) : ddel k (a ++ b)%list = if dmem k a then (ddel k a ++ b)%list else (a ++ ddel k b)%list.
Proof.
  unfold dmem. induction a as [|[k' v] a IH]; [reflexivity|]. cbn. destruct (String.eqb k k'); [reflexivity|].
  rewrite IH. now destruct (dget k a).
Qed.
Lemma del_none {V} k (d : dict V) : dget k d = None -> ddel k d = d.
Proof. induction d as [|[k' v] d IH]; [reflexivity|]. cbn. destruct (String.eqb k k'); [discriminate|]. intros H. now rewrite IH. Qed.
Lemma set_app {V} k (v : V) d : dget k d = None -> dset k v d = (d ++ [(k, v)])%list.
Proof. induction d as [|[k' v'] d IH]; [reflexivity|]. cbn. destruct (String.eqb k k'); [discriminate|]. intros H. now rewrite IH. Qed.
Lemma default_one k k' v w (kw : dict xf) : dget k kw = None -> dget_default k' w (kw ++ [(k, v)])%list = if String.eqb k' k then v else dget_default k' w kw.
Proof.
  intros H. unfold dget_default. rewrite get_app. cbn. destruct (String.eqb_spec k' k) as [->|N]; [now rewrite H|]. now destruct (dget k' kw).
Qed.
Lemma bind_one req opt k v kw : existsb (String.eqb k) req = false -> existsb (String.eqb k) opt = true -> dget k kw = None ->
  kwbind req opt (kw ++ [(k, v)])%list = kwbind req opt kw.
Proof.
  intros H1 H2 H3. unfold kwbind, dkeys. rewrite map_app, forallb_app. cbn [map fst forallb]. rewrite existsb_app, H2, orb_true_r, !andb_true_r.
  replace (forallb (fun k0 => dmem k0 (kw ++ [(k, v)])%list) req) with (forallb (fun k0 => dmem k0 kw) req); [reflexivity|].
  clear - H1. induction req as [|r req IH]; [reflexivity|]. cbn in H1. apply orb_false_iff in H1 as [A B]. cbn [forallb]. rewrite (IH B), mem_app. f_equal.
  unfold dmem at 3. cbn. rewrite String.eqb_sym, A. now rewrite orb_false_r.
Qed.

Lemma C144_gaussian_mass_maximum_pf :
  forall bk kw m q, dget "gaussian_mass_maximum" kw = None ->
  let kw' := dset "gaussian_mass_maximum" (Fin 100) kw in
  two_component_kw bk kw' m = two_component_kw bk kw m /\ three_component_kw bk kw' m = three_component_kw bk kw m /\
  double_power_law_peak_kw bk kw' m = double_power_law_peak_kw bk kw m /\ mass_ratio_kw bk m q kw' = mass_ratio_kw bk m q kw.
Proof.
  intros bk kw m q H kw'. unfold kw'. rewrite set_app by exact H.
  unfold two_component_kw, three_component_kw, double_power_law_peak_kw, mass_ratio_kw, kwv.
  rewrite !bind_one by (reflexivity || exact H). rewrite !default_one by exact H. cbn [String.eqb Ascii.eqb Bool.eqb].
  replace (dget_default "gaussian_mass_maximum" (Fin 100) kw) with (Fin 100) by (unfold dget_default; now rewrite H). repeat split; reflexivity.
Qed.

Lemma C144_tilt_means_pf :
  forall bk c_1 c_2 kw,
  (dget "mu_1" kw = None -> orientation_kw bk c_1 c_2 (dset "mu_1" (Fin 1) kw) = orientation_kw bk c_1 c_2 kw) /\
  (dget "mu_2" kw = None -> orientation_kw bk c_1 c_2 (dset "mu_2" (Fin 1) kw) = orientation_kw bk c_1 c_2 kw).
Proof.
  intros bk c1 c2 kw. split; intros H; rewrite set_app by exact H; unfold orientation_kw, kwv;
    rewrite !bind_one by (reflexivity || exact H); rewrite !default_one by exact H; cbn [String.eqb Ascii.eqb Bool.eqb];
    [replace (dget_default "mu_1" (Fin 1) kw) with (Fin 1) by (unfold dget_default; now rewrite H)|replace (dget_default "mu_2" (Fin 1) kw) with (Fin 1) by (unfold dget_default; now rewrite H)]; reflexivity.
Qed.

Lemma del_one {V} k k' (v : V) kw : k <> k' -> ddel k' (kw ++ [(k, v)])%list = (ddel k' kw ++ [(k, v)])%list.
Proof.
  intros N. rewrite del_app. unfold dmem. destruct (dget k' kw) eqn:E; [reflexivity|]. rewrite (del_none _ _ E). cbn.
  destruct (String.eqb_spec k' k); [congruence|reflexivity].
Qed.
Lemma get_del {V} k k' (d : dict V) : dget k d = None -> dget k (ddel k' d) = None.
Proof. induction d as [|[a v] d IH]; [reflexivity|]. cbn. destruct (String.eqb k a) eqn:E; [discriminate|]. intros H. destruct (String.eqb k' a); [exact H|]. cbn. now rewrite E, IH. Qed.
Lemma del_mid {V} k (v : V) a b : dget k a = None -> ddel k ((a ++ [(k, v)]) ++ b)%list = ddel k (a ++ b)%list \/ dget k b <> None.
Proof.
  intros H. destruct (dget k b) eqn:E; [right; congruence|left]. rewrite !del_app. unfold dmem. rewrite get_app, H. cbn. rewrite String.eqb_refl.
  rewrite (del_none _ _ E). rewrite ?del_app. unfold dmem. rewrite ?H. cbn. rewrite ?String.eqb_refl, ?app_nil_r. reflexivity.
Qed.
Lemma class_skw c mm : dget "delta_m" (class_kwargs c mm) = None.
Proof. now destruct c. Qed.
Lemma p_m1_delta bk prim self ds a b : dget "delta_m" a = None -> dget "delta_m" b = None ->
  p_m1 bk prim self ds ((a ++ [("delta_m", Fin 0)]) ++ b)%list = p_m1 bk prim self ds (a ++ b)%list.
Proof.
  intros Ha Hb. unfold p_m1. destruct (del_mid "delta_m" (Fin 0) a b Ha) as [->|N]; [|congruence].
  unfold dget_default. rewrite !get_app, Ha, Hb. cbn. now destruct (dget "mmin" a).
Qed.

Lemma C144_smoothing_width_pf :
  forall c bk linterp dataset kw self, dget "delta_m" kw = None ->
  class_call c bk linterp dataset (dset "delta_m" (Fin 0) kw) self = class_call c bk linterp dataset kw self.
Proof.
  intros c bk li ds kw self H. rewrite set_app by exact H. unfold class_call, smoothed_call, sbind, slift, sget, sret.
  assert (L : dlookup "beta" (kw ++ [("delta_m", Fin 0)])%list = dlookup "beta" kw) by (unfold dlookup; rewrite get_app; cbn; now destruct (dget "beta" kw)). rewrite L. destruct (dlookup "beta" kw) as [beta|]; [|reflexivity].
  rewrite del_one by discriminate. assert (H' := get_del "delta_m" "beta" kw H). set (kb := ddel "beta" kw) in *. clearbody kb.
  rewrite !default_one by exact H'. cbn [String.eqb Ascii.eqb Bool.eqb].
  replace (dget_default "delta_m" (Fin 0) kb) with (Fin 0) by (unfold dget_default; now rewrite H').
  destruct (_ && _); [reflexivity|]. destruct (_ && _); [reflexivity|].
  unfold kw_merge. replace (existsb (fun k => dmem k (kb ++ [("delta_m", Fin 0)])%list) (dkeys (class_kwargs c (sm_mmax self)))) with (existsb (fun k => dmem k kb) (dkeys (class_kwargs c (sm_mmax self)))).
  2:{ destruct c; cbn; rewrite ?mem_app; cbn; rewrite ?orb_false_r; reflexivity. }
  destruct (existsb _ _); [reflexivity|]. rewrite p_m1_delta by (exact H' || apply class_skw). reflexivity.
Qed.

