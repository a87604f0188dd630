(** Proofs of the property theorems stated in [Props_numinterp]. *)
From Coq Require Import Reals String Bool Lra Lia.
From Coq Require Import List.
From Verif Require Import Xf Py St Utils_model Np Mass_model Smoothed_model Interp_model NumInterp_model Interp_facts.
Import ListNotations.
Local Open Scope R_scope.
Local Open Scope string_scope.

Lemma get_floats k kw : dget k (as_floats kw) = option_map num (dget k kw).
Proof. induction kw as [|[k' v] kw IH]; [reflexivity|]. cbn. destruct (String.eqb k k'); [reflexivity|exact IH]. Qed.
Lemma lookup_floats k kw : dlookup k (as_floats kw) = match dlookup k kw with Ok v => Ok (num v) | Err e => Err e end.
Proof. unfold dlookup. rewrite get_floats. now destruct (dget k kw). Qed.
Lemma mapM_floats ks kw : mapM (fun k => dlookup k (as_floats kw)) ks = match mapM (fun k => dlookup k kw) ks with Ok v => Ok (map num v) | Err e => Err e end.
Proof.
  induction ks as [|k ks IH]; [reflexivity|]. cbn [mapM]. rewrite lookup_floats. destruct (dlookup k kw); [|reflexivity]. cbn [bind]. rewrite IH. now destruct (mapM (fun k0 => dlookup k0 kw) ks).
Qed.
Lemma del_floats k kw : as_floats (ddel k kw) = ddel k (as_floats kw).
Proof. induction kw as [|[k' v] kw IH]; [reflexivity|]. cbn. destruct (String.eqb k k'); [reflexivity|]. unfold as_floats in *. cbn. now rewrite IH. Qed.
Lemma mapM_some_float ks kw l k v : mapM (fun k => dlookup k kw) ks = Ok l -> In k ks -> dget k kw = Some v -> is_int v = false -> int_array l = false.
Proof.
  intros H K G V. assert (Q : forallb is_int l = false).
  { revert l H. induction ks as [|k0 ks IH]; intros l H; [destruct K|]. cbn [mapM] in H. destruct (dlookup k0 kw) as [v0|] eqn:E; [|discriminate]. cbn [bind] in H. destruct (mapM (fun k1 => dlookup k1 kw) ks) as [l'|] eqn:E'; [|discriminate]. injection H as <-.
    cbn [forallb]. destruct K as [->|K]; [|rewrite (IH K l' eq_refl), andb_false_r; reflexivity]. unfold dlookup in E. rewrite G in E. injection E as <-. now rewrite V. }
  destruct l; [reflexivity|exact Q].
Qed.
Lemma mapM_all_ints ks kw : ks <> [] -> (forall k, In k ks -> exists v, dget k kw = Some v /\ is_int v = true) -> exists l, mapM (fun k => dlookup k kw) ks = Ok l /\ int_array l = true.
Proof.
  intros N H. assert (Q : exists l, mapM (fun k => dlookup k kw) ks = Ok l /\ forallb is_int l = true /\ List.length l = List.length ks).
  { clear N. induction ks as [|k ks IH]; [exists []; auto|]. destruct (H k (or_introl eq_refl)) as (v & G & V). destruct IH as (l & E & F & L); [intros k' K; apply H; now right|]. exists (v :: l). cbn [mapM]. unfold dlookup at 1. rewrite G. cbn [bind]. rewrite E. cbn. rewrite V, F, L. auto. }
  destruct Q as (l & E & F & L). exists l. split; [exact E|]. destruct l; [destruct ks; [contradiction|discriminate]|exact F].
Qed.
Lemma extract_num bk self kw : is_jax bk = true \/ in_regularize self = false \/ (exists k v, In k (in_fkeys self) /\ dget k kw = Some v /\ is_int v = false) ->
  extract_spline_points_num bk self kw = extract_spline_points self (as_floats kw).
Proof.
  intros H. unfold extract_spline_points_num, extract_spline_points. rewrite !mapM_floats, lookup_floats. destruct (mapM (fun k => dlookup k kw) (in_fkeys self)) as [l|] eqn:E; [|reflexivity]. cbn [bind].
  assert (M : map (fun f => fsq (num f)) l = map fsq (map num l)) by (rewrite map_map; reflexivity). rewrite M. clear M.
  destruct (in_regularize self) eqn:Rg.
  - destruct (dlookup (rmskey (in_base self)) kw) as [rms|]; [|reflexivity]. cbn [bind].
    assert (C : negb (is_jax bk) && int_array l = false).
    { destruct H as [->|[H|(k & v & K & G & V)]]; [reflexivity|congruence|]. rewrite (mapM_some_float _ _ _ _ _ E K G V). apply andb_false_r. }
    rewrite C, !map_map. cbn [bind]. now destruct (mapM (fun k => dlookup k kw) (in_xkeys self)).
  - cbn [bind]. now destruct (mapM (fun k => dlookup k kw) (in_xkeys self)).
Qed.
Lemma get_del {V} b k (kw : dict V) : k <> b -> dget k (ddel b kw) = dget k kw.
Proof.
  intros NB. induction kw as [|[k' w] kw IH]; [reflexivity|]. cbn [ddel dget]. destruct (String.eqb b k') eqn:Eb.
  - apply String.eqb_eq in Eb. subst k'. destruct (String.eqb k b) eqn:Ek; [apply String.eqb_eq in Ek; contradiction|reflexivity].
  - cbn [dget]. destruct (String.eqb k k'); [reflexivity|exact IH].
Qed.
Lemma reinit_plain c n s : reinit c n = Ok s -> in_regularize s = false.
Proof. destruct c; cbn; intros H; [discriminate|injection H as <-; reflexivity..]. Qed.
Lemma extract_ints bk self kw : is_jax bk = false -> in_regularize self = true -> in_fkeys self <> [] -> (forall k, In k (in_fkeys self) -> exists v, dget k kw = Some v /\ is_int v = true) ->
  (exists v, dget (rmskey (in_base self)) kw = Some v) -> extract_spline_points_num bk self kw = Err TypeError.
Proof.
  intros B Rg N H [v G]. destruct (mapM_all_ints _ _ N H) as (l & E & I1). unfold extract_spline_points_num. rewrite E, Rg. cbn [bind]. unfold dlookup at 1. rewrite G. cbn [bind]. now rewrite B, I1.
Qed.

Lemma C151_identical_partial_pf :
  forall bk spl self dataset kwargs,
  is_jax bk = true \/ in_regularize self = false \/ (exists k v, In k (in_fkeys self) /\ dget k kwargs = Some v /\ is_int v = false) ->
  p_x_identical_num bk spl dataset kwargs self = p_x_identical bk spl dataset (as_floats kwargs) self.
Proof.
  intros bk spl self dataset kwargs H. unfold p_x_identical_num, p_x_identical, sbind, sget, slift. destruct (infer_n_nodes (as_floats kwargs) self) as [s [u|e]] eqn:E; [|reflexivity].
  assert (H' : is_jax bk = true \/ in_regularize s = false \/ (exists k v, In k (in_fkeys s) /\ dget k kwargs = Some v /\ is_int v = false)).
  { unfold infer_n_nodes in E. destruct (Nat.eqb _ _); [injection E as <- _; exact H|]. destruct (reinit _ _) as [s'|] eqn:Er; [|discriminate]. injection E as <- _. right. left. exact (reinit_plain _ _ _ Er). }
  now rewrite (extract_num bk s kwargs H').
Qed.

Lemma C151_mass_partial_pf :
  forall bk spl linterp self dataset kwargs,
  is_jax bk = true \/ in_regularize (snd self) = false \/ (exists k v, In k (in_fkeys (snd self)) /\ k <> "beta" /\ dget k kwargs = Some v /\ is_int v = false) ->
  ipl_call_num bk spl linterp dataset kwargs self = ipl_call bk spl linterp dataset (as_floats kwargs) self.
Proof.
  intros bk spl linterp self dataset kwargs H. unfold ipl_call_num, ipl_call, sbind, sget, slift, sfail. rewrite lookup_floats. destruct (dlookup "beta" kwargs) as [beta|]; [|reflexivity].
  rewrite del_floats. destruct (negb (is_jax bk) && flt _ _); [reflexivity|]. destruct (negb (is_jax bk) && fgt _ _); [reflexivity|].
  assert (P : ipl_p_m1_num bk spl dataset (ddel "beta" kwargs) self = ipl_p_m1 bk spl dataset (ddel "beta" (as_floats kwargs)) self).
  { unfold ipl_p_m1_num, ipl_p_m1, sbind, sget, slift. rewrite extract_num, del_floats; [reflexivity|].
    destruct H as [H|[H|(k & v & K & NB & G & V)]]; [now left|right; now left|]. right. right. exists k, v. split; [exact K|]. split; [|exact V].
    rewrite <- G. now apply get_del. }
  now rewrite P.
Qed.

Lemma C151_integers_refuted_pf :
  forall bk spl linterp self dataset kwargs,
  let integer_nodes (s : interp) := in_regularize s = true /\ in_fkeys s <> [] /\ (forall k, In k (in_fkeys s) -> k <> "beta" /\ exists v, dget k kwargs = Some v /\ is_int v = true) /\
    (rmskey (in_base s) <> "beta" /\ exists v, dget (rmskey (in_base s)) kwargs = Some v) in
  is_jax bk = false ->
  (integer_nodes self -> dget (fkey (in_base self) (in_nodes self)) kwargs = None -> snd (p_x_identical_num bk spl dataset kwargs self) = Err TypeError) /\
  (forall mass : ipl, integer_nodes (snd mass) ->
     (exists v, dget "beta" kwargs = Some v) ->
     (forall v, dget "mmin" kwargs = Some v -> flt (num v) (sm_mmin (fst mass)) = false) -> (forall v, dget "mmax" kwargs = Some v -> fgt (num v) (sm_mmax (fst mass)) = false) ->
     flt (sm_mmin (fst mass)) (sm_mmin (fst mass)) = false -> fgt (sm_mmax (fst mass)) (sm_mmax (fst mass)) = false ->
     snd (ipl_call_num bk spl linterp dataset kwargs mass) = Err TypeError).
Proof.
  intros bk spl linterp self dataset kwargs integer_nodes B. split.
  - intros (Rg & N & H & _ & Hr) G. unfold p_x_identical_num, sbind, sget, slift. rewrite infer_same by (rewrite get_floats, G; reflexivity).
    rewrite (extract_ints bk self kwargs B Rg N); [reflexivity| |exact Hr]. intros k K. apply (H k K).
  - intros mass (Rg & N & H & Nr & Hr) [b Gb] Hmin Hmax Smin Smax. unfold ipl_call_num, sbind, sget, slift. unfold dlookup at 1. rewrite Gb.
    assert (DEL : forall k, k <> "beta" -> dget k (ddel "beta" kwargs) = dget k kwargs) by (intros k NB; now apply get_del).
    assert (DMIN : flt (dget_default "mmin" (sm_mmin (fst mass)) (as_floats (ddel "beta" kwargs))) (sm_mmin (fst mass)) = false).
    { unfold dget_default. rewrite get_floats, DEL by discriminate. destruct (dget "mmin" kwargs) as [v|]; cbn; [now apply Hmin|exact Smin]. }
    assert (DMAX : fgt (dget_default "mmax" (sm_mmax (fst mass)) (as_floats (ddel "beta" kwargs))) (sm_mmax (fst mass)) = false).
    { unfold dget_default. rewrite get_floats, DEL by discriminate. destruct (dget "mmax" kwargs) as [v|]; cbn; [now apply Hmax|exact Smax]. }
    rewrite DMIN, DMAX, !andb_false_r. unfold ipl_p_m1_num, sbind, sget, slift.
    rewrite (extract_ints bk (snd mass) (ddel "beta" kwargs) B Rg N); [reflexivity| |rewrite DEL by exact Nr; exact Hr]. intros k K. destruct (H k K) as [NB X]. rewrite DEL by exact NB. exact X.
Qed.

