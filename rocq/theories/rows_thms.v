(** Proofs of the property theorems stated in [Props_rows]. *)
From Coq Require Import Reals Lra Lia String Bool Permutation.
From Coq Require Import List.
From Verif Require Import Xf Py St Xf_facts Py_facts Utils_model Np Np_facts Mass_model Smoothed_model Smoothed_facts Interp_model Interp_facts Cosmo_model Redshift_model iplb_thms SpecRows.
Import ListNotations.
Local Open Scope R_scope.

(** It suffices to describe the outcome by a condition on the call and a condition on each sample. *)
Definition describes {sample} (F : list sample -> result (list xf)) : Prop :=
  exists (P : Prop) (g : sample -> xf -> Prop), forall rows ps, rows <> [] -> (F rows = Ok ps <-> P /\ Forall2 g rows ps).
Lemma describes_rows {sample} (F : list sample -> result (list xf)) : describes F ->
  forall rows ps, rows <> [] -> (F rows = Ok ps <-> Forall2 (fun s v => F [s] = Ok [v]) rows ps).
Proof.
  intros (P & g & H). assert (H1 : forall s v, F [s] = Ok [v] <-> P /\ g s v).
  { intros s v. rewrite H by discriminate. split; intros [A B]; (split; [exact A|]); [inversion B; subst; assumption|now constructor]. }
  intros rows ps N. rewrite H by exact N. split.
  - intros [A B]. clear N. induction B; constructor; [|assumption]. apply H1. now split.
  - intros B. split.
    + destruct B as [|s v ? ? B _]; [congruence|]. apply H1 in B. apply B.
    + clear N. induction B as [|s v ? ? B]; constructor; [|assumption]. apply H1 in B. apply B.
Qed.
Lemma describes_fails {sample} (F : list sample -> result (list xf)) : (forall rows, rows <> [] -> exists e, F rows = Err e) -> describes F.
Proof. intros H. exists False, (fun _ _ => True). intros rows ps N. destruct (H rows N) as (e & E). rewrite E. split; [discriminate|now intros []]. Qed.
Lemma mapM_Forall2 {A B} (f : A -> result B) l ys : mapM f l = Ok ys <-> Forall2 (fun a y => f a = Ok y) l ys.
Proof.
  revert ys. induction l as [|a l IH]; intros ys; simpl.
  - split; [intros E; injection E as <-; constructor|intros H; inversion H; reflexivity].
  - destruct (f a) as [y|e] eqn:E; cbn [bind].
    + destruct (mapM f l) as [ys'|e] eqn:E'; cbn [bind].
      * split; [intros X; injection X as <-; constructor; [exact E|now apply IH]|]. intros X. inversion X as [|? y0 ? ys0 Y1 Y2]; subst. rewrite E in Y1. injection Y1 as <-. apply IH in Y2. injection Y2 as <-. reflexivity.
      * split; [discriminate|]. intros X. inversion X as [|? y0 ? ys0 Y1 Y2]; subst. apply IH in Y2. discriminate.
    + split; [discriminate|]. intros X. inversion X as [|? y0 ? ys0 Y1 Y2]; subst. congruence.
Qed.
Lemma describes_mapM {sample} (F : list sample -> result (list xf)) (f : sample -> result xf) : (forall rows, rows <> [] -> F rows = mapM f rows) -> describes F.
Proof. intros H. exists True, (fun s v => f s = Ok v). intros rows ps N. rewrite H by exact N. rewrite mapM_Forall2. tauto. Qed.
Lemma table_get {sample} (c : dict (sample -> xf)) rows k : dget k (table c rows) = option_map (fun f => map f rows) (dget k c).
Proof. induction c as [|[k' f] c IH]; [reflexivity|]. cbn [table map dget fst snd]. destruct (String.eqb k k'); [reflexivity|exact IH]. Qed.
Lemma table_lookup {sample} (c : dict (sample -> xf)) rows k : dlookup k (table c rows) = rmap (fun f => map f rows) (dlookup k c).
Proof. unfold dlookup. rewrite table_get. now destruct (dget k c). Qed.
Lemma table_set {sample} (c : dict (sample -> xf)) rows k f : dset k (map f rows) (table c rows) = table (dset k f c) rows.
Proof. induction c as [|[k' f'] c IH]; [reflexivity|]. cbn [table map dset fst snd]. destruct (String.eqb k k'); cbn [table map fst snd]; [reflexivity|]. f_equal. exact IH. Qed.
Lemma zip_rows {A B C sample} (f : A -> B -> C) (g : sample -> A) (h : sample -> B) rows : zipWith f (map g rows) (map h rows) = map (fun r => f (g r) (h r)) rows.
Proof. induction rows as [|r rows IH]; [reflexivity|]. cbn [map]. rewrite zipWith_cons, IH. reflexivity. Qed.
Lemma into_rows {A B sample} bk (f : A -> B -> A) (g : sample -> A) (h : sample -> B) rows : bcast_into bk f (map g rows) (map h rows) = Ok (map (fun r => f (g r) (h r)) rows).
Proof. rewrite bcast_into_same by now rewrite !map_length. now rewrite zip_rows. Qed.
Lemma bcast_rows {A B C sample} bk (f : A -> B -> C) (g : sample -> A) (h : sample -> B) rows : bcast bk f (map g rows) (map h rows) = Ok (map (fun r => f (g r) (h r)) rows).
Proof. unfold bcast, bcast2. rewrite !map_length, Nat.eqb_refl. now rewrite zip_rows. Qed.
Lemma bcast2_rows {A B C sample} (f : A -> B -> C) (g : sample -> A) (h : sample -> B) rows : bcast2 f (map g rows) (map h rows) = Some (map (fun r => f (g r) (h r)) rows).
Proof. unfold bcast2. rewrite !map_length, Nat.eqb_refl. now rewrite zip_rows. Qed.
Lemma into_cols {A B sample} bk (f : A -> B -> A) (l : list A) (h : sample -> B) rows : List.length l = List.length rows -> bcast_into bk f l (map h rows) = Ok (zipWith (fun a r => f a (h r)) l rows).
Proof.
  intros L. rewrite bcast_into_same by now rewrite map_length. f_equal. revert rows L. induction l as [|a l IH]; intros [|r rows] L; try discriminate; [reflexivity|]. cbn [map]. rewrite !zipWith_cons, IH by (simpl in L; lia). reflexivity.
Qed.
Lemma bcast_cols {A B C sample} bk (f : A -> B -> C) (l : list A) (h : sample -> B) rows : List.length l = List.length rows -> bcast bk f l (map h rows) = Ok (zipWith (fun a r => f a (h r)) l rows).
Proof.
  intros L. unfold bcast, bcast2. rewrite map_length, L, Nat.eqb_refl. f_equal. revert rows L. induction l as [|a l IH]; intros [|r rows] L; try discriminate; [reflexivity|]. cbn [map]. rewrite !zipWith_cons, IH by (simpl in L; lia). reflexivity.
Qed.
(** The values at the samples followed by a step that combines each value with its sample. *)
Lemma Forall2_step {sample A} (g : sample -> A -> Prop) (h : A -> sample -> xf) rows ps :
  (exists ys, Forall2 g rows ys /\ ps = zipWith h ys rows) <-> Forall2 (fun r p => exists y, g r y /\ p = h y r) rows ps.
Proof.
  split.
  - intros (ys & B & ->). induction B; [constructor|]. rewrite zipWith_cons. constructor; [eexists; split; eauto|assumption].
  - intros B. induction B as [|r p rows ps (y & G & ->) B (ys & C & ->)]; [exists []; split; constructor|]. exists (y :: ys). split; [now constructor|]. now rewrite zipWith_cons.
Qed.
Lemma mapM_length {A B} (f : A -> result B) l ys : mapM f l = Ok ys -> List.length ys = List.length l.
Proof. rewrite mapM_Forall2. induction 1; simpl; congruence. Qed.
Lemma mapM_rows {A B sample} (f : A -> result B) (g : sample -> A) rows : mapM f (map g rows) = mapM (fun r => f (g r)) rows.
Proof. induction rows as [|r rows IH]; [reflexivity|]. cbn [map mapM]. now rewrite IH. Qed.
Lemma mapM_pure {sample} (g : sample -> xf) rows : Ok (map g rows) = mapM (fun r => Ok (g r)) rows.
Proof. induction rows as [|r rows IH]; [reflexivity|]. cbn [map mapM bind]. rewrite <- IH. reflexivity. Qed.
Lemma map_as_zip {A sample} (h : A -> xf) (ys : list A) (rows : list sample) : List.length ys = List.length rows -> map h ys = zipWith (fun a _ => h a) ys rows.
Proof. revert rows. induction ys as [|y ys IH]; intros [|r rows] L; try discriminate; [reflexivity|]. cbn [map]. rewrite zipWith_cons, <- IH by (simpl in L; lia). reflexivity. Qed.
Lemma zip_zip {A B C sample} (f : A -> sample -> B) (g : B -> sample -> C) (ys : list A) (rows : list sample) : zipWith g (zipWith f ys rows) rows = zipWith (fun a r => g (f a r) r) ys rows.
Proof. revert rows. induction ys as [|y ys IH]; intros [|r rows]; try reflexivity. now rewrite !zipWith_cons, IH. Qed.

Section SM.
  Context (bk : backend) (prim : dict xf -> xf -> result xf) (sk : xf -> dict xf) (interp : list xf -> list xf -> xf -> xf).
  Lemma smoothed_rows s K : sm_masses s = None \/ sm_cache s = false -> sample_by_sample (fun ds => snd (smoothed_call bk prim sk interp ds K s)).
  Proof.
    intros HF sample columns. apply describes_rows.
    destruct (dlookup "beta" K) as [beta|e] eqn:EB; [|apply describes_fails; intros rows _; exists e; unfold smoothed_call; rewrite EB; reflexivity].
    set (k := ddel "beta" K). set (mmin := dget_default "mmin" (sm_mmin s) k). set (mmax := dget_default "mmax" (sm_mmax s) k). set (delta := dget_default "delta_m" (Fin 0) k).
    assert (C : forall ds, smoothed_call bk prim sk interp ds K s = if negb (is_jax bk) && flt mmin (sm_mmin s) then (s, Err ValueError) else if negb (is_jax bk) && fgt mmax (sm_mmax s) then (s, Err ValueError) else
      (kw <~ slift (kw_merge k (sk (sm_mmax s))) ;; pm <~ slift (p_m1 bk prim s ds kw) ;; pq <~ p_q bk interp ds beta mmin delta ;; slift (bcast bk fmul pm pq)) s).
    { intros ds. unfold smoothed_call. rewrite EB. unfold sbind at 1 2. unfold slift at 1. unfold sget. fold k mmin mmax delta. destruct (_ && flt _ _); [reflexivity|]. destruct (_ && fgt _ _); reflexivity. }
    destruct (negb (is_jax bk) && flt mmin (sm_mmin s)); [apply describes_fails; intros rows _; exists ValueError; now rewrite C|].
    destruct (negb (is_jax bk) && fgt mmax (sm_mmax s)); [apply describes_fails; intros rows _; exists ValueError; now rewrite C|].
    destruct (kw_merge k (sk (sm_mmax s))) as [kw|e]; [|apply describes_fails; intros rows _; exists e; now rewrite C].
    destruct (dlookup "mass_1" columns) as [fm|e] eqn:EM; [|apply describes_fails; intros rows _; exists e; rewrite C; unfold sbind, slift, p_m1; now rewrite table_lookup, EM].
    set (mm := dget_default "mmin" (sm_mmin s) kw). set (dl := dget_default "delta_m" (Fin 0) kw). set (kd := ddel "delta_m" kw).
    destruct (norm_p_m1 bk prim s dl kd) as [n|e] eqn:EN.
    2:{ apply describes_fails. intros rows _. rewrite C. unfold sbind, slift, p_m1. rewrite table_lookup, EM. cbn [rmap bind]. fold mm dl kd. rewrite EN. destruct (smoothed_primary _ _ _ _ _ _ _); cbn [bind snd]; eexists; reflexivity. }
    destruct (dlookup "mass_ratio" columns) as [fq|e] eqn:EQ.
    2:{ apply describes_fails. intros rows _. rewrite C. unfold sbind at 1 2. unfold slift at 1 2. destruct (p_m1 _ _ _ _ _) as [pm|]; [|eexists; reflexivity]. unfold p_q. unfold sbind, slift. rewrite table_lookup, EQ. cbn [rmap snd]. eexists; reflexivity. }
    set (w := fun m => fdiv m n).
    set (h := fun y r => fmul (fdiv y n) (nan_to_num (fdiv (qd bk beta mmin delta (fm r) (fq r)) (interp (sm_m1s s) (map (qnorm bk (sm_qs s) beta mmin delta) (sm_m1s s)) (fm r))))).
    exists True, (fun r p => exists y, (p0 <- prim kd (fm r) ;; Ok (fmul p0 (smoothing bk (fm r) mm (sm_mmax s) dl))) = Ok y /\ p = h y r).
    intros rows ps _. rewrite C. unfold sbind at 1 2. unfold slift at 1 2. unfold p_m1. rewrite table_lookup, EM. cbn [rmap bind]. fold mm dl kd. unfold smoothed_primary. rewrite mapM_rows, EN.
    assert (Q : p_q bk interp (table columns rows) beta mmin delta s = (set_masses (Some (map fm rows)) s, Ok (map (fun r => nan_to_num (fdiv (qd bk beta mmin delta (fm r) (fq r)) (interp (sm_m1s s) (map (qnorm bk (sm_qs s) beta mmin delta) (sm_m1s s)) (fm r)))) rows))).
    { rewrite (p_q_cases bk interp (table columns rows) beta mmin delta s (map fm rows) (map fq rows) (map (fun r => qd bk beta mmin delta (fm r) (fq r)) rows)).
      - replace (if sm_cache s then sm_masses s else None) with (@None (list xf)) by (destruct HF as [E|E]; rewrite E; [destruct (sm_cache s)|]; reflexivity).
        f_equal. unfold fresh_pq, norms_at. rewrite map_map, into_rows. cbn [rmap]. now rewrite map_map.
      - unfold dlookup in EM. rewrite table_get. destruct (dget "mass_1" columns); [injection EM as ->; reflexivity|discriminate].
      - unfold dlookup in EQ. rewrite table_get. destruct (dget "mass_ratio" columns); [injection EQ as ->; reflexivity|discriminate].
      - apply bcast2_rows. }
    rewrite <- (Forall2_step (fun r y => (p0 <- prim kd (fm r) ;; Ok (fmul p0 (smoothing bk (fm r) mm (sm_mmax s) dl))) = Ok y) h).
    destruct (mapM (fun r => p <- prim kd (fm r) ;; _) rows) as [ys|e] eqn:EY; cbn [bind].
    - unfold sbind. rewrite Q. unfold slift. cbn [snd]. rewrite bcast_cols by (rewrite map_length; now apply (mapM_length _ _ _ EY)).
      rewrite (map_as_zip _ ys rows) by now apply (mapM_length _ _ _ EY). rewrite zip_zip. fold h. split.
      + intros E. injection E as <-. split; [exact I|]. exists ys. split; [now apply mapM_Forall2|reflexivity].
      + intros (_ & ys' & F & ->). apply mapM_Forall2 in F. rewrite EY in F. injection F as <-. reflexivity.
    - cbn [snd]. split; [discriminate|]. intros (_ & ys' & F & _). apply mapM_Forall2 in F. rewrite EY in F. discriminate.
  Qed.
End SM.

Lemma C128_smoothed_pf :
  forall bk primary_model self_kwargs interp s kwargs, sm_masses s = None \/ sm_cache s = false ->
  sample_by_sample (fun dataset => snd (smoothed_call bk primary_model self_kwargs interp dataset kwargs s)).
Proof. exact (fun bk prim sk interp s K H => smoothed_rows bk prim sk interp s K H). Qed.

Lemma C128_redshift_pf :
  forall r parameters, sample_by_sample (fun dataset => probability r dataset parameters) /\
  forall bounds, sample_by_sample (fun dataset => differential_spacetime_volume r dataset bounds parameters).
Proof.
  intros r p. split; [|intros b]; intros sample columns; apply describes_rows.
  - unfold probability. destruct (normalisation r p) as [n|e]; cbn [bind]; [|apply describes_fails; intros rows _; now exists e].
    destruct (dlookup "redshift" columns) as [f|e] eqn:E; [|apply describes_fails; intros rows _; exists e; unfold differential_spacetime_volume; now rewrite table_lookup, E].
    exists True, (fun s v => exists y, differential_spacetime_volume_at r true p (f s) = Ok y /\ v = fdiv y n). intros rows ps _.
    unfold differential_spacetime_volume. rewrite table_lookup, E. cbn [rmap bind]. rewrite mapM_rows. rewrite <- (Forall2_step (fun s y => differential_spacetime_volume_at r true p (f s) = Ok y) (fun y _ => fdiv y n)).
    destruct (mapM _ rows) as [ys|e] eqn:EY; cbn [bind].
    + rewrite (map_as_zip _ ys rows) by now apply (mapM_length _ _ _ EY). split.
      * intros X. injection X as <-. split; [exact I|]. exists ys. split; [now apply mapM_Forall2|reflexivity].
      * intros (_ & ys' & F & ->). apply mapM_Forall2 in F. rewrite EY in F. injection F as <-. reflexivity.
    + split; [discriminate|]. intros (_ & ys' & F & _). apply mapM_Forall2 in F. rewrite EY in F. discriminate.
  - destruct (dlookup "redshift" columns) as [f|e] eqn:E; [|apply describes_fails; intros rows _; exists e; unfold differential_spacetime_volume; now rewrite table_lookup, E].
    apply describes_mapM with (f := fun s => differential_spacetime_volume_at r b p (f s)). intros rows _. unfold differential_spacetime_volume. rewrite table_lookup, E. cbn [rmap bind]. apply mapM_rows.
Qed.

Lemma keys_rows {sample} bk (data : dict (sample -> xf)) c (j : sample -> xf) :
  (exists e, forall rows, convert_keys bk (table data rows) (table c rows, map j rows) = Err e) \/
  (exists c' j', forall rows, convert_keys bk (table data rows) (table c rows, map j rows) = Ok (table c' rows, map j' rows)).
Proof.
  revert c j. induction data as [|[k f] data IH]; intros c j; [right; exists c, j; reflexivity|].
  assert (K : (exists e, forall rows, convert_key bk (k, map f rows) (table c rows, map j rows) = Err e) \/ (exists c' j', forall rows, convert_key bk (k, map f rows) (table c rows, map j rows) = Ok (table c' rows, map j' rows))).
  { unfold convert_key. destruct (endswith "_detector" k).
    - destruct (dlookup "redshift" c) as [z|e] eqn:E; [|left; exists e; intros rows; now rewrite table_lookup, E].
      set (c' := dset (drop_last 9 k) (fun r => fdiv (f r) (fadd (Fin 1) (z r))) c). destruct (dlookup "redshift" c') as [z'|e] eqn:E'.
      + right. exists c', (fun r => fmul (j r) (fadd (Fin 1) (z' r))). intros rows. rewrite table_lookup, E. cbn [rmap bind]. rewrite map_map, bcast_rows. cbn [bind]. rewrite table_set. fold c'. rewrite table_lookup, E'. cbn [rmap bind]. rewrite map_map, into_rows. reflexivity.
      + left. exists e. intros rows. rewrite table_lookup, E. cbn [rmap bind]. rewrite map_map, bcast_rows. cbn [bind]. rewrite table_set. fold c'. now rewrite table_lookup, E'.
    - right. destruct (negb (String.eqb k "luminosity_distance")); [|exists c, j; reflexivity]. exists (dset k f c), j. intros rows. now rewrite table_set. }
  destruct K as [(e & K)|(c1 & j1 & K)].
  - left. exists e. intros rows. cbn [table map convert_keys fst snd]. fold (table data rows). now rewrite K.
  - destruct (IH c1 j1) as [(e & H)|(c' & j' & H)]; [left; exists e|right; exists c', j']; intros rows; cbn [table map convert_keys fst snd]; fold (table data rows); rewrite K; cbn [bind]; apply H.
Qed.

Lemma C128_cosmo_pf :
  forall bk z_at_value m prob kwargs, sample_by_sample (fun dataset => prob dataset kwargs) ->
  sample_by_sample (fun dataset => cosmo_prob bk z_at_value m prob dataset kwargs).
Proof.
  intros bk zv m prob kw HP sample columns. apply describes_rows.
  assert (S : (forall rows, exists e, convert_start zv m (table columns rows) kw = Err e) \/ (exists c j, forall rows : list sample, convert_start zv m (table columns rows) kw = Ok (table c rows, map j rows))).
  { unfold convert_start. destruct (dget "luminosity_distance" columns) as [fd|] eqn:E.
    - destruct (cosmology_of m kw) as [co|e] eqn:EC; [|left; intros rows; exists e; now rewrite table_get, E].
      right. exists [("redshift"%string, fun r => zv (co_dl co) (fd r))], (fun r => co_ddl co (zv (co_dl co) (fd r))). intros rows. rewrite table_get, E. cbn [option_map bind]. now rewrite !map_map.
    - destruct (dget "redshift" columns) as [fz|] eqn:E'.
      + right. exists [], (fun _ => Fin 1). intros rows. rewrite !table_get, E, E'. cbn [option_map]. now rewrite map_map.
      + left. intros rows. exists ValueError. now rewrite !table_get, E, E'. }
  destruct S as [S|(c0 & j0 & S)]; [apply describes_fails; intros rows _; destruct (S rows) as (e & E); exists e; unfold cosmo_prob, detector_frame_to_source_frame; now rewrite E|].
  destruct (keys_rows bk columns c0 j0) as [(e & K)|(c & j & K)]; [apply describes_fails; intros rows _; exists e; unfold cosmo_prob, detector_frame_to_source_frame; rewrite S; cbn [bind]; now rewrite K|].
  exists True, (fun r v => exists y, prob (table c [r]) kw = Ok [y] /\ v = fdiv y (j r)). intros rows ps N. unfold cosmo_prob, detector_frame_to_source_frame. rewrite S. cbn [bind]. rewrite K. cbn [bind].
  pose proof (HP sample c rows) as H. cbv beta in H. rewrite <- (Forall2_step (fun r y => prob (table c [r]) kw = Ok [y]) (fun y r => fdiv y (j r))).
  destruct (prob (table c rows) kw) as [ys|e]; cbn [bind].
  - specialize (H ys N). destruct H as [H _]. specialize (H eq_refl). assert (L : List.length ys = List.length rows) by (clear - H; induction H; simpl; congruence). rewrite into_cols by exact L. split.
    + intros E. injection E as <-. split; [exact I|]. now exists ys.
    + intros (_ & ys' & F & ->). assert (ys' = ys); [|now subst]. clear - F H. revert ys' F. induction H as [|r y rows ys A B IH]; intros ys' F; inversion F as [|? y' ? ys'' A' B']; subst; [reflexivity|]. rewrite A in A'. injection A' as <-. f_equal. now apply IH.
  - split; [discriminate|]. intros (_ & ys' & F & _). apply (H ys' N) in F. discriminate.
Qed.

Section IN.
  Context (bk : backend) (spl : string -> list xf -> list xf -> xf -> xf).
  Definition body ds kw s : result (list xf) :=
    match extract_spline_points s kw with
    | Err e => Err e
    | Ok fx =>
      match (match in_params s with [] => Err IndexError | p :: _ => dlookup p ds end) with
      | Err e => Err e
      | Ok c =>
        match multiply_params bk spl (in_params s) ds (snd fx) (fst fx) (map (fun _ => Fin 1) c) s with
        | (s', Err e) => Err e
        | (s', Ok p_x) => norm <- norm_p_x bk spl s' (fst fx) (snd fx) ;;
                               Ok (map (fun p => fdiv p (fpow norm (of_nat (List.length (in_params s'))))) p_x)
        end
      end
    end.
  Lemma call_body ds kw s : snd (p_x_identical bk spl ds kw s) = match infer_n_nodes kw s with (s', Ok _) => body ds kw s' | (_, Err e) => Err e end.
  Proof.
    unfold p_x_identical, body, sbind, sget, slift, sret. destruct (infer_n_nodes kw s) as [s' [u|e]]; [|reflexivity].
    destruct (extract_spline_points s' kw) as [fx|e]; [|reflexivity].
    destruct (match in_params s' with [] => Err IndexError | p :: _ => dlookup p ds end) as [c|e]; [|reflexivity].
    destruct (multiply_params _ _ _ _ _ _ _ s') as [s'' [px|e]]; [|reflexivity].
    destruct (norm_p_x bk spl s'' (fst fx) (snd fx)); reflexivity.
  Qed.
  Lemma infer_new kw s s' u : in_norm s = None -> infer_n_nodes kw s = (s', Ok u) -> in_norm s' = None.
  Proof.
    intros H. unfold infer_n_nodes. destruct (Nat.eqb _ _); [intros E; now injection E as <- _|].
    destruct (in_class s); cbn [reinit]; unfold spin_magnitude_init, spin_tilt_init, interp_init; intros E; try discriminate; injection E as <- _; reflexivity.
  Qed.
  Definition value (s : interp) x f lohi t : xf := fmul (fexp (spl (in_kind s) (node_scale s x) f (if in_log s then flog t else t))) (in_range lohi t).
  Lemma prod_rows {sample} s x f lohi (col : string -> sample -> xf) rows ps (g : sample -> xf) :
    prod_cols (map (fun p => column spl s x f lohi (map (col p) rows)) ps) (map g rows) = map (fun r => fold_left (fun a p => fmul a (value s x f lohi (col p r))) ps (g r)) rows.
  Proof.
    unfold prod_cols. revert g. induction ps as [|p ps IH]; intros g; [reflexivity|]. cbn [map fold_left]. unfold column at 2. rewrite map_map, zip_rows. rewrite IH. reflexivity.
  Qed.
  Lemma missing {sample} (columns : dict (sample -> xf)) ps : (exists p, In p ps /\ dget p columns = None) \/ (exists col, forall p, In p ps -> dget p columns = Some (col p)).
  Proof.
    destruct (existsb (fun p => match dget p columns with None => true | _ => false end) ps) eqn:E.
    - left. apply existsb_exists in E. destruct E as (p & Hp & E). exists p. split; [exact Hp|]. now destruct (dget p columns).
    - right. exists (fun p => match dget p columns with Some f => f | None => fun _ => Fin 0 end). intros p Hp.
      assert (N := proj1 (existsb_nth_false _ _) E) || idtac. destruct (dget p columns) eqn:G; [reflexivity|]. exfalso.
      assert (existsb (fun p => match dget p columns with None => true | _ => false end) ps = true) by (apply existsb_exists; exists p; now rewrite G). congruence.
  Qed.
  Lemma body_rows {sample} (columns : dict (sample -> xf)) kw s : in_norm s = None -> describes (fun rows => body (table columns rows) kw s).
  Proof.
    intros Hn. unfold body. destruct (extract_spline_points s kw) as [[f x]|e]; [|apply describes_fails; intros rows _; now exists e]. cbn [fst snd].
    destruct (in_params s) as [|p ps] eqn:Ep; [apply describes_fails; intros rows _; now exists IndexError|]. rewrite <- Ep.
    destruct (dlookup p columns) as [fp|e] eqn:E1; [|apply describes_fails; intros rows _; exists e; now rewrite table_lookup, E1].
    destruct (missing columns (in_params s)) as [(q & Hq & E2)|(col & Hc)].
    { apply describes_fails. intros rows _. rewrite table_lookup, E1. cbn [rmap]. rewrite Ep. cbn [multiply_params]. unfold sbind at 1. unfold p_x_unnormed. cbv beta iota delta [sbind sget]. rewrite Hn.
      destruct (setup_err s x (table columns rows) q Hq) as (q' & _ & _ & E); [now rewrite table_get, E2|]. rewrite E. eexists; reflexivity. }
    destruct (ends x) as [lohi|e] eqn:EX.
    2:{ apply describes_fails. intros rows _. rewrite table_lookup, E1. cbn [rmap]. rewrite Ep. cbn [multiply_params]. unfold sbind at 1.
        rewrite (unnormed_fresh bk spl s _ p x f (fun q => map (col q) rows) Hn) by (intros q Hq; rewrite table_get, Hc by exact Hq; reflexivity).
        rewrite unnormed_built by discriminate. cbn [built set_splines in_data]. rewrite (dlookup_ok p _ (mk_spline s x (map (col p) rows))) by (apply (dget_map_key (fun p => mk_spline s x (map (col p) rows))); rewrite Ep; now left).
        cbn [bind]. rewrite table_lookup, E1. cbn [rmap bind]. rewrite EX. cbn [bind]. eexists; reflexivity. }
    apply describes_mapM with (f := fun r => Ok (fdiv (fold_left (fun a p => fmul a (value s x f lohi (col p r))) (in_params s) (Fin 1)) (fpow (trapezoid (column spl s x f lohi (in_xs s)) (in_xs s)) (of_nat (List.length (in_params s)))))).
    intros rows _. rewrite table_lookup, E1. cbn [rmap].
    assert (HC : forall q, In q (in_params s) -> dget q (table columns rows) = Some (map (col q) rows)) by (intros q Hq; rewrite table_get, Hc by exact Hq; reflexivity).
    rewrite (multiply_fresh bk spl s _ x f _ (fun q => map (col q) rows) Hn); [|rewrite Ep; discriminate|exact HC].
    rewrite (multiply_ok bk spl s _ x x _ (table columns rows) f (fun q => map (col q) rows) lohi (List.length rows) (in_params s) _ eq_refl); [|intros q Hq; split; [now apply (dget_map_key (fun p => mk_spline s x (map (col p) rows)))|split; [now apply HC|now rewrite map_length]]|exact EX|now rewrite !map_length].
    rewrite (norm_ok bk spl s x x _ f lohi EX). cbn [bind]. rewrite map_map, prod_rows, map_map. cbn [in_params built set_splines].
    apply mapM_pure.
  Qed.
End IN.

Lemma C128_interpolated_pf :
  forall bk spl s kwargs, in_norm s = None -> sample_by_sample (fun dataset => snd (p_x_identical bk spl dataset kwargs s)).
Proof.
  intros bk spl s kw Hn sample columns. apply describes_rows. destruct (infer_n_nodes kw s) as [s' [u|e]] eqn:E.
  - destruct (body_rows bk spl columns kw s' (infer_new kw s s' u Hn E)) as (P & g & H). exists P, g. intros rows ps N. rewrite call_body, E. now apply H.
  - apply describes_fails. intros rows _. exists e. now rewrite call_body, E.
Qed.

Section IPL.
  Context (bk : backend) (spl : string -> list xf -> list xf -> xf -> xf) (li : list xf -> list xf -> xf -> xf).
  Lemma ipl_rows (s : ipl) K : sm_masses (fst s) = None -> in_norm (snd s) = None -> in_params (snd s) = ["mass_1"%string] ->
    sample_by_sample (fun ds => snd (ipl_call bk spl li ds K s)).
  Proof.
    intros Hm Hn Pa sample columns. apply describes_rows.
    destruct (dlookup "beta" K) as [beta|e] eqn:EB; [|apply describes_fails; intros rows _; exists e; rewrite ipl_call_eq, EB; reflexivity].
    set (k := ddel "beta" K). set (mmin := dget_default "mmin" (sm_mmin (fst s)) k). set (delta := dget_default "delta_m" (Fin 0) k).
    destruct (negb (is_jax bk) && flt mmin (sm_mmin (fst s))) eqn:G1; [apply describes_fails; intros rows _; exists ValueError; rewrite ipl_call_eq, EB; cbv zeta; fold k mmin; now rewrite G1|].
    destruct (negb (is_jax bk) && fgt (dget_default "mmax" (sm_mmax (fst s)) k) (sm_mmax (fst s))) eqn:G2; [apply describes_fails; intros rows _; exists ValueError; rewrite ipl_call_eq, EB; cbv zeta; fold k mmin; now rewrite G1, G2|].
    assert (C : forall ds, snd (ipl_call bk spl li ds K s) = match ipl_p_m1 bk spl ds k s with (s', Err e) => Err e | (s', Ok pm) => pq <- snd (p_q bk li ds beta mmin delta (fst s')) ;; bcast bk fmul pm pq end).
    { intros ds. rewrite ipl_call_eq, EB. cbv zeta. fold k mmin delta. rewrite G1, G2. destruct (ipl_p_m1 _ _ _ _ _) as [s' [pm|e]]; [|reflexivity]. destruct (p_q _ _ _ _ _ _ _) as [t r]. reflexivity. }
    destruct (extract_spline_points (snd s) k) as [[f x]|e] eqn:EE; [|apply describes_fails; intros rows _; exists e; rewrite C; unfold ipl_p_m1; cbv beta iota delta [sbind sget slift]; now rewrite EE].
    destruct (dlookup "mass_1" columns) as [fm|e] eqn:EM; [|apply describes_fails; intros rows _; exists e; rewrite C; unfold ipl_p_m1; cbv beta iota delta [sbind sget slift]; rewrite EE; now rewrite table_lookup, EM].
    assert (EM' : dget "mass_1" columns = Some fm) by (unfold dlookup in EM; destruct (dget "mass_1" columns); [now injection EM as ->|discriminate]).
    set (kd := ddel "delta_m" k).
    destruct (dlookup "alpha" kd) as [al|e] eqn:E1; [|apply describes_fails; intros rows _; exists e; rewrite C; unfold ipl_p_m1; cbv beta iota delta [sbind sget slift]; rewrite EE, table_lookup, EM; cbn [rmap]; fold kd; unfold ipl_powerlaw; now rewrite E1].
    destruct (dlookup "mmin" kd) as [ml|e] eqn:E2; [|apply describes_fails; intros rows _; exists e; rewrite C; unfold ipl_p_m1; cbv beta iota delta [sbind sget slift]; rewrite EE, table_lookup, EM; cbn [rmap]; fold kd; unfold ipl_powerlaw; rewrite E1; cbn [bind]; now rewrite E2].
    destruct (dlookup "mmax" kd) as [mh|e] eqn:E3; [|apply describes_fails; intros rows _; exists e; rewrite C; unfold ipl_p_m1; cbv beta iota delta [sbind sget slift]; rewrite EE, table_lookup, EM; cbn [rmap]; fold kd; unfold ipl_powerlaw; rewrite E1; cbn [bind]; rewrite E2; cbn [bind]; now rewrite E3].
    assert (PW : forall l, ipl_powerlaw bk kd l = mapM (fun m => power_law_mass bk m al ml mh) l) by (intros l; unfold ipl_powerlaw; rewrite E1; cbn [bind]; rewrite E2; cbn [bind]; rewrite E3; reflexivity).
    set (w := fun m => smoothing bk m mmin (sm_mmax (fst s)) delta).
    (* the state after the interpolants have been built for the samples *)
    set (bt := fun rows : list sample => built (snd s) x (map (fun p => (p, mk_spline (snd s) x (map fm rows))) (in_params (snd s)))).
    assert (U : forall rows, p_x_unnormed bk spl (table columns rows) "mass_1" x f (snd s) = (bt rows, lohi <- ends x ;; Ok (column spl (snd s) x f lohi (map fm rows)))).
    { intros rows. rewrite (unnormed_fresh bk spl (snd s) _ "mass_1" x f (fun _ => map fm rows) Hn) by (rewrite Pa; intros p [<-|[]]; rewrite table_get, EM'; reflexivity).
      fold (bt rows). destruct (ends x) as [lohi|e] eqn:EX; cbn [bind].
      - apply (unnormed_ok bk spl (snd s) (bt rows) x x _ (table columns rows) "mass_1" f (map fm rows) lohi eq_refl); [|rewrite table_get, EM'; reflexivity|exact EX].
        apply (dget_map_key (fun p => mk_spline (snd s) x (map fm rows))). rewrite Pa. now left.
      - rewrite unnormed_built by discriminate. f_equal. unfold bt, built. cbn [set_splines in_data]. rewrite (dlookup_ok "mass_1" _ (mk_spline (snd s) x (map fm rows))) by (apply (dget_map_key (fun p => mk_spline (snd s) x (map fm rows))); rewrite Pa; now left).
        cbn [bind]. rewrite table_lookup, EM. cbn [rmap bind]. now rewrite EX. }
    (* the normalisation does not depend on the samples *)
    assert (N : forall rows, ipl_norm_p_m1 bk spl (fst s, bt rows) delta f kd = ipl_norm_p_m1 bk spl (fst s, built (snd s) x []) delta f kd) by (intros rows; reflexivity).
    set (nn := ipl_norm_p_m1 bk spl (fst s, built (snd s) x []) delta f kd) in *.
    assert (PM : forall rows, ipl_p_m1 bk spl (table columns rows) k s =
      match mapM (fun r => power_law_mass bk (fm r) al ml mh) rows with
      | Err e => (s, Err e)
      | Ok ys => ((fst s, bt rows), lohi <- ends x ;; n <- nn ;; Ok (zipWith (fun y r => fdiv (fmul (fmul y (w (fm r))) (value spl (snd s) x f lohi (fm r))) n) ys rows))
      end).
    { intros rows. unfold ipl_p_m1. cbv beta iota delta [sbind sget slift]. rewrite EE, table_lookup, EM. cbn [rmap fst snd]. fold kd delta mmin. rewrite PW, mapM_rows.
      destruct (mapM _ rows) as [ys|e] eqn:EY; [|now destruct s]. assert (L := mapM_length _ _ _ EY). rewrite map_map. fold w. rewrite into_cols by exact L.
      unfold on_snd. rewrite U. destruct (ends x) as [lohi|e]; cbn [bind]; [|reflexivity]. unfold column. rewrite map_map. rewrite into_cols by (rewrite zipWith_length; lia). rewrite zip_zip. fold kd delta. rewrite N. destruct nn as [n|e]; cbn [bind]; [|reflexivity].
      unfold sret. f_equal. f_equal. clear. revert ys. induction rows as [|r rows IH]; intros [|y ys]; try reflexivity. rewrite !zipWith_cons. cbn [map]. f_equal. apply IH. }
    destruct (ends x) as [lohi|e] eqn:EX; [|apply describes_fails; intros rows _; rewrite C, PM; destruct (mapM _ rows); eexists; reflexivity].
    destruct nn as [n|e]; [|apply describes_fails; intros rows _; rewrite C, PM; destruct (mapM _ rows); eexists; reflexivity].
    destruct (dlookup "mass_ratio" columns) as [fq|e] eqn:EQ.
    2:{ apply describes_fails. intros rows _. rewrite C, PM. destruct (mapM _ rows); cbn [bind]; [|eexists; reflexivity]. unfold p_q. cbv beta iota delta [sbind slift]. rewrite table_lookup, EQ. cbn [rmap snd bind]. eexists; reflexivity. }
    assert (EQ' : dget "mass_ratio" columns = Some fq) by (unfold dlookup in EQ; destruct (dget "mass_ratio" columns); [now injection EQ as ->|discriminate]).
    set (h := fun y r => fmul (fdiv (fmul (fmul y (w (fm r))) (value spl (snd s) x f lohi (fm r))) n)
      (nan_to_num (fdiv (qd bk beta mmin delta (fm r) (fq r)) (li (sm_m1s (fst s)) (map (qnorm bk (sm_qs (fst s)) beta mmin delta) (sm_m1s (fst s))) (fm r))))).
    exists True, (fun r p => exists y, power_law_mass bk (fm r) al ml mh = Ok y /\ p = h y r). intros rows ps _. rewrite C, PM.
    rewrite <- (Forall2_step (fun r y => power_law_mass bk (fm r) al ml mh = Ok y) h).
    destruct (mapM _ rows) as [ys|e] eqn:EY; cbn [bind].
    - assert (L := mapM_length _ _ _ EY). cbn [fst].
      rewrite (p_q_cases bk li (table columns rows) beta mmin delta (fst s) (map fm rows) (map fq rows) (map (fun r => qd bk beta mmin delta (fm r) (fq r)) rows)); [|rewrite table_get, EM'; reflexivity|rewrite table_get, EQ'; reflexivity|apply bcast2_rows].
      rewrite Hm. replace (if sm_cache (fst s) then @None (list xf) else None) with (@None (list xf)) by (destruct (sm_cache (fst s)); reflexivity).
      cbn [snd]. unfold fresh_pq, norms_at. rewrite map_map, into_rows. cbn [rmap bind]. rewrite map_map, bcast_cols by (rewrite zipWith_length; lia). rewrite zip_zip. fold h. split.
      + intros E. injection E as <-. split; [exact I|]. exists ys. split; [now apply mapM_Forall2|reflexivity].
      + intros (_ & ys' & F & ->). apply mapM_Forall2 in F. rewrite EY in F. injection F as <-. reflexivity.
    - split; [discriminate|]. intros (_ & ys' & F & _). apply mapM_Forall2 in F. rewrite EY in F. discriminate.
  Qed.
End IPL.

Lemma C128_spline_power_law_pf :
  forall bk spl interp nodes kind mmin mmax shape regularize s kwargs, ipl_init nodes kind mmin mmax shape regularize = Ok s ->
  sample_by_sample (fun dataset => snd (ipl_call bk spl interp dataset kwargs s)).
Proof.
  intros bk spl li nodes kind mmin mmax shape reg s K E. unfold ipl_init in E. destruct (smoothed_init mmin mmax shape true) as [sm|] eqn:ES; [|discriminate]. cbn [bind interp_init] in E. injection E as <-.
  apply ipl_rows; [|reflexivity|reflexivity]. cbn [fst]. unfold smoothed_init in ES. repeat match type of ES with context [if ?b then _ else _] => destruct b; try discriminate end; injection ES as <-; reflexivity.
Qed.

