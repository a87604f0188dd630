(** Proofs of the property theorems stated in [Props_cosmo]. *)
From Coq Require Import Reals Lra Lia Psatz String Bool Permutation.
From Coquelicot Require Import Coquelicot.
From Coq Require Import List.
From Verif Require Import Xf Py Xf_facts Py_facts Calc Spec Np Cosmo_model Redshift_model SpecCosmo Cosmo_facts.
Import ListNotations.
Local Open Scope R_scope.

Lemma start_dl zav m data p dl c : dget "luminosity_distance" data = Some dl -> cosmology_of m p = Ok c ->
  convert_start zav m data p = Ok ([("redshift"%string, map (zav (co_dl c)) dl)], map (co_ddl c) (map (zav (co_dl c)) dl)).
Proof. intros H C. unfold convert_start. rewrite H, C. reflexivity. Qed.
Lemma zip_map_same (f : xf -> xf -> xf) (g : xf -> xf) (z : list xf) : zipWith f (map g z) z = map (fun x => f (g x) x) z.
Proof. unfold zipWith. induction z; simpl; congruence. Qed.
Lemma times_fin k d a : times k (Fin d) (Fin a) = Fin (d * a ^ k).
Proof. induction k; simpl; [f_equal; ring|]. rewrite IHk, fmul_fin. f_equal. ring. Qed.
Lemma conv_eq bk zav m data p dl c masses : dwf data -> dget "luminosity_distance" data = Some dl -> dget "redshift" data = None -> cosmology_of m p = Ok c ->
  (forall k col, dget k data = Some col -> List.length col = List.length dl) ->
  NoDup masses -> (forall q, In q masses <-> In (detector q) (dkeys data)) -> ~ In "redshift"%string masses ->
  let z := map (zav (co_dl c)) dl in
  detector_frame_to_source_frame bk zav m data p =
    Ok (dupdate (flat_map (assign z) data) [("redshift"%string, z)],
        map (fun x => times (List.length masses) (co_ddl c x) (fadd (Fin 1) x)) z).
Proof.
  intros W HD HR C L N M NR z. unfold detector_frame_to_source_frame. rewrite (start_dl _ _ _ _ _ _ HD C). cbn [bind]. fold z.
  rewrite (loop bk z); [|reflexivity|now rewrite map_length|].
  - do 2 f_equal. rewrite (ndet_masses data masses W N M). apply (zip_map_same (fun j f => times (List.length masses) j (fadd (Fin 1) f))).
  - intros k col H. assert (G := dget_wf_In _ _ _ W H). split; [|split].
    + unfold z. rewrite map_length. now apply (L k).
    + intros ->. congruence.
    + intros ->. apply NR, M. unfold dkeys. change (detector "redshift") with (fst (detector "redshift", col)). now apply in_map.
Qed.

Lemma C47_conversion_pf :
  forall bk z_at_value m data parameters dl cosmo masses,
  dwf data -> dget "luminosity_distance" data = Some dl -> dget "redshift" data = None -> cosmology_of m parameters = Ok cosmo ->
  (forall k col, dget k data = Some col -> List.length col = List.length dl) ->
  NoDup masses -> (forall p, In p masses <-> In (detector p) (dkeys data)) -> ~ In "redshift"%string masses ->
  (forall p, In p masses -> ~ In p (dkeys data)) ->
  let z := map (z_at_value (co_dl cosmo)) dl in
  exists samples jacobian, detector_frame_to_source_frame bk z_at_value m data parameters = Ok (samples, jacobian) /\
    dget "redshift" samples = Some z /\
    (forall p col, dget (detector p) data = Some col -> dget p samples = Some (over_one_plus col z)) /\
    (forall k col, dget k data = Some col -> k <> "luminosity_distance"%string -> (forall p, k <> detector p) -> dget k samples = Some col) /\
    (forall k, In k (dkeys samples) -> k = "redshift"%string \/ In k masses \/
               (In k (dkeys data) /\ k <> "luminosity_distance"%string /\ forall p, k <> detector p)) /\
    jacobian = map (fun x => times (List.length masses) (co_ddl cosmo x) (fadd (Fin 1) x)) z.
Proof.
  intros bk zav m data p dl c masses W HD HR C L N M NR NC z. do 2 eexists. split; [eapply conv_eq; eauto|]. fold z.
  assert (ND : NoDup (map fst (flat_map (assign z) data))). { apply assign_nodup; auto. intros q Hq. apply NC. now apply M. }
  assert (KEY : forall k col, dget k data = Some col -> In k (dkeys data)).
  { intros k col H. apply dget_In in H. unfold dkeys. change k with (fst (k, col)). now apply in_map. }
  split; [|split; [|split; [|split]]]; auto.
  - rewrite dupdate_other; [reflexivity|]. rewrite assign_keys. intros [H|[H _]].
    + apply NR. now apply M.
    + apply dget_None_keys in HR. auto.
  - intros q col H. apply dupdate_in; auto. apply assign_det. now apply dget_In.
  - intros k col H H1 H2. apply dupdate_in; auto. apply assign_pass; auto. now apply dget_In.
  - intros k H. apply dupdate_keys in H. destruct H as [H|[H|[]]]; [|left; auto]. apply assign_keys in H. destruct H as [H|H]; [right; left; now apply M|auto].
Qed.

Lemma C47_jacobian_pf :
  forall bk z_at_value m data parameters dl cosmo masses (z d : list R),
  dwf data -> dget "luminosity_distance" data = Some dl -> dget "redshift" data = None -> cosmology_of m parameters = Ok cosmo ->
  (forall k col, dget k data = Some col -> List.length col = List.length dl) ->
  NoDup masses -> (forall p, In p masses <-> In (detector p) (dkeys data)) -> ~ In "redshift"%string masses ->
  map (z_at_value (co_dl cosmo)) dl = map Fin z -> map (co_ddl cosmo) (map Fin z) = map Fin d ->
  exists samples, detector_frame_to_source_frame bk z_at_value m data parameters =
    Ok (samples, map (fun p => Fin (snd p * (1 + fst p) ^ List.length masses)) (combine z d)).
Proof.
  intros bk zav m data p dl c masses z d W HD HR C L N M NR Z D. eexists. rewrite (conv_eq bk zav m data p dl c masses) by auto. do 2 f_equal.
  rewrite Z. clear - D. revert d D. induction z as [|z0 z IH]; intros [|d0 d] D; simpl in D; try discriminate; [reflexivity|].
  injection D as D0 D. cbn [map combine]. f_equal; [|apply IH; auto]. cbn [fst snd]. rewrite D0, fadd_fin, times_fin. reflexivity.
Qed.

Lemma C47_neither_pf :
  forall bk z_at_value m data parameters, ~ In "luminosity_distance"%string (dkeys data) -> ~ In "redshift"%string (dkeys data) ->
  detector_frame_to_source_frame bk z_at_value m data parameters = Err ValueError /\
  forall prob, cosmo_prob bk z_at_value m prob data parameters = Err ValueError.
Proof.
  intros bk zv m data ps A B. assert (D : forall k, ~ In k (dkeys data) -> dget k data = None).
  { intros k H. destruct (dget k data) eqn:E; [|reflexivity]. exfalso. apply H. apply dget_In in E. apply in_map_iff. now exists (k, l). }
  assert (E : detector_frame_to_source_frame bk zv m data ps = Err ValueError) by (unfold detector_frame_to_source_frame, convert_start; now rewrite (D _ A), (D _ B)).
  split; [exact E|]. intros prob. unfold cosmo_prob. now rewrite E.
Qed.

Lemma C48_key_order_partial_pf :
  forall bk z_at_value m data data' parameters dl cosmo,
  dwf data -> Permutation data data' -> dget "luminosity_distance" data = Some dl -> dget "redshift" data = None ->
  cosmology_of m parameters = Ok cosmo ->
  (forall k col, dget k data = Some col -> List.length col = List.length dl) ->
  ~ In (detector "redshift") (dkeys data) -> (forall p, In (detector p) (dkeys data) -> ~ In p (dkeys data)) ->
  exists samples samples' jacobian,
    detector_frame_to_source_frame bk z_at_value m data parameters = Ok (samples, jacobian) /\
    detector_frame_to_source_frame bk z_at_value m data' parameters = Ok (samples', jacobian) /\
    forall k, dget k samples = dget k samples'.
Proof.
  intros bk zav m data data' p dl c W P HD HR C L NR NC.
  assert (PK : Permutation (dkeys data) (dkeys data')) by (apply Permutation_map; auto).
  assert (W' : dwf data') by (unfold dwf in *; now apply (Permutation_NoDup PK)).
  assert (G : forall k, dget k data = dget k data').
  { intros k. destruct (dget k data) as [v|] eqn:E.
    - symmetry. apply dget_wf_In; auto. apply (Permutation_in _ P). now apply dget_In.
    - symmetry. apply dget_None_keys. apply dget_None_keys in E. intros X. apply E. apply (Permutation_in _ (Permutation_sym PK)). auto. }
  set (masses := map (drop_last 9) (filter (endswith "_detector") (dkeys data))).
  assert (M : forall q, In q masses <-> In (detector q) (dkeys data)).
  { intros q. unfold masses. rewrite in_map_iff. split.
    - intros [k [<- H]]. apply filter_In in H. destruct H as [H1 H2]. now rewrite <- ends_det.
    - intros H. exists (detector q). split; [apply det_drop|]. apply filter_In. split; auto. apply det_ends. }
  assert (N : NoDup masses).
  { unfold masses. clear - W. unfold dwf in W. induction (dkeys data) as [|k l IH]; [constructor|]. inversion W; subst. simpl.
    destruct (endswith "_detector" k) eqn:E; auto. simpl. constructor; auto. intros X. apply in_map_iff in X. destruct X as [k' [E2 H]]. apply filter_In in H.
    destruct H as [H3 H4]. apply H1. rewrite (ends_det _ E), <- E2, <- (ends_det _ H4). auto. }
  assert (M' : forall q, In q masses <-> In (detector q) (dkeys data')).
  { intros q. rewrite M. split; intros H; [apply (Permutation_in _ PK)|apply (Permutation_in _ (Permutation_sym PK))]; auto. }
  assert (NR' : ~ In "redshift"%string masses) by (rewrite M; auto).
  rewrite (conv_eq bk zav m data p dl c masses), (conv_eq bk zav m data' p dl c masses); auto.
  2:{ now rewrite <- G. } 2:{ now rewrite <- G. } 2:{ intros k col H. rewrite <- G in H. eauto. }
  do 3 eexists. split; [reflexivity|]. split; [reflexivity|]. intros k. set (z := map (zav (co_dl c)) dl).
  assert (PA : Permutation (flat_map (assign z) data) (flat_map (assign z) data')) by (now apply Permutation_flat_map).
  assert (ND : NoDup (map fst (flat_map (assign z) data))) by (apply assign_nodup; auto).
  assert (ND' : NoDup (map fst (flat_map (assign z) data'))) by (apply (Permutation_NoDup (Permutation_map fst PA)); auto).
  destruct (in_dec String.string_dec k (map fst (flat_map (assign z) data))) as [I|I].
  - apply in_map_iff in I. destruct I as [[k0 v] [E I]]. cbn [fst] in E. subst k0.
    rewrite (dupdate_in k v) by auto. rewrite (dupdate_in k v); auto. apply (Permutation_in _ PA I).
  - rewrite !dupdate_other; auto. intros X. apply I. apply (Permutation_in _ (Permutation_sym (Permutation_map fst PA))). auto.
Qed.

Lemma loop_pass bk pre samples j : (forall k col, In (k, col) pre -> forall p, k <> detector p) ->
  convert_keys bk pre (samples, j) = Ok (dupdate (flat_map (assign []) pre) samples, j).
Proof.
  revert samples; induction pre as [|[k col] pre IH]; intros samples H; [reflexivity|].
  assert (E := proj2 (ends_false k) (H k col (or_introl eq_refl))).
  cbn [convert_keys convert_key flat_map]. unfold assign at 1. cbn [fst snd]. rewrite E.
  destruct (String.eqb k "luminosity_distance"); cbn [negb bind]; rewrite IH; auto; intros; apply (H k0 col0); simpl; auto.
Qed.
Lemma convert_keys_app bk a b st : convert_keys bk (a ++ b) st = bind (convert_keys bk a st) (convert_keys bk b).
Proof. revert st; induction a as [|x a IH]; intros st; [reflexivity|]. cbn [app convert_keys]. destruct (convert_key bk x st); cbn [bind]; auto. Qed.
Lemma C48_redshift_given_refuted_pf :
  forall bk z_at_value m parameters (pre post : dict (list xf)) p col z,
  let data := (pre ++ (detector p, col) :: post)%list in
  dwf (("redshift"%string, z) :: data) -> dget "luminosity_distance" data = None -> ~ In (detector "redshift") (dkeys data) ->
  (forall k c, In (k, c) pre -> forall q, k <> detector q) ->
  (forall k c, In (k, c) data -> List.length c = List.length z) ->
  detector_frame_to_source_frame bk z_at_value m (data ++ [("redshift"%string, z)]) parameters = Err (KeyError "redshift") /\
  exists r, detector_frame_to_source_frame bk z_at_value m (("redshift"%string, z) :: data) parameters = Ok r.
Proof.
  intros bk zav m pr pre post p col z data W ND NR H L.
  assert (NZ : ~ In "redshift"%string (dkeys data)) by (unfold dwf in W; simpl in W; inversion W; auto).
  assert (G1 : dget "luminosity_distance" (data ++ [("redshift"%string, z)]) = None).
  { apply dget_None_keys. apply dget_None_keys in ND. unfold dkeys in *. rewrite map_app, in_app_iff. simpl. intuition discriminate. }
  assert (G2 : dget "redshift" (data ++ [("redshift"%string, z)]) = Some z).
  { clear - NZ. induction data as [|[k v] d IH]; [reflexivity|]. cbn [app dget dkeys map fst] in *. simpl In in NZ.
    destruct (String.eqb_spec "redshift" k) as [<-|N]; [tauto|]. apply IH; tauto. }
  split.
  - unfold detector_frame_to_source_frame, convert_start. rewrite G1, G2. cbn [bind]. unfold data. rewrite <- app_assoc, convert_keys_app.
    rewrite loop_pass by exact H. cbn [bind app convert_keys convert_key]. rewrite det_ends.
    rewrite dlookup_err; [reflexivity|]. apply dget_None_keys. intros X. apply dupdate_keys in X. destruct X as [X|[]]. apply assign_keys in X.
    apply NZ. unfold data, dkeys. rewrite map_app, in_app_iff. destruct X as [X|[X _]]; [|left; exact X].
    exfalso. unfold dkeys in X. apply in_map_iff in X. destruct X as [[k c] [E X]]. cbn [fst] in E. apply (H k c X "redshift"%string). exact E.
  - unfold detector_frame_to_source_frame, convert_start. cbn [dget]. change (String.eqb "luminosity_distance" "redshift") with false. cbn iota.
    change (String.eqb "redshift" "redshift") with true. cbn iota. rewrite ND. cbn [bind convert_keys convert_key].
    change (endswith "_detector" "redshift") with false. change (negb (String.eqb "redshift" "luminosity_distance")) with true. cbn iota. cbn [bind dset].
    rewrite (loop bk z); [eauto|reflexivity|now rewrite map_length|]. intros k c Hk. split; [now apply (L k)|]. split; intros ->.
    + apply NZ. unfold dkeys. change "redshift"%string with (fst ("redshift"%string, c)). now apply in_map.
    + apply NR. unfold dkeys. change (detector "redshift") with (fst (detector "redshift", c)). now apply in_map.
Qed.

Lemma C48_both_given_refuted_pf :
  forall bk z_at_value m parameters cosmo dl zd zg mass p, cosmology_of m parameters = Ok cosmo ->
  z_at_value (co_dl cosmo) (Fin dl) = Fin zd -> -1 < zd -> -1 < zg -> zd <> zg -> mass <> 0 -> p <> "redshift"%string ->
  let d := ("luminosity_distance"%string, [Fin dl]) in let r := ("redshift"%string, [Fin zg]) in let x := (detector p, [Fin mass]) in
  exists s s' j j' u v, detector_frame_to_source_frame bk z_at_value m [d; r; x] parameters = Ok (s, j) /\
    detector_frame_to_source_frame bk z_at_value m [d; x; r] parameters = Ok (s', j') /\
    dget p s = Some [Fin u] /\ dget p s' = Some [Fin v] /\ u = mass / (1 + zg) /\ v = mass / (1 + zd) /\ u <> v.
Proof.
  intros bk zav m pr c dl zd zg mass p C Z H1 H2 N HM NP d r x.
  assert (ND : forall q, (q <> "redshift" -> detector q <> "redshift")%string).
  { intros q _ E. assert (X := det_ends q). rewrite E in X. discriminate. }
  unfold detector_frame_to_source_frame. rewrite !(start_dl zav m _ pr [Fin dl] c) by (auto; reflexivity). cbn [bind map]. rewrite Z.
  unfold d, r, x. cbn [convert_keys].
  assert (E1 : forall st, convert_key bk ("luminosity_distance"%string, [Fin dl]) st = Ok st) by (intros [s j]; reflexivity).
  assert (E2 : forall s j, convert_key bk ("redshift"%string, [Fin zg]) (s, j) = Ok (dset "redshift" [Fin zg] s, j)) by reflexivity.
  assert (E3 : forall w s j, dget "redshift" s = Some [Fin w] -> -1 < w ->
    convert_key bk (detector p, [Fin mass]) (s, [j]) = Ok (dset p [Fin (mass / (1 + w))] s, [fmul j (Fin (1 + w))])).
  { intros w s j Hw HH. cbn [convert_key]. rewrite det_ends, det_drop, (dlookup_ok _ _ _ Hw). cbn [bind map].
    rewrite bcast_same by reflexivity. cbn [bind]. rewrite fadd_fin.
    assert (ZD : zipWith fdiv [Fin mass] [Fin (1 + w)] = [Fin (mass / (1 + w))]) by (unfold zipWith; cbn [combine map fst snd]; rewrite fdiv_fin by lra; reflexivity).
    rewrite ?ZD. assert (Hw' : dget "redshift" (dset p [Fin (mass / (1 + w))] s) = Some [Fin w]) by (rewrite dget_dset_other; auto).
    cbv zeta. rewrite (dlookup_ok _ _ _ Hw'). cbn [bind map]. rewrite bcast_into_same by reflexivity. cbn [bind]. rewrite ?fadd_fin, ?ZD. reflexivity. }
  rewrite !E1. cbn [bind]. rewrite E2. cbn [bind]. rewrite (E3 zg) by (auto; reflexivity). rewrite (E3 zd) by (auto; reflexivity). cbn [bind]. rewrite E2. cbn [bind].
  do 6 eexists. split; [reflexivity|]. split; [reflexivity|]. split; [apply dget_dset_same|]. split; [rewrite dget_dset_other by auto; apply dget_dset_same|].
  split; [reflexivity|]. split; [reflexivity|]. intros E.
  assert (E' : mass * (1 + zd) = mass * (1 + zg)). { replace (mass * (1 + zd)) with (mass / (1 + zg) * ((1 + zg) * (1 + zd))) by (field; lra). rewrite E. field. lra. }
  apply Rmult_eq_reg_l in E'; auto. lra.
Qed.

Lemma prob_one bk zav m prob kw c D M z j : cosmology_of m kw = Ok c -> zav (co_dl c) (Fin D) = Fin z -> co_ddl c (Fin z) = Fin j -> -1 < z -> j <> 0 ->
  forall v, prob [("redshift"%string, [Fin z]); ("mass_1"%string, [Fin (M / (1 + z))])] kw = Ok [Fin v] ->
  cosmo_prob bk zav m prob [("luminosity_distance"%string, [Fin D]); ("mass_1_detector"%string, [Fin M])] kw = Ok [Fin (v / (j * (1 + z)))].
Proof.
  intros C Z J Hz Hj v P. unfold cosmo_prob, detector_frame_to_source_frame. rewrite (start_dl zav m _ kw [Fin D] c) by (auto; reflexivity). cbn [bind map]. rewrite Z, J.
  cbn [convert_keys]. assert (E1 : forall st, convert_key bk ("luminosity_distance"%string, [Fin D]) st = Ok st) by (intros [s q]; reflexivity). rewrite E1. cbn [bind].
  assert (E3 : convert_key bk ("mass_1_detector"%string, [Fin M]) ([("redshift"%string, [Fin z])], [Fin j]) =
     Ok ([("redshift"%string, [Fin z]); ("mass_1"%string, [Fin (M / (1 + z))])], [Fin (j * (1 + z))])).
  { unfold convert_key. change "mass_1_detector"%string with (detector "mass_1"). rewrite det_ends, det_drop. cbn [dlookup dget String.eqb Ascii.eqb Bool.eqb bind map].
    rewrite fadd_fin, bcast_same by reflexivity. cbn [bind].
    assert (ZD : zipWith fdiv [Fin M] [Fin (1 + z)] = [Fin (M / (1 + z))]) by (unfold zipWith; cbn [combine map fst snd]; rewrite fdiv_fin by lra; reflexivity).
    rewrite ZD. cbv zeta.
    cbn [dset dlookup dget String.eqb Ascii.eqb Bool.eqb bind map]. rewrite fadd_fin, bcast_into_same by reflexivity. cbn [bind]. unfold zipWith. cbn [combine map fst snd]. rewrite fmul_fin. reflexivity. }
  rewrite E3. cbn [bind]. rewrite P. cbn [bind]. rewrite bcast_into_same by reflexivity. unfold zipWith. cbn [combine map fst snd]. rewrite fdiv_fin; [reflexivity|].
  apply Rmult_integral_contrapositive_currified; lra.
Qed.
Lemma scale_int (f : R -> R) a b c v : 0 < c -> is_RInt f a b v -> is_RInt (fun M => f (M / c)) (a * c) (b * c) (c * v).
Proof.
  intros Hc H. assert (X := is_RInt_comp_lin f (/ c) 0 (a * c) (b * c) v).
  replace (/ c * (a * c) + 0) with a in X by (field; lra). replace (/ c * (b * c) + 0) with b in X by (field; lra). specialize (X H).
  apply (is_RInt_scal _ _ _ c) in X. 
  eapply is_RInt_ext; [|exact X]. intros x _. cbv beta. unfold scal; simpl; unfold mult; simpl. replace (/ c * x + 0) with (x / c) by (field; lra). field_simplify; try lra.
Qed.
Lemma C49_mass_integral_pf :
  forall bk z_at_value m prob kwargs cosmo (p : R -> R -> R) D z j a b v,
  cosmology_of m kwargs = Ok cosmo -> z_at_value (co_dl cosmo) (Fin D) = Fin z -> co_ddl cosmo (Fin z) = Fin j -> -1 < z -> 0 < j ->
  (forall samples mass z, dget "mass_1" samples = Some [Fin mass] -> dget "redshift" samples = Some [Fin z] -> prob samples kwargs = Ok [Fin (p mass z)]) ->
  is_RInt (fun mass => p mass z) a b v ->
  exists g, (forall M, cosmo_prob bk z_at_value m prob [("luminosity_distance"%string, [Fin D]); ("mass_1_detector"%string, [Fin M])] kwargs = Ok [Fin (g M)]) /\
            is_RInt g (a * (1 + z)) (b * (1 + z)) (v / j).
Proof.
  intros bk zav m prob kw c p D z j a b v C Z J Hz Hj P H. exists (fun M => p (M / (1 + z)) z / (j * (1 + z))). split.
  - intros M. apply (prob_one bk zav m prob kw c D M z j C Z J Hz ltac:(lra)). apply P; reflexivity.
  - assert (X := scale_int (fun mass => p mass z) a b (1 + z) v ltac:(lra) H). apply (is_RInt_scal _ _ _ (/ (j * (1 + z)))) in X.
    evar_last. { eapply is_RInt_ext; [|exact X]. intros x _. cbv beta. unfold scal; simpl; unfold mult; simpl. unfold Rdiv. ring. }
    unfold scal; simpl; unfold mult; simpl. field. lra.
Qed.

Lemma inverse_continuous (dl zi : R -> R) za zb : (forall x y, za < x < y -> y < zb -> dl x < dl y) ->
  (forall D, dl za < D < dl zb -> za < zi D < zb /\ dl (zi D) = D) -> 
  (forall x, za < x < zb -> dl za < dl x < dl zb) ->
  forall D, dl za < D < dl zb -> continuous zi D.
Proof.
  intros Mono Inv Rng D HD. destruct (Inv D HD) as [B E]. set (z := zi D) in *.
  apply continuity_pt_filterlim. intros eps Heps.
  set (e := Rmin (eps / 2) (Rmin ((z - za) / 2) ((zb - z) / 2))).
  assert (e > 0 /\ e <= eps / 2 /\ e <= (z - za) / 2 /\ e <= (zb - z) / 2).
  { unfold e. repeat split; [repeat apply Rmin_glb_lt; lra|apply Rmin_l| |]; (eapply Rle_trans; [apply Rmin_r|]); [apply Rmin_l|apply Rmin_r]. }
  destruct H as (H1 & H2 & H3 & H4).
  assert (L1 : dl (z - e) < D) by (rewrite <- E; apply Mono; lra). assert (L2 : D < dl (z + e)) by (rewrite <- E; apply Mono; lra).
  assert (R1 : dl za < dl (z - e) < dl zb) by (apply Rng; lra). assert (R2 : dl za < dl (z + e) < dl zb) by (apply Rng; lra).
  exists (Rmin (D - dl (z - e)) (dl (z + e) - D)). split; [apply Rmin_glb_lt; lra|]. intros D' [_ HD']. simpl in *. unfold R_dist in *.
  assert (Q1 := Rmin_l (D - dl (z - e)) (dl (z + e) - D)). assert (Q2 := Rmin_r (D - dl (z - e)) (dl (z + e) - D)). apply Rabs_def2 in HD'.
  destruct (Inv D') as [B' E']; [lra|]. fold z.
  assert (z - e < zi D'). { destruct (Rle_lt_dec (zi D') (z - e)) as [K|K]; auto. destruct K as [K|K]; [assert (X := Mono (zi D') (z - e)); lra|rewrite K in E'; lra]. }
  assert (zi D' < z + e). { destruct (Rle_lt_dec (z + e) (zi D')) as [K|K]; auto. destruct K as [K|K]; [assert (X := Mono (z + e) (zi D')); lra|rewrite <- K in E'; lra]. }
  apply Rabs_def1; lra.
Qed.
Lemma C49_probability_conserved_pf :
  forall bk z_at_value m prob kwargs cosmo (p : R -> R -> R) (dl ddl I : R -> R) za zb z0 z1 a b v,
  cosmology_of m kwargs = Ok cosmo -> -1 <= za -> za < z0 -> z0 <= z1 -> z1 < zb ->
  (forall z, za <= z <= zb -> co_ddl cosmo (Fin z) = Fin (ddl z) /\ is_derive dl z (ddl z) /\ continuous ddl z /\ 0 < ddl z) ->
  (forall D, dl za < D < dl zb -> exists z, z_at_value (co_dl cosmo) (Fin D) = Fin z /\ za < z < zb /\ dl z = D) ->
  (forall samples mass z, dget "mass_1" samples = Some [Fin mass] -> dget "redshift" samples = Some [Fin z] -> prob samples kwargs = Ok [Fin (p mass z)]) ->
  (forall z, za < z < zb -> is_RInt (fun mass => p mass z) a b (I z) /\ continuous I z) -> is_RInt I z0 z1 v ->
  let redshift_of D := match z_at_value (co_dl cosmo) (Fin D) with Fin z => z | _ => 0 end in
  integrates2_to (fun D M => rmap (fun l => hd NaN l) (cosmo_prob bk z_at_value m prob [("luminosity_distance"%string, [Fin D]); ("mass_1_detector"%string, [Fin M])] kwargs))
    (dl z0) (dl z1) (fun D => a * (1 + redshift_of D)) (fun D => b * (1 + redshift_of D)) v.
Proof.
  intros bk zav m prob kw c p dl ddl I za zb z0 z1 a b v C Ha H0 H01 H1 HD Inv P HI Hv zi.
  assert (Mono : forall x y, za <= x < y -> y <= zb -> dl x < dl y).
  { intros x y Hx Hy. destruct (MVT_gen dl x y ddl) as [w [W1 W2]].
    - intros t Ht. rewrite Rmin_left, Rmax_right in Ht by lra. apply HD. lra.
    - intros t Ht. rewrite Rmin_left, Rmax_right in Ht by lra. apply continuity_pt_filterlim. apply (ex_derive_continuous (K := R_AbsRing) (V := R_NormedModule)).
      exists (ddl t). apply HD. lra.
    - rewrite Rmin_left, Rmax_right in W1 by lra. assert (0 < ddl w) by (apply HD; lra). nra. }
  assert (Inv' : forall D, dl za < D < dl zb -> (za < zi D < zb /\ dl (zi D) = D) /\ zav (co_dl c) (Fin D) = Fin (zi D)).
  { intros D H. destruct (Inv D H) as [z [E [B Q]]]. unfold zi. rewrite E. auto. }
  assert (Ziz : forall z, za < z < zb -> zi (dl z) = z).
  { intros z H. assert (dl za < dl z < dl zb) by (split; apply Mono; lra). destruct (Inv' _ H2) as [[B Q] _].
    destruct (Rtotal_order (zi (dl z)) z) as [K|[K|K]]; auto; [assert (X := Mono (zi (dl z)) z)|assert (X := Mono z (zi (dl z)))]; lra. }
  assert (Hdl : forall D, dl z0 <= D <= dl z1 -> dl za < D < dl zb).
  { intros D H. assert (dl za < dl z0) by (apply Mono; lra). assert (dl z1 < dl zb) by (apply Mono; lra). lra. }
  assert (Mono0 : dl z0 <= dl z1) by (destruct H01 as [K|K]; [left; apply Mono; lra|rewrite K; lra]).
  set (G := fun D => I (zi D) / ddl (zi D)).
  exists (fun D M => p (M / (1 + zi D)) (zi D) / (ddl (zi D) * (1 + zi D))), G. split; [|split].
  - intros D M HDD _. destruct (Inv' D) as [[B Q] E]; [apply Hdl; lra|]. unfold returns.
    destruct (HD (zi D)) as (J & _ & _ & JP); [lra|].
    rewrite (prob_one bk zav m prob kw c D M (zi D) (ddl (zi D)) C E J) with (v := p (M / (1 + zi D)) (zi D)); [reflexivity|lra|lra|]. apply P; reflexivity.
  - intros D HDD. destruct (Inv' D) as [[B Q] E]; [apply Hdl; lra|]. destruct (HD (zi D)) as (J & _ & _ & JP); [lra|].
    destruct (HI (zi D) B) as [HI1 _].
    assert (X := scale_int (fun mass => p mass (zi D)) a b (1 + zi D) (I (zi D)) ltac:(lra) HI1). apply (is_RInt_scal _ _ _ (/ (ddl (zi D) * (1 + zi D)))) in X.
    evar_last. { eapply is_RInt_ext; [|exact X]. intros x _. cbv beta. unfold scal; simpl; unfold mult; simpl. unfold Rdiv. ring. }
    unfold scal; simpl; unfold mult; simpl. unfold G. field. lra.
  - assert (CG : forall D, dl z0 <= D <= dl z1 -> continuous G D).
    { intros D H. destruct (Inv' D (Hdl D H)) as [[B Q] E].
      assert (CZ : continuous zi D).
      { apply (inverse_continuous dl zi za zb); [intros; apply Mono; lra|intros D' H'; apply Inv'; auto|intros x Hx; split; apply Mono; lra|auto]. }
      unfold G. apply (continuous_mult (K := R_AbsRing) (fun D => I (zi D)) (fun D => / ddl (zi D))).
      - apply (continuous_comp zi I); auto. apply HI; auto.
      - apply (continuous_comp zi (fun t => / ddl t)); auto. apply continuous_Rinv_comp; [apply HD; lra|]. assert (0 < ddl (zi D)) by (apply HD; lra). lra. }
    assert (S := is_RInt_comp G dl ddl z0 z1).
    assert (SX : is_RInt (fun y => scal (ddl y) (G (dl y))) z0 z1 (RInt G (dl z0) (dl z1))).
    { apply S.
      - intros x Hx. rewrite Rmin_left, Rmax_right in Hx by auto. apply CG.
        split; [destruct (proj1 Hx) as [K|K]; [left; apply Mono; lra|rewrite K; lra]|destruct (proj2 Hx) as [K|K]; [left; apply Mono; lra|rewrite K; lra]].
      - intros x Hx. rewrite Rmin_left, Rmax_right in Hx by auto. destruct (HD x) as (_ & A1 & A2 & _); [lra|]. auto. }
    assert (E : RInt G (dl z0) (dl z1) = v).
    { apply (is_RInt_unique I z0 z1) in Hv. rewrite <- Hv. symmetry. apply is_RInt_unique.
      eapply is_RInt_ext; [|exact SX]. intros y Hy. rewrite Rmin_left, Rmax_right in Hy by auto. cbv beta. unfold scal; simpl; unfold mult; simpl. unfold G.
      rewrite Ziz by lra. assert (0 < ddl y) by (apply HD; lra). field. lra. }
    rewrite <- E. apply (RInt_correct (V := R_CompleteNormedModule)). apply (ex_RInt_continuous (V := R_CompleteNormedModule)).
    intros x Hx. rewrite Rmin_left, Rmax_right in Hx by auto. now apply CG.
Qed.

Lemma vars_cases names p :
  (exists v, mapM (fun k => bind (dlookup k p) (fun v => Ok (k, v))) names = Ok v /\ dkeys v = names /\
     (NoDup names -> forall k, In k names -> dget k v = dget k p) /\ (forall k, In k names -> dmem k p = true)) \/
  (exists k, mapM (fun k => bind (dlookup k p) (fun v => Ok (k, v : xf))) names = Err (KeyError k) /\ In k names /\ dget k p = None).
Proof.
  induction names as [|k l IH]; [left; exists []; split; [reflexivity|split; [reflexivity|split; [intros _|]; intros k []]]|].
  cbn [mapM]. destruct (dget k p) as [x|] eqn:G.
  - rewrite (dlookup_ok _ _ _ G). cbn [bind]. destruct IH as [[v (E & D & H & M)]|[k' (E & D & H)]].
    + left. exists ((k, x) :: v). rewrite E. cbn [bind]. split; [reflexivity|]. split; [simpl; now f_equal|]. split.
      * intros N k0 H0. inversion N; subst. cbn [dget]. destruct (String.eqb_spec k0 k) as [->|NE]; [auto|]. apply H; auto. destruct H0; congruence.
      * intros k0 [->|H0]; [unfold dmem; now rewrite G|auto].
    + right. exists k'. rewrite E. cbn [bind]. split; [reflexivity|]. simpl; auto.
  - right. exists k. rewrite (dlookup_err _ _ G). cbn [bind]. simpl; auto.
Qed.
Lemma names_nodup name : NoDup (names_of name).
Proof.
  unfold names_of. destruct (String.eqb name "FlatwCDM"); [repeat constructor; simpl; intuition discriminate|].
  destruct (String.eqb name "FlatLambdaCDM"); repeat constructor; simpl; intuition discriminate.
Qed.
Lemma C50_cosmology_variables_pf :
  forall available cosmo_model m parameters, mixin_init available cosmo_model = Ok m ->
  let names := match cosmo_model with "FlatwCDM"%string => ["H0"; "Om0"; "w0"]%string | "FlatLambdaCDM"%string => ["H0"; "Om0"]%string | _ => [] end in
  (forall k, In k names -> dmem k parameters = true) /\
    (exists v, cosmology_variables m parameters = Ok v /\ dkeys v = names /\ forall k, In k names -> dget k v = dget k parameters)
  \/ exists k, In k names /\ dget k parameters = None /\ cosmology_variables m parameters = Err (KeyError k).
Proof.
  intros av name m p Hi names.
  assert (NM : names_of name = names).
  { unfold names_of, names. destruct (String.eqb_spec name "FlatwCDM") as [->|N1]; [reflexivity|].
    destruct (String.eqb_spec name "FlatLambdaCDM") as [->|N2]; [reflexivity|].
    repeat match goal with |- context [match ?s with _ => _ end] => is_var s; destruct s; try reflexivity; try congruence end. }
  unfold mixin_init, dlookup in Hi. destruct (dget name av); cbn [bind] in Hi; [|discriminate]. injection Hi as <-. unfold cosmology_variables. cbn [mx_names].
  rewrite <- NM. destruct (vars_cases (names_of name) p) as [[v (E & D & H & M)]|[k (E & D & H)]].
  - left. split; auto. exists v. split; auto. split; auto. apply H, names_nodup.
  - right. exists k. auto.
Qed.

Lemma C50_cosmology_pf :
  forall available cosmo_model m, mixin_init available cosmo_model = Ok m ->
  (forall c, dget cosmo_model available = Some (Instance c) -> forall parameters, cosmology_of m parameters = Ok c) /\
  (forall f, dget cosmo_model available = Some (Class f) -> forall parameters,
     (exists v, dkeys v = mx_names m /\ (forall k, In k (mx_names m) -> dget k v = dget k parameters) /\ cosmology_of m parameters = f v) \/
     (exists k, In k (mx_names m) /\ dget k parameters = None /\ cosmology_of m parameters = Err (KeyError k))) /\
  (forall p p', (forall k, In k (mx_names m) -> dget k p = dget k p') -> cosmology_of m p = cosmology_of m p').
Proof.
  intros av name m Hi. unfold mixin_init, dlookup in Hi. destruct (dget name av) as [e|] eqn:G; cbn [bind] in Hi; [|discriminate]. injection Hi as <-.
  unfold cosmology_of, cosmology_variables. cbn [mx_names mx_cosmo]. split; [|split].
  - intros c Hc p. injection Hc as ->. reflexivity.
  - intros f Hf p. injection Hf as ->. destruct (vars_cases (names_of name) p) as [[v (E & D & H & M)]|[k (E & D & H)]].
    + left. exists v. rewrite E. split; auto. split; auto. apply H, names_nodup.
    + right. exists k. rewrite E. auto.
  - intros p p' H. destruct e as [c|f]; [reflexivity|]. f_equal. revert H. induction (names_of name) as [|k l IH]; intros H; [reflexivity|]. cbn [mapM].
    unfold dlookup at 1 3. rewrite (H k) by (simpl; auto). rewrite IH by (intros; apply H; simpl; auto). reflexivity.
Qed.

