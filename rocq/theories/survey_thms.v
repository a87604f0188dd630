(** Proofs of the property theorems stated in [Props_survey]. *)
From Coq Require Import Reals Lra Lia Psatz String Bool.
From Coquelicot Require Import Coquelicot.
From Coq Require Import List.
From Verif Require Import Xf Py St Xf_facts Py_facts Calc Spec Utils_model Trap_facts Np Np_facts
  Mass_model Spin_model Smoothed_model Smoothed_facts smoothed_thms SpecSmooth Cosmo_model Redshift_model redshift_thms Vt_model Hyperpe_model SpecHyper Double Double_facts hypera_thms
  Priors_model SpecPrior priors_thms SpecRows rows_thms Example_model SpecExample Cache_model SpecCache cache_thms Survey_model SpecSurvey.
From Verif Require Import hyperd_thms notebook_thms.
Import ListNotations.
Local Open Scope R_scope.
Local Opaque linspace xlinspace.
Lemma run_snoc {S D K A} (call : D -> K -> ST S A) h c s : run call (h ++ [c]) s = fst (call (fst c) (snd c) (run call h s)).
Proof. revert s. induction h as [|x h IH]; intros s; [reflexivity|]. cbn [app run]. apply IH. Qed.
Definition kept {M} (data : dict (list xf)) (f : memory_function M) (m : M) (st : object_state M) : Prop :=
  (exists h, fst st = run (my_call f) (map (fun k => (data, k)) h) m) /\ forall k v, snd st = Some (k, v) -> snd (my_call f data k m) = Ok v.
Lemma object_step {M} cache data (f : memory_function M) m st p : forgets data f m -> kept data f m st ->
  exists st', call_object _ cache f st data p = (snd (my_call f data (given (my_names f) p) m), st') /\ kept data f m st'.
Proof.
  intros F [[h H] K]. unfold call_object. set (kw := given (my_names f) p).
  assert (C : exists st', match my_call f data kw (fst st) with (m', Ok w) => (Ok w, (m', if cache then Some (kw, w) else snd st)) | (m', Err e) => (Err e, (m', snd st)) end = (snd (my_call f data kw m), st') /\ kept data f m st').
  { assert (E := F h kw). rewrite <- H in E. destruct (my_call f data kw (fst st)) as [m' [w|e]] eqn:C; cbn [snd] in E; rewrite <- E; (eexists; split; [reflexivity|]); split.
    - exists (h ++ [kw])%list. rewrite map_app. cbn [map]. rewrite run_snoc. cbn [fst snd]. rewrite <- H, C. reflexivity.
    - cbn [snd]. destruct cache; [|exact K]. intros k v X. injection X as <- <-. now rewrite <- E.
    - exists (h ++ [kw])%list. rewrite map_app. cbn [map]. rewrite run_snoc. cbn [fst snd]. rewrite <- H, C. reflexivity.
    - exact K. }
  destruct (snd st) as [[k w]|] eqn:S; [|exact C]. destruct (cache && same_parameters k kw) eqn:E; [|exact C]. apply andb_prop in E. destruct E as [_ E]. apply same_eq in E. subst k.
  exists st. rewrite (K _ _ eq_refl). split; [reflexivity|]. split; [now exists h|]. rewrite S. exact K.
Qed.
Lemma object_first {M} cache data p (fs : list (memory_function M)) : forall ms sts acc, Forall2 (forgets data) fs ms -> Forall2 (fun fm st => kept data (fst fm) (snd fm) st) (combine fs ms) sts ->
  exists sts', object_prob cache fs sts acc data p = (first_use acc fs ms data p, sts') /\ Forall2 (fun fm st => kept data (fst fm) (snd fm) st) (combine fs ms) sts'.
Proof.
  induction fs as [|f fs IH]; intros ms sts acc F K; inversion F as [|? m ? ms0 F1 F2]; subst; cbn [combine] in K; inversion K as [|? st ? sts0 K1 K2]; subst.
  - exists []. split; [reflexivity|constructor].
  - cbn [object_prob first_use combine]. cbn [fst snd] in K1. destruct (object_step cache data f m st p F1 K1) as (st' & -> & K3). destruct (snd (my_call f data (given (my_names f) p) m)) as [v|e]; cbn [bind].
    + destruct (IH ms0 sts0 (times_list acc (Some v)) F2 K2) as (sts' & -> & K4). exists (st' :: sts'). split; [reflexivity|now constructor].
    + exists (st' :: sts0). split; [reflexivity|now constructor].
Qed.
Lemma unused_kept {M} data (fs : list (memory_function M)) : forall ms, List.length fs = List.length ms -> Forall2 (fun fm st => kept data (fst fm) (snd fm) st) (combine fs ms) (unused ms).
Proof.
  induction fs as [|f fs IH]; intros [|m ms] L; try discriminate; [constructor|]. cbn. constructor; [|apply IH; now injection L]. split; [exists []; reflexivity|discriminate].
Qed.
Lemma C136_memory_pf :
  forall M cache (fs : list (memory_function M)) ms data calls, Forall2 (forgets data) fs ms ->
  object_history cache fs (unused ms) data calls = map (first_use None fs ms data) calls.
Proof.
  intros M cache fs ms data calls F. assert (G : forall sts, Forall2 (fun fm st => kept data (fst fm) (snd fm) st) (combine fs ms) sts -> object_history cache fs sts data calls = map (first_use None fs ms data) calls).
  { induction calls as [|p calls IH]; intros sts K; [reflexivity|]. cbn [object_history map]. destruct (object_first cache data p fs ms sts None F K) as (sts' & -> & K'). now rewrite IH. }
  apply G, unused_kept. exact (f2_len F).
Qed.

Lemma call_cols bk prim skw li ds ds' kw s : dget "mass_1" ds = dget "mass_1" ds' -> dget "mass_ratio" ds = dget "mass_ratio" ds' -> smoothed_call bk prim skw li ds kw s = smoothed_call bk prim skw li ds' kw s.
Proof. intros E1 E2. unfold smoothed_call, p_m1, p_q, dlookup. rewrite E1, E2. reflexivity. Qed.
Lemma prob_cols r ds ds' kw : dget "redshift" ds = dget "redshift" ds' -> probability r ds kw = probability r ds' kw.
Proof. intros E. unfold probability, differential_spacetime_volume, dlookup. rewrite E. reflexivity. Qed.
Lemma value_get k d x : dget k d = Some (Fin x) -> SpecPrior.value k d = x.
Proof. unfold SpecPrior.value. now intros ->. Qed.
Lemma usable_parts bk d : usable_draw bk d -> draw_of bbh_population d /\ (bk = Jax \/ dget "alpha" d <> Some (Fin (-1))) /\ dget "amax_1" d <> Some (Fin 0) /\ dget "amax_2" d <> Some (Fin 0).
Proof.
  intros (D & A & B & C). split; [exact D|]. split; [destruct A as [A|A]; [now left|right]|split]; intros E; apply value_get in E; lra || (rewrite E in *; lra).
Qed.
Section Whole.
  Variables (bk : backend) (li : list xf -> list xf -> xf -> xf) (n nq : nat) (mcache : bool) (s : smoothed) (r : redshift).
  Hypothesis Hs : smoothed_init 2 100 (n, nq) mcache = Ok s.
  Definition mnames := ["alpha"; "mmin"; "mmax"; "lam"; "mpp"; "sigpp"; "beta"; "delta_m"]%string.
  Definition mcall d ms qs := snd (class_call SinglePeak bk li [("mass_1"%string, map Fin ms); ("mass_ratio"%string, map Fin qs)] (given mnames d) s).
  Definition pm d b := match mcall d [m1 b] [ratio b] with Ok [Fin x] => x | _ => 0 end.
  Definition ps d b := val (magnitude_kw bk (Fin (spin1 b)) (Fin (spin2 b)) (given magnitude_args d)).
  Definition pt d b := val (orientation_kw bk (Fin (tilt1 b)) (Fin (tilt2 b)) (given (orientation_args ++ orientation_defaults) d)).
  Definition pz d b := match probability r [("redshift"%string, [Fin (z b)])] (given (fst (Redshift_model.variable_names r)) d) with Ok [Fin x] => x | _ => 0 end.
  Definition fd d b := pm d b * ps d b * pt d b * pz d b.
  Definition good d := usable_draw bk d /\ forall x, 0 < x -> exists v, probability r [("redshift"%string, [Fin x])] (given (fst (Redshift_model.variable_names r)) d) = Ok [Fin v].
  Hypothesis Hn : (11 <= n)%nat.
  Lemma init_masses : sm_masses s = None.
  Proof. unfold smoothed_init in Hs. simpl in Hs. destruct (Nat.ltb n 2); [discriminate|]. destruct (Nat.ltb nq 2); [discriminate|]. now injection Hs as <-. Qed.
  Lemma mass_one d b : good d -> proper b -> mcall d [m1 b] [ratio b] = Ok [Fin (pm d b)].
  Proof.
    intros [U _] P. apply usable_parts in U. destruct U as (D & A & _ & _). unfold pm. destruct (C132_masses_pf bbh_population bk li n nq mcache s d mnames [m1 b] [ratio b] (or_introl eq_refl) D Hs Hn eq_refl A) as (l & E & L); [repeat constructor; apply P|reflexivity|].
    unfold mcall. cbn [map] in *. rewrite E. destruct l as [|x [|? ?]]; try discriminate L. reflexivity.
  Qed.
  Lemma mass_all d l : good d -> l <> [] -> Forall proper l -> mcall d (map m1 l) (map ratio l) = Ok (map (fun b => Fin (pm d b)) l).
  Proof.
    intros G N P. assert (H := C128_smoothed_pf bk (class_primary SinglePeak bk) (class_kwargs SinglePeak) li s (given mnames d) (or_introl init_masses)).
    specialize (H binary [("mass_1"%string, fun b => Fin (m1 b)); ("mass_ratio"%string, fun b => Fin (ratio b))] l (map (fun b => Fin (pm d b)) l) N). cbn [table map fst snd] in H.
    unfold mcall, class_call. rewrite !map_map. apply H. clear H N. induction P as [|b l Pb P IH]; constructor; [|exact IH]. exact (mass_one d b G Pb).
  Qed.
  Lemma pairs_all (f : xf -> xf -> dict xf -> result xf) (g h v : binary -> R) k1 k2 data kw l : dget k1 data = Some (map (fun b => Fin (g b)) l) -> dget k2 data = Some (map (fun b => Fin (h b)) l) ->
    (forall b, f (Fin (g b)) (Fin (h b)) kw = Ok (Fin (v b))) -> pairs_of f k1 k2 data kw = Ok (map (fun b => Fin (v b)) l).
  Proof.
    intros E1 E2 H. unfold pairs_of. rewrite (dlookup_ok _ _ _ E1), (dlookup_ok _ _ _ E2). cbn [bind]. clear E1 E2. induction l as [|b l IH]; [reflexivity|]. cbn [map combine mapM fst snd]. rewrite H. cbn [bind]. rewrite IH. reflexivity.
  Qed.
  Lemma spin_one d b : good d -> magnitude_kw bk (Fin (spin1 b)) (Fin (spin2 b)) (given magnitude_args d) = Ok (Fin (ps d b)) /\
    orientation_kw bk (Fin (tilt1 b)) (Fin (tilt2 b)) (given (orientation_args ++ orientation_defaults) d) = Ok (Fin (pt d b)).
  Proof.
    intros [U _]. apply usable_parts in U. destruct U as (D & _ & A1 & A2). destruct (C132_spins_pf bk d D A1 A2) as [M O]. destruct (M (spin1 b) (spin2 b)) as (v & V & _). destruct (O (tilt1 b) (tilt2 b)) as (w & W & _).
    unfold ps, pt. rewrite V, W. split; reflexivity.
  Qed.
  Lemma z_one d b : good d -> proper b -> probability r [("redshift"%string, [Fin (z b)])] (given (fst (Redshift_model.variable_names r)) d) = Ok [Fin (pz d b)].
  Proof. intros [_ G] (_ & P & _). unfold pz. destruct (G (z b) P) as (v & ->). reflexivity. Qed.
  Lemma z_all d l : good d -> l <> [] -> Forall proper l -> probability r [("redshift"%string, map (fun b => Fin (z b)) l)] (given (fst (Redshift_model.variable_names r)) d) = Ok (map (fun b => Fin (pz d b)) l).
  Proof.
    intros G N P. assert (H := proj1 (C128_redshift_pf r (given (fst (Redshift_model.variable_names r)) d))). specialize (H binary [("redshift"%string, fun b => Fin (z b))] l (map (fun b => Fin (pz d b)) l) N). cbn [table map fst snd] in H.
    apply H. clear H N. induction P as [|b l Pb P IH]; constructor; [|exact IH]. exact (z_one d b G Pb).
  Qed.
  Lemma zip_bin (g h : binary -> R) l : zipWith fmul (map (fun b => Fin (g b)) l) (map (fun b => Fin (h b)) l) = map (fun b => Fin (g b * h b)) l.
  Proof. rewrite zip_rows. apply map_ext. intros b. now rewrite fmul_fin. Qed.
  Lemma survey_first d data l : good d -> l <> [] -> Forall proper l -> (forall k, In k sample_keys -> dget k data = dget k (columns l)) ->
    first_use None (survey_functions bk li r) (survey_memories s) data d = Ok (Some (map (fun b => Fin (fd d b)) l)).
  Proof.
    intros G N P H. unfold survey_functions, survey_memories. cbn [first_use my_names my_call].
    replace (class_call SinglePeak bk li data) with (class_call SinglePeak bk li data) by reflexivity.
    assert (E1 : snd (class_call SinglePeak bk li data (given mnames d) s) = Ok (map (fun b => Fin (pm d b)) l)).
    { rewrite <- (mass_all d l G N P). unfold mcall, class_call. f_equal. apply call_cols; (rewrite H by (cbn; tauto)); cbn; now rewrite map_map. }
    change (match snd (Smoothed_model.variable_names (dkeys (class_kwargs SinglePeak (Fin 100))) (class_object SinglePeak)) with Ok l => l | Err _ => [] end) with mnames. rewrite E1. cbn [bind].
    unfold slift. cbn [snd]. rewrite (pairs_all (magnitude_kw bk) spin1 spin2 (ps d) "a_1" "a_2" data _ l) by first [rewrite H by (cbn; tauto); reflexivity|intros b; apply (spin_one d b G)]. cbn [bind].
    rewrite (pairs_all (orientation_kw bk) tilt1 tilt2 (pt d) "cos_tilt_1" "cos_tilt_2" data _ l) by first [rewrite H by (cbn; tauto); reflexivity|intros b; apply (spin_one d b G)]. cbn [bind].
    rewrite (prob_cols r data [("redshift"%string, map (fun b => Fin (z b)) l)]) by (rewrite H by (cbn; tauto); reflexivity). rewrite z_all by assumption. cbn [bind times_list]. rewrite !zip_bin. reflexivity.
  Qed.
  Lemma survey_forgets data a b : dget "mass_1" data = Some a -> dget "mass_ratio" data = Some b -> List.length b = List.length a -> Forall2 (forgets data) (survey_functions bk li r) (survey_memories s).
  Proof.
    intros E1 E2 L. unfold survey_functions, survey_memories. constructor; [|repeat (constructor; [intros h kw; reflexivity|]); constructor].
    intros h kw. cbn [my_call]. apply (C31_cached_partial_pf bk (class_primary SinglePeak bk) (class_kwargs SinglePeak) li s (map (fun k => (data, k)) h) data kw a b init_masses E1 E2 L).
    intros c m' I E. left. apply in_map_iff in I. destruct I as (k & <- & _). cbn [fst] in E. congruence.
  Qed.
End Whole.
Lemma reshape_concat K (rows : matrix) : Forall (fun x => List.length x = K) rows -> reshape (List.length rows) K (List.concat rows) = rows.
Proof.
  induction 1 as [|x rows H _ IH]; [reflexivity|]. cbn [List.length reshape List.concat]. rewrite firstn_app, skipn_app, H, Nat.sub_diag, <- H, firstn_all, skipn_all. cbn [firstn skipn app]. rewrite app_nil_r. rewrite H, IH. reflexivity.
Qed.
Lemma concat_cols (p : binary -> R) drawn : List.concat (map (map (fun b => Fin (p b))) drawn) = map (fun b => Fin (p b)) (List.concat drawn).
Proof. induction drawn as [|l drawn IH]; [reflexivity|]. cbn [map List.concat]. rewrite map_app, IH. reflexivity. Qed.
(** The arrays of a likelihood built from events. *)
Lemma event_arrays events rows : events <> [] -> Forall (fun e => e <> []) events ->
  (forall i n k, (k <= n)%nat -> List.length (rows i n k) = k /\ NoDup (rows i n k) /\ Forall (fun j => j < n)%nat (rows i n k)) ->
  exists L K drawn, likelihood_init Hyper rows (map posterior events) ModelLike None None PInf = Ok L /\
    Forall (fun e => K <= List.length e)%nat events /\ Exists (fun e => List.length e = K) events /\ Forall2 (some_of K) events drawn /\ (0 < K)%nat /\
    Forall (fun l => List.length l = K) drawn /\ (forall b, In b (List.concat drawn) -> In b (List.concat events)) /\ li_kind L = Hyper /\ li_n L = List.length drawn /\ li_samples L = K /\ li_prior L = Some (map (map (fun b => Fin (sampling b))) drawn) /\
    (forall k, In k sample_keys -> dget k (ravel (li_data L)) = dget k (columns (List.concat drawn))).
Proof.
  intros Hne Hev Hrows. destruct events as [|e0 events]; [congruence|]. clear Hne. set (evs := e0 :: events) in *.
  destruct (C67_resample_pf rows (posterior e0) (map posterior events) None Hrows) as (K & data & idx & RS & KL & _ & KE & KD & ID).
  { intros fr key I J. change (posterior e0 :: map posterior events) with (map posterior evs) in I. apply in_map_iff in I. destruct I as (e & <- & _).
    cbn in J. repeat (destruct J as [<-|J]; [discriminate|]). destruct J. }
  change (posterior e0 :: map posterior events) with (map posterior evs) in *.
  assert (KE' : Exists (fun e => List.length e = K) evs).
  { destruct KE as [KE|(fr & I & E)]; [discriminate|]. apply in_map_iff in I. destruct I as (e & <- & I). apply Exists_exists. exists e. now split. }
  assert (KL' : Forall (fun e => K <= List.length e)%nat evs). { rewrite Forall_map in KL. exact KL. }
  assert (K0 : (0 < K)%nat). { apply Exists_exists in KE'. destruct KE' as (e & I & <-). rewrite Forall_forall in Hev. specialize (Hev e I). destruct e; [congruence|simpl; lia]. }
  set (s0 := {| m1 := 0; ratio := 0; spin1 := 0; spin2 := 0; tilt1 := 0; tilt2 := 0; z := 0; sampling := 0 |}).
  set (draw := fun i => map (fun j => nth j (nth i evs []) s0) (idx i)). set (drawn := map draw (seq 0 (List.length evs))).
  assert (AT : forall i e, nth_error evs i = Some e -> nth i evs [] = e) by (intros i e E; now apply nth_error_nth).
  assert (IDX : forall i e, nth_error evs i = Some e -> List.length (idx i) = K /\ NoDup (idx i) /\ Forall (fun j => j < List.length e)%nat (idx i)).
  { intros i e E. destruct (ID i (posterior e)) as (A & B & C & _); [rewrite nth_error_map, E; reflexivity|]. now repeat split. }
  assert (COL : forall key p, In key (dkeys data) -> (forall l, dget key (columns l) = Some (map (fun s => Fin (p s)) l)) -> dget key data = Some (map (map (fun s => Fin (p s))) drawn)).
  { intros key p I C.
    assert (A : forall i e, nth_error evs i = Some e -> exists array, dget key data = Some array /\ List.length array = List.length evs /\ nth_error array i = Some (map (fun s => Fin (p s)) (draw i))).
    { intros i e E. destruct (ID i (posterior e)) as (_ & _ & D & X); [rewrite nth_error_map, E; reflexivity|]. destruct (X key _ I (C e)) as (a & A1 & A2 & A3). exists a. rewrite map_length in A2. split; [exact A1|]. split; [exact A2|].
      rewrite A3. f_equal. unfold draw. rewrite map_map, (AT _ _ E). apply map_ext_in. intros j J. rewrite Forall_forall in D. specialize (D j J). cbn [posterior fr_len] in D.
      rewrite (nth_indep _ NaN (Fin (p s0))) by now rewrite map_length. apply (map_nth (fun s => Fin (p s))). }
    destruct (A 0%nat e0 eq_refl) as (a & A1 & A2 & _). rewrite A1. f_equal. unfold drawn. rewrite map_map. apply list_at; [rewrite map_length, seq_length; exact A2|].
    intros i Hi. rewrite A2 in Hi. destruct (nth_error evs i) as [e|] eqn:E; [|apply nth_error_None in E; lia]. destruct (A i e E) as (a' & B1 & _ & B3). rewrite A1 in B1. injection B1 as <-. rewrite B3.
    rewrite nth_error_map, nth_error_seq by exact Hi. reflexivity. }
  assert (DR : Forall2 (some_of K) evs drawn).
  { apply Forall2_seq. intros i e E. destruct (IDX i e E) as (A & B & C). exists (idx i). split; [exact A|]. split; [exact B|]. split; [exact C|]. unfold draw. rewrite (AT _ _ E). clear -C.
    induction C as [|j l Hj C IH]; constructor; [now apply nth_error_nth'|exact IH]. }
  assert (KD' : dkeys data = ["mass_1"; "mass_ratio"; "a_1"; "a_2"; "cos_tilt_1"; "cos_tilt_2"; "redshift"; "prior"]%string) by exact KD.
  exists {| li_kind := Hyper; li_data := ddel "prior" data; li_prior := dget "prior" data; li_noise := NaN; li_n := List.length evs; li_samples := K; li_maxu := PInf; li_max_variance := PInf |}, K, drawn.
  split; [unfold likelihood_init; rewrite RS; cbn [bind]; rewrite map_length; reflexivity|]. split; [exact KL'|]. split; [exact KE'|]. split; [exact DR|]. split; [exact K0|].
  split. { clear -DR. induction DR as [|e l evs drawn (ps & A & _ & _ & B) DR IH]; constructor; [rewrite <- (f2_len B); exact A|exact IH]. }
  split. { clear -DR. clearbody drawn evs. induction DR as [|e l evs drawn (ps & _ & _ & _ & B) DR IH]; intros b I; [exact I|]. cbn [List.concat] in *. apply in_app_or in I. apply in_or_app. destruct I as [I|I]; [left|right; now apply IH].
    clear -B I. induction B as [|j x ps l Hj B IH]; [destruct I|]. destruct I as [->|I]; [eapply nth_error_In; eauto|now apply IH]. }
  split; [reflexivity|]. split; [cbn; unfold drawn; now rewrite map_length, seq_length|]. split; [reflexivity|]. split; [cbn; apply (COL "prior"%string sampling); [rewrite KD'; cbn; tauto|reflexivity]|].
  intros k I. cbn [li_data]. unfold ravel. rewrite (dget_map_kv (fun _ m => List.concat m)). cbn [In sample_keys] in I.
  repeat (destruct I as [<-|I]; [rewrite dget_ddel_other by discriminate; erewrite COL; [|rewrite KD'; cbn; tauto|reflexivity]; cbn [option_map]; rewrite concat_cols; reflexivity|]). destruct I.
Qed.
Lemma C136_survey_pf :
  forall bk li n nq mcache cache s r available z_max cosmo_model c (dvc : R -> R) events inj total time rows dvc0 calls,
  smoothed_init 2 100 (n, nq) mcache = Ok s -> (11 <= n)%nat ->
  redshift_init available powerlaw_rate z_max cosmo_model = Ok r -> mx_names (rs_mixin r) = [] -> 1/1000000 < z_max ->
  (forall d, In d calls -> cosmology_of (rs_mixin r) (given (fst (Redshift_model.variable_names r)) d) = Ok c) ->
  (forall z, 0 < z -> co_dvc c (Fin z) = Fin (dvc z)) -> (forall z, 0 < z <= z_max -> 0 < dvc z) ->
  Forall (usable_draw bk) calls -> events <> [] -> Forall (fun e => e <> [] /\ Forall proper e) events -> inj <> [] -> Forall proper inj ->
  (forall i n k, (k <= n)%nat -> List.length (rows i n k) = k /\ NoDup (rows i n k) /\ Forall (fun j => j < n)%nat (rows i n k)) ->
  exists L V K drawn (f : dict xf -> binary -> R),
    likelihood_init Hyper rows (map posterior events) ModelLike None None PInf = Ok L /\
    resampling_init dvc0 [None; None; None; Some r] {| inj_data := columns inj; inj_total := total; inj_time := time |} (of_nat (List.length events)) false true = Ok V /\
    Forall (fun e => K <= List.length e)%nat events /\ Exists (fun e => List.length e = K) events /\ Forall2 (some_of K) events drawn /\
    (forall d b, In d calls -> proper b -> density_is bk li s r d b (f d b)) /\
    let objects := unused (survey_memories s) in
    let results := survey_evaluations bk cache (survey_functions bk li r) (survey_functions bk li r) L V (objects, objects) calls in
    results = map (fun d => log_likelihood_ratio bk (fun _ _ => Ok (map (map (fun b => Fin (f d b))) drawn)) (resampling_call bk (fun _ _ => Ok (map (fun b => Fin (f d b)) inj)) V) Ok L d) calls /\
    Forall (fun result => exists x, result = Ok (Fin x) /\ is_double x /\ - MAXF <= x <= MAXF) results.
Proof.
  intros bk li n nq mcache cache s r av zm cm c dvc events inj total time rows dvc0 calls Hs Hn Hr Hm Hz Hc Hd Hp HU Hne Hev Hi Hinj Hrows.
  destruct (event_arrays events rows Hne) as (L & K & drawn & L1 & L2 & L3 & L4 & L5 & L6 & L7 & L8 & L9 & L10 & L11 & L12); auto. { eapply Forall_impl; [|exact Hev]. now intros e [H _]. }
  assert (exists V, resampling_init dvc0 [None; None; None; Some r] {| inj_data := columns inj; inj_total := total; inj_time := time |} (of_nat (List.length events)) false true = Ok V /\ rv_data V = columns inj /\ rv_marginalize V = false /\ rv_enforce V = true) as (V & V1 & V2 & V3 & V4).
  { eexists. split; [reflexivity|]. repeat split. }
  assert (G : forall d, In d calls -> good bk r d).
  { intros d I. rewrite Forall_forall in HU. split; [now apply HU|]. intros x Hx. destruct (usable_parts bk d (HU d I)) as (D & _).
    destruct (C132_redshifts_pf av zm cm r d c dvc D Hz Hr Hm (Hc d I) Hd Hp) as (Z & _). destruct (Z x Hx) as (v & Z1 & _). now exists v. }
  assert (PD : Forall proper (List.concat drawn)).
  { apply Forall_forall. intros b I. apply L7 in I. apply in_concat in I. destruct I as (e & I1 & I2). rewrite Forall_forall in Hev. destruct (Hev e I1) as [_ P]. rewrite Forall_forall in P. now apply P. }
  assert (DN : drawn <> []). { intros ->. inversion L4; subst. congruence. }
  assert (CN : List.concat drawn <> []). { destruct drawn as [|l dr]; [congruence|]. apply Forall_inv in L6. destruct l; [exfalso; cbn in L6; rewrite <- L6 in L5; inversion L5|discriminate]. }
  exists L, V, K, drawn, (fd bk li s r). split; [exact L1|]. split; [exact V1|]. split; [exact L2|]. split; [exact L3|]. split; [exact L4|]. split.
  { intros d b I P. assert (Gd := G d I). destruct (spin_one bk r d b Gd) as [S1 S2]. exists (pm bk li s d b), (ps bk d b), (pt bk d b), (pz r d b). split; [exact (mass_one bk li n nq mcache s r Hs Hn d b Gd P)|]. split; [exact S1|]. split; [exact S2|]. split; [now apply (z_one bk)|reflexivity]. }
  cbv zeta. set (F := survey_functions bk li r). set (value_at := fun d => log_likelihood_ratio bk (fun _ _ => Ok (map (map (fun b => Fin (fd bk li s r d b))) drawn)) (resampling_call bk (fun _ _ => Ok (map (fun b => Fin (fd bk li s r d b)) inj)) V) Ok L d).
  assert (FE : Forall2 (forgets (ravel (li_data L))) F (survey_memories s)).
  { apply (survey_forgets bk li n nq mcache s r Hs _ (map (fun b => Fin (m1 b)) (List.concat drawn)) (map (fun b => Fin (ratio b)) (List.concat drawn))); [rewrite L12 by (cbn; tauto); reflexivity|rewrite L12 by (cbn; tauto); reflexivity|now rewrite !map_length]. }
  assert (FI : Forall2 (forgets (rv_data V)) F (survey_memories s)).
  { rewrite V2. apply (survey_forgets bk li n nq mcache s r Hs _ (map (fun b => Fin (m1 b)) inj) (map (fun b => Fin (ratio b)) inj)); [reflexivity|reflexivity|now rewrite !map_length]. }
  assert (E : forall se si, Forall2 (fun fm st => kept (ravel (li_data L)) (fst fm) (snd fm) st) (combine F (survey_memories s)) se -> Forall2 (fun fm st => kept (rv_data V) (fst fm) (snd fm) st) (combine F (survey_memories s)) si ->
    survey_evaluations bk cache F F L V (se, si) calls = map value_at calls).
  { assert (G' := G). clear -G' PD CN Hinj Hi FE FI L6 L9 L10 L12 V2 Hs Hn. induction calls as [|d calls IH]; intros se si Ke Ki; [reflexivity|]. cbn [survey_evaluations map]. unfold survey_evaluate. cbn [fst snd].
    assert (Gd := G' d (or_introl eq_refl)).
    destruct (object_first cache (ravel (li_data L)) d F (survey_memories s) se None FE Ke) as (se' & -> & Ke'). assert (FE2 := survey_first bk li n nq mcache s r Hs Hn d _ (List.concat drawn) Gd CN PD L12). fold F in FE2. rewrite FE2.
    destruct (object_first cache (rv_data V) d F (survey_memories s) si None FI Ki) as (si' & -> & Ki'). assert (FI2 : first_use None F (survey_memories s) (rv_data V) d = Ok (Some (map (fun b => Fin (fd bk li s r d b)) inj))) by (apply (survey_first bk li n nq mcache s r Hs Hn d _ inj Gd Hi Hinj); intros; now rewrite V2). rewrite FI2.
    rewrite IH; [|intros d' I; apply G'; now right|assumption|assumption]. f_equal. unfold value_at. cbn [got rmap]. rewrite <- concat_cols, L9, L10. rewrite <- (map_length (map (fun b => Fin (fd bk li s r d b))) drawn), reshape_concat; [reflexivity|].
    apply Forall_map. eapply Forall_impl; [|exact L6]. intros l <-. apply map_length. }
  assert (LF : List.length F = List.length (survey_memories s)) by reflexivity.
  rewrite E by now apply unused_kept. split; [reflexivity|]. apply Forall_map, Forall_forall. intros d I. unfold value_at.
  assert (LL : exists x v, ln_likelihood_and_variance bk (fun _ _ => Ok (map (map (fun b => Fin (fd bk li s r d b))) drawn)) (resampling_call bk (fun _ _ => Ok (map (fun b => Fin (fd bk li s r d b)) inj)) V) Ok L d = Ok (x, v)).
  { unfold ln_likelihood_and_variance, per_event, event_weights, selection_factor, selection_with_uncertainty, resampling_call, detection_efficiency. cbn [bind]. rewrite L11, V3, V2, L8. unfold mdiv.
    assert (SS : forall dr : list (list binary), same_shape (map (map (fun b => Fin (fd bk li s r d b))) dr) (map (map (fun b => Fin (sampling b))) dr) = true).
    { intros dr. unfold same_shape. destruct (list_eq_dec _ _ _) as [_|N]; [reflexivity|]. destruct N. rewrite !map_map. apply map_ext. intros l. now rewrite !map_length. }
    rewrite SS. cbn [bind]. change (dlookup "prior" (columns inj)) with (@Ok (list xf) (map (fun b => Fin (sampling b)) inj)). cbn [bind]. rewrite bcast_rows. cbn [bind]. eexists. eexists. reflexivity. }
  destruct LL as (x & v & LL). destruct (C59_finite_double_pf _ _ _ _ _ _ _ _ LL) as (y & Y1 & Y2 & Y3 & _). now exists y.
Qed.

