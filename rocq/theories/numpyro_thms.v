(** Proofs of the property theorems stated in [Props_numpyro]. *)
From Coq Require Import Reals ZArith Lra Lia Psatz String Bool.
From Coquelicot Require Import Coquelicot.
From Coq Require Import List.
From Verif Require Import Xf Py Xf_facts Py_facts Np Np_facts Interp_model Interp_facts Vt_model Hyperpe_model Numpyro_model SpecHyper Double Double_facts hypera_thms hyperb_thms hyperc_thms.
Import ListNotations.
Local Open Scope R_scope.

Lemma inf_of_sign_opp a : inf_of_sign (- a) = fopp (inf_of_sign a).
Proof. unfold inf_of_sign, Rltb. repeat destruct Rlt_dec; try reflexivity; exfalso; lra. Qed.
Lemma fopp_inv x : fopp (fopp x) = x.
Proof. destruct x; cbn [fopp]; try reflexivity. f_equal. ring. Qed.
Lemma fmul_opp_l x y : fmul (fopp x) y = fmul x (fopp y).
Proof.
  destruct x as [a| | |], y as [b| | |]; cbn [fopp fmul]; try reflexivity; rewrite ?inf_of_sign_opp, ?fopp_inv; try reflexivity.
  f_equal. ring.
Qed.
Lemma zip_map {A} (f : xf -> xf -> xf) (g h : A -> xf) l : zipWith f (map g l) (map h l) = map (fun a => f (g a) (h a)) l.
Proof. induction l as [|a l IH]; [reflexivity|]. unfold zipWith in *. cbn [map combine fst snd]. f_equal. exact IH. Qed.
Lemma bind_ok {A B} (m : result A) (f : A -> result B) b : bind m f = Ok b -> exists a, m = Ok a /\ f a = Ok b.
Proof. destruct m as [a|]; cbn [bind]; [eauto|discriminate]. Qed.
Lemma model_inv bk prob sp conv choose L v hp vm ap pr fk s : likelihood_model bk prob sp conv choose L v hp vm ap pr fk = Ok s ->
  exists parameters w sel sv rate ps pe, conv hp = Ok parameters /\ event_weights bk prob L parameters = Ok w /\
    (if ap then exists r, selection_block bk sp choose L v parameters pr fk = Ok (sel, sv, r, ps) /\ rate = Some r else sel = Fin 0 /\ sv = Fin 0 /\ rate = None /\ ps = []) /\
    (if pr then mapM (fun event => resample_event choose (li_data L) w event fk) (seq 0 (li_n L)) = Ok pe else pe = []) /\
    nb_ln_bfs s = map (fun e => flog (fmean e)) w /\ nb_variances s = map (event_variance L) w /\ nb_selection s = sel /\ nb_selection_variance s = sv /\ nb_rate s = rate /\
    nb_ln_l s = fadd (fsum (map (fun e => flog (fmean e)) w)) sel /\ nb_variance s = fadd (fsum (map (event_variance L) w)) sv /\ nb_predictive s = (ps ++ List.concat pe)%list /\
    nb_return s = if flt vm PInf then (if (match nb_ln_l s with NaN => true | _ => false end) || flt vm (nb_variance s) then nan_to_num NInf else nb_ln_l s) else nb_ln_l s.
Proof.
  unfold likelihood_model. intros H. apply bind_ok in H. destruct H as (parameters & C & H). apply bind_ok in H. destruct H as (p & P & H). apply bind_ok in H. destruct H as (w & W & H). cbv zeta in H.
  apply bind_ok in H. destruct H as ([[[sel sv] rate] ps] & S & H). apply bind_ok in H. destruct H as (pe & PE & H). injection H as <-. cbn [nb_ln_bfs nb_variances nb_selection nb_selection_variance nb_rate nb_ln_l nb_variance nb_predictive nb_return].
  rewrite zip_map, map_map. exists parameters, w, sel, sv, rate, ps, pe. split; [exact C|]. split; [unfold event_weights; rewrite P; exact W|].
  split. { destruct ap; [|injection S as <- <- <- <-; auto]. apply bind_ok in S. destruct S as ([[[s1 s2] r] p1] & S & E). injection E as <- <- <- <-. eauto. }
  split; [destruct pr; [exact PE|injection PE as <-; reflexivity]|]. repeat split.
Qed.
Lemma block_inv bk sp choose L v p pr fk sel sv r ps : selection_block bk sp choose L v p pr fk = Ok (sel, sv, r, ps) ->
  exists mu var h, detection_efficiency bk sp v p = Ok (mu, var) /\ surveyed_hypervolume v p = Ok h /\ sel = fmul (fopp (of_nat (li_n L))) (flog mu) /\ sv = fmul (fsq (of_nat (li_n L))) (fdiv var (fsq mu)) /\ r = (li_n L, fdiv (Fin 1) (fmul h mu)).
Proof.
  unfold selection_block. intros H. apply bind_ok in H. destruct H as (q & Q & H). apply bind_ok in H. destruct H as (prior & P & H). apply bind_ok in H. destruct H as (w & W & H). cbv zeta in H. apply bind_ok in H. destruct H as (h & Hh & H). apply bind_ok in H. destruct H as (pred & _ & H).
  injection H as <- <- <- <-. unfold detection_efficiency. rewrite Q. cbn [bind]. rewrite P. cbn [bind]. rewrite W. cbn [bind]. cbv zeta. unfold to_number. do 3 eexists. split; [reflexivity|]. split; [exact Hh|]. split; [|split; [apply fmul_comm|reflexivity]].
  rewrite fmul_opp_l. apply fmul_comm.
Qed.
Lemma C76_agrees_pf :
  forall bk prob sel_prob conv choose L v hyper_params varmax resample fit_keys s,
  li_kind L = Hyper -> rv_marginalize v = false -> rv_enforce v = false ->
  likelihood_model bk prob sel_prob conv choose L v hyper_params varmax true resample fit_keys = Ok s ->
  ln_likelihood_and_variance bk prob (resampling_call bk sel_prob v) conv L hyper_params = Ok (nb_ln_l s, nb_variance s) /\
  exists converted, conv hyper_params = Ok converted /\ per_event bk prob L converted = Ok (nb_ln_bfs s, nb_variances s).
Proof.
  intros bk prob sp conv choose L v hp vm pr fk s K MG EN H. apply model_inv in H. destruct H as (p & w & sel & sv & rate & ps & pe & C & W & (r & B & _) & _ & E1 & E2 & _ & _ & _ & E3 & E4 & _).
  apply block_inv in B. destruct B as (mu & var & h & D & _ & -> & -> & _). split.
  - unfold ln_likelihood_and_variance. rewrite C. cbn [bind]. unfold per_event. rewrite W. cbn [bind]. unfold selection_factor, selection_with_uncertainty, resampling_call. rewrite MG, D. cbn [bind]. rewrite EN. cbv zeta. rewrite K. cbn [bind]. now rewrite <- E3, <- E4.
  - exists p. split; [exact C|]. unfold per_event. rewrite W. cbn [bind]. now rewrite E1, E2.
Qed.

Lemma C76_defined_pf :
  forall bk prob sel_prob conv choose L v hyper_params converted varmax fit_keys ln_l variance h,
  li_kind L = Hyper -> rv_marginalize v = false -> rv_enforce v = false -> conv hyper_params = Ok converted -> surveyed_hypervolume v converted = Ok h ->
  ln_likelihood_and_variance bk prob (resampling_call bk sel_prob v) conv L hyper_params = Ok (ln_l, variance) ->
  exists s, likelihood_model bk prob sel_prob conv choose L v hyper_params varmax true false fit_keys = Ok s /\ nb_ln_l s = ln_l /\ nb_variance s = variance.
Proof.
  intros bk prob sp conv choose L v hp p vm fk l var h K MG EN C SV H.
  assert (G : exists s, likelihood_model bk prob sp conv choose L v hp vm true false fk = Ok s).
  { unfold ln_likelihood_and_variance in H. rewrite C in H. cbn [bind] in H. apply bind_ok in H. destruct H as ([lb vs] & PE & H). apply bind_ok in H. destruct H as ([se sev] & SF & _).
    unfold per_event, event_weights in PE. apply bind_ok in PE. destruct PE as (w & W & _). apply bind_ok in W. destruct W as (q & Q & W).
    unfold selection_factor, selection_with_uncertainty, resampling_call in SF. rewrite MG in SF. apply bind_ok in SF. destruct SF as (x & X & _). apply bind_ok in X. destruct X as (y & X & _). apply bind_ok in X. destruct X as ([m u] & D & _).
    unfold detection_efficiency in D. apply bind_ok in D. destruct D as (z & Z & D). apply bind_ok in D. destruct D as (prior & P & D). apply bind_ok in D. destruct D as (iw & IW & _).
    unfold likelihood_model. rewrite C. cbn [bind]. rewrite Q. cbn [bind]. rewrite W. cbn [bind]. cbv zeta. unfold selection_block. rewrite Z. cbn [bind]. rewrite P. cbn [bind]. rewrite IW. cbn [bind]. cbv zeta. rewrite SV. cbn [bind]. eauto. }
  destruct G as [s G]. exists s. split; [exact G|]. destruct (C76_agrees_pf bk prob sp conv choose L v hp vm false fk s K MG EN G) as [A _]. rewrite A in H. injection H as <- <-. auto.
Qed.

Lemma C76_without_selection_pf :
  forall bk prob sel_prob conv choose L v hyper_params varmax resample fit_keys s, li_kind L = Hyper ->
  likelihood_model bk prob sel_prob conv choose L v hyper_params varmax false resample fit_keys = Ok s ->
  ln_likelihood_and_variance bk prob (fun _ => Ok (Value (Fin 1))) conv L hyper_params = Ok (nb_ln_l s, nb_variance s) /\ nb_rate s = None.
Proof.
  intros bk prob sp conv choose L v hp vm pr fk s K H. apply model_inv in H. destruct H as (p & w & sel & sv & rate & ps & pe & C & W & (-> & -> & -> & ->) & _ & _ & _ & _ & _ & R & E3 & E4 & _).
  split; [|exact R]. unfold ln_likelihood_and_variance. rewrite C. cbn [bind]. unfold per_event. rewrite W. cbn [bind]. unfold selection_factor, selection_with_uncertainty. cbn [bind]. rewrite K. cbn [bind]. rewrite E3, E4.
  unfold of_nat. cbn [fopp]. rewrite flog_fin by lra. rewrite fsq_fin, fsq_fin, fdiv_fin by lra. rewrite !fmul_fin, ln_1. do 4 f_equal; field.
Qed.

Lemma C76_returned_pf :
  forall bk prob sel_prob conv choose L v hyper_params varmax apply_selection resample fit_keys s,
  likelihood_model bk prob sel_prob conv choose L v hyper_params varmax apply_selection resample fit_keys = Ok s ->
  (varmax = PInf -> nb_return s = nb_ln_l s) /\
  (forall m, varmax = Fin m -> nb_ln_l s = NaN \/ nb_variance s = PInf \/ (exists x, nb_variance s = Fin x /\ m < x) -> nb_return s = Fin (- MAXF)) /\
  (forall m, varmax = Fin m -> nb_ln_l s <> NaN -> nb_variance s = NInf \/ nb_variance s = NaN \/ (exists x, nb_variance s = Fin x /\ x <= m) -> nb_return s = nb_ln_l s).
Proof.
  intros bk prob sp conv choose L v hp vm ap pr fk s H. apply model_inv in H. destruct H as (p & w & sel & sv & rate & ps & pe & _ & _ & _ & _ & _ & _ & _ & _ & _ & _ & _ & _ & E). rewrite E. split; [intros ->; reflexivity|]. split.
  - intros m -> H. replace (flt (Fin m) PInf) with true by reflexivity. destruct H as [-> |[-> |(x & -> & X)]]; [reflexivity| |].
    + replace (flt (Fin m) PInf) with true by reflexivity. rewrite orb_true_r. reflexivity.
    + rewrite flt_fin, Rltb_true by auto. rewrite orb_true_r. reflexivity.
  - intros m -> N H. replace (flt (Fin m) PInf) with true by reflexivity. replace (match nb_ln_l s with NaN => true | _ => false end) with false by (destruct (nb_ln_l s); congruence). cbn [orb].
    destruct H as [-> |[-> |(x & -> & X)]]; [reflexivity|reflexivity|]. rewrite flt_fin, Rltb_false by lra. reflexivity.
Qed.

Lemma C76_nan_default_refuted_pf :
  forall bk prob sel_prob conv choose L v hyper_params resample fit_keys s, li_kind L = Hyper -> rv_marginalize v = false -> rv_enforce v = false ->
  likelihood_model bk prob sel_prob conv choose L v hyper_params PInf true resample fit_keys = Ok s -> nb_ln_l s = NaN ->
  nb_return s = NaN /\ log_likelihood_ratio bk prob (resampling_call bk sel_prob v) conv L hyper_params = Ok (Fin (- MAXF)).
Proof.
  intros bk prob sp conv choose L v hp pr fk s K MG EN H N. split; [rewrite <- N; apply (C76_returned_pf _ _ _ _ _ _ _ _ _ _ _ _ _ H); reflexivity|].
  destruct (C76_agrees_pf _ _ _ _ _ _ _ _ _ _ _ _ K MG EN H) as [A _]. rewrite N in A. destruct (C59_finite_double_pf _ _ _ _ _ _ _ _ A) as (r & E & _ & _ & _ & Q). rewrite E, Q by auto. reflexivity.
Qed.

Lemma C89_convergence_refuted_pf :
  forall bk prob sel_prob conv choose L v hyper_params converted resample fit_keys s mu var,
  li_kind L = Hyper -> (0 < li_n L)%nat -> rv_marginalize v = false -> rv_enforce v = true -> conv hyper_params = Ok converted ->
  detection_efficiency bk sel_prob v converted = Ok (mu, var) -> fst (check_convergence v mu var) = false ->
  likelihood_model bk prob sel_prob conv choose L v hyper_params PInf true resample fit_keys = Ok s ->
  log_likelihood_ratio bk prob (resampling_call bk sel_prob v) conv L hyper_params = Ok (Fin (- MAXF)) /\
  nb_return s = fadd (fsum (nb_ln_bfs s)) (fmul (fopp (of_nat (li_n L))) (flog mu)).
Proof.
  intros bk prob sp conv choose L v hp p pr fk s mu var K N MG EN C D NC H. assert (H' := H). apply model_inv in H'. destruct H' as (p' & w & sel & sv & rate & ps & pe & C' & W & (r & B & _) & _ & E1 & E2 & _ & _ & _ & E3 & _). rewrite C in C'. injection C' as <-.
  apply block_inv in B. destruct B as (mu' & var' & h & D' & _ & -> & _). rewrite D in D'. injection D' as <- <-. split.
  - apply (C54_unconverged_rejected_pf bk prob sp v conv L hp p (nb_ln_bfs s) (nb_variances s) mu var (ValueAndVariance (fadd mu (snd (check_convergence v mu var))) var)); auto; [congruence| | |].
    + unfold per_event. rewrite W. cbn [bind]. now rewrite E1, E2.
    + rewrite K. discriminate.
    + unfold resampling_call. rewrite MG, D. cbn [bind]. now rewrite EN.
  - rewrite (proj1 (C76_returned_pf _ _ _ _ _ _ _ _ _ _ _ _ _ H) eq_refl), E3, E1. reflexivity.
Qed.

Lemma C89_settings_ignored_refuted_pf :
  forall bk prob sel_prob conv choose L v v' hyper_params varmax apply_selection resample fit_keys,
  rv_data v = rv_data v' -> rv_total v = rv_total v' -> rv_time v = rv_time v' -> rv_redshift v = rv_redshift v' -> rv_volume v = rv_volume v' ->
  likelihood_model bk prob sel_prob conv choose L v hyper_params varmax apply_selection resample fit_keys = likelihood_model bk prob sel_prob conv choose L v' hyper_params varmax apply_selection resample fit_keys.
Proof.
  intros bk prob sp conv choose L v v' hp vm ap pr fk A B C D E. unfold likelihood_model, selection_block, surveyed_hypervolume. now rewrite A, B, C, D, E.
Qed.

Lemma mapM_in {A B} (f : A -> result B) l bs a : mapM f l = Ok bs -> In a l -> exists b, f a = Ok b /\ In b bs.
Proof.
  revert bs. induction l as [|x l IH]; intros bs H I; [destruct I|]. cbn [mapM] in H. apply bind_ok in H. destruct H as (b & B0 & H). apply bind_ok in H. destruct H as (bs' & BS & H). injection H as <-.
  destruct I as [->|I]; [exists b; split; [exact B0|now left]|]. destruct (IH bs' BS I) as (b' & X & Y). exists b'. split; [exact X|now right].
Qed.
Lemma ew_length bk prob L p P w : prob (li_data L) p = Ok P -> event_weights bk prob L p = Ok w -> List.length w = List.length P.
Proof.
  intros HP H. unfold event_weights in H. rewrite HP in H. cbn [bind] in H. unfold mdiv in H. destruct (li_prior L) as [q|]; [|injection H as <-; apply map_length].
  destruct (same_shape P q) eqn:S; [|discriminate]. injection H as <-. unfold same_shape in S. destruct list_eq_dec as [E|]; [|discriminate]. apply (f_equal (@List.length nat)) in E. rewrite !map_length in E. unfold zipWith at 1. rewrite map_length, combine_length, E. apply Nat.min_id.
Qed.
Lemma C77_first_samples_refuted_pf :
  forall bk prob sel_prob conv choose L v hyper_params varmax apply_selection s converted P,
  conv hyper_params = Ok converted -> prob (li_data L) converted = Ok P -> List.length P = li_n L -> (0 < li_n L)%nat ->
  (forall key p, p <> [] -> exists j, choose key p 1%nat = [j] /\ (j < List.length p)%nat) ->
  likelihood_model bk prob sel_prob conv choose L v hyper_params varmax apply_selection true None = Ok s ->
  exists drawn w, event_weights bk prob L converted = Ok w /\
  forall i key array, (i < li_n L)%nat -> dget key (li_data L) = Some array -> In key (dkeys (li_data L)) ->
    (drawn i < li_n L)%nat /\
    In (String.append key (String.append "_" (str_nat i)), [nth (Nat.min (drawn i) (List.length (nth i array []) - 1)) (nth i array []) NaN]) (nb_predictive s) /\
    choose 0%nat (normalised (map (fun row => nth (Nat.min i (List.length row - 1)) row NaN) w)) 1%nat = [drawn i].
Proof.
  intros bk prob sp conv choose L v hp vm ap s p P C HP LP N CH H. apply model_inv in H. destruct H as (p' & w & sel & sv & rate & ps & pe & C' & W & _ & PE & _ & _ & _ & _ & _ & _ & _ & E & _). rewrite C in C'. injection C' as <-.
  assert (LW : List.length w = li_n L) by (rewrite <- LP; exact (ew_length _ _ _ _ _ _ HP W)).
  exists (fun i => hd 0%nat (choose 0%nat (normalised (column w i)) 1%nat)), w. split; [exact W|]. intros i key array I D K.
  destruct (CH 0%nat (normalised (column w i))) as (j & J & JL). { unfold normalised, column. destruct w; [cbn in LW; lia|discriminate]. }
  rewrite J. cbn [hd]. unfold normalised, column in JL. rewrite !map_length, LW in JL. split; [exact JL|]. split; [|exact J].
  rewrite E. apply in_or_app. right. destruct (mapM_in _ _ _ i PE) as (sites & S1 & S2). { apply in_seq. lia. }
  apply in_concat. exists sites. split; [exact S2|]. unfold resample_event in S1. rewrite J in S1. destruct (mapM_in _ _ _ key S1 K) as (b & B1 & B2). rewrite (dlookup_ok _ _ _ D) in B1. cbn [bind map] in B1. injection B1 as <-. exact B2.
Qed.

Lemma C77_own_weights_refuted_pf :
  forall choose data (w w' : matrix) i fit_keys, List.length w = List.length w' ->
  (forall k, (k < List.length w)%nat -> (i < List.length (nth k w []))%nat /\ (i < List.length (nth k w' []))%nat /\ nth i (nth k w []) NaN = nth i (nth k w' []) NaN) ->
  resample_event choose data w i fit_keys = resample_event choose data w' i fit_keys.
Proof.
  intros choose data w w' i fk E H. assert (Q : column w i = column w' i).
  { revert w' E H. induction w as [|r w IH]; intros w' E H; destruct w' as [|r' w']; try discriminate; [reflexivity|]. unfold column in *. cbn [map]. destruct (H 0%nat) as (A & B & D); [cbn; lia|]. cbn [nth] in A, B, D. f_equal.
    - unfold jget. rewrite !Nat.min_l by lia. exact D.
    - apply IH; [now injection E|]. intros k K. apply (H (S k)). cbn. lia. }
  unfold resample_event. now rewrite Q.
Qed.

Lemma C86_rate_refuted_pf :
  forall bk prob sel_prob conv choose L v parameters varmax resample fit_keys s e var h draw g,
  li_kind L = Hyper -> conv parameters = Ok parameters ->
  detection_efficiency bk sel_prob v parameters = Ok (Fin e, var) -> surveyed_hypervolume v parameters = Ok (Fin h) -> 0 < e -> 0 < h ->
  draw (li_n L) = Fin g -> 0 < g ->
  likelihood_model bk prob sel_prob conv choose L v parameters varmax true resample fit_keys = Ok s ->
  exists site, nb_rate s = Some site /\ gamma_site draw site = Fin (g * (e * h)) /\
    generate_rate_posterior_sample (resampling_call bk sel_prob v) (Some {| vm_efficiency := detection_efficiency bk sel_prob v; vm_hypervolume := surveyed_hypervolume v |}) (draw (li_n L)) L parameters = Ok (Fin (g / (e * h))) /\
    (g * (e * h) = g / (e * h) <-> e * h = 1).
Proof.
  intros bk prob sp conv choose L v p vm pr fk s e var h draw g K C D SV E0 H0 DR G H. apply model_inv in H. destruct H as (p' & w & sel & sv & rate & ps & pe & C' & W & (r & B & ->) & _ & _ & _ & _ & _ & R & _). rewrite C in C'. injection C' as <-.
  apply block_inv in B. destruct B as (mu & var' & h' & D' & SV' & _ & _ & ->). rewrite D in D'. injection D' as <- <-. rewrite SV in SV'. injection SV' as <-.
  assert (P : 0 < e * h) by now apply Rmult_lt_0_compat. exists (li_n L, fdiv (Fin 1) (fmul (Fin h) (Fin e))). split; [exact R|]. split; [|split].
  - unfold gamma_site. cbn [fst snd]. rewrite DR, fmul_fin, fdiv_fin by nra. rewrite fdiv_fin. { f_equal. field. split; lra. } apply Rgt_not_eq. apply Rdiv_lt_0_compat; nra.
  - unfold generate_rate_posterior_sample. rewrite K. cbn [vm_efficiency vm_hypervolume]. rewrite D. cbn [bind]. rewrite SV. cbn [bind]. rewrite DR, fmul_fin, fdiv_fin by lra. reflexivity.
  - split; [|intros ->; field]. intros Q. assert (Q' : e * h * (e * h) = 1). { apply (Rmult_eq_reg_l g); [|lra]. replace (g * (e * h * (e * h))) with (g * (e * h) * (e * h)) by ring. rewrite Q. field. split; lra. }
    assert (F : (e * h - 1) * (e * h + 1) = 0) by lra. apply Rmult_integral in F. destruct F; lra.
Qed.

Lemma normalised_scale c (x : list R) : 0 < c -> 0 < Rsum x -> normalised (map Fin (map (Rmult c) x)) = normalised (map Fin x).
Proof.
  intros C S. unfold normalised. rewrite !fsum_map_fin. assert (E : Rsum (map (Rmult c) x) = c * Rsum x). { clear. induction x as [|a x IH]; unfold Rsum in *; cbn [map fold_right]; [ring|]. rewrite IH. ring. }
  rewrite E, !map_map. apply map_ext. intros a. rewrite !fdiv_fin by nra. f_equal. field. split; lra.
Qed.
Lemma C87_same_draw_refuted_pf :
  forall choose (data data' : dict matrix) (w w' : matrix) i i' (x : list R) c sites sites', 0 < c -> 0 < Rsum x ->
  map (fun row => nth (Nat.min i (List.length row - 1)) row NaN) w = map Fin x ->
  map (fun row => nth (Nat.min i' (List.length row - 1)) row NaN) w' = map Fin (map (Rmult c) x) ->
  resample_event choose data w i None = Ok sites -> resample_event choose data' w' i' None = Ok sites' ->
  exists idx, (forall key array, In key (dkeys data) -> dget key data = Some array ->
      In (String.append key (String.append "_" (str_nat i)), map (fun j => nth (Nat.min j (List.length (nth i array []) - 1)) (nth i array []) NaN) idx) sites) /\
    (forall key array, In key (dkeys data') -> dget key data' = Some array ->
      In (String.append key (String.append "_" (str_nat i')), map (fun j => nth (Nat.min j (List.length (nth i' array []) - 1)) (nth i' array []) NaN) idx) sites').
Proof.
  intros choose d d' w w' i i' x c s s' C S E E' H H'. exists (choose 0%nat (normalised (map Fin x)) 1%nat). unfold resample_event in H, H'. change (column w i = map Fin x) in E. change (column w' i' = map Fin (map (Rmult c) x)) in E'. rewrite E in H. rewrite E', normalised_scale in H' by auto. split.
  - intros key array K D. destruct (mapM_in _ _ _ key H K) as (b & B1 & B2). rewrite (dlookup_ok _ _ _ D) in B1. cbn [bind] in B1. injection B1 as <-. exact B2.
  - intros key array K D. destruct (mapM_in _ _ _ key H' K) as (b & B1 & B2). rewrite (dlookup_ok _ _ _ D) in B1. cbn [bind] in B1. injection B1 as <-. exact B2.
Qed.

Lemma C78_agrees_pf :
  (forall ratio parameters, (forall x, ratio parameters = Ok (Fin x) -> jitted_ratio (jitted_default ratio) [] parameters = Ok (Fin x)) /\
     (forall e, ratio parameters = Err e -> jitted_ratio (jitted_default ratio) [] parameters = Err e)) /\
  (forall func kwargs parameters y, jitted_ratio func kwargs parameters = Ok y -> exists r, y = Fin r) /\
  (forall bk prob sel conv L parameters, jitted_ratio (jitted_default (log_likelihood_ratio bk prob sel conv L)) [] parameters = log_likelihood_ratio bk prob sel conv L parameters).
Proof.
  split; [|split].
  - intros ratio p. split; intros x H; unfold jitted_ratio, jitted_default; rewrite H; reflexivity.
  - intros func kw p y H. unfold jitted_ratio in H. apply bind_ok in H. destruct H as (x & _ & H). injection H as <-. unfold nan_to_num. destruct x; cbn [nan_to_num_nan]; eauto.
  - intros bk prob sel conv L p. unfold jitted_ratio, jitted_default. destruct (log_likelihood_ratio bk prob sel conv L p) as [x|e] eqn:E; [|reflexivity]. cbn [bind].
    assert (E' := E). unfold log_likelihood_ratio in E'. apply bind_ok in E'. destruct E' as ([l v] & LL & _). destruct (C59_finite_double_pf _ _ _ _ _ _ _ _ LL) as (r & R & _). rewrite R in E. injection E as <-. reflexivity.
Qed.

Lemma C78_keyword_refuted_pf :
  forall ratio k v kwargs parameters, jitted_ratio (jitted_default ratio) ((k, v) :: kwargs) parameters = Err TypeError.
Proof. reflexivity. Qed.

Lemma C78_full_likelihood_refuted_pf :
  forall bk prob sel conv L kwargs parameters l, li_noise L = NaN -> log_likelihood_ratio bk prob sel conv L parameters = Ok l ->
  jitted_ratio (fun p _ => log_likelihood bk prob sel conv L p) kwargs parameters = Ok (Fin 0).
Proof. intros bk prob sel conv L kw p l N H. unfold jitted_ratio, log_likelihood. rewrite H. cbn [bind]. unfold noise_log_likelihood. rewrite N. reflexivity. Qed.

Lemma lookup_self {V} (k w f : V) class fuel : lookup_attr (S fuel) (jitted_instance k w f) class "_likelihood" = Own w.
Proof. reflexivity. Qed.
Lemma C90_delegation_refuted_pf :
  forall (V : Type) (kwargs wrapped func : V) class name fuel, (1 < fuel)%nat ->
  (lookup_attr fuel (jitted_instance kwargs wrapped func) class name = Wrapped name <-> ~ In name ["kwargs"; "_likelihood"; "likelihood_func"]%string /\ ~ In name class) /\
  (In "log_likelihood"%string class -> lookup_attr fuel (jitted_instance kwargs wrapped func) class "log_likelihood" = OfClass "log_likelihood") /\
  (In "noise_log_likelihood"%string class -> lookup_attr fuel (jitted_instance kwargs wrapped func) class "noise_log_likelihood" = OfClass "noise_log_likelihood").
Proof.
  intros V k w f class name fuel F. destruct fuel as [|[|fuel]]; [lia|lia|].
  assert (IE : forall n, existsb (String.eqb n) class = true <-> In n class). { intros n. rewrite existsb_exists. split; [intros (x & I & E); apply String.eqb_eq in E; now subst|]. intros I. exists n. split; [auto|apply String.eqb_refl]. }
  split; [|split].
  - cbn [lookup_attr]. unfold jitted_instance at 1. cbn [dget]. destruct (String.eqb_spec name "kwargs") as [->|N1]; [split; [discriminate|intros [A _]; exfalso; apply A; now left]|].
    destruct (String.eqb_spec name "_likelihood") as [->|N2]; [split; [discriminate|intros [A _]; exfalso; apply A; right; now left]|].
    destruct (String.eqb_spec name "likelihood_func") as [->|N3]; [split; [discriminate|intros [A _]; exfalso; apply A; right; right; now left]|].
    destruct (existsb (String.eqb name) class) eqn:E.
    + split; [discriminate|]. intros [_ A]. exfalso. apply A. now apply IE.
    + split; [|reflexivity]. intros _. split; [intros [A|[A|[A|[]]]]; congruence|]. intros A. apply IE in A. congruence.
  - intros I. apply IE in I. cbn [lookup_attr jitted_instance dget]. rewrite I. reflexivity.
  - intros I. apply IE in I. cbn [lookup_attr jitted_instance dget]. rewrite I. reflexivity.
Qed.

Lemma C91_copy_refuted_pf :
  forall (V : Type) class fuel name, ~ In "_likelihood"%string class -> ~ In name class -> lookup_attr fuel (@nil (string * V)) class name = RecursionError.
Proof.
  intros V class fuel. assert (IE : forall n, ~ In n class -> existsb (String.eqb n) class = false). { intros n N. apply not_true_iff_false. rewrite existsb_exists. intros (x & I & E). apply String.eqb_eq in E. subst. auto. }
  induction fuel as [|fuel IH]; intros name A B; [reflexivity|]. cbn [lookup_attr dget]. rewrite (IE name B), (IH "_likelihood"%string A A). reflexivity.
Qed.

