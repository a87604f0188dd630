(** Proofs of the property theorems stated in [Props_npinj]. *)
From Coq Require Import Reals ZArith Lra Lia Psatz String Bool.
From Coquelicot Require Import Coquelicot.
From Coq Require Import List.
From Verif Require Import Xf Py Xf_facts Py_facts Np Np_facts Interp_model Interp_facts Vt_model Hyperpe_model Numpyro_model SpecHyper Double Double_facts hypera_thms hyperb_thms hyperc_thms hyperd_thms numpyro_thms.
Import ListNotations.
Local Open Scope R_scope.
Lemma C120_injections_pf :
  forall bk prob sel_prob conv choose L v hyper_params varmax fit_keys s converted P prior W,
  conv hyper_params = Ok converted -> sel_prob (rv_data v) converted = Ok P -> dget "prior" (rv_data v) = Some prior -> bcast bk fdiv P prior = Ok W ->
  (forall key p n, (n <= List.length p)%nat -> List.length (choose key p n) = n /\ NoDup (choose key p n) /\ Forall (fun j => (j < List.length p)%nat) (choose key p n)) ->
  likelihood_model bk prob sel_prob conv choose L v hyper_params varmax true true fit_keys = Ok s ->
  exists drawn, drawn = choose 0%nat (map (fun w => fdiv w (fsum W)) W) (li_n L) /\ List.length drawn = li_n L /\ NoDup drawn /\
  forall key array, In key (match fit_keys with Some keys => keys | None => dkeys (rv_data v) end) -> dget key (rv_data v) = Some array -> List.length array = List.length W ->
    In (String.append key "_injections", map (fun j => nth j array NaN) drawn) (nb_predictive s).
Proof.
  intros bk prob sp conv choose L v hp vm fk s p P prior W C HP HQ HW CH H. apply model_inv in H.
  destruct H as (p' & w & sel & sv & rate & ps & pe & C' & _ & S & _ & _ & _ & _ & _ & _ & _ & _ & E & _). rewrite C in C'. injection C' as <-. destruct S as (r & S & _).
  unfold selection_block in S. rewrite HP in S. cbn [bind] in S. rewrite (dlookup_ok _ _ _ HQ) in S. cbn [bind] in S. rewrite HW in S. cbn [bind] in S. cbv zeta in S.
  destruct (surveyed_hypervolume v p) as [h|]; [|discriminate]. cbn [bind] in S. unfold resample_injections in S. destruct (Nat.ltb_spec (List.length W) (li_n L)) as [|LN]; [discriminate|].
  apply bind_ok in S. destruct S as (pr & PR & S). injection S as _ _ _ <-.
  change (normalised W) with (map (fun w => fdiv w (fsum W)) W) in PR. set (drawn := choose 0%nat (map (fun w => fdiv w (fsum W)) W) (li_n L)) in *.
  destruct (CH 0%nat (map (fun w => fdiv w (fsum W)) W) (li_n L)) as (D1 & D2 & D3); [now rewrite map_length|]. fold drawn in D1, D2, D3. rewrite map_length in D3.
  exists drawn. split; [reflexivity|]. split; [exact D1|]. split; [exact D2|]. intros key array K A LA. rewrite E. apply in_or_app. left.
  destruct (mapM_in _ _ _ key PR K) as (b & B1 & B2). rewrite (dlookup_ok _ _ _ A) in B1. cbn [bind] in B1. injection B1 as <-.
  rewrite (map_ext_in (fun j => nth j array NaN) (jget NaN array)); [exact B2|]. intros j J. rewrite Forall_forall in D3. specialize (D3 j J). unfold jget. rewrite Nat.min_l by lia. reflexivity.
Qed.

Lemma C120_too_few_injections_pf :
  forall bk prob sel_prob conv choose L v hyper_params varmax fit_keys s converted P prior W,
  conv hyper_params = Ok converted -> sel_prob (rv_data v) converted = Ok P -> dget "prior" (rv_data v) = Some prior -> bcast bk fdiv P prior = Ok W ->
  (List.length W < li_n L)%nat ->
  likelihood_model bk prob sel_prob conv choose L v hyper_params varmax true false fit_keys = Ok s ->
  likelihood_model bk prob sel_prob conv choose L v hyper_params varmax true true fit_keys = Err ValueError.
Proof.
  intros bk prob sp conv choose L v hp vm fk s p P prior W C HP HQ HW LN H. unfold likelihood_model in *. rewrite C in *. cbn [bind] in *.
  destruct (prob (li_data L) p) as [pp|]; [|discriminate]. cbn [bind] in *. destruct (mdiv bk pp (li_prior L)) as [w|]; [|discriminate]. cbn [bind] in *. cbv zeta in *.
  unfold selection_block in *. rewrite HP in *. cbn [bind] in *. rewrite (dlookup_ok _ _ _ HQ) in *. cbn [bind] in *. rewrite HW in *. cbn [bind] in *. cbv zeta in *.
  destruct (surveyed_hypervolume v p) as [h|]; [|discriminate]. cbn [bind] in *. unfold resample_injections. rewrite (proj2 (Nat.ltb_lt _ _) LN). reflexivity.
Qed.

Lemma C67_counts_pf :
  forall c rows posteriors hp ev max_samples u L, likelihood_init c rows posteriors hp ev max_samples u = Ok L ->
  li_n L = List.length posteriors /\ exists data, resample_posteriors rows posteriors max_samples = Ok (li_samples L, data) /\ li_prior L = dget "prior" data.
Proof.
  intros c rows posteriors hp ev ms u L H. unfold likelihood_init in H. destruct (resample_posteriors rows posteriors ms) as [[k data]|]; [|discriminate]. cbn [bind] in H.
  destruct hp; try discriminate; injection H as <-; cbn; eauto.
Qed.

