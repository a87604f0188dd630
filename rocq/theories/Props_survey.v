(** Property theorems (survey). Proofs are in [survey_thms]; the vocabulary is in [Spec]. *)
From Coq Require Import Reals Lra Lia Psatz String Bool.
From Coquelicot Require Import Coquelicot.
From Coq Require Import List.
From Verif Require Import Xf Py St Xf_facts Py_facts Calc Spec Utils_model Trap_facts Np Np_facts
  Mass_model Spin_model Smoothed_model Smoothed_facts smoothed_thms SpecSmooth Cosmo_model Redshift_model redshift_thms Vt_model Hyperpe_model SpecHyper Double Double_facts hypera_thms
  Priors_model SpecPrior priors_thms SpecRows rows_thms Example_model SpecExample Cache_model SpecCache cache_thms Survey_model SpecSurvey.
From Verif Require Import hyperd_thms notebook_thms.
Import ListNotations.
Local Open Scope R_scope.
Local Opaque linspace xlinspace.
From Verif Require Import survey_thms.

(** C136. A model object made of functions with memory of their own, each of which returns on one data set what it returns on first use (C31 for the mass models): caching or not, every sequence of evaluations on that
    data set, failing ones included, returns at each step the product of what the functions return on first use. *)

Theorem C136_memory :
  forall M cache (fs : list (memory_function M)) ms data calls, Forall2 (forgets data) fs ms ->
  object_history cache fs (unused ms) data calls = map (first_use None fs ms data) calls.
Proof. exact C136_memory_pf. Qed.
Print Assumptions C136_memory.

(** C136. The analysis of test/example_test.py with everything in it that has memory: two model objects (caching or not), each with its own smoothed mass model (caching or not, any grid of at least 11 masses), the two
    spin models and the power-law redshift model. For every sequence of draws from bbh_population.prior (edges of C132 excluded), every catalogue and every set of found injections, the likelihood can be built and
    returns at each step a finite double: the hierarchical log-likelihood (C58) of the densities that new objects give each binary on its own. Earlier evaluations have no influence. *)

Theorem C136_survey :
  forall bk li n nq mcache cache s r available z_max cosmo_model c (dvc : R -> R) events inj total time rows dvc0 calls,
  smoothed_init 2 100 (n, nq) mcache = Ok s -> (11 <= n)%nat ->
  redshift_init available powerlaw_rate z_max cosmo_model = Ok r -> mx_names (rs_mixin r) = [] -> 1/1000000 < z_max ->
  (forall d, In d calls -> cosmology_of (rs_mixin r) (given (fst (Redshift_model.variable_names r)) d) = Ok c) ->
  (forall z, 0 < z -> co_dvc c (Fin z) = Fin (dvc z)) -> (forall z, 0 < z <= z_max -> 0 < dvc z) ->
  Forall (usable_draw bk) calls -> events <> [] -> Forall (fun e => e <> [] /\ Forall proper e) events -> inj <> [] -> Forall proper inj ->
  (forall i n k, (k <= n)%nat -> List.length (rows i n k) = k /\ NoDup (rows i n k) /\ Forall (fun j => j < n)%nat (rows i n k)) ->
  exists L V K drawn (f : dict xf -> binary -> R),
    likelihood_init Hyper rows (map posterior events) ModelLike None None PInf = Ok L /\
    resampling_init dvc0 [None; None; None; Some r] {| inj_data := columns inj; inj_total := total; inj_time := time |} (of_nat (List.length events)) false true = Ok V /\
    Forall (fun e => K <= List.length e)%nat events /\ Exists (fun e => List.length e = K) events /\ Forall2 (some_of K) events drawn /\
    (forall d b, In d calls -> proper b -> density_is bk li s r d b (f d b)) /\
    let objects := unused (survey_memories s) in
    let results := survey_evaluations bk cache (survey_functions bk li r) (survey_functions bk li r) L V (objects, objects) calls in
    results = map (fun d => log_likelihood_ratio bk (fun _ _ => Ok (map (map (fun b => Fin (f d b))) drawn)) (resampling_call bk (fun _ _ => Ok (map (fun b => Fin (f d b)) inj)) V) Ok L d) calls /\
    Forall (fun result => exists x, result = Ok (Fin x) /\ is_double x /\ - MAXF <= x <= MAXF) results.
Proof. exact C136_survey_pf. Qed.
Print Assumptions C136_survey.

(** Two evaluations, at the upper ends of the ranges and at a draw with other widths, of two events and one injection; the redshift model has a (toy) cosmology of unit volume element. *)
Definition high_draw (w : R) : dict xf := map (fun e => (fst e, match fst e with "sigma_1"%string => Fin w | _ => match snd e with Uniform _ b => Fin b | LogUniform _ b => Fin b | Fixed v => Fin v end end)) bbh_population.
Example C136_met : exists s r c, smoothed_init 2 100 (1000, 500)%nat true = Ok s /\
  redshift_init [("Planck15"%string, Instance c)] powerlaw_rate (23/10) "Planck15" = Ok r /\ mx_names (rs_mixin r) = [] /\
  (forall d, cosmology_of (rs_mixin r) (given (fst (Redshift_model.variable_names r)) d) = Ok c) /\ Forall (usable_draw Numpy) [high_draw 4; high_draw 1] /\ high_draw 4 <> high_draw 1 /\
  exists b, Forall (fun e => e <> [] /\ Forall proper e) [[b; b]; [b; b; b]].
Proof.
  eexists. eexists. exists {| co_dl := fun z => z; co_ddl := fun _ => Fin 1; co_dvc := fun _ => Fin 1 |}. split; [reflexivity|]. split; [reflexivity|]. split; [reflexivity|]. split; [reflexivity|].
  assert (U : forall w, 1 <= w <= 4 -> usable_draw Numpy (high_draw w)).
  { intros w Hw. split; [|split; [right; intros E; cbn in E; lra|split; cbn; lra]]. unfold draw_of, high_draw, bbh_population. cbn [map fst snd]. repeat (apply Forall2_cons; [cbn [fst snd in_support]; split; [reflexivity|eexists; split; [reflexivity|lra]]|]). apply Forall2_nil. }
  split; [constructor; [apply U; lra|constructor; [apply U; lra|constructor]]|]. split; [intros E; injection E; lra|].
  exists {| m1 := 30; ratio := 8/10; spin1 := 1/10; spin2 := 2/10; tilt1 := 0; tilt2 := 1/2; z := 1/10; sampling := 2 |}.
  repeat (apply Forall_cons; [split; [discriminate|repeat (apply Forall_cons; [unfold proper; cbn; lra|]); apply Forall_nil]|]). apply Forall_nil.
Qed.

