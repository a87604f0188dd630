(** Property theorems (redshift). Proofs are in [redshift_thms]; the vocabulary is in [Spec]. *)
From Coq Require Import Reals Lra Lia Psatz String Bool.
From Coquelicot Require Import Coquelicot.
From Coq Require Import List.
From Verif Require Import Xf Py Xf_facts Py_facts Calc Spec Utils_model Trap_facts Np Np_facts Cosmo_model Redshift_model SpecCosmo.
Import ListNotations.
Local Open Scope R_scope.
Local Opaque linspace xlinspace.
From Verif Require Import redshift_thms.

(** C43. psi(0) = 1 for the power law, whatever the index (infinite and NaN indices included: numpy's 1**y is 1). *)
Theorem C43_powerlaw_today :
  forall lamb parameters, dget "lamb" parameters = Some lamb -> powerlaw_psi (Fin 0) parameters = Ok (Fin 1).
Proof. exact C43_powerlaw_today_pf. Qed.
Print Assumptions C43_powerlaw_today.

(** C43. psi(0) = 1 for Madau-Dickinson. *)
Theorem C43_madau_today :
  forall gamma kappa z_peak parameters, dget "gamma" parameters = Some (Fin gamma) -> dget "kappa" parameters = Some (Fin kappa) ->
  dget "z_peak" parameters = Some (Fin z_peak) -> -1 < z_peak -> madau_psi (Fin 0) parameters = Ok (Fin 1).
Proof. exact C43_madau_today_pf. Qed.
Print Assumptions C43_madau_today.

(** C43. With kappa = 0, Madau-Dickinson is the power law of index gamma at every redshift. *)
Theorem C43_madau_kappa0 :
  forall gamma z_peak z parameters parameters', dget "gamma" parameters = Some (Fin gamma) -> dget "kappa" parameters = Some (Fin 0) ->
  dget "z_peak" parameters = Some (Fin z_peak) -> dget "lamb" parameters' = Some (Fin gamma) -> -1 < z_peak -> -1 < z ->
  madau_psi (Fin z) parameters = powerlaw_psi (Fin z) parameters'.
Proof. exact C43_madau_kappa0_pf. Qed.
Print Assumptions C43_madau_kappa0.

Example C43_hyps : let p := [("gamma", Fin 3); ("kappa", Fin 0); ("z_peak", Fin 2); ("lamb", Fin 3)]%string in
  dget "gamma" p = Some (Fin 3) /\ dget "kappa" p = Some (Fin 0) /\ dget "z_peak" p = Some (Fin 2) /\ dget "lamb" p = Some (Fin 3) /\ -1 < 2.
Proof. repeat split. lra. Qed.

(** C83. The maximum of the Madau-Dickinson evolution: for 0 < gamma < kappa the rate is strictly largest at
    (1 + z_peak) (gamma / (kappa - gamma))^(1/kappa) - 1, compared with every other redshift above -1. *)
Theorem C83_true_peak :
  forall gamma kappa z_peak z parameters, dget "gamma" parameters = Some (Fin gamma) -> dget "kappa" parameters = Some (Fin kappa) ->
  dget "z_peak" parameters = Some (Fin z_peak) -> 0 < gamma < kappa -> -1 < z_peak -> -1 < z ->
  let z_top := (1 + z_peak) * Rpower (gamma / (kappa - gamma)) (/ kappa) - 1 in
  exists a b, madau_psi (Fin z) parameters = Ok (Fin a) /\ madau_psi (Fin z_top) parameters = Ok (Fin b) /\ 0 < a /\ a <= b /\
              (z <> z_top -> a < b).
Proof. exact C83_true_peak_pf. Qed.
Print Assumptions C83_true_peak.

(** C83 (the distribution peaks at z_peak, as documented) is false unless kappa = 2 gamma: otherwise another redshift has a
    strictly larger rate than z_peak; with kappa = 2 gamma the peak is at z_peak. *)
Theorem C83_z_peak_refuted :
  forall gamma kappa z_peak parameters, dget "gamma" parameters = Some (Fin gamma) -> dget "kappa" parameters = Some (Fin kappa) ->
  dget "z_peak" parameters = Some (Fin z_peak) -> 0 < gamma < kappa -> -1 < z_peak ->
  (kappa <> 2 * gamma ->
     exists z a b, -1 < z /\ madau_psi (Fin z_peak) parameters = Ok (Fin a) /\ madau_psi (Fin z) parameters = Ok (Fin b) /\ a < b) /\
  (kappa = 2 * gamma -> forall z, -1 < z -> z <> z_peak ->
     exists a b, madau_psi (Fin z) parameters = Ok (Fin a) /\ madau_psi (Fin z_peak) parameters = Ok (Fin b) /\ a < b).
Proof. exact C83_z_peak_refuted_pf. Qed.
Print Assumptions C83_z_peak_refuted.

(** The values of Madau and Dickinson (2014): kappa <> 2 gamma. *)
Example C83_hyps : 0 < 27/10 < 56/10 /\ 56/10 <> 2 * (27/10) /\ -1 < 19/10.
Proof. lra. Qed.

(** C44. For every rate, cosmology table and parameters for which the normalisation is finite and non-zero, the trapezoid of the
    probability over the model's own redshift grid is 1. *)
Theorem C44_normalised :
  forall available ra z_max cosmo_model r parameters N, redshift_init available ra z_max cosmo_model = Ok r ->
  normalisation r parameters = Ok (Fin N) -> N <> 0 ->
  exists p, probability r [("redshift"%string, rs_zs r)] parameters = Ok p /\ trapezoid p (rs_zs r) = Fin 1.
Proof. exact C44_normalised_pf. Qed.
Print Assumptions C44_normalised.

(** C44. With positive rate and volume element on the grid the normalisation is finite and positive; it is the trapezoid of
    psi(z)/(1+z) dVc/dz over the grid, [z_max] included. *)
Theorem C44_norm_positive :
  forall available ra z_max cosmo_model r parameters c (psi dvc : R -> R), 1/1000000 < z_max ->
  redshift_init available ra z_max cosmo_model = Ok r -> cosmology_of (rs_mixin r) parameters = Ok c ->
  (forall z, 0 < z <= z_max -> ra_psi ra (Fin z) parameters = Ok (Fin (psi z)) /\ co_dvc c (Fin z) = Fin (dvc z) /\ 0 < psi z /\ 0 < dvc z) ->
  exists N, normalisation r parameters = Ok (Fin N) /\ 0 < N /\
            Fin N = trapezoid (map (fun z => Fin (psi z / (1 + z) * (4 * PI * dvc z))) (linspace (1/1000000) z_max 2500)) (rs_zs r).
Proof. exact C44_norm_positive_pf. Qed.
Print Assumptions C44_norm_positive.

(** C44. The value at any redshift above -1: psi(z)/(1+z) dVc/dz over the normalisation up to [z_max], and 0 above. Non-negative when rate and
    volume element are. *)
Theorem C44_value :
  forall available ra z_max cosmo_model r parameters c N z psi dvc, redshift_init available ra z_max cosmo_model = Ok r ->
  cosmology_of (rs_mixin r) parameters = Ok c -> normalisation r parameters = Ok (Fin N) -> N <> 0 ->
  -1 < z -> ra_psi ra (Fin z) parameters = Ok (Fin psi) -> co_dvc c (Fin z) = Fin dvc ->
  (z <= z_max -> probability r [("redshift"%string, [Fin z])] parameters = Ok [Fin (psi / (1 + z) * (4 * PI * dvc) / N)] /\
                 (0 <= psi -> 0 <= dvc -> 0 < N -> 0 <= psi / (1 + z) * (4 * PI * dvc) / N)) /\
  (z_max < z -> probability r [("redshift"%string, [Fin z])] parameters = Ok [Fin 0]).
Proof. exact C44_value_pf. Qed.
Print Assumptions C44_value.

(** C44. [differential_spacetime_volume] is psi(z)/(1+z) dVc/dz at every redshift; it is cut at [z_max] exactly when [bounds] is passed. *)
Theorem C44_differential_volume :
  forall available ra z_max cosmo_model r parameters c z psi dvc, redshift_init available ra z_max cosmo_model = Ok r ->
  cosmology_of (rs_mixin r) parameters = Ok c -> -1 < z -> ra_psi ra (Fin z) parameters = Ok (Fin psi) -> co_dvc c (Fin z) = Fin dvc ->
  differential_spacetime_volume r [("redshift"%string, [Fin z])] false parameters = Ok [Fin (psi / (1 + z) * (4 * PI * dvc))] /\
  differential_spacetime_volume r [("redshift"%string, [Fin z])] true parameters =
    Ok [Fin (if Rle_dec z z_max then psi / (1 + z) * (4 * PI * dvc) else 0)].
Proof. exact C44_differential_volume_pf. Qed.
Print Assumptions C44_differential_volume.

(** C44 for the two rate evolutions of the library: whatever the (finite) rate parameters, with a volume element that is positive for
    0 < z <= z_max the density is normalised on the grid. *)
Theorem C44_library_rates :
  forall available ra z_max cosmo_model r parameters c (dvc : R -> R), 1/1000000 < z_max ->
  redshift_init available ra z_max cosmo_model = Ok r -> cosmology_of (rs_mixin r) parameters = Ok c ->
  (ra = powerlaw_rate /\ (exists lamb, dget "lamb" parameters = Some (Fin lamb)) \/
   ra = madau_rate /\ (exists gamma kappa z_peak, dget "gamma" parameters = Some (Fin gamma) /\ dget "kappa" parameters = Some (Fin kappa) /\
                        dget "z_peak" parameters = Some (Fin z_peak) /\ -1 < z_peak)) ->
  (forall z, 0 < z <= z_max -> co_dvc c (Fin z) = Fin (dvc z) /\ 0 < dvc z) ->
  exists p, probability r [("redshift"%string, rs_zs r)] parameters = Ok p /\ trapezoid p (rs_zs r) = Fin 1.
Proof. exact C44_library_rates_pf. Qed.
Print Assumptions C44_library_rates.

(** A (toy) cosmology with unit volume element; Planck15 is an instance, FlatLambdaCDM a class. *)
Definition toy : cosmology := {| co_dl := fun z => z; co_ddl := fun _ => Fin 1; co_dvc := fun _ => Fin 1 |}.
Definition toy_available : dict cosmo_entry := [("Planck15", Instance toy); ("FlatLambdaCDM", Class (fun _ => Ok toy))]%string.
Example C44_hyps : exists r, redshift_init toy_available powerlaw_rate (23/10) "Planck15" = Ok r /\
  cosmology_of (rs_mixin r) [("lamb"%string, Fin 3)] = Ok toy /\ 1/1000000 < 23/10 /\
  forall z, 0 < z <= 23/10 -> co_dvc toy (Fin z) = Fin 1 /\ 0 < 1.
Proof. eexists. split; [reflexivity|]. split; [reflexivity|]. split; [lra|]. intros; split; [reflexivity|lra]. Qed.

(** C84 (the density is confined to the range over which it is normalised) is false: it has no lower cut. At every redshift below the first
    grid point, negative redshifts above -1 included, the value is psi(z)/(1+z) dVc/dz over the normalisation, positive whenever rate and
    volume element are. *)
Theorem C84_no_lower_cut_refuted :
  forall available ra z_max cosmo_model r parameters c N z psi dvc, redshift_init available ra z_max cosmo_model = Ok r ->
  cosmology_of (rs_mixin r) parameters = Ok c -> normalisation r parameters = Ok (Fin N) -> 0 < N -> 1/1000000 < z_max ->
  -1 < z < 1/1000000 -> ra_psi ra (Fin z) parameters = Ok (Fin psi) -> co_dvc c (Fin z) = Fin dvc -> 0 < psi -> 0 < dvc ->
  exists v, probability r [("redshift"%string, [Fin z])] parameters = Ok [Fin v] /\ 0 < v.
Proof. exact C84_no_lower_cut_refuted_pf. Qed.
Print Assumptions C84_no_lower_cut_refuted.

Example C84_hyps : ra_psi powerlaw_rate (Fin (-1/2)) [("lamb"%string, Fin 1)] = Ok (Fin (Rpower (1 + -1/2) 1)) /\ co_dvc toy (Fin (-1/2)) = Fin 1 /\
  -1 < -1/2 < 1/1000000.
Proof. split; [|split; [reflexivity|lra]]. cbn [powerlaw_rate ra_psi]. apply plaw_val; [reflexivity|lra]. Qed.

(** C46. The advertised names: the cosmological ones first, then those of the rate; reading them any number of times always gives the same list. *)
Theorem C46_names :
  forall available ra z_max cosmo_model r n, redshift_init available ra z_max cosmo_model = Ok r ->
  let names := (match cosmo_model with "FlatwCDM"%string => ["H0"; "Om0"; "w0"]%string | "FlatLambdaCDM"%string => ["H0"; "Om0"]%string | _ => [] end ++
                match ra_names ra with Some b => b | None => [] end)%list in
  fst (variable_names r) = names /\ reads n r = repeat names n.
Proof. exact C46_names_pf. Qed.
Print Assumptions C46_names.

(** C46. The advertised names are exactly what an evaluation needs: with all of them given, a library redshift model evaluates without
    an exception on every dataset with a redshift column; with one of the rate's names missing it raises KeyError for a rate name. *)
Theorem C46_names_suffice :
  forall available ra z_max cosmo_model r parameters, redshift_init available ra z_max cosmo_model = Ok r ->
  ra = powerlaw_rate \/ ra = madau_rate ->
  match mx_cosmo (rs_mixin r) with Instance _ => True | Class f => forall v, dkeys v = mx_names (rs_mixin r) -> exists c, f v = Ok c end ->
  ((forall k, In k (fst (variable_names r)) -> dmem k parameters = true) ->
     forall z, exists p, probability r [("redshift"%string, z)] parameters = Ok p) /\
  (forall b k, ra_names ra = Some b -> In k b -> dget k parameters = None ->
     forall dataset, exists k', probability r dataset parameters = Err (KeyError k') /\ In k' b /\ dget k' parameters = None).
Proof. exact C46_names_suffice_pf. Qed.
Print Assumptions C46_names_suffice.

Example C46_hyps : exists r, redshift_init toy_available madau_rate 2 "FlatLambdaCDM" = Ok r /\
  fst (variable_names r) = ["H0"; "Om0"; "gamma"; "kappa"; "z_peak"]%string /\
  match mx_cosmo (rs_mixin r) with Instance _ => True | Class f => forall v, dkeys v = mx_names (rs_mixin r) -> exists c, f v = Ok c end.
Proof. eexists. split; [reflexivity|]. split; [reflexivity|]. cbn. eauto. Qed.

