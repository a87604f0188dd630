(** Property theorems (cosmo). Proofs are in [cosmo_thms]; the vocabulary is in [Spec]. *)
From Coq Require Import Reals Lra Lia Psatz String Bool Permutation.
From Coquelicot Require Import Coquelicot.
From Coq Require Import List.
From Verif Require Import Xf Py Xf_facts Py_facts Calc Spec Np Cosmo_model Redshift_model SpecCosmo Cosmo_facts.
Import ListNotations.
Local Open Scope R_scope.
From Verif Require Import cosmo_thms.

(** C47. Distance given, no redshift: the source-frame samples and the Jacobian, for every data dictionary (any keys, any order). [masses] are
    the parameters given in the detector frame; a parameter must not be given in both frames. *)
Theorem C47_conversion :
  forall bk z_at_value m data parameters dl cosmo masses,
  dwf data -> dget "luminosity_distance" data = Some dl -> dget "redshift" data = None -> cosmology_of m parameters = Ok cosmo ->
  (forall k col, dget k data = Some col -> List.length col = List.length dl) ->
  NoDup masses -> (forall p, In p masses <-> In (detector p) (dkeys data)) -> ~ In "redshift"%string masses ->
  (forall p, In p masses -> ~ In p (dkeys data)) ->
  let z := map (z_at_value (co_dl cosmo)) dl in
  exists samples jacobian, detector_frame_to_source_frame bk z_at_value m data parameters = Ok (samples, jacobian) /\
    dget "redshift" samples = Some z /\
    (forall p col, dget (detector p) data = Some col -> dget p samples = Some (over_one_plus col z)) /\
    (forall k col, dget k data = Some col -> k <> "luminosity_distance"%string -> (forall p, k <> detector p) -> dget k samples = Some col) /\
    (forall k, In k (dkeys samples) -> k = "redshift"%string \/ In k masses \/
               (In k (dkeys data) /\ k <> "luminosity_distance"%string /\ forall p, k <> detector p)) /\
    jacobian = map (fun x => times (List.length masses) (co_ddl cosmo x) (fadd (Fin 1) x)) z.
Proof. exact C47_conversion_pf. Qed.
Print Assumptions C47_conversion.

(** C47. The Jacobian in numbers: with finite redshifts z_i = z(dL_i) and slopes d_i = dDL/dz(z_i), its i-th element is d_i (1+z_i)^k where k is the
    number of detector-frame parameters. *)
Theorem C47_jacobian :
  forall bk z_at_value m data parameters dl cosmo masses (z d : list R),
  dwf data -> dget "luminosity_distance" data = Some dl -> dget "redshift" data = None -> cosmology_of m parameters = Ok cosmo ->
  (forall k col, dget k data = Some col -> List.length col = List.length dl) ->
  NoDup masses -> (forall p, In p masses <-> In (detector p) (dkeys data)) -> ~ In "redshift"%string masses ->
  map (z_at_value (co_dl cosmo)) dl = map Fin z -> map (co_ddl cosmo) (map Fin z) = map Fin d ->
  exists samples, detector_frame_to_source_frame bk z_at_value m data parameters =
    Ok (samples, map (fun p => Fin (snd p * (1 + fst p) ^ List.length masses)) (combine z d)).
Proof. exact C47_jacobian_pf. Qed.
Print Assumptions C47_jacobian.

Definition ex_cosmo : cosmology := {| co_dl := fun z => fmul (Fin 2) z; co_ddl := fun _ => Fin 2; co_dvc := fun _ => Fin 1 |}.
Definition ex_mixin : mixin := {| mx_names := []; mx_cosmo := Instance ex_cosmo |}.
Definition ex_data : dict (list xf) :=
  [("mass_1_detector", [Fin 30; Fin 60]); ("luminosity_distance", [Fin 1; Fin 2]); ("mass_ratio", [Fin 1; Fin (1/2)]); ("mass_2_detector", [Fin 10; Fin 20])]%string.
Example C47_hyps : dwf ex_data /\ dget "redshift" ex_data = None /\ NoDup ["mass_1"; "mass_2"]%string /\
  (forall p, In p ["mass_1"; "mass_2"]%string <-> In (detector p) (dkeys ex_data)) /\ (forall p, In p ["mass_1"; "mass_2"]%string -> ~ In p (dkeys ex_data)).
Proof.
  split; [|split; [reflexivity|split; [|split]]].
  - repeat constructor; simpl; intuition discriminate.
  - repeat constructor; simpl; intuition discriminate.
  - intros p. simpl. split.
    + intros [<-|[<-|[]]]; auto.
    + intros [H|[H|[H|[H|[]]]]].
      * left. apply (det_inj "mass_1" p). exact H.
      * exfalso. assert (E := det_ends p). rewrite <- H in E. discriminate E.
      * exfalso. assert (E := det_ends p). rewrite <- H in E. discriminate E.
      * right; left. apply (det_inj "mass_2" p). exact H.
  - intros p [<-|[<-|[]]]; simpl; intuition discriminate.
Qed.

(** C47. Data with neither a distance nor a redshift are rejected with ValueError, by the conversion and by the model, before any parameter or any other column is looked at. *)
Theorem C47_neither :
  forall bk z_at_value m data parameters, ~ In "luminosity_distance"%string (dkeys data) -> ~ In "redshift"%string (dkeys data) ->
  detector_frame_to_source_frame bk z_at_value m data parameters = Err ValueError /\
  forall prob, cosmo_prob bk z_at_value m prob data parameters = Err ValueError.
Proof. exact C47_neither_pf. Qed.
Print Assumptions C47_neither.

Example C47_neither_hyps : ~ In "luminosity_distance"%string (dkeys [(detector "mass_1", [Fin 30])]) /\ ~ In "redshift"%string (dkeys [(detector "mass_1", [Fin 30])]).
Proof. split; intros [E|[]]; discriminate. Qed.

(** C48, the part that holds: with a distance and no redshift, and no parameter given in both frames, reordering the dictionary changes
    nothing: same value under every key, same Jacobian. *)
Theorem C48_key_order_partial :
  forall bk z_at_value m data data' parameters dl cosmo,
  dwf data -> Permutation data data' -> dget "luminosity_distance" data = Some dl -> dget "redshift" data = None ->
  cosmology_of m parameters = Ok cosmo ->
  (forall k col, dget k data = Some col -> List.length col = List.length dl) ->
  ~ In (detector "redshift") (dkeys data) -> (forall p, In (detector p) (dkeys data) -> ~ In p (dkeys data)) ->
  exists samples samples' jacobian,
    detector_frame_to_source_frame bk z_at_value m data parameters = Ok (samples, jacobian) /\
    detector_frame_to_source_frame bk z_at_value m data' parameters = Ok (samples', jacobian) /\
    forall k, dget k samples = dget k samples'.
Proof. exact C48_key_order_partial_pf. Qed.
Print Assumptions C48_key_order_partial.

Example C48_hyps : ~ In (detector "redshift") (dkeys ex_data) /\ (forall p, In (detector p) (dkeys ex_data) -> ~ In p (dkeys ex_data)).
Proof.
  split; [simpl; intuition discriminate|]. destruct C47_hyps as (_ & _ & _ & A & B). intros p H. apply B, A, H.
Qed.

(** C48 is false when the redshift is given instead of the distance. A detector-frame key listed before "redshift" makes the
    conversion raise KeyError('redshift'); the same entries with "redshift" moved to the front convert. *)
Theorem C48_redshift_given_refuted :
  forall bk z_at_value m parameters (pre post : dict (list xf)) p col z,
  let data := (pre ++ (detector p, col) :: post)%list in
  dwf (("redshift"%string, z) :: data) -> dget "luminosity_distance" data = None -> ~ In (detector "redshift") (dkeys data) ->
  (forall k c, In (k, c) pre -> forall q, k <> detector q) ->
  (forall k c, In (k, c) data -> List.length c = List.length z) ->
  detector_frame_to_source_frame bk z_at_value m (data ++ [("redshift"%string, z)]) parameters = Err (KeyError "redshift") /\
  exists r, detector_frame_to_source_frame bk z_at_value m (("redshift"%string, z) :: data) parameters = Ok r.
Proof. exact C48_redshift_given_refuted_pf. Qed.
Print Assumptions C48_redshift_given_refuted.

Example C48_refuted_hyps : let data := ([("mass_ratio"%string, [Fin 1])] ++ (detector "mass_1", [Fin 30]) :: [])%list in
  dwf (("redshift"%string, [Fin 1]) :: data) /\ dget "luminosity_distance" data = None /\ ~ In (detector "redshift") (dkeys data).
Proof. split; [|split; [reflexivity|]]. repeat constructor; simpl; intuition discriminate. simpl; intuition discriminate. Qed.

(** C48 is false when both redshift and distance are given: the frame used for a mass depends on its position. With "redshift" first the mass
    is divided by 1 plus the given redshift, with the mass first by 1 plus the redshift of the distance. *)
Theorem C48_both_given_refuted :
  forall bk z_at_value m parameters cosmo dl zd zg mass p, cosmology_of m parameters = Ok cosmo ->
  z_at_value (co_dl cosmo) (Fin dl) = Fin zd -> -1 < zd -> -1 < zg -> zd <> zg -> mass <> 0 -> p <> "redshift"%string ->
  let d := ("luminosity_distance"%string, [Fin dl]) in let r := ("redshift"%string, [Fin zg]) in let x := (detector p, [Fin mass]) in
  exists s s' j j' u v, detector_frame_to_source_frame bk z_at_value m [d; r; x] parameters = Ok (s, j) /\
    detector_frame_to_source_frame bk z_at_value m [d; x; r] parameters = Ok (s', j') /\
    dget p s = Some [Fin u] /\ dget p s' = Some [Fin v] /\ u = mass / (1 + zg) /\ v = mass / (1 + zd) /\ u <> v.
Proof. exact C48_both_given_refuted_pf. Qed.
Print Assumptions C48_both_given_refuted.

Example C48_both_hyps : cosmology_of ex_mixin [] = Ok ex_cosmo /\ -1 < 1 /\ -1 < 2 /\ 1 <> 2 /\ (30:R) <> 0.
Proof. split; [reflexivity|lra]. Qed.

(** C49. Change of variables at a fixed distance: the detector-frame density of CosmoModel, integrated over the detector-frame mass
    range that corresponds to [a,b] and multiplied by dDL/dz, is the source-frame density integrated over [a,b]. *)
Theorem C49_mass_integral :
  forall bk z_at_value m prob kwargs cosmo (p : R -> R -> R) D z j a b v,
  cosmology_of m kwargs = Ok cosmo -> z_at_value (co_dl cosmo) (Fin D) = Fin z -> co_ddl cosmo (Fin z) = Fin j -> -1 < z -> 0 < j ->
  (forall samples mass z, dget "mass_1" samples = Some [Fin mass] -> dget "redshift" samples = Some [Fin z] -> prob samples kwargs = Ok [Fin (p mass z)]) ->
  is_RInt (fun mass => p mass z) a b v ->
  exists g, (forall M, cosmo_prob bk z_at_value m prob [("luminosity_distance"%string, [Fin D]); ("mass_1_detector"%string, [Fin M])] kwargs = Ok [Fin (g M)]) /\
            is_RInt g (a * (1 + z)) (b * (1 + z)) (v / j).
Proof. exact C49_mass_integral_pf. Qed.
Print Assumptions C49_mass_integral.

(** C49. Probability is conserved: for a luminosity distance with positive continuous slope that the root finder inverts on (za, zb), the
    iterated integral of CosmoModel's density over distances from dl z0 to dl z1 and, at each distance, over the detector-frame masses
    corresponding to [a,b], is the iterated integral of the source-frame density over redshifts [z0,z1] and masses [a,b]. *)
Theorem C49_probability_conserved :
  forall bk z_at_value m prob kwargs cosmo (p : R -> R -> R) (dl ddl I : R -> R) za zb z0 z1 a b v,
  cosmology_of m kwargs = Ok cosmo -> -1 <= za -> za < z0 -> z0 <= z1 -> z1 < zb ->
  (forall z, za <= z <= zb -> co_ddl cosmo (Fin z) = Fin (ddl z) /\ is_derive dl z (ddl z) /\ continuous ddl z /\ 0 < ddl z) ->
  (forall D, dl za < D < dl zb -> exists z, z_at_value (co_dl cosmo) (Fin D) = Fin z /\ za < z < zb /\ dl z = D) ->
  (forall samples mass z, dget "mass_1" samples = Some [Fin mass] -> dget "redshift" samples = Some [Fin z] -> prob samples kwargs = Ok [Fin (p mass z)]) ->
  (forall z, za < z < zb -> is_RInt (fun mass => p mass z) a b (I z) /\ continuous I z) -> is_RInt I z0 z1 v ->
  let redshift_of D := match z_at_value (co_dl cosmo) (Fin D) with Fin z => z | _ => 0 end in
  integrates2_to (fun D M => rmap (fun l => hd NaN l) (cosmo_prob bk z_at_value m prob [("luminosity_distance"%string, [Fin D]); ("mass_1_detector"%string, [Fin M])] kwargs))
    (dl z0) (dl z1) (fun D => a * (1 + redshift_of D)) (fun D => b * (1 + redshift_of D)) v.
Proof. exact C49_probability_conserved_pf. Qed.
Print Assumptions C49_probability_conserved.

(** With dl z = 2 z, z_at_value the exact inverse, and the source density 1 on masses [5, 6] and redshifts [0,1]. *)
Example C49_hyps :
  let z_at_value := fun (f : xf -> xf) D => fdiv D (Fin 2) in
  cosmology_of ex_mixin [] = Ok ex_cosmo /\
  (forall z, -1/2 <= z <= 3 -> co_ddl ex_cosmo (Fin z) = Fin ((fun _ => 2) z) /\ is_derive (fun z => 2 * z) z ((fun _ => 2) z) /\ continuous (fun _ : R => 2) z /\ 0 < 2) /\
  (forall D, 2 * (-1/2) < D < 2 * 3 -> exists z, z_at_value (co_dl ex_cosmo) (Fin D) = Fin z /\ -1/2 < z < 3 /\ 2 * z = D) /\
  (forall z, -1/2 < z < 3 -> is_RInt (fun _ => 1) 5 6 ((fun _ => 1) z) /\ continuous (fun _ : R => 1) z) /\ is_RInt (fun _ => 1) 0 1 1.
Proof.
  intros zav. split; [reflexivity|]. split; [|split; [|split]].
  - intros z _. split; [reflexivity|]. split; [auto_derive; auto; ring|]. split; [apply continuous_const|lra].
  - intros D H. exists (D / 2). split; [unfold zav; rewrite fdiv_fin by lra; reflexivity|lra].
  - intros z _. split; [|apply continuous_const]. evar_last; [apply (is_RInt_const (V := R_NormedModule))|]. unfold scal; simpl; unfold mult; simpl. ring.
  - evar_last; [apply (is_RInt_const (V := R_NormedModule))|]. unfold scal; simpl; unfold mult; simpl. ring.
Qed.

(** C50. [cosmology_variables] returns exactly the cosmological parameters, under their names and in order, with their values; it fails
    exactly when one is missing, with a KeyError naming a missing one. *)
Theorem C50_cosmology_variables :
  forall available cosmo_model m parameters, mixin_init available cosmo_model = Ok m ->
  let names := match cosmo_model with "FlatwCDM"%string => ["H0"; "Om0"; "w0"]%string | "FlatLambdaCDM"%string => ["H0"; "Om0"]%string | _ => [] end in
  (forall k, In k names -> dmem k parameters = true) /\
    (exists v, cosmology_variables m parameters = Ok v /\ dkeys v = names /\ forall k, In k names -> dget k v = dget k parameters)
  \/ exists k, In k names /\ dget k parameters = None /\ cosmology_variables m parameters = Err (KeyError k).
Proof. exact C50_cosmology_variables_pf. Qed.
Print Assumptions C50_cosmology_variables.

(** C50. A fixed cosmology ignores the parameters; a parametrised one depends only on the cosmological parameters (and is built from a dictionary with exactly
    those keys). *)
Theorem C50_cosmology :
  forall available cosmo_model m, mixin_init available cosmo_model = Ok m ->
  (forall c, dget cosmo_model available = Some (Instance c) -> forall parameters, cosmology_of m parameters = Ok c) /\
  (forall f, dget cosmo_model available = Some (Class f) -> forall parameters,
     (exists v, dkeys v = mx_names m /\ (forall k, In k (mx_names m) -> dget k v = dget k parameters) /\ cosmology_of m parameters = f v) \/
     (exists k, In k (mx_names m) /\ dget k parameters = None /\ cosmology_of m parameters = Err (KeyError k))) /\
  (forall p p', (forall k, In k (mx_names m) -> dget k p = dget k p') -> cosmology_of m p = cosmology_of m p').
Proof. exact C50_cosmology_pf. Qed.
Print Assumptions C50_cosmology.

Example C50_hyps : let av := [("Planck15", Instance ex_cosmo); ("FlatwCDM", Class (fun _ => Ok ex_cosmo))]%string in
  exists m m', mixin_init av "FlatwCDM" = Ok m /\ mixin_init av "Planck15" = Ok m' /\ mx_names m = ["H0"; "Om0"; "w0"]%string.
Proof. do 2 eexists. repeat split. Qed.

