(** * Model of gwpopulation/experimental/cosmo_models.py. Definitions only.

    External code (wcosmo, bilby) is an argument: the table [available] of cosmologies, the root finder
    [z_at_value] and the source-frame population model are arbitrary. *)
From Coq Require Import Reals List String Bool.
From Verif Require Import Xf Py Np.
Import ListNotations.
Local Open Scope string_scope.

(** What the code uses of a wcosmo cosmology object: [luminosity_distance], [dDLdz] (cosmo_models.py 99, 102) and
    [differential_comoving_volume] (models/redshift.py 166); element-wise functions of the redshift, without units
    ([wcosmo_disable_units], line 28). *)
Record cosmology := { co_dl : xf -> xf; co_ddl : xf -> xf; co_dvc : xf -> xf }.

(** A value of [wcosmo.astropy.available]: an instance ([Planck15] ...) or a class ([FlatwCDM] ...) to be called with the
    cosmological parameters as keywords (cosmo_models.py 68-71). *)
Inductive cosmo_entry := Instance (c : cosmology) | Class (f : dict xf -> result cosmology).

(** A [CosmoMixin] object (cosmo_models.py 27-36). *)
Record mixin := { mx_names : list string; mx_cosmo : cosmo_entry }.

(** cosmo_models.py 30-35: [self.cosmology_names]. *)
Definition names_of (cosmo_model : string) : list string :=
  if String.eqb cosmo_model "FlatwCDM" then ["H0"; "Om0"; "w0"]
  else if String.eqb cosmo_model "FlatLambdaCDM" then ["H0"; "Om0"]
  else [].
(** cosmo_models.py 27-36: [CosmoMixin.__init__]; [available[cosmo_model]] raises KeyError. *)
Definition mixin_init (available : dict cosmo_entry) (cosmo_model : string) : result mixin :=
  c <- dlookup cosmo_model available ;;
  Ok {| mx_names := names_of cosmo_model; mx_cosmo := c |}.

(** cosmo_models.py 38-52: [cosmology_variables]. The names of line 30-35 are distinct, so the dictionary
    comprehension inserts each key once, in order. *)
Definition cosmology_variables (m : mixin) (parameters : dict xf) : result (dict xf) :=
  mapM (fun k => v <- dlookup k parameters ;; Ok (k, v)) (mx_names m).

(** cosmo_models.py 54-71: [cosmology]. *)
Definition cosmology_of (m : mixin) (parameters : dict xf) : result cosmology :=
  match mx_cosmo m with
  | Instance c => Ok c
  | Class f => v <- cosmology_variables m parameters ;; f v
  end.

(** [key.endswith("_detector")] and [key[:-9]] (cosmo_models.py 111-112). *)
Definition endswith (suffix s : string) : bool :=
  Nat.leb (String.length suffix) (String.length s) &&
  String.eqb (substring (String.length s - String.length suffix) (String.length suffix) s) suffix.
Definition drop_last (n : nat) (s : string) : string := substring 0 (String.length s - n) s.

Section Conversion.
  Variable bk : backend.
  Variable z_at_value : (xf -> xf) -> xf -> xf.

  (** cosmo_models.py 110-115, one iteration of the loop over the keys: [samples] and [jacobian] are updated. *)
  Definition convert_key (kc : string * list xf) (st : dict (list xf) * list xf) : result (dict (list xf) * list xf) :=
    let '(key, col) := kc in
    let '(samples, jacobian) := st in
    if endswith "_detector" key then
      z <- dlookup "redshift" samples ;;
      v <- bcast bk fdiv col (map (fadd (Fin 1)) z) ;;
      let samples' := dset (drop_last 9 key) v samples in
      z' <- dlookup "redshift" samples' ;;
      jacobian' <- bcast_into bk fmul jacobian (map (fadd (Fin 1)) z') ;;
      Ok (samples', jacobian')
    else if negb (String.eqb key "luminosity_distance") then Ok (dset key col samples, jacobian)
    else Ok (samples, jacobian).
  Fixpoint convert_keys (data : dict (list xf)) (st : dict (list xf) * list xf) : result (dict (list xf) * list xf) :=
    match data with
    | [] => Ok st
    | kc :: data' => st' <- convert_key kc st ;; convert_keys data' st'
    end.

  (** cosmo_models.py 95-108: the redshift and the first factor of the Jacobian. *)
  Definition convert_start (m : mixin) (data : dict (list xf)) (parameters : dict xf) : result (dict (list xf) * list xf) :=
    match dget "luminosity_distance" data with
    | Some dl =>
        cosmo <- cosmology_of m parameters ;;
        let z := map (z_at_value (co_dl cosmo)) dl in
        Ok ([("redshift", z)], map (co_ddl cosmo) z)
    | None =>
        match dget "redshift" data with
        | None => Err ValueError
        | Some z => Ok ([], map (fun _ => Fin 1) z)
        end
    end.

  (** cosmo_models.py 73-117: [detector_frame_to_source_frame]. Columns are one-dimensional arrays. *)
  Definition detector_frame_to_source_frame (m : mixin) (data : dict (list xf)) (parameters : dict xf)
    : result (dict (list xf) * list xf) :=
    st <- convert_start m data parameters ;; convert_keys data st.

  (** cosmo_models.py 140-165: [CosmoModel.prob]; [prob] is [bilby.hyper.model.Model.prob]. *)
  Definition cosmo_prob (m : mixin) (prob : dict (list xf) -> dict xf -> result (list xf))
    (data : dict (list xf)) (kwargs : dict xf) : result (list xf) :=
    '(samples, jacobian) <- detector_frame_to_source_frame m data kwargs ;;
    p <- prob samples kwargs ;;
    bcast_into bk fdiv p jacobian.
End Conversion.
