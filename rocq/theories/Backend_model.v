(** * Model of gwpopulation/backend.py. Definitions only.

    The interpreter is an argument: which imports fail with which exception, which attributes imported modules have, and which entry points the
    installed packages declare. Importing a module has no effect on the state of the model. *)
From Coq Require Import List String Ascii Bool Arith.
From Verif Require Import Py St.
Import ListNotations.
Local Open Scope string_scope.

(** ** The string operations used *)

(** [s.split(c)] for a one-character separator: never empty. *)
Fixpoint split_on (c : ascii) (s : string) : list string :=
  match s with
  | "" => [""]
  | String a s' =>
      if Ascii.eqb a c then "" :: split_on c s'
      else match split_on c s' with
           | w :: l => String a w :: l
           | [] => [String a ""]
           end
  end.
(** [s.rsplit(c, 1)]: the parts before and after the last [c]; [None] if there is none. *)
Fixpoint rsplit_on (c : ascii) (s : string) : option (string * string) :=
  match s with
  | "" => None
  | String a s' =>
      match rsplit_on c s' with
      | Some (x, y) => Some (String a x, y)
      | None => if Ascii.eqb a c then Some ("", s') else None
      end
  end.
(** [s[n:]]. *)
Fixpoint drop (n : nat) (s : string) : string :=
  match n, s with
  | S n', String _ s' => drop n' s'
  | _, _ => s
  end.
(** [s.replace(old, new)] for non-empty [old]: all occurrences, from the left. *)
Fixpoint replace_fuel (fuel : nat) (old new s : string) : string :=
  match fuel with
  | O => s
  | S fuel' =>
      if String.prefix old s then new ++ replace_fuel fuel' old new (drop (String.length old) s)
      else match s with
           | "" => ""
           | String a s' => String a (replace_fuel fuel' old new s')
           end
  end.
Definition replace (old new s : string) : string := replace_fuel (S (String.length s)) old new s.

Definition dot : ascii := "."%char.
Definition colon : ascii := ":"%char.

(** ** Interpreter and state *)

(** Python objects the backend installs: a module, or an attribute of a module. *)
Inductive value := Module (path : string) | Member (path name : string).

(** One interpreter: [en_import m] is the exception importing [m] raises, if any; [en_has m a]: module [m] has attribute [a]; the values of the entry
    points in the three groups (lines 70-74). *)
Record env := {
  en_import : string -> option exn; en_has : string -> string -> bool;
  en_xp : list string; en_scs : list string; en_other : list string }.

(** The variable of line 3, the attributes of all modules, and jax's 64-bit switch. *)
Record state := { st_backend : string; st_attr : string -> string -> option value; st_x64 : bool }.

(** Line 4. *)
Definition SUPPORTED_BACKENDS : list string := ["numpy"; "cupy"; "jax"].
(** Lines 5-6. *)
Definition np_module : dict string := [("numpy", "numpy"); ("cupy", "cupy"); ("jax", "jax.numpy")].
Definition scipy_module : dict string := [("numpy", "scipy"); ("cupy", "cupyx.scipy"); ("jax", "jax.scipy")].

Section Backend.
  Variable e : env.

  Definition import_module (m : string) : result value :=
    match en_import e m with Some x => Err x | None => Ok (Module m) end.
  Definition getattr (m a : string) : result value :=
    if en_has e m a then Ok (Member m a) else Err AttributeError.

  Definition setattr (m a : string) (v : value) : ST state unit :=
    fun s => ({| st_backend := st_backend s;
                 st_attr := fun m' a' => if String.eqb m' m && String.eqb a' a then Some v else st_attr s m' a'; st_x64 := st_x64 s |}, Ok tt).

  (** Line 75: the dictionary; a string without exactly one colon cannot be unpacked. *)
  Fixpoint others_dict (l : list string) (d : dict string) : result (dict string) :=
    match l with
    | [] => Ok d
    | x :: l' => match split_on colon x with [k; v] => others_dict l' (dset k v d) | _ => Err ValueError end
    end.
  (** Lines 48-76: [modules_to_update]. *)
  Definition modules_to_update : result (list string * list string * dict string) :=
    o <- others_dict (en_other e) [] ;; Ok (en_xp e, en_scs e, o).

  (** Lines 91-97: the two imports; both exceptions are replaced by one of the same class, others pass. *)
  Definition load (backend : string) : result (value * value) :=
    np <- dlookup backend np_module ;;
    sp <- dlookup backend scipy_module ;;
    xp <- import_module np ;;
    _ <- import_module sp ;;
    scs <- getattr sp "special" ;;
    Ok (xp, scs).
  (** Lines 90-102: [_load_numpy_and_scipy]; [_configure_jax] (79-87) sets the switch. *)
  Definition load_numpy_and_scipy (backend : string) : ST state (value * value) :=
    r <~ slift (load backend) ;;
    fun s => ((if String.eqb backend "jax" then {| st_backend := st_backend s; st_attr := st_attr s; st_x64 := true |} else s), Ok r).

  (** Lines 105-111: [_load_arbitrary]. *)
  Definition load_arbitrary (func backend : string) : result value :=
    sp <- dlookup backend scipy_module ;;
    np <- dlookup backend np_module ;;
    let func := if String.prefix "scipy" func then replace "scipy" sp func
                else if String.prefix "numpy" func then replace "numpy" np func else func in
    match rsplit_on dot func with
    | None => Err ValueError
    | Some (module, name) => _ <- import_module module ;; getattr module name
    end.

  (** Lines 147-150: the two loops. *)
  Fixpoint set_all (name : string) (v : value) (modules : list string) : ST state unit :=
    match modules with
    | [] => sret tt
    | m :: l => _ <~ slift (import_module m) ;; _ <~ setattr m name v ;; set_all name v l
    end.
  (** Lines 151-156; the module is imported before the function is resolved (argument order). *)
  Fixpoint set_others (backend : string) (l : list (string * string)) : ST state unit :=
    match l with
    | [] => sret tt
    | (m, func) :: l' =>
        _ <~ slift (import_module m) ;;
        v <~ slift (load_arbitrary func backend) ;;
        _ <~ setattr m (last (split_on dot func) "") v ;;
        set_others backend l'
    end.

  (** Lines 114-156: [set_backend]. *)
  Definition set_backend (backend : string) : ST state unit :=
    fun s =>
      if negb (existsb (String.eqb backend) SUPPORTED_BACKENDS) then (s, Err ValueError)
      else if String.eqb backend (st_backend s) then (s, Ok tt)
      else
        ('(xp, scs) <~ load_numpy_and_scipy backend ;;
         _ <~ (fun s => ({| st_backend := backend; st_attr := st_attr s; st_x64 := st_x64 s |}, Ok tt)) ;;
         '(all_with_xp, all_with_scs, others) <~ slift modules_to_update ;;
         _ <~ set_all "xp" xp all_with_xp ;;
         _ <~ set_all "scs" scs all_with_scs ;;
         set_others backend others) s.
End Backend.

(** The state when the package has been imported: no backend recorded (line 3); the attributes are those of the modules' own imports. *)
Definition initial (attrs : string -> string -> option value) : state := {| st_backend := ""; st_attr := attrs; st_x64 := false |}.

(** pyproject.toml 45-57: the package's own entry points. *)
Definition own_xp : list string :=
  ["gwpopulation.hyperpe"; "gwpopulation.models.interped"; "gwpopulation.models.mass"; "gwpopulation.models.redshift"; "gwpopulation.models.spin";
   "gwpopulation.utils"; "gwpopulation.vt"; "gwpopulation.experimental.cosmo_models"].
Definition own_scs : list string := ["gwpopulation.models.mass"; "gwpopulation.utils"].
