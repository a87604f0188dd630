(** * Vocabulary for the backend properties: histories of calls and the names of the libraries. *)
From Coq Require Import List String Bool.
From Verif Require Import Py St Backend_model.
Import ListNotations.
Local Open Scope string_scope.

(** The libraries of each backend. *)
Inductive libraries : string -> string -> string -> Prop :=
  | lib_numpy : libraries "numpy" "numpy" "scipy"
  | lib_cupy : libraries "cupy" "cupy" "cupyx.scipy"
  | lib_jax : libraries "jax" "jax.numpy" "jax.scipy".

(** The backend's libraries can be imported in interpreter [e]. *)
Definition importable (e : env) (b : string) : Prop :=
  exists np sp, libraries b np sp /\ en_import e np = None /\ en_import e sp = None /\ en_has e sp "special" = true.

(** A sequence of calls, each in its own interpreter condition; the state after all of them and the outcome of each. *)
Fixpoint run (calls : list (env * string)) (s : state) : state * list (result unit) :=
  match calls with
  | [] => (s, [])
  | (e, b) :: l => let '(s', r) := set_backend e b s in let '(s'', rs) := run l s' in (s'', r :: rs)
  end.

(** Every call either returned or failed before changing anything (unsupported name or libraries not importable). *)
Definition no_late_failure (calls : list (env * string)) (outcomes : list (result unit)) : Prop :=
  Forall2 (fun c r => r = Ok tt \/ ~ importable (fst c) (snd c)) calls outcomes.

(** The name of the last backend selected by a call that returned. *)
Fixpoint selected (calls : list (env * string)) (outcomes : list (result unit)) (current : string) : string :=
  match calls, outcomes with
  | (_, b) :: l, Ok _ :: rs => selected l rs b
  | _ :: l, _ :: rs => selected l rs current
  | _, _ => current
  end.

(** [s] does not contain the character [c]; [s] does not contain the string [w]. *)
Definition without (c : Ascii.ascii) (s : string) : Prop := forall a b, s <> a ++ String c b.
Definition free_of (w s : string) : Prop := forall a b, s <> a ++ w ++ b.

(** An entry "module:function", and the object a function name denotes in a backend with libraries [np] and [sp]: the leading "scipy" or "numpy" is
    replaced by the library, the last component is the attribute. *)
Definition entry (m f : string) : string := m ++ ":" ++ f.
Inductive denotes (np sp : string) : string -> string -> value -> Prop :=
  | den_scipy mid name : without dot name -> free_of "scipy" (mid ++ "." ++ name) -> denotes np sp ("scipy" ++ mid ++ "." ++ name) name (Member (sp ++ mid) name)
  | den_numpy mid name : without dot name -> free_of "numpy" (mid ++ "." ++ name) -> denotes np sp ("numpy" ++ mid ++ "." ++ name) name (Member (np ++ mid) name)
  | den_other path name : without dot name -> String.prefix "scipy" (path ++ "." ++ name) = false -> String.prefix "numpy" (path ++ "." ++ name) = false ->
      denotes np sp (path ++ "." ++ name) name (Member path name).

(** The registered entries: lists of modules for [xp] and [scs], pairs of module and function name. *)
Record registration := { rg_xp : list string; rg_scs : list string; rg_other : list (string * string) }.
Definition registers (e : env) (r : registration) : Prop :=
  en_xp e = rg_xp r /\ en_scs e = rg_scs r /\ en_other e = map (fun mf => entry (fst mf) (snd mf)) (rg_other r).

(** One function per module, well-formed names, none of which is [xp] or [scs]. *)
Definition regular (r : registration) : Prop :=
  NoDup (map fst (rg_other r)) /\
  forall m f, In (m, f) (rg_other r) -> without colon m /\ without colon f /\
    exists name, name <> "xp" /\ name <> "scs" /\ forall np sp b, libraries b np sp -> exists v, denotes np sp f name v.

(** The registered attributes of all modules are those of backend [b]. *)
Definition tracks (r : registration) (b : string) (s : state) : Prop :=
  exists np sp, libraries b np sp /\
    (forall m, In m (rg_xp r) -> st_attr s m "xp" = Some (Module np)) /\
    (forall m, In m (rg_scs r) -> st_attr s m "scs" = Some (Member sp "special")) /\
    (forall m f name v, In (m, f) (rg_other r) -> denotes np sp f name v -> st_attr s m name = Some v).
