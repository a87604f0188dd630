(** * Python-level vocabulary: exceptions as values, insertion-ordered dictionaries,
    the active numerical backend. Definitions only. *)
From Coq Require Import List String Bool.
Import ListNotations.
Local Open Scope string_scope.

Inductive exn :=
  | ValueError | KeyError (k : string) | TypeError | AttributeError
  | ModuleNotFoundError | ImportError | ZeroDivisionError | IndexError
  | NotImplementedError.

Inductive result (A : Type) := Ok (a : A) | Err (e : exn).
Arguments Ok {A} a.
Arguments Err {A} e.

Definition bind {A B} (m : result A) (f : A -> result B) : result B :=
  match m with Ok a => f a | Err e => Err e end.
Notation "x <- m ;; f" := (bind m (fun x => f)) (at level 61, m at next level, right associativity).
Notation "' p <- m ;; f" := (bind m (fun p => f))
  (at level 61, p pattern, m at next level, right associativity).

Definition rmap {A B} (f : A -> B) (m : result A) : result B :=
  match m with Ok a => Ok (f a) | Err e => Err e end.

(** Evaluate left to right, stop at the first exception. *)
Fixpoint mapM {A B} (f : A -> result B) (l : list A) : result (list B) :=
  match l with
  | [] => Ok []
  | a :: l' => b <- f a ;; bs <- mapM f l' ;; Ok (b :: bs)
  end.

(** ** Dictionaries: association lists in insertion order, distinct keys. *)
Definition dict (V : Type) := list (string * V).

Section Dict.
  Context {V : Type}.
  Fixpoint dget (k : string) (d : dict V) : option V :=
    match d with
    | [] => None
    | (k', v) :: d' => if String.eqb k k' then Some v else dget k d'
    end.
  Definition dmem (k : string) (d : dict V) : bool :=
    match dget k d with Some _ => true | None => false end.
  (** [d[k] = v]: an existing key keeps its position. *)
  Fixpoint dset (k : string) (v : V) (d : dict V) : dict V :=
    match d with
    | [] => [(k, v)]
    | (k', v') :: d' => if String.eqb k k' then (k', v) :: d' else (k', v') :: dset k v d'
    end.
  (** [del d[k]] / the dictionary left by [d.pop(k)]. *)
  Fixpoint ddel (k : string) (d : dict V) : dict V :=
    match d with
    | [] => []
    | (k', v') :: d' => if String.eqb k k' then d' else (k', v') :: ddel k d'
    end.
  Definition dkeys (d : dict V) : list string := map fst d.
  (** [d[k]]. *)
  Definition dlookup (k : string) (d : dict V) : result V :=
    match dget k d with Some v => Ok v | None => Err (KeyError k) end.
  (** [d.get(k, v)]. *)
  Definition dget_default (k : string) (v : V) (d : dict V) : V :=
    match dget k d with Some v' => v' | None => v end.
  (** Distinct keys: the invariant of every Python dictionary. *)
  Definition dwf (d : dict V) : Prop := NoDup (dkeys d).
End Dict.

Definition dmap {V W} (f : V -> W) (d : dict V) : dict W := map (fun kv => (fst kv, f (snd kv))) d.

(** ** Backends ([backend.py] line 4). *)
Inductive backend := Numpy | Cupy | Jax.
Definition is_jax (b : backend) : bool := match b with Jax => true | _ => false end.
