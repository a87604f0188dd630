(** * Vocabulary for gradients computed by automatic differentiation. *)
From Coq Require Import Reals.
From Coquelicot Require Import Coquelicot.
From Coq Require Import List.
From Verif Require Import Xf Py Spec Ad_model.
Import ListNotations.
Local Open Scope R_scope.

(** The environment with variable [j] replaced. *)
Definition with_variable (env : nat -> xf) (j : nat) (u : R) (i : nat) : xf := if Nat.eqb i j then Fin u else env i.

(** Near [x] the function returns finite numbers, and [d] is their derivative at [x]. *)
Definition derivative (F : R -> xf) (x d : R) : Prop := exists g : R -> R, locally x (fun u => F u = Fin (g u)) /\ is_derive g x d.

(** A branch whose operations turn a zero cotangent into zero: every factor and divisor that reverse mode would multiply with or divide by is finite (and not 0 where it divides). *)
Definition finite (x : xf) : Prop := exists r, x = Fin r.
Fixpoint harmless (env : nat -> xf) (e : formula) : Prop :=
  let v := value_of env in
  match e with
  | EVar _ | ECon _ | EMask _ _ _ _ _ _ => True
  | EAdd a b | ESub a b => harmless env a /\ harmless env b
  | EMul a b => harmless env a /\ harmless env b /\ finite (v a) /\ finite (v b)
  | EDiv a b => harmless env a /\ harmless env b /\ finite (v a) /\ finite (v b) /\ v b <> Fin 0
  | EPow a b => harmless env a /\ harmless env b /\ (exists r, v a = Fin r /\ 0 < r) /\ finite (v b)
  | ELog a => harmless env a /\ finite (v a) /\ v a <> Fin 0
  | ENeg a => harmless env a
  | EPrim p a => harmless env a /\ finite (v a) /\ (p = PLog1p -> v a <> Fin (-1))
  | EWhere _ _ _ t f => harmless env t /\ harmless env f
  end.

(** A point where no operation of the formula is singular: finite numbers, divisors other than 0, positive bases and arguments of logarithms, and no
    comparison or [clip] exactly at its threshold. Of the branch a [where] does not select nothing is asked ([both] = false) or only that it is harmless ([both] = true). *)
Fixpoint regular (both : bool) (env : nat -> xf) (e : formula) : Prop :=
  match e with
  | EVar i => finite (env i)
  | ECon x => finite x
  | EAdd a b | ESub a b | EMul a b => regular both env a /\ regular both env b
  | EDiv a b => regular both env a /\ regular both env b /\ value_of env b <> Fin 0
  | EPow a b => regular both env a /\ regular both env b /\ exists r, value_of env a = Fin r /\ 0 < r
  | ELog a => regular both env a /\ exists r, value_of env a = Fin r /\ 0 < r
  | ENeg a => regular both env a
  | EPrim p a =>
      regular both env a /\
      match p with
      | PLog1p => exists r, value_of env a = Fin r /\ -1 < r
      | PClip lo hi => lo < hi /\ value_of env a <> Fin lo /\ value_of env a <> Fin hi
      | _ => True
      end
  | EWhere c a b t f =>
      regular both env a /\ regular both env b /\ value_of env a <> value_of env b /\
      (if compare_with c (value_of env a) (value_of env b) then regular both env t /\ (both = true -> harmless env f)
       else regular both env f /\ (both = true -> harmless env t))
  | EMask c a b c' a' b' =>
      (regular both env a /\ regular both env b /\ value_of env a <> value_of env b) /\
      (regular both env a' /\ regular both env b' /\ value_of env a' <> value_of env b')
  end.
