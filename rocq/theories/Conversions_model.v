(** * Model of gwpopulation/conversions.py

    Values are Python objects: [None], immutable numbers (a Python float or a numpy
    scalar), immutable jax arrays, and references to mutable numpy/cupy arrays held in
    the store.  Dictionaries live in the store too, so that copies and aliases differ.
    Arrays are one-dimensional floating-point arrays. *)
From Coq Require Import Reals String Bool.
From Coquelicot Require Import Coquelicot.
From Coq Require Import List.
From Verif Require Import Xf Py St.
Import ListNotations.
Local Open Scope R_scope.
Local Open Scope string_scope.

Inductive pval :=
  | VNone
  | VNum (x : xf) (python_float : bool)
  | VImm (l : list xf)
  | VRef (p : nat).

Record store := mkStore { arrays : list (list xf); dicts : list (dict pval) }.

(** Contents of a numerical value during a computation. *)
Inductive nd := Sc (x : xf) (py : bool) | Ar (l : list xf).

(** numpy broadcasting for one-dimensional operands; [div] flags the division operator, which
    raises ZeroDivisionError on two Python floats. *)
Definition bcast (f : xf -> xf -> xf) (a b : list xf) : result (list xf) :=
  if Nat.eqb (List.length a) (List.length b) then Ok (map (fun p => f (fst p) (snd p)) (combine a b))
  else match a, b with
       | [x], _ => Ok (map (f x) b)
       | _, [y] => Ok (map (fun x => f x y) a)
       | _, _ => Err ValueError
       end.
Definition binop (f : xf -> xf -> xf) (a b : nd) : result nd :=
  match a, b with
  | Sc x p, Sc y q => Ok (Sc (f x y) (p && q))
  | Sc x _, Ar l => Ok (Ar (map (f x) l))
  | Ar l, Sc y _ => Ok (Ar (map (fun x => f x y) l))
  | Ar l, Ar m => rmap Ar (bcast f l m)
  end.
Definition ndiv (a b : nd) : result nd :=
  match a, b with
  | Sc _ true, Sc (Fin z) true => if Reqb z 0 then Err ZeroDivisionError else binop fdiv a b
  | _, _ => binop fdiv a b
  end.

(** Reading an operand; arithmetic on None raises TypeError. *)
Definition read (v : pval) : ST store nd :=
  fun s => match v with
           | VNone => (s, Err TypeError)
           | VNum x p => (s, Ok (Sc x p))
           | VImm l => (s, Ok (Ar l))
           | VRef p => (s, Ok (Ar (nth p (arrays s) [])))
           end.

Fixpoint set_nth {A} (l : list A) (n : nat) (a : A) : list A :=
  match l, n with
  | [], _ => []
  | _ :: l', O => a :: l'
  | b :: l', S n' => b :: set_nth l' n' a
  end.

(** [v /= d]: in place for a mutable array (whose shape must not change), a new value for
    everything else.  The result says where the variable now lives: a reference or a value. *)
Inductive local := LRef (p : nat) | LVal (x : nd).
Definition idiv (v : pval) (d : nd) : ST store local :=
  a <~ read v ;;
  r <~ slift (ndiv a d) ;;
  match v, r with
  | VRef p, Ar l =>
      s <~ sget ;;
      if Nat.eqb (List.length l) (List.length (nth p (arrays s) []))
      then _ <~ sput (mkStore (set_nth (arrays s) p l) (dicts s)) ;; sret (LRef p)
      else sfail ValueError
  | _, _ => sret (LVal r)
  end.
Definition lread (v : local) : ST store nd :=
  fun s => match v with LRef p => (s, Ok (Ar (nth p (arrays s) []))) | LVal x => (s, Ok x) end.

(** ** alpha_beta_max_to_mu_var_max (conversions.py lines 72-101); no mutation *)
Definition alpha_beta_max_to_mu_var_max (alpha beta amax : nd) : result (nd * nd * nd) :=
  ab <- binop fadd alpha beta ;;
  q <- ndiv alpha ab ;;
  mu <- binop fmul q amax ;;
  n <- binop fmul alpha beta ;;
  ab2 <- binop fmul ab ab ;;
  ab1 <- binop fadd ab (Sc (Fin 1) true) ;;
  d <- binop fmul ab2 ab1 ;;
  r <- ndiv n d ;;
  am2 <- binop fmul amax amax ;;
  var <- binop fmul r am2 ;;
  Ok (mu, var, amax).

(** ** mu_var_max_to_alpha_beta_max (conversions.py lines 104-135).
    [x**2] is [x*x]; the value [amax] is returned unchanged (line 135) and dropped by the
    only caller (line 50), so only alpha and beta are returned here. *)
Definition mu_var_max_to_alpha_beta_max (mu var amax : pval) : ST store (nd * nd) :=
  am <~ read amax ;;
  lmu <~ idiv mu am ;;                                        (* line 131 *)
  am' <~ read amax ;;
  am2 <~ slift (binop fmul am' am') ;;
  lvar <~ idiv var am2 ;;                                     (* line 132 *)
  m <~ lread lmu ;;
  v <~ lread lvar ;;
  let one := Sc (Fin 1) true in
  alpha <~ slift (m2 <- binop fmul m m ;; om <- binop fsub one m ;; a <- binop fmul m2 om ;;
                  mv <- binop fmul m v ;; n <- binop fsub a mv ;; ndiv n v) ;;   (* line 133 *)
  beta <~ slift (om <- binop fsub one m ;; om2 <- binop fmul om om ;; a <- binop fmul m om2 ;;
                 ov <- binop fmul om v ;; n <- binop fsub a ov ;; ndiv n v) ;;   (* line 134 *)
  sret (alpha, beta).

(** A freshly created number or array becomes a Python value. *)
Definition alloc (x : nd) : ST store pval :=
  match x with
  | Sc x p => sret (VNum x p)
  | Ar l => s <~ sget ;;
            _ <~ sput (mkStore (arrays s ++ [l]) (dicts s)) ;;
            sret (VRef (List.length (arrays s)))
  end.

(** Dictionaries in the store. *)
Definition dict_at (d : nat) : ST store (dict pval) := fun s => (s, Ok (nth d (dicts s) [])).
Definition dict_set (d : nat) (k : string) (v : pval) : ST store unit :=
  fun s => (mkStore (arrays s) (set_nth (dicts s) d (dset k v (nth d (dicts s) []))), Ok tt).
(** [d.copy()] (shallow). *)
Definition dict_copy (d : nat) : ST store nat :=
  fun s => (mkStore (arrays s) (dicts s ++ [nth d (dicts s) []]), Ok (List.length (dicts s))).

Definition is_none (o : option pval) : bool := match o with Some VNone => true | _ => false end.

(** ** _convert (conversions.py lines 29-59); [params] and [conv] are dictionary references.
    Returns [done] and the keys appended to [added_keys]. *)
Definition convert_one (params conv : nat) (remove : bool) (suffix : string) : ST store (bool * list string) :=
  let alpha := "alpha_chi" ++ suffix in
  let beta := "beta_chi" ++ suffix in
  let mu := "mu_chi" ++ suffix in
  let sigma := "sigma_chi" ++ suffix in
  let amax := "amax" ++ suffix in
  P <~ dict_at params ;;
  C <~ dict_at conv ;;
  let needed := if negb (dmem alpha P) || negb (dmem beta P) then true
                else is_none (dget alpha C) || is_none (dget beta C) in
  if needed then
    if dmem mu C && dmem sigma C then
      vmu <~ slift (dlookup mu P) ;;
      vsigma <~ slift (dlookup sigma P) ;;
      vamax <~ slift (dlookup amax P) ;;
      ' (a, b) <~ mu_var_max_to_alpha_beta_max vmu vsigma vamax ;;
      va <~ alloc a ;;
      vb <~ alloc b ;;
      _ <~ dict_set conv alpha va ;;
      _ <~ dict_set conv beta vb ;;
      sret (true, if remove then [alpha; beta] else [])
    else sret (false, [])
  else sret (true, []).

(** ** convert_to_beta_parameters (conversions.py lines 6-69); returns the reference of the
    converted dictionary and the added keys. *)
Definition convert_to_beta_parameters (params : nat) (remove : bool) : ST store (nat * list string) :=
  conv <~ dict_copy params ;;                                  (* line 27 *)
  ' (d1, k1) <~ convert_one params conv remove "_1" ;;         (* lines 63-65 *)
  ' (d2, k2) <~ convert_one params conv remove "_2" ;;
  if d1 || d2 then sret (conv, (k1 ++ k2)%list)
  else ' (d3, k3) <~ convert_one params conv remove "" ;;      (* lines 66-67 *)
       sret (conv, (k1 ++ k2 ++ k3)%list).
