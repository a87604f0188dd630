(** Property theorems (trap). Proofs are in [trap_thms]; the vocabulary is in [Spec]. *)
From Coq Require Import Reals ZArith Lra Lia Psatz String Bool Arith.
From Coquelicot Require Import Coquelicot.
From Coq Require Import List.
From Verif Require Import Xf Py Np Xf_facts Py_facts Calc Utils_model Trap_facts Vt_model Meta_model Trap_model SpecTrap Spin_model.
Import ListNotations.
Local Open Scope R_scope.
Local Open Scope string_scope.
From Verif Require Import trap_thms.

(** C114: with abscissae as long as the axis, the wrapper integrates along the axis asked for, whatever the rank, the backend and the name of the library's function, and whether
    the axis is counted from the front or from the back: the result has the shape without that axis, and each element is the trapezoid sum of the elements met along it. *)
Theorem C114_axis :
  forall (has : string -> bool) (bk : backend) (y : array) (f : list nat -> R) (x : list R) (dx : xf) (axis : Z) (k : nat),
  has "trapezoid" = true \/ has "trapz" = true ->
  names_axis (length (ar_shape y)) k axis -> finite_array y f -> length x = nth k (ar_shape y) 0%nat ->
  exists r, trapezoid_nd has bk y (Some (map Fin x)) dx axis = Ok r /\ ar_shape r = without k (ar_shape y) /\
    finite_array r (fun i => trapezoid_sum (length x) (fun j => f (with_coord k j i)) (fun j => nth j x 0)).
Proof. exact C114_axis_pf. Qed.
Print Assumptions C114_axis.

(** C114: also with infinities and NaNs in the array or the abscissae, each element is the one-dimensional rule of [Utils_model] (which the other theorems use) along that axis. *)
Theorem C114_line :
  forall (has : string -> bool) (bk : backend) (y : array) (x : list xf) (dx : xf) (axis : Z) (k : nat),
  has "trapezoid" = true \/ has "trapz" = true ->
  names_axis (length (ar_shape y)) k axis -> length x = nth k (ar_shape y) 0%nat ->
  exists r, trapezoid_nd has bk y (Some x) dx axis = Ok r /\ ar_shape r = without k (ar_shape y) /\
    forall i, in_range (ar_shape r) i -> ar_at r i = trapezoid (line y k i) x.
Proof. exact C114_line_pf. Qed.
Print Assumptions C114_line.

(** C114: without abscissae the points are [dx] apart. *)
Theorem C114_uniform :
  forall (has : string -> bool) (bk : backend) (y : array) (f : list nat -> R) (dx : R) (axis : Z) (k : nat),
  has "trapezoid" = true \/ has "trapz" = true ->
  names_axis (length (ar_shape y)) k axis -> finite_array y f ->
  exists r, trapezoid_nd has bk y None (Fin dx) axis = Ok r /\ ar_shape r = without k (ar_shape y) /\
    finite_array r (fun i => trapezoid_sum (nth k (ar_shape y) 0%nat) (fun j => f (with_coord k j i)) (fun j => dx * INR j)).
Proof. exact C114_uniform_pf. Qed.
Print Assumptions C114_uniform.

(** C114: the order in which two axes are integrated does not matter. [a] is the axis integrated first on the left; on the right the later axis has moved up by one. *)
Theorem C114_two_axes :
  forall (has : string -> bool) (bk : backend) (y : array) (f : list nat -> R) (x z : list R) (dx : xf) (a b : nat),
  has "trapezoid" = true \/ has "trapz" = true ->
  (a <= b)%nat -> (S b < length (ar_shape y))%nat -> finite_array y f ->
  length x = nth a (ar_shape y) 0%nat -> length z = nth (S b) (ar_shape y) 0%nat ->
  exists u v r s,
    trapezoid_nd has bk y (Some (map Fin x)) dx (Z.of_nat a) = Ok u /\ trapezoid_nd has bk u (Some (map Fin z)) dx (Z.of_nat b) = Ok r /\
    trapezoid_nd has bk y (Some (map Fin z)) dx (Z.of_nat (S b)) = Ok v /\ trapezoid_nd has bk v (Some (map Fin x)) dx (Z.of_nat a) = Ok s /\
    ar_shape r = ar_shape s /\ forall i, in_range (ar_shape r) i -> ar_at r i = ar_at s i.
Proof. exact C114_two_axes_pf. Qed.
Print Assumptions C114_two_axes.

(** C115, refuted: abscissae of another length than the axis are not always rejected. Two abscissae (or an axis with two elements) are stretched silently. *)
Theorem C115_length_mismatch_refuted :
  ~ (forall (has : string -> bool) (bk : backend) (y : array) (x : list xf) (dx : xf) (axis : Z) (k : nat),
     names_axis (length (ar_shape y)) k axis -> length x <> nth k (ar_shape y) 0%nat ->
     exists e, trapezoid_nd has bk y (Some x) dx axis = Err e).
Proof. exact C115_length_mismatch_refuted_pf. Qed.
Print Assumptions C115_length_mismatch_refuted.

(** C115: which lengths are accepted and what comes out. The number of intervals of the abscissae and of the axis must agree, or one of the two must be one; then that single interval
    is used with every interval of the other. *)
Theorem C115_length_mismatch_partial :
  forall (has : string -> bool) (bk : backend) (y : array) (f : list nat -> R) (x : list R) (dx : xf) (axis : Z) (k : nat),
  has "trapezoid" = true \/ has "trapz" = true ->
  names_axis (length (ar_shape y)) k axis -> finite_array y f ->
  let n := nth k (ar_shape y) 0%nat in let m := length x in
  let out := trapezoid_nd has bk y (Some (map Fin x)) dx axis in
  ((m - 1 <> n - 1)%nat -> m <> 2%nat -> n <> 2%nat -> out = Err (shape_error bk)) /\
  (m = 2%nat -> exists r, out = Ok r /\ ar_shape r = without k (ar_shape y) /\
     finite_array r (fun i => trapezoid_sum n (fun j => f (with_coord k j i)) (fun j => (nth 1 x 0 - nth 0 x 0) * INR j))) /\
  (n = 2%nat -> exists r, out = Ok r /\ ar_shape r = without k (ar_shape y) /\
     finite_array r (fun i => sum_upto (m - 1) (fun j => (nth (S j) x 0 - nth j x 0) * (f (with_coord k 1 i) + f (with_coord k 0 i)) / 2))).
Proof. exact C115_length_mismatch_partial_pf. Qed.
Print Assumptions C115_length_mismatch_partial.

(** C114: an axis the array does not have raises IndexError; a library with neither function raises NotImplementedError. *)
Theorem C114_errors :
  forall (has : string -> bool) (bk : backend) (y : array) (x : option (list xf)) (dx : xf) (axis : Z),
  (has "trapezoid" = true \/ has "trapz" = true -> (forall k, ~ names_axis (length (ar_shape y)) k axis) -> trapezoid_nd has bk y x dx axis = Err IndexError) /\
  (has "trapezoid" = false -> has "trapz" = false -> trapezoid_nd has bk y x dx axis = Err NotImplementedError).
Proof. exact C114_errors_pf. Qed.
Print Assumptions C114_errors.

(** C114, the callers: the rule used by the grid-based sensitivity is the wrapper with [axis=-1]. *)
Theorem C114_caller_grid :
  forall (has : string -> bool) (bk : backend) (y r : array) (x : list xf) (dx : xf),
  has "trapezoid" = true \/ has "trapz" = true -> trapezoid_last bk y x = Ok r ->
  exists r', trapezoid_nd has bk y (Some x) dx (-1) = Ok r' /\ ar_shape r' = ar_shape r /\ forall i, in_range (ar_shape r) i -> ar_at r' i = ar_at r i.
Proof. exact C114_caller_grid_pf. Qed.
Print Assumptions C114_caller_grid.

(** C114, the callers: the normalisation of the correlated effective spins is the wrapper applied twice, each time with [axis=-1], to the table with one row per chi_p. *)
Theorem C114_caller_spin :
  forall (has : string -> bool) (bk : backend) (g : chi_grids) (me se mp sp cov dx : xf),
  has "trapezoid" = true \/ has "trapz" = true ->
  let table := {| ar_shape := [length (cg_p g); length (cg_eff g)];
                  ar_at := fun i => unnormalized_2d_gaussian (nth (nth 1 i 0%nat) (cg_eff g) NaN) (nth (nth 0 i 0%nat) (cg_p g) NaN) me mp se sp cov |} in
  exists u r, trapezoid_nd has bk table (Some (cg_eff g)) dx (-1) = Ok u /\ trapezoid_nd has bk u (Some (cg_p g)) dx (-1) = Ok r /\
    ar_shape r = [] /\ ar_at r [] = chi_normalization g me se mp sp cov.
Proof. exact C114_caller_spin_pf. Qed.
Print Assumptions C114_caller_spin.

(** C114, the callers: along the first axis, as the mass-ratio normalisation uses it, column [c] of a table with one row per mass ratio is integrated over the mass ratios. *)
Theorem C114_caller_first_axis :
  forall (has : string -> bool) (bk : backend) (p : xf -> xf -> xf) (rows cols : list xf) (dx : xf),
  has "trapezoid" = true \/ has "trapz" = true ->
  exists r, trapezoid_nd has bk {| ar_shape := [length rows; length cols]; ar_at := fun i => p (nth (nth 0 i 0%nat) rows NaN) (nth (nth 1 i 0%nat) cols NaN) |} (Some rows) dx 0 = Ok r /\
    ar_shape r = [length cols] /\ map (fun c => ar_at r [c]) (seq 0 (length cols)) = map (fun m => trapezoid (map (fun q => p q m) rows) rows) cols.
Proof. exact C114_caller_first_axis_pf. Qed.
Print Assumptions C114_caller_first_axis.

(** C116: converting a value with one element gives that element: as a Python number on numpy and cupy, as an array with the same shape and element on jax. *)
Theorem C116_one_element :
  forall (xp lib : backend) (a : array), Forall (fun n => n = 1%nat) (ar_shape a) ->
  exists v, to_number_any xp (PyArray lib a) = Ok v /\
    (xp <> Jax -> v = PyNumber (ar_at a (map (fun _ => 0%nat) (ar_shape a)))) /\ (xp = Jax -> v = PyArray lib a).
Proof. exact C116_one_element_pf. Qed.
Print Assumptions C116_one_element.

(** C116, refuted: the same call does not accept the same values everywhere. A Python number passes on numpy and cupy and raises on jax; an array with two elements passes on jax and
    raises on numpy and cupy. *)
Theorem C116_same_values_accepted_refuted :
  (forall x, to_number_any Numpy (PyNumber x) = Ok (PyNumber x) /\ to_number_any Cupy (PyNumber x) = Ok (PyNumber x) /\ to_number_any Jax (PyNumber x) = Err AttributeError) /\
  (forall lib a, ar_shape a = [2%nat] ->
     to_number_any Jax (PyArray lib a) = Ok (PyArray lib a) /\ to_number_any Numpy (PyArray lib a) = Err TypeError /\ to_number_any Cupy (PyArray lib a) = Err TypeError).
Proof. exact C116_same_values_accepted_refuted_pf. Qed.
Print Assumptions C116_same_values_accepted_refuted.

(** A two-by-three table on an unevenly spaced grid meets the hypotheses; summing the rows or the columns first gives the same number. *)
Definition tr_table : array := {| ar_shape := [2%nat; 3%nat]; ar_at := fun i => Fin (INR (nth 0 i 0%nat) + 2 * INR (nth 1 i 0%nat)) |}.
Example C114_hyps :
  names_axis 2 1 (-1) /\ names_axis 2 0 (-2) /\ finite_array tr_table (fun i => INR (nth 0 i 0%nat) + 2 * INR (nth 1 i 0%nat)) /\
  exists r, trapezoid_nd (String.eqb "trapz") Numpy tr_table (Some (map Fin [0; 1; 3])) (Fin 1) (-1) = Ok r /\ ar_shape r = [2%nat] /\ ar_at r [0%nat] = Fin 7 /\ ar_at r [1%nat] = Fin 10.
Proof.
  split; [split; [lia|right; lia]|]. split; [split; [lia|right; lia]|]. split; [intros i _; reflexivity|].
  destruct (C114_axis (String.eqb "trapz") Numpy tr_table (fun i => INR (nth 0 i 0%nat) + 2 * INR (nth 1 i 0%nat)) [0; 1; 3] (Fin 1) (-1) 1) as (r & E & S & A).
  - right; reflexivity.
  - split; [simpl; lia|right; simpl; lia].
  - intros i _; reflexivity.
  - reflexivity.
  - cbn in S. exists r. split; [exact E|]. split; [exact S|].
    split; rewrite A by (rewrite S; repeat constructor); cbn [trapezoid_sum length Nat.sub sum_upto with_coord firstn skipn app nth INR]; unfold trapezoid_sum; cbn [length Nat.sub sum_upto with_coord firstn skipn app nth INR]; unfold with_coord; cbn [firstn skipn app nth INR]; f_equal; lra.
Qed.
(** Three ordinates with two abscissae: accepted, and the single interval is used twice. *)
Example C115_hyps : exists r, trapezoid_nd (fun _ => true) Jax {| ar_shape := [3%nat]; ar_at := fun i => Fin (1 + INR (nth 0 i 0%nat)) |} (Some (map Fin [0; 5])) (Fin 1) (-1) = Ok r /\
  ar_at r [] = Fin 20.
Proof.
  match goal with |- context [trapezoid_nd ?h ?b ?t _ _ _] => destruct (C115_length_mismatch_partial h b t (fun i => 1 + INR (nth 0 i 0%nat)) [0; 5] (Fin 1) (-1) 0) as (_ & A & _) end.
  - left; reflexivity.
  - split; [simpl; lia|right; simpl; lia].
  - intros i _; reflexivity.
  - destruct (A eq_refl) as (r & E & S & F). exists r. split; [exact E|]. cbn in S. rewrite F by (rewrite S; constructor).
    unfold trapezoid_sum. cbn [ar_shape nth Nat.sub sum_upto INR]. unfold with_coord. cbn [firstn skipn app nth INR]. f_equal. lra.
Qed.
Example C116_hyps : Forall (fun n => n = 1%nat) (ar_shape {| ar_shape := []; ar_at := fun _ => Fin 3 |}) /\ Forall (fun n => n = 1%nat) (ar_shape {| ar_shape := [1%nat; 1%nat]; ar_at := fun _ => PInf |}).
Proof. split; repeat constructor. Qed.

