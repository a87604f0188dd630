(** Property theorems (gridvt). Proofs are in [gridvt_thms]; the vocabulary is in [Spec]. *)
From Coq Require Import Reals Lra Lia String Bool Sorted.
From Coquelicot Require Import Coquelicot.
From Coq Require Import List.
From Verif Require Import Xf Py Xf_facts Py_facts Spec Utils_model Trap_facts Np Vt_model SpecVt.
Import ListNotations.
Local Open Scope R_scope.
From Verif Require Import gridvt_thms.

(** C55. The grid estimator is the iterated trapezoid of model times sensitivity over the full product grid, to a single number, for any number of axes, any number
    of points per axis and any order of the dictionary, when the lengths of the axes are pairwise different. *)
Theorem C55_iterated_trapezoid :
  forall bk prob data axis coords vts parameters pa (p v : list nat -> R),
  dwf data -> coords <> [] -> Forall strictly_increasing coords -> Forall (fun c => c <> []) coords ->
  NoDup (map (@List.length R) coords) ->
  (forall k a, k <> "vt"%string -> dget k data = Some a -> meshgrid coords (axis k) a) ->
  (forall i, (i < List.length coords)%nat -> exists k, k <> "vt"%string /\ dget k data <> None /\ axis k = i) ->
  dget "vt" data = Some vts -> samples coords v vts ->
  prob (ddel "vt" data) parameters = Ok pa -> samples coords p pa ->
  exists g r, snd (gridvt_init data) = Ok g /\ gridvt_call bk prob g parameters = Ok r /\ ar_shape r = [] /\
    ar_at r [] = Fin (iterated coords (fun idx => p idx * v idx)).
Proof. exact C55_iterated_trapezoid_pf. Qed.
Print Assumptions C55_iterated_trapezoid.

Definition ex_coords : list (list R) := [[0; 1]; [0; 1; 3]].
Definition ex_axis (k : string) : nat := if String.eqb k "x" then 0 else 1.
Definition ex_grid (i : nat) : array := {| ar_shape := [2; 3]%nat; ar_at := fun idx => Fin (nth (nth i idx O) (nth i ex_coords []) 0) |}.
Definition ex_data : dict array := [("y", ex_grid 1); ("vt", ex_grid 0); ("x", ex_grid 0)]%string.
Example C55_hyps : dwf ex_data /\ ex_coords <> [] /\ Forall strictly_increasing ex_coords /\ Forall (fun c => c <> []) ex_coords /\
  NoDup (map (@List.length R) ex_coords) /\
  (forall k a, k <> "vt"%string -> dget k ex_data = Some a -> meshgrid ex_coords (ex_axis k) a) /\
  (forall i, (i < List.length ex_coords)%nat -> exists k, k <> "vt"%string /\ dget k ex_data <> None /\ ex_axis k = i) /\
  samples ex_coords (fun idx => nth (nth 0 idx O) (nth 0 ex_coords []) 0) (ex_grid 0).
Proof.
  split; [repeat constructor; simpl; intuition congruence|]. split; [discriminate|]. split; [repeat constructor; simpl; lra|]. split; [repeat constructor; discriminate|].
  split; [repeat constructor; simpl; intuition congruence|]. split.
  { intros k a N H. cbn [dget ex_data] in H. destruct (String.eqb_spec k "y") as [->|]; [injection H as <-; repeat split; simpl; auto|].
    destruct (String.eqb_spec k "vt") as [->|]; [congruence|]. destruct (String.eqb_spec k "x") as [->|]; [|discriminate]. injection H as <-. repeat split; simpl; auto. }
  split.
  { intros [|[|i]] I; [exists "x"%string|exists "y"%string|simpl in I; lia]; repeat split; discriminate. }
  repeat split.
Qed.

(** C55. The result is linear in the sensitivity. *)
Theorem C55_linear :
  forall bk prob axis coords parameters pa (p v1 v2 : list nat -> R) a b data1 data2 data3 t1 t2 t3,
  coords <> [] -> Forall strictly_increasing coords -> Forall (fun c => c <> []) coords -> NoDup (map (@List.length R) coords) ->
  samples coords p pa -> 
  (forall data, In data [data1; data2; data3] -> dwf data /\ prob (ddel "vt" data) parameters = Ok pa /\
     (forall k x, k <> "vt"%string -> dget k data = Some x -> meshgrid coords (axis k) x) /\
     (forall i, (i < List.length coords)%nat -> exists k, k <> "vt"%string /\ dget k data <> None /\ axis k = i)) ->
  dget "vt" data1 = Some t1 -> dget "vt" data2 = Some t2 -> dget "vt" data3 = Some t3 ->
  samples coords v1 t1 -> samples coords v2 t2 -> samples coords (fun idx => a * v1 idx + b * v2 idx) t3 ->
  exists g1 g2 g3 r1 r2 r3 x1 x2, snd (gridvt_init data1) = Ok g1 /\ snd (gridvt_init data2) = Ok g2 /\ snd (gridvt_init data3) = Ok g3 /\
    gridvt_call bk prob g1 parameters = Ok r1 /\ gridvt_call bk prob g2 parameters = Ok r2 /\ gridvt_call bk prob g3 parameters = Ok r3 /\
    ar_at r1 [] = Fin x1 /\ ar_at r2 [] = Fin x2 /\ ar_at r3 [] = Fin (a * x1 + b * x2).
Proof. exact C55_linear_pf. Qed.
Print Assumptions C55_linear.

(** C55 (refuted without pairwise different lengths). A two-dimensional grid with n points on each axis, both orders of the dictionary: the result is not a number but
    an array of length n. With the first axis first in the dictionary its elements are the integrals over the second axis only; with the second axis first the
    integral over the second axis even uses the coordinates of the first. *)
Theorem C55_equal_lengths_refuted :
  forall bk prob c0 c1 x y a0 a1 vts parameters pa (p v : list nat -> R),
  strictly_increasing c0 -> strictly_increasing c1 -> c0 <> [] -> List.length c0 = List.length c1 ->
  meshgrid [c0; c1] 0 a0 -> meshgrid [c0; c1] 1 a1 -> samples [c0; c1] v vts -> samples [c0; c1] p pa ->
  NoDup [x; y; "vt"%string] ->
  (prob [(x, a0); (y, a1)] parameters = Ok pa -> exists g r, snd (gridvt_init [(x, a0); (y, a1); ("vt"%string, vts)]) = Ok g /\
     gridvt_call bk prob g parameters = Ok r /\ ar_shape r = [List.length c0] /\
     forall i, (i < List.length c0)%nat -> ar_at r [i] = Fin (Rtrap (map (fun j => p [i; j] * v [i; j]) (seq 0 (List.length c1))) c1)) /\
  (prob [(y, a1); (x, a0)] parameters = Ok pa -> exists g r, snd (gridvt_init [(y, a1); (x, a0); ("vt"%string, vts)]) = Ok g /\
     gridvt_call bk prob g parameters = Ok r /\ ar_shape r = [List.length c0] /\
     forall i, (i < List.length c0)%nat -> ar_at r [i] = Fin (Rtrap (map (fun j => p [i; j] * v [i; j]) (seq 0 (List.length c1))) c0)).
Proof. exact C55_equal_lengths_refuted_pf. Qed.
Print Assumptions C55_equal_lengths_refuted.

Example C55_equal_hyps : strictly_increasing [0; 1] /\ strictly_increasing [0; 2] /\ List.length [0; 1] = List.length [0; 2] /\ NoDup ["x"; "y"; "vt"]%string /\
  meshgrid [[0; 1]; [0; 2]] 0 {| ar_shape := [2; 2]%nat; ar_at := fun idx => Fin (nth (nth 0 idx O) (nth 0 [[0; 1]; [0; 2]] []) 0) |}.
Proof. split; [simpl; lra|]. split; [simpl; lra|]. split; [reflexivity|]. split; [repeat constructor; simpl; intuition congruence|]. split; [reflexivity|]. split; [simpl; auto|reflexivity]. Qed.

(** C56 (refuted). Constructing the grid estimator changes the caller's dictionary: the "vt" entry is gone, everything else is kept, and constructing a second
    estimator from the same dictionary raises KeyError. *)
Theorem C56_input_kept_refuted :
  forall data vts, dwf data -> dget "vt" data = Some vts ->
  fst (gridvt_init data) <> data /\ dget "vt" (fst (gridvt_init data)) = None /\
  (forall k, k <> "vt"%string -> dget k (fst (gridvt_init data)) = dget k data) /\
  snd (gridvt_init (fst (gridvt_init data))) = Err (KeyError "vt").
Proof. exact C56_input_kept_refuted_pf. Qed.
Print Assumptions C56_input_kept_refuted.

Example C56_hyps : dwf ex_data /\ dget "vt" ex_data = Some (ex_grid 0).
Proof. split; [repeat constructor; simpl; intuition congruence|reflexivity]. Qed.

