(** Proofs of the property theorems stated in [Props_trap]. *)
From Coq Require Import Reals ZArith Lra Lia Psatz String Bool Arith.
From Coquelicot Require Import Coquelicot.
From Coq Require Import List.
From Verif Require Import Xf Py Np Xf_facts Py_facts Calc Utils_model Trap_facts Vt_model Meta_model Trap_model SpecTrap Spin_model.
Import ListNotations.
Local Open Scope R_scope.
Local Open Scope string_scope.
Lemma with_insert k j i : with_coord k j i = insert_at k j i.
Proof. revert i; induction k as [|k IH]; intros [|a i]; unfold with_coord in *; simpl; auto. now rewrite <- IH. Qed.
Lemma without_drop k s : without k s = drop_at k s.
Proof. revert s; induction k as [|k IH]; intros [|a s]; unfold without in *; simpl; auto. now rewrite <- IH. Qed.
Lemma axis_ok n k axis : names_axis n k axis -> axis_of n axis = Ok k.
Proof.
  intros [K [->| ->]]; unfold axis_of.
  - replace (0 <=? Z.of_nat k)%Z with true by (symmetry; apply Z.leb_le; lia).
    replace (Z.of_nat k <? Z.of_nat n)%Z with true by (symmetry; apply Z.ltb_lt; lia). cbn [andb]. now rewrite Nat2Z.id.
  - replace (0 <=? Z.of_nat k - Z.of_nat n)%Z with false by (symmetry; apply Z.leb_gt; lia). cbn [andb].
    replace (Z.of_nat k - Z.of_nat n <? 0)%Z with true by (symmetry; apply Z.ltb_lt; lia).
    replace (- Z.of_nat n <=? Z.of_nat k - Z.of_nat n)%Z with true by (symmetry; apply Z.leb_le; lia). cbn [andb].
    f_equal. replace (Z.of_nat k - Z.of_nat n + Z.of_nat n)%Z with (Z.of_nat k) by lia. apply Nat2Z.id.
Qed.
Lemma axis_bad n axis : (forall k, ~ names_axis n k axis) -> axis_of n axis = Err IndexError.
Proof.
  intros H. unfold axis_of.
  destruct (Z.leb_spec 0 axis) as [A|A]; cbn [andb].
  - destruct (Z.ltb_spec axis (Z.of_nat n)) as [B|B]; [exfalso; apply (H (Z.to_nat axis)); split; lia|].
    destruct (Z.ltb_spec axis 0) as [C|C]; [lia|reflexivity].
  - destruct (Z.ltb_spec axis 0) as [C|C]; [|lia]. cbn [andb].
    destruct (Z.leb_spec (- Z.of_nat n) axis) as [D|D]; [|reflexivity].
    exfalso. apply (H (Z.to_nat (axis + Z.of_nat n))). split; lia.
Qed.

Lemma bshape_same s : bshape s s = Some s.
Proof. induction s as [|n s IH]; simpl; auto. now rewrite IH, Nat.eqb_refl. Qed.
Lemma bindex_valid s i : in_range s i -> bindex s i = i.
Proof.
  unfold in_range. revert i; induction s as [|n s IH]; intros i H; inversion H; subst; simpl; auto.
  rewrite IH by auto. destruct (Nat.eqb_spec n 1); f_equal. lia.
Qed.
Lemma set_length {A} k (v : A) l : length (set_at k v l) = length l.
Proof. revert k; induction l as [|a l IH]; intros [|k]; simpl; auto. Qed.
Lemma nth_set {A} k (v d : A) l : (k < length l)%nat -> nth k (set_at k v l) d = v.
Proof. revert k; induction l as [|a l IH]; intros [|k] H; simpl in *; try lia; auto. apply IH. lia. Qed.
Lemma drop_set {A} k (v : A) l : drop_at k (set_at k v l) = drop_at k l.
Proof. revert k; induction l as [|a l IH]; intros [|k]; simpl; auto. now rewrite IH. Qed.
Lemma nth_insert {A} k (v d : A) l : (k <= length l)%nat -> nth k (insert_at k v l) d = v.
Proof. revert k; induction l as [|a l IH]; intros [|k] H; simpl in *; try lia; auto. apply IH. lia. Qed.
Lemma set_insert {A} k (v w : A) l : (k <= length l)%nat -> set_at k v (insert_at k w l) = insert_at k v l.
Proof. revert k; induction l as [|a l IH]; intros [|k] H; simpl in *; try lia; auto. rewrite IH by lia. auto. Qed.
Lemma set_set {A} k (v w : A) l : set_at k v (set_at k w l) = set_at k v l.
Proof. revert k; induction l as [|a l IH]; intros [|k]; simpl; auto. now rewrite IH. Qed.
Lemma drop_length {A} k (l : list A) : (k < length l)%nat -> length (drop_at k l) = pred (length l).
Proof. revert k; induction l as [|a l IH]; intros [|k] H; simpl in *; try lia. rewrite IH by lia. lia. Qed.
(** A valid index of the reduced array, extended by a valid coordinate. *)
Lemma insert_valid k j i s : in_range (drop_at k s) i -> (k < length s)%nat -> (j < nth k s 0)%nat -> in_range s (insert_at k j i).
Proof.
  unfold in_range. revert s i; induction k as [|k IH]; intros [|n s] i H L J; simpl in *; try lia.
  - constructor; auto.
  - inversion H; subst. simpl. constructor; auto. apply IH; auto; lia.
Qed.
Lemma valid_len s i : in_range s i -> length i = length s.
Proof. unfold in_range. intros H. induction H; simpl; auto. Qed.

(** The spacing broadcast against the slices. *)
Definition fits (p q : nat) : option nat := if Nat.eqb p q then Some p else if Nat.eqb p 1 then Some q else if Nat.eqb q 1 then Some p else None.
Lemma bshape_ones s : bshape (repeat 1%nat (length s)) s = Some s.
Proof. induction s as [|n s IH]; cbn [repeat length bshape]; auto. rewrite IH. destruct (Nat.eqb_spec 1 n); subst; auto. Qed.
Lemma bshape_spacing k p q s : (k < length s)%nat ->
  bshape (set_at k p (repeat 1%nat (length s))) (set_at k q s) = match fits p q with Some u => Some (set_at k u s) | None => None end.
Proof.
  unfold fits. revert s; induction k as [|k IH]; intros [|n s] L; cbn [length] in *; try lia.
  - cbn [repeat set_at bshape]. rewrite bshape_ones. destruct (Nat.eqb p q), (Nat.eqb p 1), (Nat.eqb q 1); auto.
  - cbn [repeat set_at bshape]. rewrite IH by lia. destruct (Nat.eqb p q), (Nat.eqb p 1), (Nat.eqb q 1); auto; destruct (Nat.eqb_spec 1 n); subst; auto.
Qed.
Lemma nth_bindex k p i n : (k < n)%nat -> (k < length i)%nat -> nth k (bindex (set_at k p (repeat 1%nat n)) i) 0%nat = if Nat.eqb p 1 then 0%nat else nth k i 0%nat.
Proof.
  revert n i; induction k as [|k IH]; intros [|n] [|a i] L1 L2; cbn [length] in *; try lia; cbn [repeat set_at bindex nth]; auto.
  apply IH; lia.
Qed.

(** The one-dimensional rule as a sum over the intervals. *)
Lemma trapezoid_terms y x : length y = length x ->
  trapezoid y x = fsum (map (fun j => fdiv (fmul (fsub (nth (S j) x NaN) (nth j x NaN)) (fadd (nth (S j) y NaN) (nth j y NaN))) (Fin 2)) (seq 0 (pred (length x)))).
Proof.
  revert x; induction y as [|y0 y IH]; intros [|x0 x] L; try discriminate; auto.
  destruct y as [|y1 y]; destruct x as [|x1 x]; try discriminate; auto.
  rewrite trapezoid_cons. specialize (IH (x1 :: x) ltac:(simpl in *; lia)). rewrite IH. cbn [length pred seq map fsum fold_right nth].
  f_equal. rewrite <- seq_shift, map_map. reflexivity.
Qed.
Lemma line_nth y k i j : (j < nth k (ar_shape y) 0)%nat -> nth j (line y k i) NaN = ar_at y (insert_at k j i).
Proof.
  intros H. unfold line. rewrite (nth_indep _ NaN (ar_at y (with_coord k 0 i))) by (now rewrite map_length, seq_length).
  rewrite (map_nth (fun j => ar_at y (with_coord k j i))), seq_nth, Nat.add_0_l, with_insert by auto. reflexivity.
Qed.
Lemma line_length y k i : length (line y k i) = nth k (ar_shape y) 0%nat.
Proof. unfold line. now rewrite map_length, seq_length. Qed.

(** The library's function, once the axis is known. *)
Definition slices (k : nat) (y : array) : array :=
  {| ar_shape := set_at k (pred (nth k (ar_shape y) 0%nat)) (ar_shape y);
     ar_at := fun i => fadd (ar_at y (let i := bindex (set_at k (pred (nth k (ar_shape y) 0%nat)) (ar_shape y)) i in set_at k (S (nth k i 0%nat)) i))
                            (ar_at y (bindex (set_at k (pred (nth k (ar_shape y) 0%nat)) (ar_shape y)) i)) |}.
Lemma slices_eq bk k y : bmap2 bk fadd (tail_along k y) (init_along k y) = Ok (slices k y).
Proof. unfold bmap2. cbn [tail_along init_along ar_shape]. rewrite bshape_same. reflexivity. Qed.

Lemma insert_valid_set k j i s q : in_range (drop_at k s) i -> (k < length s)%nat -> (j < q)%nat -> in_range (set_at k q s) (insert_at k j i).
Proof. intros. apply insert_valid; [rewrite drop_set; auto|rewrite set_length; auto|rewrite nth_set by auto; auto]. Qed.
Lemma slices_at k y i j : in_range (drop_at k (ar_shape y)) i -> (k < length (ar_shape y))%nat -> (j < pred (nth k (ar_shape y) 0))%nat ->
  ar_at (slices k y) (insert_at k j i) = fadd (ar_at y (insert_at k (S j) i)) (ar_at y (insert_at k j i)).
Proof.
  intros V L J. cbn [slices ar_at]. rewrite bindex_valid by (apply insert_valid_set; auto). cbv zeta.
  pose proof (valid_len _ _ V) as LI. rewrite drop_length in LI by auto.
  rewrite nth_insert, set_insert by lia. reflexivity.
Qed.

Lemma xp_fits bk y x dx axis k : names_axis (length (ar_shape y)) k axis ->
  xp_trapezoid bk y (Some x) dx axis =
    match fits (pred (length x)) (pred (nth k (ar_shape y) 0%nat)) with
    | None => Err (shape_error bk)
    | Some u => Ok {| ar_shape := drop_at k (ar_shape y);
                      ar_at := ar_at (sum_along k {| ar_shape := set_at k u (ar_shape y);
                        ar_at := fun i => fdiv (fmul (ar_at (spacing (length (ar_shape y)) k x) (bindex (set_at k (pred (length x)) (repeat 1%nat (length (ar_shape y)))) i))
                                                     (ar_at (slices k y) (bindex (set_at k (pred (nth k (ar_shape y) 0%nat)) (ar_shape y)) i))) (Fin 2) |}) |}
    end.
Proof.
  intros N. pose proof N as [K _]. unfold xp_trapezoid. rewrite (axis_ok _ _ _ N). cbn [bind]. rewrite slices_eq. cbn [bind].
  unfold bmap2. cbn [spacing ar_shape slices]. rewrite bshape_spacing by auto.
  destruct (fits _ _); cbn [bind]; auto. unfold sum_along at 1. cbn [ar_shape]. rewrite drop_set. reflexivity.
Qed.

Lemma fold_dispatch (has : string -> bool) bk y x dx axis : has "trapezoid" = true \/ has "trapz" = true ->
  trapezoid_nd has bk y x dx axis = xp_trapezoid bk y x dx axis.
Proof. unfold trapezoid_nd. intros [H|H]; rewrite H; destruct (has "trapezoid"); reflexivity. Qed.

Lemma xp_line bk y x dx axis k : names_axis (length (ar_shape y)) k axis -> length x = nth k (ar_shape y) 0%nat ->
  exists r, xp_trapezoid bk y (Some x) dx axis = Ok r /\ ar_shape r = without k (ar_shape y) /\
    forall i, in_range (ar_shape r) i -> ar_at r i = trapezoid (line y k i) x.
Proof.
  intros N L. pose proof N as [K _]. rewrite (xp_fits _ _ _ _ _ _ N). unfold fits. rewrite L, Nat.eqb_refl.
  eexists; split; [reflexivity|]. split; [symmetry; apply without_drop|]. intros i V. cbn [ar_shape ar_at sum_along] in *.
  rewrite nth_set by auto. rewrite trapezoid_terms by (rewrite line_length; auto). rewrite L. f_equal. apply map_ext_in. intros j J.
  apply in_seq in J. pose proof (valid_len _ _ V) as LI. rewrite drop_length in LI by auto.
  rewrite (bindex_valid (set_at k (pred (nth k (ar_shape y) 0%nat)) (ar_shape y))) by (apply insert_valid_set; auto; lia). rewrite slices_at by (auto; lia).
  cbn [spacing ar_at]. rewrite nth_bindex; [|auto|].
  2:{ pose proof (valid_len _ _ (insert_valid_set k j i (ar_shape y) (pred (nth k (ar_shape y) 0%nat)) V K ltac:(lia))) as Q. rewrite set_length in Q. lia. }
  rewrite nth_insert by lia. rewrite !line_nth by lia.
  destruct (Nat.eqb_spec (pred (nth k (ar_shape y) 0%nat)) 1) as [E|_]; [replace j with 0%nat by lia|]; reflexivity.
Qed.

Lemma sum_upto_seq n (f : nat -> R) : Rsum (map f (seq 0 n)) = sum_upto n f.
Proof.
  induction n as [|n IH]; [reflexivity|]. rewrite seq_S, map_app. cbn [map Nat.add sum_upto]. rewrite <- IH.
  generalize (map f (seq 0 n)). intros l. induction l as [|a l IHl]; simpl; [lra|]. rewrite IHl. lra.
Qed.
Lemma trap_fin n (y x : nat -> R) : trapezoid (map (fun j => Fin (y j)) (seq 0 n)) (map (fun j => Fin (x j)) (seq 0 n)) = Fin (trapezoid_sum n y x).
Proof.
  rewrite trapezoid_terms by (now rewrite !map_length). rewrite map_length, seq_length.
  unfold trapezoid_sum. replace (n - 1)%nat with (pred n) by lia. rewrite <- sum_upto_seq.
  rewrite (map_ext_in _ (fun j => Fin ((x (S j) - x j) * (y (S j) + y j) / 2))).
  - rewrite <- (map_map (fun j => (x (S j) - x j) * (y (S j) + y j) / 2) Fin). apply fsum_map_fin.
  - intros j J. apply in_seq in J.
    assert (T : forall (g : nat -> R) m, (m < n)%nat -> nth m (map (fun j => Fin (g j)) (seq 0 n)) NaN = Fin (g m)).
    { intros g m M. rewrite (nth_indep _ NaN (Fin (g 0%nat))) by (now rewrite map_length, seq_length). rewrite (map_nth (fun j => Fin (g j))), seq_nth by auto. reflexivity. }
    rewrite !T by lia. cbn [fsub fadd fopp fmul]. rewrite fdiv_fin by lra. f_equal.
Qed.
Lemma line_fin y f k i : finite_array y f -> (k < length (ar_shape y))%nat -> in_range (without k (ar_shape y)) i ->
  line y k i = map (fun j => Fin (f (with_coord k j i))) (seq 0 (nth k (ar_shape y) 0%nat)).
Proof.
  intros F K V. unfold line. apply map_ext_in. intros j J. apply in_seq in J. apply F. rewrite with_insert. apply insert_valid; [now rewrite <- without_drop|auto|lia].
Qed.
Lemma map_seq_ext {A} (x : list A) d : x = map (fun j => nth j x d) (seq 0 (length x)).
Proof. induction x as [|a x IH]; auto. cbn [length seq map nth]. f_equal. rewrite <- seq_shift, map_map. exact IH. Qed.
Lemma fins_fun x : map Fin x = map (fun j => Fin (nth j x 0)) (seq 0 (length x)).
Proof. rewrite (map_seq_ext x 0) at 1. now rewrite map_map. Qed.

Lemma xp_axis bk y f x dx axis k : names_axis (length (ar_shape y)) k axis -> finite_array y f -> length x = nth k (ar_shape y) 0%nat ->
  exists r, xp_trapezoid bk y (Some (map Fin x)) dx axis = Ok r /\ ar_shape r = without k (ar_shape y) /\
    finite_array r (fun i => trapezoid_sum (length x) (fun j => f (with_coord k j i)) (fun j => nth j x 0)).
Proof.
  intros N F L. destruct (xp_line bk y (map Fin x) dx axis k N) as (r & E & S & A); [now rewrite map_length|].
  exists r. split; [exact E|]. split; [exact S|]. intros i V. rewrite (A i V), (line_fin _ f) by (solve [auto | apply N | now rewrite <- S]).
  rewrite fins_fun, L. apply trap_fin.
Qed.

(** Exchanging two sums. *)
Lemma sum_upto_ext n (f g : nat -> R) : (forall j, (j < n)%nat -> f j = g j) -> sum_upto n f = sum_upto n g.
Proof. induction n as [|n IH]; intros H; simpl; auto. rewrite IH by (intros; apply H; lia). rewrite H by lia. auto. Qed.
Lemma sum_upto_plus n (f g : nat -> R) : sum_upto n (fun j => f j + g j) = sum_upto n f + sum_upto n g.
Proof. induction n as [|n IH]; simpl; [lra|]. rewrite IH. lra. Qed.
Lemma sum_upto_scal n a (f : nat -> R) : sum_upto n (fun j => a * f j) = a * sum_upto n f.
Proof. induction n as [|n IH]; simpl; [lra|]. rewrite IH. lra. Qed.
Lemma sum_upto_0 n : sum_upto n (fun _ => 0) = 0.
Proof. induction n as [|n IH]; simpl; lra. Qed.
Lemma sum_upto_swap n m (f : nat -> nat -> R) : sum_upto n (fun i => sum_upto m (fun j => f i j)) = sum_upto m (fun j => sum_upto n (fun i => f i j)).
Proof. induction n as [|n IH]; simpl; [now rewrite sum_upto_0|]. rewrite IH, <- sum_upto_plus. auto. Qed.
Lemma trap_swap n m (f : nat -> nat -> R) (x z : nat -> R) :
  trapezoid_sum n (fun i => trapezoid_sum m (fun j => f i j) z) x = trapezoid_sum m (fun j => trapezoid_sum n (fun i => f i j) x) z.
Proof.
  unfold trapezoid_sum.
  transitivity (sum_upto (n - 1) (fun i => sum_upto (m - 1) (fun j => (x (S i) - x i) * (z (S j) - z j) * (f (S i) (S j) + f (S i) j + f i (S j) + f i j) / 4))).
  - apply sum_upto_ext. intros i _. rewrite <- sum_upto_plus. unfold Rdiv at 1. rewrite (Rmult_comm _ (/ 2)), <- Rmult_assoc, <- sum_upto_scal.
    apply sum_upto_ext. intros j _. field.
  - rewrite sum_upto_swap. apply sum_upto_ext. intros j _. rewrite <- sum_upto_plus. unfold Rdiv at 2. rewrite (Rmult_comm _ (/ 2)), <- Rmult_assoc, <- sum_upto_scal.
    apply sum_upto_ext. intros i _. field.
Qed.
Lemma trap_ext n (f g x : nat -> R) : (forall j, (j < n)%nat -> f j = g j) -> trapezoid_sum n f x = trapezoid_sum n g x.
Proof. intros H. unfold trapezoid_sum. apply sum_upto_ext. intros j J. rewrite !H by lia. auto. Qed.
Lemma insert_insert {A} k1 k2 (a b : A) i : (k1 <= k2)%nat -> (k2 <= length i)%nat -> insert_at (S k2) b (insert_at k1 a i) = insert_at k1 a (insert_at k2 b i).
Proof.
  revert k2 i; induction k1 as [|k1 IH]; intros k2 i L L2; [destruct i; reflexivity|].
  destruct k2 as [|k2]; [lia|]. destruct i as [|c i]; cbn [length] in L2; [lia|]. cbn [insert_at]. f_equal. rewrite <- IH by lia. reflexivity.
Qed.
Lemma nth_drop_lt {A} k j (l : list A) d : (j < k)%nat -> nth j (drop_at k l) d = nth j l d.
Proof. revert k l; induction j as [|j IH]; intros [|k] [|a l] L; simpl; try lia; auto. apply IH. lia. Qed.
Lemma nth_drop_ge {A} k j (l : list A) d : (k <= j)%nat -> nth j (drop_at k l) d = nth (S j) l d.
Proof.
  revert j l; induction k as [|k IH]; intros j l L; destruct l as [|a l]; cbn [drop_at nth]; try (destruct j; reflexivity).
  destruct j as [|j]; [lia|]. cbn [nth]. rewrite IH by lia. reflexivity.
Qed.
Lemma drop_drop {A} k1 k2 (l : list A) : (k1 <= k2)%nat -> drop_at k1 (drop_at (S k2) l) = drop_at k2 (drop_at k1 l).
Proof. revert k2 l; induction k1 as [|k1 IH]; intros k2 [|a l] L; simpl; auto; destruct k2 as [|k2]; simpl; auto; try lia. f_equal. apply IH. lia. Qed.
Lemma same_finite r f g : finite_array r f -> (forall i, in_range (ar_shape r) i -> f i = g i) -> finite_array r g.
Proof. intros H E i V. rewrite H, E by auto. auto. Qed.

(** Uniform spacing. *)
Lemma xp_none bk y dx axis k : names_axis (length (ar_shape y)) k axis ->
  exists r, xp_trapezoid bk y None (Fin dx) axis = Ok r /\ ar_shape r = without k (ar_shape y) /\
    forall i, in_range (ar_shape r) i -> ar_at r i = trapezoid (line y k i) (map (fun j => Fin (dx * INR j)) (seq 0 (nth k (ar_shape y) 0%nat))).
Proof.
  intros N. pose proof N as [K _]. unfold xp_trapezoid. rewrite (axis_ok _ _ _ N). cbn [bind]. rewrite slices_eq. cbn [bind].
  eexists; split; [reflexivity|]. split. { cbn [sum_along ar_shape slices]. rewrite drop_set. symmetry. apply without_drop. }
  intros i V. unfold sum_along in V. cbn [ar_shape slices] in V. rewrite drop_set in V. cbn [ar_shape ar_at sum_along]. cbn [slices ar_shape].
  rewrite nth_set by auto. rewrite trapezoid_terms by (rewrite line_length, map_length, seq_length; auto). rewrite map_length, seq_length. f_equal. apply map_ext_in. intros j J.
  apply in_seq in J. fold (slices k y). change (ar_at _ (insert_at k j i)) with (ar_at (slices k y) (insert_at k j i)) at 1.
  rewrite slices_at by (auto; lia). rewrite !line_nth by lia.
  assert (T : forall m, (m < nth k (ar_shape y) 0)%nat -> nth m (map (fun j => Fin (dx * INR j)) (seq 0 (nth k (ar_shape y) 0%nat))) NaN = Fin (dx * INR m)).
  { intros m M. rewrite (nth_indep _ NaN (Fin (dx * INR 0))) by (now rewrite map_length, seq_length). rewrite (map_nth (fun j => Fin (dx * INR j))), seq_nth by auto. reflexivity. }
  rewrite !T by lia. do 2 f_equal. cbn [fsub fadd fopp]. f_equal. rewrite S_INR. ring.
Qed.
Lemma C114_axis_pf :
  forall (has : string -> bool) (bk : backend) (y : array) (f : list nat -> R) (x : list R) (dx : xf) (axis : Z) (k : nat),
  has "trapezoid" = true \/ has "trapz" = true ->
  names_axis (length (ar_shape y)) k axis -> finite_array y f -> length x = nth k (ar_shape y) 0%nat ->
  exists r, trapezoid_nd has bk y (Some (map Fin x)) dx axis = Ok r /\ ar_shape r = without k (ar_shape y) /\
    finite_array r (fun i => trapezoid_sum (length x) (fun j => f (with_coord k j i)) (fun j => nth j x 0)).
Proof. intros has bk y f x dx axis k H. rewrite fold_dispatch by auto. apply xp_axis. Qed.

Lemma C114_line_pf :
  forall (has : string -> bool) (bk : backend) (y : array) (x : list xf) (dx : xf) (axis : Z) (k : nat),
  has "trapezoid" = true \/ has "trapz" = true ->
  names_axis (length (ar_shape y)) k axis -> length x = nth k (ar_shape y) 0%nat ->
  exists r, trapezoid_nd has bk y (Some x) dx axis = Ok r /\ ar_shape r = without k (ar_shape y) /\
    forall i, in_range (ar_shape r) i -> ar_at r i = trapezoid (line y k i) x.
Proof. intros has bk y x dx axis k H. rewrite fold_dispatch by auto. apply xp_line. Qed.

Lemma C114_uniform_pf :
  forall (has : string -> bool) (bk : backend) (y : array) (f : list nat -> R) (dx : R) (axis : Z) (k : nat),
  has "trapezoid" = true \/ has "trapz" = true ->
  names_axis (length (ar_shape y)) k axis -> finite_array y f ->
  exists r, trapezoid_nd has bk y None (Fin dx) axis = Ok r /\ ar_shape r = without k (ar_shape y) /\
    finite_array r (fun i => trapezoid_sum (nth k (ar_shape y) 0%nat) (fun j => f (with_coord k j i)) (fun j => dx * INR j)).
Proof.
  intros has bk y f dx axis k H N F. rewrite fold_dispatch by auto. destruct (xp_none bk y dx axis k N) as (r & E & S & A).
  exists r. split; [exact E|]. split; [exact S|]. intros i V. rewrite (A i V), (line_fin _ f) by (solve [auto | apply N | now rewrite <- S]). apply trap_fin.
Qed.

Lemma C114_two_axes_pf :
  forall (has : string -> bool) (bk : backend) (y : array) (f : list nat -> R) (x z : list R) (dx : xf) (a b : nat),
  has "trapezoid" = true \/ has "trapz" = true ->
  (a <= b)%nat -> (S b < length (ar_shape y))%nat -> finite_array y f ->
  length x = nth a (ar_shape y) 0%nat -> length z = nth (S b) (ar_shape y) 0%nat ->
  exists u v r s,
    trapezoid_nd has bk y (Some (map Fin x)) dx (Z.of_nat a) = Ok u /\ trapezoid_nd has bk u (Some (map Fin z)) dx (Z.of_nat b) = Ok r /\
    trapezoid_nd has bk y (Some (map Fin z)) dx (Z.of_nat (S b)) = Ok v /\ trapezoid_nd has bk v (Some (map Fin x)) dx (Z.of_nat a) = Ok s /\
    ar_shape r = ar_shape s /\ forall i, in_range (ar_shape r) i -> ar_at r i = ar_at s i.
Proof.
  intros has bk y f x z dx a b H AB B F LX LZ.
  assert (NA : names_axis (length (ar_shape y)) a (Z.of_nat a)) by (split; [lia|auto]).
  assert (NB : names_axis (length (ar_shape y)) (S b) (Z.of_nat (S b))) by (split; [lia|auto]).
  destruct (C114_axis_pf has bk y f x dx _ a H NA F LX) as (u & EU & SU & FU).
  destruct (C114_axis_pf has bk y f z dx _ (S b) H NB F LZ) as (v & EV & SV & FV).
  rewrite without_drop in SU, SV.
  assert (LU : length (ar_shape u) = pred (length (ar_shape y))) by (rewrite SU; apply drop_length; lia).
  assert (LV : length (ar_shape v) = pred (length (ar_shape y))) by (rewrite SV; apply drop_length; lia).
  assert (NB' : names_axis (length (ar_shape u)) b (Z.of_nat b)) by (split; [lia|auto]).
  assert (NA' : names_axis (length (ar_shape v)) a (Z.of_nat a)) by (split; [lia|auto]).
  destruct (C114_axis_pf has bk u _ z dx _ b H NB' FU) as (r & ER & SR & FR). { rewrite SU, nth_drop_ge by lia. auto. }
  destruct (C114_axis_pf has bk v _ x dx _ a H NA' FV) as (s & ES & SS & FS). { rewrite SV, nth_drop_lt by lia. auto. }
  rewrite without_drop in SR, SS.
  assert (SE : ar_shape r = ar_shape s). { rewrite SR, SS, SU, SV. symmetry. apply drop_drop. auto. }
  exists u, v, r, s. repeat (split; [assumption|]). intros i V.
  rewrite (FR i V), (FS i) by (now rewrite <- SE). f_equal. rewrite trap_swap. apply trap_ext. intros j1 _. apply trap_ext. intros j2 _.
  f_equal. rewrite !with_insert. symmetry. apply insert_insert; auto. rewrite (valid_len _ _ V), SR, drop_length by lia. lia.
Qed.

Lemma C115_length_mismatch_refuted_pf :
  ~ (forall (has : string -> bool) (bk : backend) (y : array) (x : list xf) (dx : xf) (axis : Z) (k : nat),
     names_axis (length (ar_shape y)) k axis -> length x <> nth k (ar_shape y) 0%nat ->
     exists e, trapezoid_nd has bk y (Some x) dx axis = Err e).
Proof.
  intros H. destruct (H (fun _ => true) Numpy {| ar_shape := [3%nat]; ar_at := fun _ => Fin 1 |} [Fin 0; Fin 5] (Fin 1) (-1)%Z 0%nat) as [e E].
  - split; [simpl; lia|right; reflexivity].
  - simpl. discriminate.
  - discriminate E.
Qed.

Lemma C115_length_mismatch_partial_pf :
  forall (has : string -> bool) (bk : backend) (y : array) (f : list nat -> R) (x : list R) (dx : xf) (axis : Z) (k : nat),
  has "trapezoid" = true \/ has "trapz" = true ->
  names_axis (length (ar_shape y)) k axis -> finite_array y f ->
  let n := nth k (ar_shape y) 0%nat in let m := length x in
  let out := trapezoid_nd has bk y (Some (map Fin x)) dx axis in
  ((m - 1 <> n - 1)%nat -> m <> 2%nat -> n <> 2%nat -> out = Err (shape_error bk)) /\
  (m = 2%nat -> exists r, out = Ok r /\ ar_shape r = without k (ar_shape y) /\
     finite_array r (fun i => trapezoid_sum n (fun j => f (with_coord k j i)) (fun j => (nth 1 x 0 - nth 0 x 0) * INR j))) /\
  (n = 2%nat -> exists r, out = Ok r /\ ar_shape r = without k (ar_shape y) /\
     finite_array r (fun i => sum_upto (m - 1) (fun j => (nth (S j) x 0 - nth j x 0) * (f (with_coord k 1 i) + f (with_coord k 0 i)) / 2))).
Proof.
  intros has bk y f x dx axis k H N F n m out. unfold out. rewrite fold_dispatch by auto. pose proof N as [K _]. rewrite (xp_fits _ _ _ _ _ _ N), map_length. fold n m.
  assert (P1 : forall a, pred a = (a - 1)%nat) by (intros; lia). rewrite !P1.
  assert (X : forall j, nth j (map Fin x) NaN = if Nat.ltb j m then Fin (nth j x 0) else NaN).
  { intros j. destruct (Nat.ltb_spec j m) as [J|J]; [|apply nth_overflow; rewrite map_length; exact J].
    rewrite (nth_indep _ NaN (Fin 0)) by (now rewrite map_length). apply (map_nth Fin). }
  assert (Y : forall i j, in_range (drop_at k (ar_shape y)) i -> (j < n)%nat -> ar_at y (insert_at k j i) = Fin (f (with_coord k j i))).
  { intros i j V J. rewrite with_insert. apply F. apply insert_valid; auto. }
  split; [|split].
  - intros A B C. unfold fits. destruct (Nat.eqb_spec (m - 1) (n - 1)); [lia|]. destruct (Nat.eqb_spec (m - 1) 1); [lia|]. destruct (Nat.eqb_spec (n - 1) 1); [lia|]. auto.
  - intros M. assert (FT : fits (m - 1) (n - 1) = Some (n - 1)%nat).
    { unfold fits. rewrite M. cbn [Nat.sub]. destruct (Nat.eqb_spec 1 (n - 1)); [f_equal; lia|reflexivity]. }
    rewrite FT. eexists; split; [reflexivity|]. split; [symmetry; apply without_drop|]. intros i V. cbn [ar_shape ar_at sum_along] in *. rewrite nth_set by auto.
    unfold trapezoid_sum. rewrite <- sum_upto_seq, <- fsum_map_fin, map_map. f_equal. apply map_ext_in. intros j J. apply in_seq in J.
    pose proof (valid_len _ _ V) as LI. rewrite drop_length in LI by auto.
    rewrite (bindex_valid (set_at k (n - 1)%nat (ar_shape y))) by (apply insert_valid_set; auto; lia). rewrite slices_at by (auto; fold n; lia).
    cbn [spacing ar_at]. rewrite nth_bindex; [|auto|].
    2:{ pose proof (valid_len _ _ (insert_valid_set k j i (ar_shape y) (n - 1)%nat V K ltac:(lia))) as Q. rewrite set_length in Q. lia. }
    rewrite M. cbn [Nat.sub Nat.eqb]. rewrite !X, M. cbn [Nat.ltb Nat.leb]. rewrite !Y by (auto; lia).
    cbn [fsub fadd fopp fmul]. rewrite fdiv_fin by lra. f_equal. rewrite S_INR. field.
  - intros Nn. assert (FT : fits (m - 1) (n - 1) = Some (m - 1)%nat).
    { unfold fits. rewrite Nn. cbn [Nat.sub]. destruct (Nat.eqb_spec (m - 1) 1) as [->|]; reflexivity. }
    rewrite FT. eexists; split; [reflexivity|]. split; [symmetry; apply without_drop|]. intros i V. cbn [ar_shape ar_at sum_along] in *. rewrite nth_set by auto.
    rewrite <- sum_upto_seq, <- fsum_map_fin, map_map. f_equal. apply map_ext_in. intros j J. apply in_seq in J.
    pose proof (valid_len _ _ V) as LI. rewrite drop_length in LI by auto.
    assert (BI : bindex (set_at k (n - 1)%nat (ar_shape y)) (insert_at k j i) = insert_at k 0%nat i).
    { rewrite Nn. cbn [Nat.sub]. clear - V K. revert i V. generalize dependent (ar_shape y). intros s K. clear y. revert s K. unfold in_range.
      induction k as [|k IH]; intros [|c s] K i V; cbn [length] in K; try lia; cbn [drop_at] in V.
      - cbn [set_at insert_at bindex Nat.eqb]. f_equal. apply bindex_valid. exact V.
      - inversion V as [|? ? ? ? A B]; subst. cbn [set_at insert_at bindex]. rewrite IH by (auto; lia). f_equal. destruct (Nat.eqb_spec c 1); lia. }
    rewrite BI. rewrite slices_at by (auto; fold n; lia).
    cbn [spacing ar_at]. rewrite nth_bindex; [|auto|].
    2:{ pose proof (valid_len _ _ (insert_valid_set k j i (ar_shape y) (S j) V K ltac:(lia))) as Q. rewrite set_length in Q. lia. }
    rewrite nth_insert by lia. rewrite !Y by (auto; lia).
    assert (JJ : (if Nat.eqb (m - 1) 1 then 0%nat else j) = j) by (destruct (Nat.eqb_spec (m - 1) 1); lia). rewrite JJ, !X.
    destruct (Nat.ltb_spec (S j) m); [|lia]. destruct (Nat.ltb_spec j m); [|lia].
    cbn [fsub fadd fopp fmul]. rewrite fdiv_fin by lra. reflexivity.
Qed.

Lemma C114_errors_pf :
  forall (has : string -> bool) (bk : backend) (y : array) (x : option (list xf)) (dx : xf) (axis : Z),
  (has "trapezoid" = true \/ has "trapz" = true -> (forall k, ~ names_axis (length (ar_shape y)) k axis) -> trapezoid_nd has bk y x dx axis = Err IndexError) /\
  (has "trapezoid" = false -> has "trapz" = false -> trapezoid_nd has bk y x dx axis = Err NotImplementedError).
Proof.
  intros has bk y x dx axis. split.
  - intros H N. rewrite fold_dispatch by auto. unfold xp_trapezoid. now rewrite axis_bad.
  - intros A B. unfold trapezoid_nd. now rewrite A, B.
Qed.

Lemma seq_nth_map {A B} (g : A -> B) (l : list A) d : map (fun j => g (nth j l d)) (seq 0 (length l)) = map g l.
Proof. rewrite (map_seq_ext l d) at 2. now rewrite map_map. Qed.
Lemma C114_caller_grid_pf :
  forall (has : string -> bool) (bk : backend) (y r : array) (x : list xf) (dx : xf),
  has "trapezoid" = true \/ has "trapz" = true -> trapezoid_last bk y x = Ok r ->
  exists r', trapezoid_nd has bk y (Some x) dx (-1) = Ok r' /\ ar_shape r' = ar_shape r /\ forall i, in_range (ar_shape r) i -> ar_at r' i = ar_at r i.
Proof.
  intros has bk y r x dx H E. unfold trapezoid_last in E. destruct (rev (ar_shape y)) as [|n s] eqn:R; [discriminate|].
  destruct (Nat.eqb_spec n (length x)) as [L|]; [|discriminate]. injection E as <-.
  assert (S : ar_shape y = (rev s ++ [n])%list) by (rewrite <- (rev_involutive (ar_shape y)), R; reflexivity).
  assert (LS : length (ar_shape y) = Datatypes.S (length s)) by (rewrite S, app_length, rev_length; simpl; lia).
  destruct (C114_line_pf has bk y x dx (-1) (length s) H) as (r' & E & S' & A).
  - split; [lia|]. right. lia.
  - rewrite S, app_nth2; rewrite rev_length; [|lia]. rewrite Nat.sub_diag. auto.
  - exists r'. split; [exact E|].
    assert (W : without (length s) (ar_shape y) = rev s).
    { unfold without. rewrite S, firstn_app, skipn_app, rev_length, Nat.sub_diag. rewrite firstn_all2, skipn_all2 by (rewrite rev_length; lia).
      replace (Datatypes.S (length s) - length s)%nat with 1%nat by lia. cbn [firstn skipn app]. now rewrite !app_nil_r. }
    rewrite S', W. cbn [ar_shape]. split; [reflexivity|]. intros i V. rewrite A by (now rewrite S', W). cbn [ar_at]. f_equal.
    unfold line. replace (nth (length s) (ar_shape y) 0%nat) with n.
    2:{ rewrite S, app_nth2; rewrite rev_length; [|lia]. now rewrite Nat.sub_diag. }
    apply map_ext. intros j. f_equal. unfold with_coord. pose proof (valid_len _ _ V) as Q. rewrite rev_length in Q.
    rewrite firstn_all2, skipn_all2 by lia. reflexivity.
Qed.

Lemma C114_caller_spin_pf :
  forall (has : string -> bool) (bk : backend) (g : chi_grids) (me se mp sp cov dx : xf),
  has "trapezoid" = true \/ has "trapz" = true ->
  let table := {| ar_shape := [length (cg_p g); length (cg_eff g)];
                  ar_at := fun i => unnormalized_2d_gaussian (nth (nth 1 i 0%nat) (cg_eff g) NaN) (nth (nth 0 i 0%nat) (cg_p g) NaN) me mp se sp cov |} in
  exists u r, trapezoid_nd has bk table (Some (cg_eff g)) dx (-1) = Ok u /\ trapezoid_nd has bk u (Some (cg_p g)) dx (-1) = Ok r /\
    ar_shape r = [] /\ ar_at r [] = chi_normalization g me se mp sp cov.
Proof.
  intros has bk g me se mp sp cov dx H table.
  destruct (C114_line_pf has bk table (cg_eff g) dx (-1) 1 H) as (u & E & S & A); [split; simpl; [lia|right; lia]|reflexivity|].
  cbn in S. destruct (C114_line_pf has bk u (cg_p g) dx (-1) 0 H) as (r & E' & S' & A'); [rewrite S; split; simpl; [lia|right; lia]|rewrite S; reflexivity|].
  rewrite S in S'. cbn in S'. exists u, r. repeat (split; [assumption|]). rewrite A' by (rewrite S'; constructor).
  unfold chi_normalization. f_equal. unfold line. rewrite S. cbn [nth].
  rewrite <- (seq_nth_map (fun p => trapezoid (map (fun e => unnormalized_2d_gaussian e p me mp se sp cov) (cg_eff g)) (cg_eff g)) (cg_p g) NaN).
  apply map_ext_in. intros j J. apply in_seq in J. cbn [with_coord firstn skipn app]. unfold with_coord. cbn [firstn skipn app].
  rewrite A by (rewrite S; repeat constructor; lia). f_equal. unfold line. cbn [ar_shape table nth]. unfold with_coord. cbn [firstn skipn app ar_at table nth].
  apply (seq_nth_map (fun e => unnormalized_2d_gaussian e (nth j (cg_p g) NaN) me mp se sp cov)).
Qed.

Lemma C114_caller_first_axis_pf :
  forall (has : string -> bool) (bk : backend) (p : xf -> xf -> xf) (rows cols : list xf) (dx : xf),
  has "trapezoid" = true \/ has "trapz" = true ->
  exists r, trapezoid_nd has bk {| ar_shape := [length rows; length cols]; ar_at := fun i => p (nth (nth 0 i 0%nat) rows NaN) (nth (nth 1 i 0%nat) cols NaN) |} (Some rows) dx 0 = Ok r /\
    ar_shape r = [length cols] /\ map (fun c => ar_at r [c]) (seq 0 (length cols)) = map (fun m => trapezoid (map (fun q => p q m) rows) rows) cols.
Proof.
  intros has bk p rows cols dx H.
  match goal with |- context [trapezoid_nd has bk ?t _ _ _] => set (table := t) end.
  destruct (C114_line_pf has bk table rows dx 0 0 H) as (r & E & S & A); [split; simpl; [lia|left; lia]|reflexivity|].
  cbn in S. exists r. repeat (split; [assumption|]). rewrite <- (seq_nth_map (fun m => trapezoid (map (fun q => p q m) rows) rows) cols NaN).
  apply map_ext_in. intros j J. apply in_seq in J. rewrite A by (rewrite S; repeat constructor; lia). f_equal. unfold line, with_coord. cbn [ar_shape table nth firstn skipn app ar_at].
  apply (seq_nth_map (fun q => p q (nth j cols NaN))).
Qed.

Lemma C116_one_element_pf :
  forall (xp lib : backend) (a : array), Forall (fun n => n = 1%nat) (ar_shape a) ->
  exists v, to_number_any xp (PyArray lib a) = Ok v /\
    (xp <> Jax -> v = PyNumber (ar_at a (map (fun _ => 0%nat) (ar_shape a)))) /\ (xp = Jax -> v = PyArray lib a).
Proof.
  intros xp lib a F. assert (P : fold_right Nat.mul 1%nat (ar_shape a) = 1%nat). { induction F; simpl; auto. subst. rewrite IHF. auto. }
  unfold to_number_any. rewrite P. destruct xp; cbn [Nat.eqb]; eexists; (split; [reflexivity|]); split; congruence.
Qed.

Lemma C116_same_values_accepted_refuted_pf :
  (forall x, to_number_any Numpy (PyNumber x) = Ok (PyNumber x) /\ to_number_any Cupy (PyNumber x) = Ok (PyNumber x) /\ to_number_any Jax (PyNumber x) = Err AttributeError) /\
  (forall lib a, ar_shape a = [2%nat] ->
     to_number_any Jax (PyArray lib a) = Ok (PyArray lib a) /\ to_number_any Numpy (PyArray lib a) = Err TypeError /\ to_number_any Cupy (PyArray lib a) = Err TypeError).
Proof. split; [intros; repeat split|]. intros lib a S. unfold to_number_any. rewrite S. repeat split. Qed.

